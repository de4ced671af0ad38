(** Loops of the AC power flow. *)
From Coq Require Import Permutation.
From Verif Require Import Lib.ListFacts Model.AcPf Spec.PfSpec Proofs.LinAlgFacts Proofs.SparseFacts
  Proofs.FldFacts Proofs.NetworkA Proofs.NetworkB Proofs.NetworkC Proofs.NetworkD Proofs.YbusA
  Proofs.MatFacts.
Local Open Scope nat_scope.

Section AcPfA.
Context {K : Type} {F : Fld K}.
Add Field KF : (@f_ok K F).
Add Ring CR : (@r_ok (cpx K) _).

(** ** norms *)
Lemma fmax_lt (a b t : K) : fltb (fmax a b) t = true <-> fltb a t = true /\ fltb b t = true.
Proof.
  unfold fmax. destruct (fltb a b) eqn:E.
  - split; [|tauto]. intros H; split; auto. eapply f_lt_trans; eauto.
  - split; [|tauto]. intros H; split; auto. apply fnlt in E as [->|E]; auto.
    eapply f_lt_trans; eauto.
Qed.

Lemma norm_fold t v : forall a : K,
  fltb (fold_left (fun m x => fmax m (fabs x)) v a) t = true <->
  fltb a t = true /\ Forall (within t) v.
Proof.
  induction v as [|b v IH]; intros a; simpl.
  - split; [auto|tauto].
  - rewrite IH, fmax_lt. split.
    + intros ((A & B) & C). auto.
    + intros (A & B). inversion B; subst. auto.
Qed.

Lemma norm_inf_lt v m (t : K) : norm_inf v = Ok m -> fltb m t = true <-> Forall (within t) v.
Proof.
  destruct v as [|a v]; simpl; [discriminate|]. intros H; injection H as <-.
  rewrite norm_fold. split.
  - intros (A & B). auto.
  - intros H; inversion H; auto.
Qed.

(** ** mismatches *)
Lemma square_wf n (Y : smat (cpx K)) : square n Y -> wf Y.
Proof. intros (A & B & C). unfold wf. rewrite A, B. exact C. Qed.

Lemma map2_nth {A B C} (f : A -> B -> C) u v a b : length u = length v ->
  map2 f u v = map (fun i => f (nth i u a) (nth i v b)) (seq 0 (length u)).
Proof.
  unfold map2. revert v. induction u as [|x u IH]; intros [|y v] L; simpl in *; try discriminate; auto.
  f_equal. rewrite IH by auto. rewrite <- seq_shift, map_map. reflexivity.
Qed.

Lemma mulv_square n Y (V I : list (cpx K)) : square n Y -> mulv Y V = Ok I ->
  length V = n /\ I = map (bus_current Y V) (seq 0 n).
Proof.
  intros SQ H. pose proof (square_wf _ _ SQ) as W. destruct SQ as (R & C & _).
  pose proof (mulv_ok _ _ _ H) as (L & _).
  rewrite mulv_def in H by auto. injection H as <-. split; [congruence|].
  rewrite R. apply map_ext. intros i. apply mulrow_at; auto.
Qed.

Lemma mismatch_ok n Y (S V mis : list (cpx K)) : square n Y -> mismatch Y S V = Ok mis ->
  length V = n /\ length S = n /\ mis = map (excess Y S V) (seq 0 n).
Proof.
  unfold mismatch. intros SQ H. apply bind_ok in H as (I & HI & H).
  apply bind_ok in H as (s & Hs & H). apply ewise_ok in Hs as (L & ->).
  apply ewise_ok in H as (L' & ->).
  destruct (mulv_square _ _ _ _ SQ HI) as (LV & ->).
  rewrite map_length, seq_length in L.
  assert (map2 (fun v i => cmul v (conj i)) V (map (bus_current Y V) (seq 0 n))
    = map (bus_power Y V) (seq 0 n)) as E.
  { rewrite (map2_nth _ _ _ 0%K 0%K) by (rewrite map_length, seq_length; auto).
    rewrite LV. apply map_ext_in. intros i Hi. apply in_seq in Hi.
    rewrite (nth_map_lt _ _ _ _ 0) by (rewrite seq_length; lia). rewrite seq_nth by lia.
    reflexivity. }
  rewrite E in *. rewrite map_length, seq_length in L'.
  split; auto. split; [congruence|].
  rewrite (map2_nth _ _ _ 0%K 0%K) by (rewrite map_length, seq_length; auto).
  rewrite map_length, seq_length. apply map_ext_in. intros i Hi. apply in_seq in Hi.
  rewrite (nth_map_lt _ _ _ _ 0) by (rewrite seq_length; lia). rewrite seq_nth by lia.
  reflexivity.
Qed.

Lemma gather_map_seq {A} (f : nat -> A) n idx v : gather (map f (seq 0 n)) idx = Ok v ->
  Forall (fun i => i < n) idx /\ v = map f idx.
Proof.
  revert v. induction idx as [|i idx IH]; intros v H.
  - injection H as <-. auto.
  - unfold gather in H. simpl in H. apply bind_ok in H as (x & Hx & H).
    apply bind_ok in H as (y & Hy & H). injection H as <-.
    apply get_ok in Hx. rewrite nth_error_map in Hx.
    destruct (nth_error (seq 0 n) i) as [k|] eqn:E; [|discriminate]. injection Hx as <-.
    assert (i < n) as Li by (apply nth_error_some_lt in E; rewrite seq_length in E; auto).
    rewrite nth_error_nth' with (d := 0) in E by (rewrite seq_length; auto).
    rewrite seq_nth in E by auto. injection E as <-.
    destruct (IH _ Hy) as (A1 & ->). split; auto.
Qed.

Lemma residual_ok n Y S V pv pq mis Fx t : square n Y ->
  mismatch Y S V = Ok mis -> residual mis pv pq = Ok Fx ->
  Forall (within t) Fx <-> solved_by (fun _ => t) Y S V pv pq.
Proof.
  intros SQ HM H. destruct (mismatch_ok _ _ _ _ _ SQ HM) as (LV & LS & ->).
  unfold residual in H. apply bind_ok in H as (a & Ha & H). apply bind_ok in H as (b & Hb & H).
  injection H as <-.
  apply gather_map_seq in Ha as (_ & ->). apply gather_map_seq in Hb as (_ & ->).
  rewrite !map_map, !Forall_app, !Forall_map, !Forall_forall. unfold solved_by. split.
  - intros (A & B & C). split; auto. intros i I. apply in_app_or in I as [I|I]; auto.
  - intros (A & C). repeat split; auto; intros i I; apply A, in_or_app; auto.
Qed.

(** ** elementwise updates *)
Lemma add_at_ok (v : list K) idx d v' : add_at v idx d = Ok v' ->
  length v' = length v /\ forall i, ~ In i idx -> nth i v' 0%K = nth i v 0%K.
Proof.
  unfold add_at. intros H. apply bind_ok in H as (o & _ & H). apply bind_ok in H as (w & _ & H).
  apply scatter_checked_ok in H as (_ & _ & ->). split; [apply scatter_length|].
  intros i N. apply nth_scatter_other; auto.
Qed.

Section Polar.
Variables (cis : K -> cpx K) (cabs cang : cpx K -> K).

Lemma polar_def Vm Va V : polar cis Vm Va = Ok V ->
  length Va = length Vm /\ length V = length Vm /\
  forall i, i < length V -> nth i V 0%K = (ofK (nth i Vm 0) * cis (nth i Va 0))%K.
Proof.
  unfold polar. intros H. apply ewise_ok in H as (L & ->). split; auto.
  unfold map2 at 1. rewrite map_length, combine_length, L, Nat.min_id. split; auto.
  intros i Hi. unfold map2 in Hi. rewrite map_length, combine_length in Hi.
  rewrite (nth_map2_d _ _ _ _ 0%K 0%K) by lia. reflexivity.
Qed.

Hypothesis PO : polar_ok cis cabs cang.

Lemma cabs_fabs z : fabs (cabs z) = cabs z.
Proof. destruct PO as (A & B). rewrite <- (A (cabs z) (cang z)), B. reflexivity. Qed.

Lemma cabs_0_inv z : cabs z = 0%K -> z = (0%K : cpx K).
Proof.
  destruct PO as (A & B). intros E. rewrite <- (B z), E.
  change (ofK 0%K) with (0%K : cpx K). ring.
Qed.
End Polar.

(** ** newtonpf *)
Section Newton.
Variables (cis : K -> cpx K) (cabs cang : cpx K -> K).
Variable solve : list (list K) -> list K -> result (list K).
Variables (n : nat) (Y : smat (cpx K)) (S : list (cpx K)) (pv pq : list nat) (tol : K).
Hypothesis SQ : square n Y.

Definition nwf (s : list (cpx K) * list K * list K * list K) : Prop :=
  let '(V, Va, Vm, Fx) := s in
  length V = n /\ Va = map cang V /\ Vm = map cabs V /\
  exists mis, mismatch Y S V = Ok mis /\ residual mis pv pq = Ok Fx.

Lemma nth_map0 {A} (f : A -> K) (V : list A) d i : i < length V -> nth i (map f V) 0%K = f (nth i V d).
Proof. intros H. apply nth_map_lt; auto. Qed.

Lemma if_add (p : bool) (v v' : list K) idx d : (p = true -> True) ->
  (if p then Ok v else add_at v idx d) = Ok v' ->
  length v' = length v /\ forall i, ~ In i idx -> nth i v' 0%K = nth i v 0%K.
Proof. intros _. destruct p; intros H; [injection H as ->; auto|apply add_at_ok with d; auto]. Qed.

Lemma newton_step_ok s s' : nwf s -> newton_step cis cabs cang solve Y S pv pq s = Ok s' ->
  nwf s' /\
  (polar_ok cis cabs cang ->
   let '(V, _, _, _) := s in let '(V', _, _, _) := s' in
   forall i, i < n ->
   (~ In i (pv ++ pq) -> nth i V' 0%K = nth i V 0%K) /\
   (~ In i pq -> cabs (nth i V' 0%K) = cabs (nth i V 0%K))).
Proof.
  destruct s as (((V & Va) & Vm) & Fx). intros (LV & EA & EM & _) H. unfold newton_step in H.
  apply bind_ok in H as (J & _ & H). apply bind_ok in H as (x & _ & H). cbv zeta in H.
  apply bind_ok in H as (Va1 & H1 & H). apply if_add in H1 as (L1 & U1); auto.
  apply bind_ok in H as (Va2 & H2 & H). apply if_add in H2 as (L2 & U2); auto.
  apply bind_ok in H as (Vm2 & H3 & H). apply if_add in H3 as (L3 & U3); auto.
  apply bind_ok in H as (V' & H4 & H). apply polar_def in H4 as (_ & LV' & NV').
  apply bind_ok in H as (mis & Hm & H). apply bind_ok in H as (Fx' & Hf & H). injection H as <-.
  subst Va Vm. rewrite map_length in *.
  split. { simpl. split; [congruence|]. split; auto. split; auto. eauto. }
  intros PO i Hi.
  assert (~ In i pq -> nth i Vm2 0%K = cabs (nth i V 0%K)) as EM
    by (intros N; rewrite U3 by auto; apply nth_map_lt; lia).
  rewrite NV' by lia. split.
  - intros N. rewrite in_app_iff in N. rewrite EM by tauto.
    rewrite U2, U1 by tauto. rewrite (nth_map_lt _ _ _ _ 0%K) by lia. apply PO.
  - intros N. destruct PO as (A & B). rewrite A, EM by auto.
    apply (cabs_fabs cis cabs cang); split; auto.
Qed.

Lemma newton_loop_ok fuel : forall i s V c m, nwf s ->
  newton_loop cis cabs cang solve Y S pv pq tol fuel i s = Ok (V, c, m) ->
  length V = n /\ i <= m <= i + fuel /\ (c = false -> m = i + fuel) /\
  (c = true <-> solved_by (fun _ => tol) Y S V pv pq) /\
  (polar_ok cis cabs cang ->
   let '(V0, _, _, _) := s in
   forall i, i < n ->
   (~ In i (pv ++ pq) -> nth i V 0%K = nth i V0 0%K) /\
   (~ In i pq -> cabs (nth i V 0%K) = cabs (nth i V0 0%K))).
Proof.
  induction fuel as [|fuel IH]; intros i (((V0 & Va) & Vm) & Fx) V c m W H;
    cbn [newton_loop] in H; apply bind_ok in H as (nf & Hn & H);
    pose proof W as (LV & _ & _ & mis & Hm & Hr);
    pose proof (residual_ok _ _ _ _ _ _ _ _ tol SQ Hm Hr) as RES;
    pose proof (norm_inf_lt _ _ tol Hn) as NT; destruct (fltb nf tol) eqn:E.
  - injection H as <- <- <-. repeat split; auto; try lia; try discriminate.
    all: apply RES, NT; auto.
  - injection H as <- <- <-. repeat split; auto; try lia; try discriminate.
    intros C. apply RES, NT in C. discriminate.
  - injection H as <- <- <-. repeat split; auto; try lia; try discriminate.
    all: apply RES, NT; auto.
  - apply bind_ok in H as (s' & Hs & H). destruct (newton_step_ok _ _ W Hs) as (W' & P).
    destruct s' as (((V1 & Va1) & Vm1) & Fx1).
    destruct (IH _ _ _ _ _ W' H) as (A & B & C & D & Q).
    split; auto. split; [lia|]. split; [intros; rewrite C by auto; lia|]. split; auto.
    intros PO k Hk. destruct (P PO k Hk) as (P1 & P2). destruct (Q PO k Hk) as (Q1 & Q2).
    split; intros N; [rewrite Q1, P1 | rewrite Q2, P2]; auto.
Qed.

Lemma newtonpf_ok V0 max_it V c m :
  newtonpf cis cabs cang solve Y S V0 pv pq tol max_it = Ok (V, c, m) ->
  length V0 = n /\ length V = n /\ m <= max_it /\ (c = false -> m = max_it) /\
  (c = true <-> solved_by (fun _ => tol) Y S V pv pq) /\
  (polar_ok cis cabs cang -> forall i, i < n ->
   (~ In i (pv ++ pq) -> nth i V 0%K = nth i V0 0%K) /\
   (~ In i pq -> cabs (nth i V 0%K) = cabs (nth i V0 0%K))).
Proof.
  unfold newtonpf. intros H. apply bind_ok in H as (mis & Hm & H).
  apply bind_ok in H as (Fx & Hf & H).
  destruct (mismatch_ok _ _ _ _ _ SQ Hm) as (L & _).
  assert (nwf (V0, map cang V0, map cabs V0, Fx)) as W by (simpl; eauto 6).
  destruct (newton_loop_ok _ _ _ _ _ _ W H) as (A & B & C & D & P).
  split; auto. split; auto. split; [lia|]. auto.
Qed.
End Newton.
End AcPfA.
