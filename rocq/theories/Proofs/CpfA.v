(** Continuation power flow: predictor, corrector and the loop, for any field. *)
From Verif Require Import Lib.ListFacts Model.Cpf Spec.PfSpec Spec.CpfSpec Proofs.LinAlgFacts Proofs.SparseFacts Proofs.FldFacts
  Proofs.NetworkA Proofs.NetworkC Proofs.YbusA Proofs.MatFacts Proofs.AcPfA Proofs.NewtonA.
Local Open Scope nat_scope.

Section CpfA.
Context {K : Type} {F : Fld K}.
Add Field KF : (@f_ok K F).
Add Ring CR : (@r_ok (cpx K) _).
Variables (cis : K -> cpx K) (cabs cang : cpx K -> K).
Variable solve : list (list K) -> list K -> result (list K).
Variables (n : nat) (Y : smat (cpx K)) (Sb Sx : list (cpx K)) (pv pq : list nat).
Hypothesis SQ : square n Y.

Lemma inj_length lam : length Sb = length Sx -> length (inj lam Sb Sx) = length Sb.
Proof. intros L. unfold inj, map2. rewrite map_length, combine_length. lia. Qed.

Lemma residual_inj par step z V lam Vprv lamprv Fx :
  cpf_residual cabs cang par step z Y Sb Sx V lam Vprv lamprv pv pq = Ok Fx ->
  length V = n /\ exists Fb P, Fx = Fb ++ [P] /\ cpf_p cabs cang par step z V lam Vprv lamprv pv pq = Ok P /\
    exists mis, mismatch Y (inj lam Sb Sx) V = Ok mis /\ residual mis pv pq = Ok Fb.
Proof.
  unfold cpf_residual. intros H. apply bind_ok in H as (m0 & H0 & H). apply bind_ok in H as (m1 & H1 & H).
  apply bind_ok in H as (Fb & HF & H). apply bind_ok in H as (P & HP & H). injection H as <-.
  apply (mismatch_ok n) in H0 as (LV & LS & ->); auto. apply ewise_ok in H1 as (LX & ->).
  rewrite map_length, seq_length in LX.
  split; auto. exists Fb, P. split; auto. split; auto.
  exists (map (excess Y (inj lam Sb Sx) V) (seq 0 n)). split.
  - apply (mismatch_tot n); auto. rewrite inj_length; congruence.
  - rewrite <- HF. f_equal. rewrite (map2_nth _ _ _ 0%K 0%K) by (rewrite map_length, seq_length; auto).
    rewrite map_length, seq_length. apply map_ext_in. intros i I. apply in_seq in I.
    rewrite (nth_map_lt _ _ _ _ 0) by (rewrite seq_length; lia). rewrite seq_nth by lia. cbn [Nat.add].
    unfold excess, inj. rewrite (nth_map2_d _ _ _ _ 0%K 0%K) by lia.
    change csub with (@rsub (cpx K) _). change cmul with (@rmul (cpx K) _). ring.
Qed.

(** ** the corrector *)
Section Corrector.
Variables (par : nat) (step : K) (z : list K) (Vprv : list (cpx K)) (lamprv tol : K).

Definition cwf (s : list (cpx K) * list K * list K * K * list K) : Prop :=
  let '(V, Va, Vm, lam, Fx) := s in
  Va = map cang V /\ Vm = map cabs V /\
  cpf_residual cabs cang par step z Y Sb Sx V lam Vprv lamprv pv pq = Ok Fx.

Lemma corrector_step_ok s s' : cwf s ->
  corrector_step cis cabs cang solve par step z Y Sb Sx Vprv lamprv pv pq s = Ok s' ->
  cwf s' /\
  (polar_ok cis cabs cang ->
   let '(V, _, _, _, _) := s in let '(V', _, _, _, _) := s' in
   forall i, i < n ->
   (~ In i (pv ++ pq) -> nth i V' 0%K = nth i V 0%K) /\
   (~ In i pq -> cabs (nth i V' 0%K) = cabs (nth i V 0%K))).
Proof.
  destruct s as ((((V & Va) & Vm) & lam) & Fx). intros (EA & EM & R) H. apply residual_inj in R as (LV & _).
  unfold corrector_step in H.
  apply bind_ok in H as (J & _ & H). apply bind_ok in H as (x & _ & H). cbv zeta in H.
  apply bind_ok in H as (Va1 & H1 & H). apply if_add in H1 as (L1 & U1); auto.
  apply bind_ok in H as (Va2 & H2 & H). apply if_add in H2 as (L2 & U2); auto.
  apply bind_ok in H as (Vm2 & H3 & H). apply if_add in H3 as (L3 & U3); auto.
  apply bind_ok in H as (V' & H4 & H). apply polar_def in H4 as (_ & LV' & NV').
  apply bind_ok in H as (dl & _ & H). apply bind_ok in H as (Fx' & Hf & H). injection H as <-.
  subst Va Vm. rewrite map_length in *.
  split. { simpl. auto. }
  intros PO i Hi.
  assert (~ In i pq -> nth i Vm2 0%K = cabs (nth i V 0%K)) as EM
    by (intros N; rewrite U3 by auto; apply nth_map_lt; lia).
  rewrite NV' by lia. split.
  - intros N. rewrite in_app_iff in N. rewrite EM by tauto.
    rewrite U2, U1 by tauto. rewrite (nth_map_lt _ _ _ _ 0%K) by lia. apply PO.
  - intros N. destruct PO as (A & B). rewrite A, EM by auto.
    apply (cabs_fabs cis cabs cang); split; auto.
Qed.

Definition point_ok (V : list (cpx K)) (lam : K) : Prop :=
  solved_by (fun _ => tol) Y (inj lam Sb Sx) V pv pq /\
  exists P, cpf_p cabs cang par step z V lam Vprv lamprv pv pq = Ok P /\ within tol P.

Lemma corrector_loop_ok fuel : forall i s V c m lam, cwf s ->
  corrector_loop cis cabs cang solve par step z Y Sb Sx Vprv lamprv pv pq tol fuel i s = Ok (V, c, m, lam) ->
  length V = n /\ i <= m <= i + fuel /\ (c = false -> m = i + fuel) /\ (c = true <-> point_ok V lam) /\
  (polar_ok cis cabs cang ->
   let '(V0, _, _, _, _) := s in
   forall i, i < n ->
   (~ In i (pv ++ pq) -> nth i V 0%K = nth i V0 0%K) /\
   (~ In i pq -> cabs (nth i V 0%K) = cabs (nth i V0 0%K))).
Proof.
  assert (forall V Va Vm lam Fx nf, cwf (V, Va, Vm, lam, Fx) -> norm_inf Fx = Ok nf ->
    (fltb nf tol = true <-> point_ok V lam)) as KEY.
  { intros V Va Vm lam Fx nf (_ & _ & R) HN. apply residual_inj in R as (_ & Fb & P & -> & HP & mis & Hm & Hr).
    pose proof (residual_ok _ _ _ _ _ _ _ _ tol SQ Hm Hr) as RES. rewrite (norm_inf_lt _ _ tol HN), Forall_app, RES.
    unfold point_ok. rewrite HP. split.
    - intros (A & B). inversion B; subst. eauto.
    - intros (A & P' & E & B). injection E as <-. auto. }
  induction fuel as [|fuel IH]; intros i ((((V0 & Va) & Vm) & lam0) & Fx) V c m lam W H;
    cbn [corrector_loop] in H; apply bind_ok in H as (nf & Hn & H);
    pose proof (KEY _ _ _ _ _ _ W Hn) as KE; pose proof W as (_ & _ & R); apply residual_inj in R as (LV & _);
    destruct (fltb nf tol) eqn:E.
  - injection H as <- <- <- <-. split; auto. split; [lia|]. split; [discriminate|]. split; auto.
  - injection H as <- <- <- <-. split; auto. split; [lia|]. split; [lia|]. split; auto.
  - injection H as <- <- <- <-. split; auto. split; [lia|]. split; [discriminate|]. split; auto.
  - apply bind_ok in H as (s' & Hs & H). destruct (corrector_step_ok _ _ W Hs) as (W' & P).
    destruct s' as ((((V1 & Va1) & Vm1) & lam1) & Fx1).
    destruct (IH _ _ _ _ _ _ W' H) as (A & B & C & D & Q).
    split; auto. split; [lia|]. split; [intros; rewrite C by auto; lia|]. split; auto.
    intros PO k Hk. destruct (P PO k Hk) as (P1 & P2). destruct (Q PO k Hk) as (Q1 & Q2).
    split; intros N; [rewrite Q1, P1 | rewrite Q2, P2]; auto.
Qed.

Lemma corrector_ok V0 lam0 max_it V c m lam :
  cpf_corrector cis cabs cang solve Y Sb V0 pv pq lam0 Sx Vprv lamprv z step par tol max_it = Ok (V, c, m, lam) ->
  length V = n /\ m <= max_it /\ (c = false -> m = max_it) /\ (c = true <-> point_ok V lam) /\
  (polar_ok cis cabs cang -> forall i, i < n ->
   (~ In i (pv ++ pq) -> nth i V 0%K = nth i V0 0%K) /\
   (~ In i pq -> cabs (nth i V 0%K) = cabs (nth i V0 0%K))).
Proof.
  unfold cpf_corrector. intros H. apply bind_ok in H as (Fx & Hf & H).
  assert (cwf (V0, map cang V0, map cabs V0, lam0, Fx)) as W by (simpl; auto).
  destruct (corrector_loop_ok _ _ _ _ _ _ _ W H) as (A & B & C & D & P).
  split; auto. split; [lia|]. auto.
Qed.
End Corrector.

Variable norm2 : list K -> K.

(** ** the predictor leaves the same voltages alone *)
Lemma predictor_keeps V lam step z Vprv lamprv par V0 lam0 z' : length V = n ->
  cpf_predictor cis cabs cang norm2 solve V lam Y Sx pv pq step z Vprv lamprv par = Ok (V0, lam0, z') ->
  length V0 = n /\
  (polar_ok cis cabs cang -> forall i, i < n ->
   (~ In i (pv ++ pq) -> nth i V0 0%K = nth i V 0%K) /\
   (~ In i pq -> cabs (nth i V0 0%K) = cabs (nth i V 0%K))).
Proof.
  intros LV H. unfold cpf_predictor in H. apply bind_ok in H as (J & _ & H). apply bind_ok in H as (x & _ & H).
  apply bind_ok in H as (z1 & _ & H). cbv zeta in H. apply bind_ok in H as (? & _ & H).
  apply bind_ok in H as (za & _ & H). apply bind_ok in H as (zm & _ & H). apply bind_ok in H as (zl & _ & H).
  apply bind_ok in H as (Va & H1 & H). apply add_at_ok in H1 as (L1 & U1).
  apply bind_ok in H as (Vm & H2 & H). apply add_at_ok in H2 as (L2 & U2).
  apply bind_ok in H as (V' & H4 & H). apply polar_def in H4 as (_ & LV' & NV'). injection H as <- <- <-.
  rewrite map_length in *. split; [congruence|]. intros PO i Hi.
  assert (~ In i pq -> nth i Vm 0%K = cabs (nth i V 0%K)) as EM
    by (intros N; rewrite U2 by auto; apply nth_map_lt; lia).
  rewrite NV' by lia. split.
  - intros N. rewrite in_app_iff in N. rewrite EM by tauto.
    rewrite U1 by (rewrite in_app_iff; tauto). rewrite (nth_map_lt _ _ _ _ 0%K) by lia. apply PO.
  - intros N. destruct PO as (A & B). rewrite A, EM by auto. apply (cabs_fabs cis cabs cang); split; auto.
Qed.
End CpfA.
