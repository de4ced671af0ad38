(** Loops of the AC power flow: Gauss-Seidel and fast decoupled. *)
From Coq Require Import Permutation.
From Verif Require Import Lib.ListFacts Model.AcPf Spec.PfSpec Proofs.LinAlgFacts Proofs.SparseFacts
  Proofs.FldFacts Proofs.NetworkA Proofs.NetworkB Proofs.NetworkC Proofs.NetworkD Proofs.YbusA
  Proofs.MatFacts Proofs.AcPfA.
Local Open Scope nat_scope.

Lemma foldM_inv {A S} (P : S -> Prop) (f : S -> A -> result S) l :
  (forall a s s', In a l -> P s -> f s a = Ok s' -> P s') ->
  forall s s', P s -> foldM f l s = Ok s' -> P s'.
Proof.
  induction l as [|a l IH]; intros H s s' Hs E; simpl in E.
  - injection E as <-. auto.
  - apply bind_ok in E as (s1 & E1 & E). eapply IH; [|eapply H; eauto; left; auto|exact E].
    intros b t t' I. apply H. right; auto.
Qed.

Lemma set_checked_ok {A} (l : list A) i x l' : set_checked l i x = Ok l' ->
  i < length l /\ l' = upd l i x.
Proof.
  unfold set_checked. destruct (Nat.ltb_spec i (length l)); [|discriminate].
  intros H'; injection H' as <-. auto.
Qed.

Lemma nth_upd_d {A} (l : list A) i x j d : i < length l ->
  nth j (upd l i x) d = if i =? j then x else nth j l d.
Proof.
  revert i j. induction l as [|a l IH]; intros [|i] [|j] H; simpl in *; try lia; auto.
  apply IH. lia.
Qed.

Section AcPfB.
Context {K : Type} {F : Fld K}.
Add Field KF : (@f_ok K F).
Add Field CF : (@cpx_field' K F).

(** ** gausspf *)
Section Gauss.
Variables (cis : K -> cpx K) (cabs cang : cpx K -> K).
Variables (n : nat) (Y : smat (cpx K)) (S0 : list (cpx K)) (V0 : list (cpx K)).
Variables (pv pq : list nat) (tol : K).
Hypothesis SQ : square n Y.
Hypothesis DJ : NoDup (pv ++ pq).

Lemma gs_update_ok S V k V' : gs_update Y S V k = Ok V' ->
  exists z, k < length V /\ V' = upd V k z.
Proof.
  unfold gs_update. intros H. apply bind_ok in H as (s & _ & H). apply bind_ok in H as (v & _ & H).
  apply bind_ok in H as (I & _ & H). apply bind_ok in H as (i & _ & H). cbv zeta in H.
  destruct (_ || _); [discriminate|]. apply set_checked_ok in H as (L & ->). eauto.
Qed.

(** what Gauss-Seidel sweeps preserve *)
Definition gframe (idx : list nat) (V : list (cpx K)) : Prop :=
  length V = length V0 /\ forall i, ~ In i idx -> nth i V 0%K = nth i V0 0%K.
Definition sframe (S : list (cpx K)) : Prop :=
  length S = length S0 /\
  forall i, re (nth i S 0%K) = re (nth i S0 0%K) /\
            (~ In i pv -> nth i S 0%K = nth i S0 0%K).

Lemma gs_update_frame idx S V k V' : In k idx -> gframe idx V -> gs_update Y S V k = Ok V' ->
  gframe idx V'.
Proof.
  intros I (L & U) H. apply gs_update_ok in H as (z & Lk & ->). split.
  - rewrite upd_length; auto.
  - intros i N. rewrite nth_upd_d by auto. destruct (Nat.eqb_spec k i); [subst; tauto|auto].
Qed.

Lemma gs_pv_frame V S k V' S' : In k pv -> gframe (pv ++ pq) V /\ sframe S ->
  gs_pv Y (V, S) k = Ok (V', S') -> gframe (pv ++ pq) V' /\ sframe S'.
Proof.
  intros I (GV & LS & US) H. unfold gs_pv in H. apply bind_ok in H as (v & _ & H).
  apply bind_ok in H as (Iv & _ & H). apply bind_ok in H as (i & _ & H).
  apply bind_ok in H as (s & Hs & H). apply bind_ok in H as (S1 & HS & H).
  apply bind_ok in H as (V1 & HV & H). injection H as <- <-.
  split. { eapply gs_update_frame; [|exact GV|exact HV]. apply in_or_app; auto. }
  apply set_checked_ok in HS as (Lk & ->). split; [rewrite upd_length; auto|].
  intros j. rewrite nth_upd_d by auto. destruct (Nat.eqb_spec k j) as [->|]; auto.
  apply get_ok, (nth_error_nth _ _ 0%K) in Hs. cbn [re]. rewrite <- Hs.
  split; [apply US|tauto].
Qed.

Lemma gs_scale_ok V V' : gs_scale cabs (map cabs V0) V pv = Ok V' -> gframe (pv ++ pq) V ->
  gframe (pv ++ pq) V' /\
  (polar_ok cis cabs cang -> forall i, In i pv -> cabs (nth i V' 0%K) = cabs (nth i V0 0%K)).
Proof.
  unfold gs_scale. intros H (L & U). apply bind_ok in H as (m & Hm & H).
  apply bind_ok in H as (v & Hv & H). destruct (existsb _ v) eqn:E; [discriminate|].
  apply scatter_checked_ok in H as (LI & RI & ->). split.
  - split; [rewrite scatter_length; auto|]. intros i N.
    rewrite <- U by auto. assert (~ In i pv) as N' by (intros C; apply N, in_or_app; auto).
    pose proof (scatter_other pv V (map2 (fun m z => cdiv (cmul (ofK m) z) (ofK (cabs z))) m v) i N') as SO.
    destruct (nth_error V i) eqn:EV.
    + rewrite (nth_error_nth _ _ _ EV). apply (nth_error_nth _ _ _ SO).
    + apply nth_error_None in EV, SO. rewrite !nth_overflow; auto.
  - intros PO i I. apply In_nth_error in I as (k & Hk).
    assert (i < length V) as Li by (rewrite Forall_forall in RI; apply RI; eapply nth_error_In; eauto).
    pose proof (gather_nth _ _ _ _ _ Hm Hk) as Gm. pose proof (gather_nth _ _ _ _ _ Hv Hk) as Gv.
    destruct (nth_error_lt V i Li) as (z & Hz). rewrite Hz in Gv.
    assert (nth_error V0 i = Some (nth i V0 0%K)) as HV0 by (apply nth_error_nth'; lia).
    rewrite nth_error_map, HV0 in Gm. simpl in Gm. set (w := nth i V0 0%K) in *.
    assert (nth_error (map2 (fun m z => cdiv (cmul (ofK m) z) (ofK (cabs z))) m v) k
      = Some (cdiv (cmul (ofK (cabs w)) z) (ofK (cabs z)))) as Hs.
    { unfold map2. rewrite nth_error_map.
      assert (length m = length v) as Lmv
        by (rewrite (gather_length _ _ _ Hm), (gather_length _ _ _ Hv); auto).
      assert (k < length m) as Lk by (apply nth_error_some_lt in Gm; auto).
      rewrite (nth_error_nth' _ (0%K, 0%K)) by (rewrite combine_length; lia).
      rewrite combine_nth by auto. rewrite (nth_error_nth _ _ _ Gm), (nth_error_nth _ _ _ Gv).
      reflexivity. }
    assert (NoDup pv) as ND by (apply NoDup_app_l in DJ; auto).
    rewrite (nth_error_nth _ _ _ (scatter_at _ _ _ _ _ _ ND Hk Hs Li)).
    assert (cabs z <> 0%K) as NZ.
    { intros C. assert (existsb (fun z => feqb (cabs z) 0%K) v = true) as T.
      { apply existsb_exists. exists z. split; [eapply nth_error_In; eauto|]. apply feqb_ok; auto. }
      congruence. }
    destruct PO as (A & B).
    replace (cdiv (cmul (ofK (cabs w)) z) (ofK (cabs z))) with (ofK (cabs w) * cis (cang z))%K.
    + rewrite A. apply (cabs_fabs cis cabs cang); split; auto.
    + rewrite <- (B z) at 2. change (@cmul K F) with (@rmul (cpx K) _).
      assert (ofK (cabs z) <> (0%K : cpx K)) by (intros C; injection C; auto).
      field. auto.
Qed.

Lemma gauss_step_ok V S V' S' : gframe (pv ++ pq) V -> sframe S ->
  gauss_step cabs Y (map cabs V0) pv pq (V, S) = Ok (V', S') ->
  gframe (pv ++ pq) V' /\ sframe S' /\
  (polar_ok cis cabs cang -> forall i, ~ In i pq -> cabs (nth i V' 0%K) = cabs (nth i V0 0%K)).
Proof.
  intros GV GS H. unfold gauss_step in H. apply bind_ok in H as (V1 & H1 & H).
  assert (gframe (pv ++ pq) V1) as G1.
  { revert H1. apply (foldM_inv (gframe (pv ++ pq))); auto. intros k s s' I G E.
    eapply gs_update_frame; eauto. apply in_or_app; auto. }
  destruct (Nat.eqb_spec (length pv) 0) as [E|E].
  - injection H as <- <-. split; auto. split; auto. intros _ i N.
    destruct G1 as (_ & U). rewrite U; auto. destruct pv; [auto|discriminate].
  - apply bind_ok in H as ((V2 & S2) & H2 & H). apply bind_ok in H as (V3 & H3 & H).
    injection H as <- <-.
    assert (gframe (pv ++ pq) (fst (V2, S2)) /\ sframe (snd (V2, S2))) as (G2 & GS2).
    { revert H2. apply (foldM_inv (fun st => gframe (pv ++ pq) (fst st) /\ sframe (snd st))); auto.
      intros k (Va & Sa) (Vb & Sb) I G E'. eapply gs_pv_frame; eauto. }
    cbn [fst snd] in *. destruct (gs_scale_ok _ _ H3 G2) as (G3 & C). split; auto. split; auto.
    intros PO i N. destruct (in_dec Nat.eq_dec i pv) as [I|NI]; [auto|].
    destruct G3 as (_ & U). rewrite U; auto. rewrite in_app_iff. tauto.
Qed.

Lemma solved_sframe S V : sframe S ->
  solved_by (fun _ => tol) Y S V pv pq <-> solved_by (fun _ => tol) Y S0 V pv pq.
Proof.
  intros (_ & U).
  assert (forall i, re (excess Y S V i) = re (excess Y S0 V i)) as R
    by (intros i; unfold excess;
        change (re (bus_power Y V i) - re (nth i S 0%K) = re (bus_power Y V i) - re (nth i S0 0%K))%K;
        rewrite (proj1 (U i)); reflexivity).
  assert (forall i, In i pq -> im (excess Y S V i) = im (excess Y S0 V i)) as M.
  { intros i I. unfold excess. rewrite (proj2 (U i)); auto. intros C.
    clear -DJ C I. induction pv as [|a l IH]; [contradiction|]. simpl in DJ. inversion DJ; subst.
    destruct C as [->|C]; auto. apply H1, in_or_app. auto. }
  unfold solved_by. split; intros (A & B); split; intros i I.
  1: rewrite <- R; auto. 1: rewrite <- M; auto. 1: rewrite R; auto. rewrite M; auto.
Qed.

Lemma gauss_loop_ok fuel : forall i V S V' c m,
  gframe (pv ++ pq) V -> sframe S ->
  (polar_ok cis cabs cang -> forall i, ~ In i pq -> cabs (nth i V 0%K) = cabs (nth i V0 0%K)) ->
  gauss_loop cabs Y (map cabs V0) pv pq tol fuel i (V, S) = Ok (V', c, m) ->
  gframe (pv ++ pq) V' /\ i <= m <= i + fuel /\ (c = false -> m = i + fuel) /\
  (c = true <-> solved_by (fun _ => tol) Y S0 V' pv pq) /\
  (polar_ok cis cabs cang -> forall i, ~ In i pq -> cabs (nth i V' 0%K) = cabs (nth i V0 0%K)).
Proof.
  induction fuel as [|fuel IH]; intros i V S V' c m GV GS CV H; cbn [gauss_loop] in H;
    apply bind_ok in H as (mis & Hm & H); apply bind_ok in H as (Fx & Hr & H);
    apply bind_ok in H as (nf & Hn & H);
    pose proof (residual_ok _ _ _ _ _ _ _ _ tol SQ Hm Hr) as RES;
    rewrite (solved_sframe _ _ GS) in RES;
    pose proof (norm_inf_lt _ _ tol Hn) as NT; destruct (fltb nf tol) eqn:E.
  - injection H as <- <- <-. repeat split; auto; try apply GV; try lia; try discriminate.
    all: apply RES, NT; auto.
  - injection H as <- <- <-. repeat split; auto; try apply GV; try lia; try discriminate.
    intros C. apply RES, NT in C. discriminate.
  - injection H as <- <- <-. repeat split; auto; try apply GV; try lia; try discriminate.
    all: apply RES, NT; auto.
  - apply bind_ok in H as ((V1 & S1) & Hs & H).
    destruct (gauss_step_ok _ _ _ _ GV GS Hs) as (G1 & GS1 & C1).
    destruct (IH _ _ _ _ _ _ G1 GS1 C1 H) as (A & B & C & D & Q).
    split; auto. split; [lia|]. split; [intros; rewrite C by auto; lia|]. split; auto.
Qed.

Lemma gausspf_ok max_it V c m : gausspf cabs Y S0 V0 pv pq tol max_it = Ok (V, c, m) ->
  length V0 = n /\ length V = n /\ m <= max_it /\ (c = false -> m = max_it) /\
  (c = true <-> solved_by (fun _ => tol) Y S0 V pv pq) /\
  (forall i, ~ In i (pv ++ pq) -> nth i V 0%K = nth i V0 0%K) /\
  (polar_ok cis cabs cang -> forall i, ~ In i pq -> cabs (nth i V 0%K) = cabs (nth i V0 0%K)).
Proof.
  unfold gausspf. intros H.
  assert (length V0 = n) as LV.
  { destruct max_it; cbn [gauss_loop] in H; apply bind_ok in H as (mis & Hm & _);
      apply (mismatch_ok _ _ _ _ _ SQ) in Hm; tauto. }
  apply gauss_loop_ok in H as ((A & U) & B & C & D & P); auto.
  - split; auto. split; [congruence|]. split; [lia|]. split; auto.
  - split; auto.
  - split; auto.
Qed.
End Gauss.

(** ** fdpf *)
Lemma fabs_mul (a b : K) : fabs (a * b)%K = (fabs a * fabs b)%K.
Proof.
  unfold fabs.
  assert (forall x y : K, fltb x 0%K = true -> fltb y 0%K = true -> fltb (x * y)%K 0%K = false) as NN.
  { intros x y X Y. apply flt_opp0 in X, Y. pose proof (f_lt_mul _ _ X Y) as M.
    replace (- x * - y)%K with (x * y)%K in M by ring. apply flt_asym; auto. }
  assert (forall x y : K, fltb x 0%K = true -> fltb y 0%K = false ->
            (if fltb (x * y)%K 0%K then - (x * y) else x * y)%K = (- x * y)%K) as NP.
  { intros x y X Y. apply fnlt in Y as [->|Y].
    - clear X. destruct (fltb (x * 0)%K _); ring.
    - apply flt_opp0 in X. pose proof (f_lt_mul _ _ X Y) as M.
      apply flt_opp in M. replace (- (- x * y))%K with (x * y)%K in M by ring.
      replace (- (0 : K))%K with (0%K : K) in M by ring. rewrite M. ring. }
  destruct (fltb a 0%K) eqn:A, (fltb b 0%K) eqn:B.
  - rewrite NN by auto. ring.
  - apply NP; auto.
  - pose proof (NP b a B A) as E. replace (a * b)%K with (b * a)%K by ring. rewrite E. ring.
  - apply fnlt in A as [->|A]. { replace (0 * b)%K with (0%K : K) by ring. rewrite f_lt_irrefl. auto. }
    apply fnlt in B as [->|B]. { replace (a * 0)%K with (0%K : K) by ring. rewrite f_lt_irrefl. auto. }
    rewrite (flt_asym _ _ (f_lt_mul _ _ A B)). auto.
Qed.

Lemma fabs_pos (a : K) : a <> 0%K -> fltb 0%K (fabs a) = true.
Proof.
  intros N. unfold fabs. destruct (fltb a 0%K) eqn:E; [apply flt_opp0; auto|].
  apply fnlt in E as [E|E]; congruence.
Qed.

Lemma flt_mul_pos (a b c : K) : fltb 0%K c = true ->
  fltb (a * c)%K (b * c)%K = fltb a b.
Proof.
  intros C.
  assert (forall x y : K, fltb x y = true -> fltb (x * c)%K (y * c)%K = true) as M.
  { intros x y H. apply (f_lt_add _ _ (- x)%K) in H. replace (x + - x)%K with (0%K : K) in H by ring.
    pose proof (f_lt_mul _ _ H C) as P. apply (f_lt_add _ _ (x * c)%K) in P.
    replace (0 + x * c)%K with (x * c)%K in P by ring.
    replace ((y + - x) * c + x * c)%K with (y * c)%K in P by ring. auto. }
  destruct (fltb a b) eqn:E; [auto|]. apply fnlt in E as [->|E].
  - apply f_lt_irrefl.
  - apply flt_asym, M; auto.
Qed.

Lemma within_div (x m t : K) : m <> 0%K -> within t (x / m)%K <-> within (t * fabs m)%K x.
Proof.
  intros N. unfold within. rewrite <- (flt_mul_pos (fabs (x / m)%K) t (fabs m) (fabs_pos m N)).
  rewrite <- fabs_mul. replace (x / m * m)%K with x by (field; auto). tauto.
Qed.

Lemma cdiv_re (z : cpx K) m : m <> 0%K -> re (cdiv z (ofK m)) = (re z / m)%K.
Proof. intros N. unfold cdiv, nrm2, ofK. simpl. field. auto. Qed.
Lemma cdiv_im (z : cpx K) m : m <> 0%K -> im (cdiv z (ofK m)) = (im z / m)%K.
Proof. intros N. unfold cdiv, nrm2, ofK. simpl. field. auto. Qed.

Section Fast.
Variables (cis : K -> cpx K) (cabs cang : cpx K -> K).
Variables (n : nat) (Y : smat (cpx K)) (S : list (cpx K)) (pv pq : list nat) (tol : K).
Hypothesis SQ : square n Y.

Lemma fd_mismatch_ok V Vm P Q : fd_mismatch Y S V Vm pv pq = Ok (P, Q) ->
  length V = n /\ length Vm = n /\
  (Forall (within tol) P /\ Forall (within tol) Q <->
   solved_by (fun i => tol * fabs (nth i Vm 0))%K Y S V pv pq).
Proof.
  unfold fd_mismatch. intros H. apply bind_ok in H as (mis & Hm & H).
  apply bind_ok in H as (m & Hd & H). apply bind_ok in H as (a & Ha & H).
  apply bind_ok in H as (b & Hb & H). injection H as <- <-.
  destruct (mismatch_ok _ _ _ _ _ SQ Hm) as (LV & LS & ->).
  apply cvdiv_ok in Hd as (L & NZ & ->). rewrite !map_length, seq_length in L.
  split; auto. split; auto.
  rewrite Forall_map, Forall_forall in NZ.
  assert (forall i, i < n -> nth i Vm 0%K <> 0%K) as NV.
  { intros i Hi C. apply (NZ (nth i Vm 0%K)); [apply nth_In; lia|]. rewrite C. reflexivity. }
  assert (map2 cdiv (map (excess Y S V) (seq 0 n)) (map ofK Vm)
    = map (fun i => cdiv (excess Y S V i) (ofK (nth i Vm 0%K))) (seq 0 n)) as E.
  { rewrite (map2_nth _ _ _ 0%K 0%K) by (rewrite !map_length, seq_length; auto).
    rewrite map_length, seq_length. apply map_ext_in. intros i Hi. apply in_seq in Hi.
    rewrite (nth_map_lt _ _ _ _ 0) by (rewrite seq_length; lia). rewrite seq_nth by lia.
    rewrite (nth_map_lt _ _ _ _ 0%K) by lia. reflexivity. }
  rewrite E in Ha, Hb. apply gather_map_seq in Ha as (Ra & ->). apply gather_map_seq in Hb as (Rb & ->).
  rewrite !map_map, !Forall_map, !Forall_forall. rewrite Forall_forall in Ra, Rb.
  unfold solved_by. split; intros (A & B); split; intros i I.
  - apply within_div; [apply NV, Ra; auto|]. rewrite <- cdiv_re by (apply NV, Ra; auto). auto.
  - apply within_div; [apply NV, Rb; auto|]. rewrite <- cdiv_im by (apply NV, Rb; auto). auto.
  - rewrite cdiv_re by (apply NV, Ra; auto). apply within_div; [apply NV, Ra; auto|]. auto.
  - rewrite cdiv_im by (apply NV, Rb; auto). apply within_div; [apply NV, Rb; auto|]. auto.
Qed.

Lemma fd_test_ok (P Q : list K) c : fd_test tol P Q = Ok c ->
  c = true <-> Forall (within tol) P /\ Forall (within tol) Q.
Proof.
  unfold fd_test. intros H. apply bind_ok in H as (np & Hp & H). apply bind_ok in H as (nq & Hq & H).
  injection H as <-. rewrite andb_true_iff, (norm_inf_lt _ _ tol Hp), (norm_inf_lt _ _ tol Hq). tauto.
Qed.

Hypothesis PO : polar_ok cis cabs cang.
Definition vtol (V : list (cpx K)) (i : nat) : K := (tol * cabs (nth i V 0))%K.

Lemma solved_vtol V Vm :
  (forall i, In i (pv ++ pq) -> fabs (nth i Vm 0%K) = cabs (nth i V 0%K)) ->
  solved_by (fun i => tol * fabs (nth i Vm 0))%K Y S V pv pq <-> solved_by (vtol V) Y S V pv pq.
Proof.
  intros E. unfold solved_by, vtol. split; intros (A & B); split; intros i I.
  - rewrite <- E; auto.
  - rewrite <- E by (apply in_or_app; auto). auto.
  - rewrite E; auto.
  - rewrite E by (apply in_or_app; auto). auto.
Qed.

(** magnitudes and angles agree with the voltages *)
Definition fwf (V : list (cpx K)) (Va Vm : list K) : Prop :=
  length V = n /\ length Va = n /\ length Vm = n /\
  forall i, i < n -> nth i V 0%K = (ofK (nth i Vm 0) * cis (nth i Va 0))%K.

Lemma fwf_abs V Va Vm i : fwf V Va Vm -> i < n -> fabs (nth i Vm 0%K) = cabs (nth i V 0%K).
Proof. intros (_ & _ & _ & H) Hi. rewrite (H i Hi). symmetry. apply PO. Qed.

Lemma fd_half V Va Vm P Q c : fwf V Va Vm ->
  fd_mismatch Y S V Vm pv pq = Ok (P, Q) -> fd_test tol P Q = Ok c ->
  c = true <-> solved_by (vtol V) Y S V pv pq.
Proof.
  intros W HM HT. apply fd_test_ok in HT. rewrite HT.
  pose proof HM as HM'. apply fd_mismatch_ok in HM' as (LV & LM & E). rewrite E.
  apply solved_vtol. intros i I.
  destruct (Nat.lt_ge_cases i n) as [Hi|Hi]; [eapply fwf_abs; eauto|].
  exfalso. unfold fd_mismatch in HM. apply bind_ok in HM as (mis & Hm & HM).
  apply bind_ok in HM as (m & Hd & HM). apply bind_ok in HM as (a & Ha & _).
  apply (mismatch_ok _ _ _ _ _ SQ) in Hm as (_ & _ & ->). apply cvdiv_ok in Hd as (L & _ & ->).
  apply In_nth_error in I as (k & Hk). destruct (mapM_nth _ _ _ _ _ Ha Hk) as (y & Hy & _).
  apply get_ok, nth_error_some_lt in Hy. unfold map2 in Hy.
  rewrite map_length, combine_length, !map_length, seq_length in Hy. lia.
Qed.

Lemma fwf_polar V Va Vm : length Vm = n -> polar cis Vm Va = Ok V -> fwf V Va Vm.
Proof.
  intros L H. apply polar_def in H as (A & B & C). unfold fwf.
  split; [congruence|]. split; [congruence|]. split; auto. intros i Hi. apply C. lia.
Qed.

Definition fframe (V0 V : list (cpx K)) (Va0 Va Vm0 Vm : list K) : Prop :=
  forall i, i < n ->
    (~ In i (pv ++ pq) -> nth i Va 0%K = nth i Va0 0%K) /\
    (~ In i pq -> nth i Vm 0%K = nth i Vm0 0%K).

Lemma fd_loop_ok solveP solveQ fuel : forall i V Va Vm P Q V' c m,
  fwf V Va Vm -> ~ solved_by (vtol V) Y S V pv pq ->
  fd_loop cis Y S pv pq tol solveP solveQ fuel i V Va Vm P Q = Ok (V', c, m) ->
  i <= m <= i + fuel /\ (c = false -> m = i + fuel) /\
  (c = true <-> solved_by (vtol V') Y S V' pv pq) /\
  exists Va' Vm', fwf V' Va' Vm' /\ fframe V V' Va Va' Vm Vm'.
Proof.
  induction fuel as [|fuel IH]; intros i V Va Vm P Q V' c m W NS H; cbn [fd_loop] in H.
  - injection H as <- <- <-. split; [lia|]. split; [lia|]. split.
    { split; [discriminate|tauto]. }
    exists Va, Vm. split; auto. intros k Hk. auto.
  - apply bind_ok in H as (x & _ & H). apply bind_ok in H as (Va1 & HA & H).
    apply bind_ok in H as (V1 & HV1 & H). apply bind_ok in H as ((P1 & Q1) & HM1 & H).
    apply bind_ok in H as (c1 & HT1 & H).
    assert (fwf V1 Va1 Vm) as W1 by (apply fwf_polar; auto; apply W).
    pose proof (fd_half _ _ _ _ _ _ W1 HM1 HT1) as E1.
    apply add_at_ok in HA as (LA & UA).
    destruct c1.
    + injection H as <- <- <-. split; [lia|]. split; [discriminate|]. split; [tauto|].
      exists Va1, Vm. split; auto. intros k Hk. split; auto.
    + apply bind_ok in H as (y & _ & H). apply bind_ok in H as (Vm2 & HB & H).
      apply bind_ok in H as (V2 & HV2 & H). apply bind_ok in H as ((P2 & Q2) & HM2 & H).
      apply bind_ok in H as (c2 & HT2 & H).
      apply add_at_ok in HB as (LB & UB).
      assert (fwf V2 Va1 Vm2) as W2
        by (apply fwf_polar; auto; destruct W as (_ & _ & LM & _); congruence).
      pose proof (fd_half _ _ _ _ _ _ W2 HM2 HT2) as E2. destruct c2.
      * injection H as <- <- <-. split; [lia|]. split; [discriminate|]. split; [tauto|].
        exists Va1, Vm2. split; auto. intros k Hk. split; auto.
      * apply IH in H as (A & B & C & Va' & Vm' & D & E); auto.
        2: { intros X. apply E2 in X. discriminate. }
        split; [lia|]. split; [intros; rewrite B by auto; lia|]. split; auto.
        exists Va', Vm'. split; auto. intros k Hk. destruct (E k Hk) as (F1 & F2). split; intros N.
        -- rewrite F1, UA; auto.
        -- rewrite F2, UB; auto.
Qed.

Lemma fdpf_ok splu V0 Bp Bpp max_it V c m :
  fdpf cis cabs cang splu Y S V0 Bp Bpp pv pq tol max_it = Ok (V, c, m) ->
  length V0 = n /\ length V = n /\ m <= max_it /\ (c = false -> m = max_it) /\
  (c = true <-> solved_by (vtol V) Y S V pv pq) /\
  forall i, i < n ->
   (~ In i (pv ++ pq) -> nth i V 0%K = nth i V0 0%K) /\
   (~ In i pq -> cabs (nth i V 0%K) = cabs (nth i V0 0%K)).
Proof.
  unfold fdpf. intros H. apply bind_ok in H as ((P & Q) & HM & H).
  apply bind_ok in H as (c0 & HT & H). apply bind_ok in H as (sP & _ & H).
  apply bind_ok in H as (sQ & _ & H).
  destruct (fd_mismatch_ok _ _ _ _ HM) as (LV & _ & _).
  assert (fwf V0 (map cang V0) (map cabs V0)) as W.
  { unfold fwf. rewrite !map_length. repeat split; auto. intros i Hi.
    rewrite !(nth_map_lt _ _ _ _ 0%K) by lia. symmetry. apply PO. }
  pose proof (fd_half _ _ _ _ _ _ W HM HT) as E. destruct c0.
  - injection H as <- <- <-. split; auto. split; auto. split; [lia|]. split; [discriminate|].
    split; [tauto|auto].
  - apply fd_loop_ok in H as (A & B & C & Va' & Vm' & W' & FR); auto.
    2: { intros X. apply E in X. discriminate. }
    split; auto. split; [apply W'|]. split; [lia|]. split; auto. split; auto.
    intros i Hi. destruct (FR i Hi) as (F1 & F2). destruct W' as (_ & _ & _ & N').
    assert (~ In i pq -> nth i Vm' 0%K = cabs (nth i V0 0%K)) as EM
      by (intros N; rewrite F2 by auto; apply nth_map_lt; lia).
    rewrite N' by auto. split; intros N.
    + rewrite in_app_iff in N. rewrite F1 by (rewrite in_app_iff; auto). rewrite EM by tauto.
      rewrite (nth_map_lt _ _ _ _ 0%K) by lia. apply PO.
    + rewrite EM by auto. destruct PO as (A1 & A2). rewrite A1. apply (cabs_fabs cis cabs cang); auto.
Qed.
End Fast.
End AcPfB.
