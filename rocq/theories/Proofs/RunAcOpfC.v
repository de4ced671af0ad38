(** The reported cost of an AC optimal power flow run. *)
From Coq Require Import Permutation.
From Verif Require Import Lib.ListFacts Model.RunAcOpf Spec.RunAcOpfSpec Proofs.SparseFacts Proofs.FldFacts Proofs.OrdFacts
  Proofs.PfsolnA Proofs.TableEdit Proofs.Ext2intB Proofs.OpfLinA Proofs.OpfLinB Proofs.DcOpfA Proofs.DcOpfB Proofs.DcOpfC Proofs.DcOpfF Proofs.RunPfA
  Proofs.RunPfB Proofs.RunOpfA Proofs.RunOpfB Proofs.RunOpfC Proofs.AcCostC Proofs.AcOptA Proofs.AcOptB Props.P_OpfFcn.
Local Open Scope nat_scope.

Section Poly.
Context {K : Type} {F : Fld K}.
Add Field KF : (@f_ok K F).
(** a cost the AC problem can evaluate: piecewise linear or polynomial with the coefficients it announces *)
Definition ac_costed (r : list K) : Prop := cost_is 1 r = true \/ (cost_is 2 r = true /\ poly_cost_row r).

Lemma pwl1_poly r r' p : pwl1_row r = Ok r' -> ac_costed r ->
  cost_is 2 r' = negb (segmented r) /\
  (segmented r = false -> poly_cost_row r' /\ horner (coeffs r') p = row_cost r p).
Proof.
  intros H [C|(C & PR)].
  - destruct (pwl1_cost r r' p H (or_introl C)) as (A & B). split; auto. intros SG. destruct (B SG) as (_ & E). split; auto.
    destruct (pwl1_ok _ _ H) as (P1 & P2 & P3 & P4 & P5 & P6). destruct (P6 C SG) as (D & L & M & N & V). cbv zeta in V.
    destruct V as (V1 & V2 & LL). exists 2. split; [lia|]. split; [|lia]. change (Z.of_nat 2) with 2%Z.
    rewrite <- N. apply nth_error_nth'. unfold COST in LL. unfold NCOST. lia.
  - destruct (pwl1_ok _ _ H) as (P1 & P2 & P3 & P4 & P5 & P6).
    assert (cost_is 1 r = false) as C1.
    { unfold cost_is in *. apply feqb_ok in C. apply feqb_false. rewrite C. intros E.
      assert (ftrunc (fofZ 2 : K) = ftrunc (fofZ 1 : K)) as T by congruence. rewrite !ftrunc_ofZ in T. discriminate. }
    assert (segmented r = false) as SG by (unfold segmented; rewrite C1; reflexivity).
    rewrite (P5 C1), SG. split; auto. intros _. split; auto. unfold row_cost. rewrite C1. reflexivity.
Qed.
End Poly.

Section Cost.
Context {K : Type} {F : Fld K}.
Add Field KF2 : (@f_ok K F).
Variables (sin_ cos_ : K -> K) (atan2 norm2 : K -> K -> K).
Variables (p q r : ppc_of K) (sb sg sl sa : list nat) (bus' gen' branch' : list (list K)).
Variables (ign : bool) (B t : K) (x : list K) (gc gcq gcc : list (list K)).
Notation nb := (length (p_bus q)).
Notation ng := (length (p_gen q)).
Notation rows := (multi_rows ng gcq).
Hypothesis IF : internal_form p q sb sg sl sa.
Hypothesis CAR : carried p q bus' gen' branch' r sb sg sl.
Hypothesis HG : forall k y g, nth_error (p_gen q) k = Some y -> nth_error gen' k = Some g -> cell g PG = (B * ac_output nb x k)%K.
Hypothesis LIN : ac_linear (equal_to t) (excess_to t) sin_ cos_ atan2 norm2 ign B (p_bus q) (p_gen q) (p_branch q) gcq None [] [] [] [] x.
Hypothesis Hgc : p_gencost p = Some gc.
Hypothesis Hgq : p_gencost q = Some gcq.
Hypothesis Hgcc : mapM pwl1_row gcq = Ok gcc.
Hypothesis ONE : length gcq = ng.
Hypothesis COV : forall j, gen_in_service p j -> ac_costed (nth j gc []).

Lemma gcc_row k j : nth_error sg k = Some j -> exists c, nth_error gcq k = Some (nth j gc []) /\
  nth_error gcc k = Some c /\ pwl1_row (nth j gc []) = Ok c.
Proof.
  intros Hk. pose proof (cost_row p q sb sg sl sa gc gcq IF Hgc Hgq _ _ Hk) as E.
  destruct (nth_error_lt gcq k) as [c0 H0]; [rewrite ONE, (if_gen_len _ _ _ _ _ _ IF); eapply nth_error_some_lt; eauto|].
  rewrite (nth_error_nth _ _ _ H0) in E. subst c0.
  destruct (mapM_nth _ _ _ _ _ Hgcc H0) as (c & H1 & H2). eauto.
Qed.
Lemma gcc_len : length gcc = ng.
Proof. rewrite <- ONE. exact (mapM_length _ _ _ Hgcc). Qed.
Lemma gcc_service k c : nth_error gcc k = Some c -> exists j, nth_error sg k = Some j /\ gen_in_service p j /\
  nth_error gcq k = Some (nth j gc []) /\ pwl1_row (nth j gc []) = Ok c.
Proof.
  intros H. destruct (nth_error_lt sg k) as [j Hj].
  { rewrite <- (if_gen_len _ _ _ _ _ _ IF), <- gcc_len. eapply nth_error_some_lt; eauto. }
  exists j. split; auto. split; [apply (if_sg _ _ _ _ _ _ IF); eapply nth_error_In; eauto|].
  destruct (gcc_row _ _ Hj) as (c' & H1 & H2 & H3). assert (c' = c) by congruence. subst. auto.
Qed.

(** the shape of the costs of the internal problem *)
Lemma shape_in (bus gen branch : list (list K)) ny : length bus = nb -> length gen = ng -> nb + nb + ng + ng + ny <= length x ->
  (exists j1 j2, j1 <> j2 /\ gen_in_service p j1 /\ gen_in_service p j2 /\
     segmented (nth j1 gc []) = false /\ segmented (nth j2 gc []) = false) ->
  let D := AcData B bus gen branch gcc ny (no_user_gcosts (length x)) in cost_shape D x /\ later_poly D.
Proof.
  intros Lb Lg Lx (j1 & j2 & NE & S1 & S2 & U1 & U2) D.
  assert (PO : forall j k, gen_in_service p j -> segmented (nth j gc []) = false -> nth_error sg k = Some j ->
     k < ng /\ cost_is 2 (nth k gcc []) = true).
  { intros j k Sj Uj Hk. split; [rewrite (if_gen_len _ _ _ _ _ _ IF); eapply nth_error_some_lt; eauto|].
    destruct (gcc_row _ _ Hk) as (c & H1 & H2 & H3). rewrite (nth_error_nth _ _ _ H2).
    destruct (pwl1_poly _ _ 0%K H3 (COV j Sj)) as (A & _). rewrite A, Uj. reflexivity. }
  assert (LP : exists i, 0 < i < length gcc /\ cost_is 2 (nth i gcc []) = true).
  { pose proof S1 as T1. pose proof S2 as T2. apply (if_sg _ _ _ _ _ _ IF) in T1, T2.
    apply In_nth_error in T1 as (k1 & H1). apply In_nth_error in T2 as (k2 & H2).
    destruct (PO _ _ S1 U1 H1) as (L1 & C1). destruct (PO _ _ S2 U2 H2) as (L2 & C2). rewrite gcc_len.
    destruct k1 as [|k1]; [|exists (S k1); split; [lia|auto]].
    destruct k2 as [|k2]; [exfalso; congruence|]. exists (S k2). split; [lia|auto]. }
  split; [|exact LP]. constructor; unfold D; cbn [a_bus a_gen a_branch a_gencost a_ny a_cp].
  - rewrite Lb, Lg. exact Lx.
  - rewrite gcc_len, Lg. lia.
  - apply Forall_forall. intros c I. apply In_nth_error in I as (k & Hk).
    destruct (gcc_service _ _ Hk) as (j & _ & _ & _ & H). destruct (pwl1_ok _ _ H) as (_ & _ & M & _). exact M.
  - intros c I C2. apply In_nth_error in I as (k & Hk). destruct (gcc_service _ _ Hk) as (j & _ & Sj & _ & H).
    destruct (pwl1_poly _ _ 0%K H (COV j Sj)) as (A & P). apply P. rewrite C2 in A. symmetry in A. apply negb_true_iff in A. exact A.
  - destruct LP as (i & Hi & C). exists (nth i gcc []). split; auto. apply nth_In. lia.
  - cbn [no_user_gcosts g_N g_H g_Cw g_dd g_rh g_kk g_mm].
    split; [split; [reflexivity|split; [reflexivity|constructor]]|].
    split; [split; [reflexivity|split; [reflexivity|constructor]]|]. do 5 (split; [reflexivity|]). constructor.
Qed.

(** position of a row among those with cost variables *)
Definition ac_yval (k : nat) : K :=
  match posn k rows with Some j => nth (nb + nb + ng + ng + j) x 0%K | None => 0%K end.
Definition ac_y (j : nat) : K := match posn j sg with Some k => ac_yval k | None => 0%K end.

Lemma ac_cost_vars : lsum (fun j => nth (nb + nb + ng + ng + j) x 0%K) (seq 0 (length rows)) = lsum ac_yval rows.
Proof.
  assert (NoDup rows) as ND by (apply NoDup_filter, seq_NoDup).
  apply lsum_pair; [apply seq_length|]. intros k a b Ha Hb.
  assert (a = k). { pose proof (nth_error_some_lt _ _ _ Ha) as L. rewrite seq_length in L. rewrite seq_nth_error in Ha by auto. cbn in Ha. congruence. }
  subst a. unfold ac_yval. rewrite (posn_nth _ _ _ ND Hb). reflexivity.
Qed.

Theorem ac_transfer_cost f idx (H : smat K) Cw dd rh kk mm (N : smat K) : nrows N = 0 ->
  f = ac_cost B nb ng (length rows) gcc N H Cw dd rh kk mm x ->
  lists_exactly idx (gen_in_service p) -> cost_of_report t gc r idx f.
Proof.
  intros NN Hf (NDi & Ii). destruct (if_sg _ _ _ _ _ _ IF) as (NDs & Is). exists ac_y.
  assert (PM : Permutation sg idx). { apply NoDup_Permutation; auto. intros j. rewrite Is, Ii. reflexivity. }
  assert (ROW : forall k j, nth_error sg k = Some j -> cell (nth j (p_gen r) []) PG = (B * ac_output nb x k)%K).
  { intros k j Hk.
    destruct (nth_error_lt gen' k) as [g' Hg']; [rewrite (ca_gen_len _ _ _ _ _ _ _ _ _ CAR); eapply nth_error_some_lt; eauto|].
    destruct (ca_gen _ _ _ _ _ _ _ _ _ CAR _ _ _ Hk Hg') as (x0 & y & a & z & n & Hx & Hy & Ha & _ & _ & _ & _ & _ & E1 & E2).
    rewrite (nth_error_nth _ _ _ Ha), (E2 PG) by discriminate. exact (HG _ _ _ Hy Hg'). }
  split.
  - rewrite Hf. unfold ac_cost. rewrite NN, ac_cost_vars. unfold multi_rows at 1. rewrite lsum_multi, gcc_len.
    unfold qform. cbn [seq lsum]. rewrite <- lsum_add.
    rewrite <- (lsum_perm _ sg idx PM).
    match goal with |- (?a + _)%K = ?b => assert (a = b) as -> end; [|ring]. apply lsum_pair.
    { rewrite seq_length, (if_gen_len _ _ _ _ _ _ IF). reflexivity. }
    intros k a j Ha Hj.
    assert (a = k). { pose proof (nth_error_some_lt _ _ _ Ha) as L. rewrite seq_length in L. rewrite seq_nth_error in Ha by auto. cbn in Ha. congruence. }
    subst a. cbv zeta. destruct (gcc_row _ _ Hj) as (c & G1 & G2 & G3).
    rewrite (nth_error_nth _ _ _ G1), (nth_error_nth _ _ _ G2), (ROW _ _ Hj).
    assert (gen_in_service p j) as Sj by (apply Is; eapply nth_error_In; eauto).
    destruct (pwl1_poly _ _ (B * ac_output nb x k)%K G3 (COV j Sj)) as (A & P). rewrite A.
    destruct (segmented _); cbn [negb]; [unfold ac_y; rewrite (posn_nth _ _ _ NDs Hj); ring|].
    destruct (P eq_refl) as (_ & ->). ring.
  - intros j a b Ij. cbv zeta. intros SG IN. apply Ii in Ij. apply Is in Ij. apply In_nth_error in Ij as (k & Hk).
    rewrite (ROW _ _ Hk). unfold ac_y. rewrite (posn_nth _ _ _ NDs Hk). unfold ac_yval.
    destruct (gcc_row _ _ Hk) as (c & G1 & G2 & G3).
    assert (In k rows) as IM.
    { unfold multi_rows. apply filter_In. split; [apply in_seq; rewrite (if_gen_len _ _ _ _ _ _ IF); pose proof (nth_error_some_lt _ _ _ Hk); lia|].
      rewrite (nth_error_nth _ _ _ G1). auto. }
    apply In_nth_error in IM as (m & Hm).
    assert (NoDup rows) as ND by (apply NoDup_filter, seq_NoDup).
    rewrite (posn_nth _ _ _ ND Hm).
    apply (al_cost _ _ _ _ _ _ _ _ _ _ _ _ _ _ _ _ _ _ LIN m k a b Hm). rewrite (nth_error_nth _ _ _ G1). auto.
Qed.
End Cost.
