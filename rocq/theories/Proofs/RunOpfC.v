(** A point of the internal DC problem, reported in the external tables. *)
From Coq Require Import Permutation.
From Verif Require Import Lib.ListFacts Model.RunOpf Spec.RunOpfSpec Proofs.SparseFacts Proofs.FldFacts
  Proofs.OrdFacts Proofs.PfsolnA Proofs.TableEdit Proofs.Ext2intB Proofs.RunPfA Proofs.RunPfB Proofs.DcOpfA Proofs.RunOpfA Proofs.RunOpfB.
Local Open Scope nat_scope.

Section Transfer.
Context {K : Type} {F : Fld K}.
Add Field KF : (@f_ok K F).
Variables (p q r : ppc_of K) (sb sg sl sa : list nat) (bus' gen' branch' : list (list K)).
Variables (ign : bool) (B t : K) (x : list K) (gc gcq : list (list K)).
Notation nb := (length (p_bus q)).
Notation ng := (length (p_gen q)).
Hypothesis IF : internal_form p q sb sg sl sa.
Hypothesis CAR : carried p q bus' gen' branch' r sb sg sl.
Hypothesis GT : forall k i z, nth_error sb k = Some i -> bus_at p z i ->
  total_at GEN_BUS (fun g => cell g PG) (p_gen r) z = lsum (fun g => if bus_no g GEN_BUS =? k then cell g PG else 0%K) gen'.
Hypothesis LT : forall k i z, nth_error sb k = Some i -> bus_at p z i ->
  (total_at F_BUS (fun g => cell g PF) (p_branch r) z + total_at T_BUS (fun g => cell g PT) (p_branch r) z)%K
  = drawn (fun g => cell g PF) (fun g => cell g PT) branch' k.
Hypothesis HB : forall k y b, nth_error (p_bus q) k = Some y -> nth_error bus' k = Some b ->
  degrees (cell b VA) = nth k x 0%K /\ forall c, ~ In c [VA; LAM_P; LAM_Q; MU_VMIN; MU_VMAX] -> cell b c = cell y c.
Hypothesis HG : forall k y g, nth_error (p_gen q) k = Some y -> nth_error gen' k = Some g ->
  cell g PG = (B * output nb x k)%K /\
  forall c, ~ In c [PG; MU_PMIN; MU_PMAX; MU_QMIN; MU_QMAX] -> cell g c = cell y c.
Hypothesis HL : forall k y g, nth_error (p_branch q) k = Some y -> nth_error branch' k = Some g ->
  cell g PF = (B * dc_flow y (angles nb x))%K /\ cell g PT = (- cell g PF)%K /\ cell g QF = 0%K /\ cell g QT = 0%K /\
  forall c, ~ In c [PF; PT; QF; QT; MU_SF; MU_ST; MU_ANGMIN; MU_ANGMAX] -> cell g c = cell y c.
Hypothesis HBpos : lt 0%K B.
Hypothesis D : dc_point (equal_to t) (excess_to t) ign B (p_bus q) (p_gen q) (p_branch q) gcq None [] [] [] [] x.

Lemma Bnz : B <> 0%K.
Proof. apply pos_nz. auto. Qed.

Lemma gen_total k : lsum (fun g => if bus_no g GEN_BUS =? k then cell g PG else 0%K) gen' = (B * injected (p_gen q) nb x k)%K.
Proof.
  unfold injected. rewrite <- lsum_scal. apply lsum_pair.
  { rewrite combine_length, seq_length, (ca_gen_len _ _ _ _ _ _ _ _ _ CAR), (if_gen_len _ _ _ _ _ _ IF). lia. }
  intros m g (m', y) Hg Hy. apply combine_seq in Hy as (Hy & E). cbn [fst snd] in *. subst m'. cbn [Nat.add].
  destruct (HG _ _ _ Hy Hg) as (E & KP). unfold bus_no. rewrite (KP GEN_BUS) by (cbn; intuition discriminate).
  rewrite E. destruct (_ =? k); ring.
Qed.

Lemma flow_total k : drawn (fun g => cell g PF) (fun g => cell g PT) branch' k = (B * net_out (flow_at (angles nb x)) (p_branch q) k)%K.
Proof.
  unfold drawn, net_out. rewrite <- lsum_scal. apply lsum_pair.
  { rewrite (ca_br_len _ _ _ _ _ _ _ _ _ CAR), (if_br_len _ _ _ _ _ _ IF). reflexivity. }
  intros m g y Hg Hy. destruct (HL _ _ _ Hy Hg) as (E1 & E2 & _ & _ & KP). unfold bus_no.
  rewrite (KP F_BUS), (KP T_BUS) by (cbn; intuition discriminate). rewrite E2, E1. unfold flow_at.
  destruct (_ =? k), (_ =? k); ring.
Qed.

Lemma bus_row i b : bus_in_service p i -> nth_error (p_bus r) i = Some b -> exists k x0 y b',
  nth_error sb k = Some i /\ nth_error (p_bus p) i = Some x0 /\ nth_error (p_bus q) k = Some y /\
  nth_error bus' k = Some b' /\ degrees (cell b VA) = nth k x 0%K /\ (forall c, c <> BUS_I -> cell y c = cell x0 c) /\
  (forall c, c <> BUS_I -> ~ In c [VA; LAM_P; LAM_Q; MU_VMIN; MU_VMAX] -> cell b c = cell y c) /\
  (forall c, c <> BUS_I -> cell b c = cell b' c).
Proof.
  intros Si Hb. apply (if_sb _ _ _ _ _ _ IF) in Si. apply In_nth_error in Si as (k & Hk).
  destruct (nth_error_lt bus' k) as [b' Hb']; [rewrite (ca_bus_len _ _ _ _ _ _ _ _ _ CAR); eapply nth_error_some_lt; eauto|].
  destruct (ca_bus _ _ _ _ _ _ _ _ _ CAR _ _ _ Hk Hb') as (x0 & y & a & Hx & Hy & Ha & E1 & E2).
  assert (a = b) by congruence. subst a. destruct (HB _ _ _ Hy Hb') as (V & KP).
  exists k, x0, y, b'. do 4 (split; [auto|]). split; [rewrite (E2 VA) by discriminate; auto|]. split; auto. split; auto.
  intros c N1 N2. rewrite (E2 c N1). auto.
Qed.

Lemma end_ok c n z (a : list K) : cell a c = ofZ z -> stands_for p sb n z -> end_angle p r a c (nth n (angles nb x) 0%K).
Proof.
  intros Hc (i & Hi & Bi).
  destruct (nth_error_lt bus' n) as [b' Hb']; [rewrite (ca_bus_len _ _ _ _ _ _ _ _ _ CAR); eapply nth_error_some_lt; eauto|].
  destruct (ca_bus _ _ _ _ _ _ _ _ _ CAR _ _ _ Hi Hb') as (x0 & y & a' & Hx & Hy & Ha & E1 & E2).
  destruct (HB _ _ _ Hy Hb') as (V & _).
  exists z, i, a'. split; auto. split; auto. split; auto. rewrite (E2 VA) by discriminate. rewrite V.
  unfold angles. rewrite nth_firstn_lt; auto. eapply nth_error_some_lt; eauto.
Qed.

Lemma gen_row j g : gen_in_service p j -> nth_error (p_gen r) j = Some g -> exists k x0 y g',
  nth_error sg k = Some j /\ nth_error (p_gen p) j = Some x0 /\ nth_error (p_gen q) k = Some y /\
  nth_error gen' k = Some g' /\ cell g PG = (B * output nb x k)%K /\ (forall c, c <> GEN_BUS -> cell y c = cell x0 c) /\
  (forall c, c <> GEN_BUS -> ~ In c [PG; MU_PMIN; MU_PMAX; MU_QMIN; MU_QMAX] -> cell g c = cell y c) /\
  (forall c, c <> GEN_BUS -> cell g c = cell g' c).
Proof.
  intros Sj Hg. apply (if_sg _ _ _ _ _ _ IF) in Sj. apply In_nth_error in Sj as (k & Hk).
  destruct (nth_error_lt gen' k) as [g' Hg']; [rewrite (ca_gen_len _ _ _ _ _ _ _ _ _ CAR); eapply nth_error_some_lt; eauto|].
  destruct (ca_gen _ _ _ _ _ _ _ _ _ CAR _ _ _ Hk Hg') as (x0 & y & a & z & n & Hx & Hy & Ha & _ & _ & _ & _ & _ & E1 & E2).
  assert (a = g) by congruence. subst a. destruct (HG _ _ _ Hy Hg') as (V & KP).
  exists k, x0, y, g'. do 4 (split; [auto|]). split; [rewrite (E2 PG) by discriminate; auto|]. split; auto. split; auto.
  intros c N1 N2. rewrite (E2 c N1). auto.
Qed.

Lemma br_row j g : branch_in_service p j -> nth_error (p_branch r) j = Some g -> exists k x0 y g',
  nth_error sl k = Some j /\ nth_error (p_branch p) j = Some x0 /\ nth_error (p_branch q) k = Some y /\
  nth_error branch' k = Some g' /\
  end_angle p r g F_BUS (nth (bus_no y F_BUS) (angles nb x) 0%K) /\
  end_angle p r g T_BUS (nth (bus_no y T_BUS) (angles nb x) 0%K) /\ cell y BR_STATUS = 1%K /\
  (forall c, c <> F_BUS -> c <> T_BUS -> cell y c = cell x0 c) /\
  (forall c, c <> F_BUS -> c <> T_BUS -> cell g c = cell g' c).
Proof.
  intros Sj Hg. apply (if_sl _ _ _ _ _ _ IF) in Sj. apply In_nth_error in Sj as (k & Hk).
  destruct (nth_error_lt branch' k) as [g' Hg']; [rewrite (ca_br_len _ _ _ _ _ _ _ _ _ CAR); eapply nth_error_some_lt; eauto|].
  destruct (ca_br _ _ _ _ _ _ _ _ _ CAR _ _ _ Hk Hg')
    as (x0 & y & a & zf & zt & nf & nt & Hx & Hy & Ha & Zf & Sf & Nf & Zt & Stt & Nt & Ef & Et & ON & E1 & E2).
  assert (a = g) by congruence. subst a.
  exists k, x0, y, g'. do 4 (split; [auto|]).
  rewrite (ofN_no y F_BUS nf Nf), (ofN_no y T_BUS nt Nt).
  split; [apply (end_ok F_BUS nf zf); auto; rewrite Ef; apply nth_error_cell; auto|].
  split; [apply (end_ok T_BUS nt zt); auto; rewrite Et; apply nth_error_cell; auto|].
  split; [|auto]. rewrite E1 by discriminate. rewrite (nth_error_cell _ _ _ ON). apply fofZ_1.
Qed.

Theorem transfer : dc_report ign t B p r.
Proof.
  pose proof Bnz as NB. constructor.
  - intros i b z Si Bi Hb. destruct (bus_row _ _ Si Hb) as (k & x0 & y & b' & Hk & Hx & Hy & Hb' & V & E1 & E2 & _).
    pose proof (dp_balance _ _ _ _ _ _ _ _ _ _ _ _ _ _ D k y Hy) as BAL.
    apply (equal_scale _ _ _ _ HBpos BAL). unfold left_over. rewrite (GT _ _ _ Hk Bi), (LT _ _ _ Hk Bi), gen_total, flow_total.
    rewrite (E2 PD), (E2 GS) by (cbn; intuition discriminate). field. auto.
  - intros j g Sj Hg. destruct (gen_row _ _ Sj Hg) as (k & x0 & y & g' & Hk & Hx & Hy & Hg' & V & E1 & E2 & _).
    destruct (dp_output _ _ _ _ _ _ _ _ _ _ _ _ _ _ D k y Hy) as (O1 & O2).
    rewrite (E2 PMIN), (E2 PMAX) by (cbn; intuition discriminate). rewrite V.
    split; [apply (excess_scale _ _ _ _ HBpos O1)|apply (excess_scale _ _ _ _ HBpos O2)]; field; auto.
  - intros j g Sj Hg. destruct (br_row _ _ Sj Hg) as (k & x0 & y & g' & Hk & Hx & Hy & Hg' & A1 & A2 & ON & E1 & E2).
    destruct (HL _ _ _ Hy Hg') as (P1 & P2 & P3 & P4 & KP).
    assert (KK : forall c, c <> F_BUS -> c <> T_BUS -> ~ In c [PF; PT; QF; QT; MU_SF; MU_ST; MU_ANGMIN; MU_ANGMAX] -> cell g c = cell y c).
    { intros c N1 N2 N3. rewrite (E2 c N1 N2). auto. }
    assert (cell g PF = (B * dc_flow y (angles nb x))%K) as EPF by (rewrite (E2 PF) by discriminate; auto).
    split; [rewrite (E2 PT), (E2 PF) by discriminate; auto|].
    split; [rewrite (E2 QF) by discriminate; auto|]. split; [rewrite (E2 QT) by discriminate; auto|]. split.
    + eexists _, _. split; [exact A1|]. split; [exact A2|]. split.
      * rewrite EPF. unfold dc_flow, degrees, tap_ratio. rewrite ON.
        rewrite (KK SHIFT), (KK BR_X), (KK TAP) by (cbn; intuition discriminate).
        match goal with |- (_ * (1 * ?a / ?b))%K = _ => assert ((1 * a = a)%K) as -> by ring end. reflexivity.
      * intros NI HA. assert (angle_limited y) as HA'.
        { unfold angle_limited in *. rewrite (KK ANGMIN), (KK ANGMAX) in HA by (cbn; intuition discriminate). exact HA. }
        rewrite (KK ANGMIN), (KK ANGMAX) by (cbn; intuition discriminate).
        exact (dp_angles _ _ _ _ _ _ _ _ _ _ _ _ _ _ D NI y (nth_error_In _ _ Hy) HA').
    + intros FL. unfold flow_limited in FL. rewrite (KK RATE_A) in FL by (cbn; intuition discriminate).
      destruct (dp_flow _ _ _ _ _ _ _ _ _ _ _ _ _ _ D y (nth_error_In _ _ Hy) FL) as (F1 & F2).
      rewrite (KK RATE_A) by (cbn; intuition discriminate). rewrite (E2 PT) by discriminate. rewrite P2, P1, EPF.
      split; [apply (excess_scale _ _ _ _ HBpos F1)|apply (excess_scale _ _ _ _ HBpos F2)]; field; auto.
  - intros i b b' Si Hb Hb' TY. destruct (bus_row _ _ Si Hb') as (k & x0 & y & b2 & Hk & Hx & Hy & Hb2 & V & E1 & E2 & _).
    assert (x0 = b) by congruence. subst x0. rewrite V. rewrite <- (E1 VA) by discriminate.
    apply (dp_reference _ _ _ _ _ _ _ _ _ _ _ _ _ _ D k y Hy). rewrite E1 by discriminate. auto.
Qed.

(** ** the cost *)
Hypothesis Hgc : p_gencost p = Some gc.
Hypothesis Hgq : p_gencost q = Some gcq.
Variable f : K.
Hypothesis Hf : f = gen_cost B nb ng gcq x.

Lemma lsum_multi (g : nat -> K) (h : list K -> bool) rows l :
  lsum g (filter (fun i => h (nth i rows [])) l) = lsum (fun i => if h (nth i rows []) then g i else 0%K) l.
Proof.
  induction l as [|a l IH]; simpl; auto. destruct (h (nth a rows [])); simpl; rewrite IH; [reflexivity|ring].
Qed.

(** position of a row among those with cost variables *)
Definition yval (k : nat) : K :=
  match posn k (multi_rows ng gcq) with Some j => nth (nb + ng + j) x 0%K | None => 0%K end.
Definition ext_y (j : nat) : K := match posn j sg with Some k => yval k | None => 0%K end.

Lemma cost_vars : lsum (fun j => nth (nb + ng + j) x 0%K) (seq 0 (length (multi_rows ng gcq)))
  = lsum yval (multi_rows ng gcq).
Proof.
  assert (NoDup (multi_rows ng gcq)) as ND by (apply NoDup_filter, seq_NoDup).
  apply lsum_pair; [apply seq_length|]. intros k a b Ha Hb.
  assert (a = k). { pose proof (nth_error_some_lt _ _ _ Ha) as L. rewrite seq_length in L. rewrite seq_nth_error in Ha by auto. cbn in Ha. congruence. }
  subst a. unfold yval. rewrite (posn_nth _ _ _ ND Hb). reflexivity.
Qed.

Lemma cost_row k j : nth_error sg k = Some j -> nth k gcq [] = nth j gc [].
Proof.
  intros Hk. pose proof (if_gencost _ _ _ _ _ _ IF) as G. rewrite Hgc in G. destruct G as (g' & E & H & _).
  assert (g' = gcq) by congruence. subst g'. pose proof (H _ _ Hk) as HH.
  destruct (nth_error gc j) as [c|] eqn:EC.
  - rewrite (nth_error_nth _ _ _ EC), (nth_error_nth _ _ _ HH). reflexivity.
  - rewrite (nth_overflow gc) by (apply nth_error_None; auto). apply nth_overflow. apply nth_error_None. auto.
Qed.

Theorem transfer_cost idx : lists_exactly idx (gen_in_service p) -> cost_of_report t gc r idx f.
Proof.
  intros (NDi & Ii). destruct (if_sg _ _ _ _ _ _ IF) as (NDs & Is). exists ext_y.
  assert (PM : Permutation sg idx). { apply NoDup_Permutation; auto. intros j. rewrite Is, Ii. reflexivity. }
  assert (ROW : forall k j, nth_error sg k = Some j -> cell (nth j (p_gen r) []) PG = (B * output nb x k)%K).
  { intros k j Hk. assert (gen_in_service p j) as Sj by (apply Is; eapply nth_error_In; eauto).
    destruct (nth_error_lt gen' k) as [g' Hg']; [rewrite (ca_gen_len _ _ _ _ _ _ _ _ _ CAR); eapply nth_error_some_lt; eauto|].
    destruct (ca_gen _ _ _ _ _ _ _ _ _ CAR _ _ _ Hk Hg') as (x0 & y & a & z & n & Hx & Hy & Ha & _).
    rewrite (nth_error_nth _ _ _ Ha). destruct (gen_row _ _ Sj Ha) as (k' & _ & _ & _ & Hk' & _ & _ & _ & V & _).
    assert (k' = k) by (eapply (NoDup_nth_error_eq sg); eauto). subst k'. auto. }
  split.
  - rewrite Hf. unfold gen_cost, gen_cost_by. rewrite cost_vars. unfold multi_rows. rewrite lsum_multi, <- lsum_add.
    rewrite <- (lsum_perm _ sg idx PM). apply lsum_pair.
    { rewrite seq_length, (if_gen_len _ _ _ _ _ _ IF). reflexivity. }
    intros k a j Ha Hj.
    assert (a = k). { pose proof (nth_error_some_lt _ _ _ Ha) as L. rewrite seq_length in L. rewrite seq_nth_error in Ha by auto. cbn in Ha. congruence. }
    subst a. cbv zeta. rewrite (cost_row _ _ Hj), (ROW _ _ Hj). destruct (segmented _); [|ring].
    unfold ext_y. rewrite (posn_nth _ _ _ NDs Hj). ring.
  - intros j a b Ij. cbv zeta. intros SG IN. apply Ii in Ij. apply Is in Ij. apply In_nth_error in Ij as (k & Hk).
    rewrite (ROW _ _ Hk). unfold ext_y. rewrite (posn_nth _ _ _ NDs Hk). unfold yval.
    assert (In k (multi_rows ng gcq)) as IM.
    { unfold multi_rows. apply filter_In. split; [apply in_seq; rewrite (if_gen_len _ _ _ _ _ _ IF); pose proof (nth_error_some_lt _ _ _ Hk); lia|].
      rewrite (cost_row _ _ Hk). auto. }
    apply In_nth_error in IM as (m & Hm).
    assert (NoDup (multi_rows ng gcq)) as ND by (apply NoDup_filter, seq_NoDup).
    rewrite (posn_nth _ _ _ ND Hm).
    apply (dp_cost _ _ _ _ _ _ _ _ _ _ _ _ _ _ D m k a b Hm). rewrite (cost_row _ _ Hk). auto.
Qed.
End Transfer.
