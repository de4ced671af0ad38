(** A schedule of the external case as a point of the internal DC problem. *)
From Coq Require Import Permutation.
From Verif Require Import Lib.ListFacts Model.RunOpf Spec.ScheduleSpec Proofs.SparseFacts Proofs.FldFacts
  Proofs.OrdFacts Proofs.PfsolnA Proofs.TableEdit Proofs.Ext2intB Proofs.RunPfA Proofs.RunPfB Proofs.DcOpfA Proofs.RunOpfA Proofs.RunOpfB
  Proofs.RunOpfC.
Local Open Scope nat_scope.

Section Schedule.
Context {K : Type} {F : Fld K}.
Add Field KF : (@f_ok K F).
Variables (p q r : ppc_of K) (sb sg sl sa : list nat) (bus' gen' branch' : list (list K)).
Variables (ign : bool) (B : K) (gc gcq : list (list K)).
Notation p1 := (opf_columns p).
Notation nb := (length (p_bus q)).
Notation ng := (length (p_gen q)).
Hypothesis W : wf_case p.
Hypothesis IF : internal_form p1 q sb sg sl sa.
Hypothesis CAR : carried p1 q bus' gen' branch' r sb sg sl.
Hypothesis HBpos : lt 0%K B.
Hypothesis Hgc : p_gencost p = Some gc.
Hypothesis Hgq : p_gencost q = Some gcq.

Lemma sch_bus k i : nth_error sb k = Some i -> exists x y a z b',
  nth_error (p_bus p) i = Some x /\ nth_error (p_bus q) k = Some y /\ nth_error (p_bus r) i = Some a /\ nth_error bus' k = Some b' /\
  bus_at p z i /\ names x BUS_I = z /\ bus_in_service p i /\ (forall c, c <> BUS_I -> cell y c = cell x c) /\
  (forall c, c <> BUS_I -> cell a c = cell b' c).
Proof.
  intros Hk. destruct (nth_error_lt bus' k) as [b' Hb']; [rewrite (ca_bus_len _ _ _ _ _ _ _ _ _ CAR); eapply nth_error_some_lt; eauto|].
  destruct (ca_bus _ _ _ _ _ _ _ _ _ CAR _ _ _ Hk Hb') as (xb & yb & ab & D1 & D2 & D3 & D5 & D4).
  cbn in D1. apply widen_inv in D1 as (x & Hx & ->). destruct (wf_bus_num _ W i x Hx) as (z & _ & Hz).
  exists x, yb, ab, z, b'. do 4 (split; [auto|]). split; [exists x; auto|]. split; [apply cell_ofZ; auto|].
  split. { apply (bus_service_wide p i W). apply (if_sb _ _ _ _ _ _ IF). eapply nth_error_In; eauto. }
  split; auto. intros c N. rewrite D5 by auto. apply wide_cell.
Qed.

Lemma sch_gen k j : nth_error sg k = Some j -> exists x y a n g',
  nth_error (p_gen p) j = Some x /\ nth_error (p_gen q) k = Some y /\ nth_error (p_gen r) j = Some a /\ nth_error gen' k = Some g' /\
  stands_for p1 sb n (names x GEN_BUS) /\ bus_no y GEN_BUS = n /\ gen_in_service p j /\
  (forall c, c <> GEN_BUS -> cell y c = cell x c) /\ (forall c, c <> GEN_BUS -> cell a c = cell g' c).
Proof.
  intros Hk. destruct (nth_error_lt gen' k) as [g' Hg']; [rewrite (ca_gen_len _ _ _ _ _ _ _ _ _ CAR); eapply nth_error_some_lt; eauto|].
  destruct (ca_gen _ _ _ _ _ _ _ _ _ CAR _ _ _ Hk Hg') as (x2 & y2 & a2 & z2 & n2 & C1 & C2 & C3 & C4 & C5 & C6 & C7 & C8 & C9 & C10).
  pose proof (cell_ofZ _ _ _ C4) as Z. cbn in C1. apply widen_inv in C1 as (x & Hx & ->). rewrite wide_cell in Z.
  exists x, y2, a2, n2, g'. do 4 (split; [auto|]). unfold names. rewrite Z. split; auto. split; [apply ofN_no; auto|].
  split. { apply (gen_service_wide p j W). apply (if_sg _ _ _ _ _ _ IF). eapply nth_error_In; eauto. }
  split; auto. intros c N. rewrite C9 by auto. apply wide_cell.
Qed.

Lemma sch_br k j : nth_error sl k = Some j -> exists x y nf nt,
  nth_error (p_branch p) j = Some x /\ nth_error (p_branch q) k = Some y /\
  stands_for p1 sb nf (names x F_BUS) /\ stands_for p1 sb nt (names x T_BUS) /\ bus_no y F_BUS = nf /\ bus_no y T_BUS = nt /\
  branch_in_service p j /\ cell y BR_STATUS = 1%K /\ (forall c, c <> F_BUS -> c <> T_BUS -> cell y c = cell x c).
Proof.
  intros Hk. destruct (nth_error_lt branch' k) as [g Hg]; [rewrite (ca_br_len _ _ _ _ _ _ _ _ _ CAR); eapply nth_error_some_lt; eauto|].
  destruct (ca_br _ _ _ _ _ _ _ _ _ CAR _ _ _ Hk Hg)
    as (x0 & y & a & zf & zt & nf & nt & Hx0 & Hy & Ha & Zf & Sf & Nf & Zt & Stt & Nt & Ef & Et & ON & E1 & E2).
  pose proof (cell_ofZ _ _ _ Zf) as Z1. pose proof (cell_ofZ _ _ _ Zt) as Z2. pose proof (nth_error_cell _ _ _ ON) as ON'.
  cbn in Hx0. apply widen_inv in Hx0 as (x & Hx & ->). rewrite wide_cell in Z1, Z2.
  exists x, y, nf, nt. do 2 (split; [auto|]). unfold names. rewrite Z1, Z2. do 2 (split; [auto|]).
  split; [apply ofN_no; auto|]. split; [apply ofN_no; auto|].
  split. { apply (br_service_wide p j W). apply (if_sl _ _ _ _ _ _ IF). eapply nth_error_In; eauto. }
  split. { rewrite (E1 BR_STATUS) by discriminate. rewrite ON'. apply fofZ_1. }
  intros c N1 N2. rewrite E1 by auto. apply wide_cell.
Qed.

Variables (gens brs : list nat) (th : Z -> K) (pg y : nat -> K).
Hypothesis SC : schedule ign B p gens brs th pg.
Hypothesis AB : above_segments gens pg gc y.

Notation multi := (multi_rows ng gcq).
Definition v_th : list K := map (fun i => th (names (nth i (p_bus p) []) BUS_I)) sb.
Definition v_pg : list K := map (fun j => pg j / B)%K sg.
Definition v_y : list K := map (fun k => y (nth k sg 0)) multi.
Definition v_all : list K := v_th ++ v_pg ++ v_y.

Lemma v_len : length v_th = nb /\ length v_pg = ng /\ length v_all = nb + ng + length multi.
Proof.
  unfold v_all. rewrite !app_length. unfold v_th, v_pg, v_y. rewrite !map_length, (if_bus_len _ _ _ _ _ _ IF), (if_gen_len _ _ _ _ _ _ IF). lia.
Qed.
Lemma v_angles : angles nb v_all = v_th.
Proof. destruct v_len as (<- & _). unfold angles, v_all. rewrite firstn_app, Nat.sub_diag, firstn_all. cbn. apply app_nil_r. Qed.
Lemma v_angle n z : stands_for p1 sb n z -> n < nb /\ nth n v_th 0%K = th z.
Proof.
  intros (i & Hn & Bi). pose proof (nth_error_some_lt _ _ _ Hn) as L. split; [rewrite (if_bus_len _ _ _ _ _ _ IF); auto|].
  unfold v_th. rewrite (nth_map_lt _ sb _ _ 0) by auto. rewrite (nth_error_nth _ _ _ Hn). f_equal.
  apply (bus_at_wide p z i W) in Bi as (x & Hx & Hz). rewrite (nth_error_nth _ _ _ Hx). apply cell_ofZ. auto.
Qed.
Lemma v_output k j : nth_error sg k = Some j -> output nb v_all k = (pg j / B)%K.
Proof.
  intros Hk. pose proof (nth_error_some_lt _ _ _ Hk) as L. destruct v_len as (L1 & L2 & _). unfold output, v_all.
  rewrite app_nth2 by lia. rewrite L1. replace (nb + k - nb) with k by lia. rewrite app_nth1 by (rewrite L2, (if_gen_len _ _ _ _ _ _ IF); auto).
  unfold v_pg. rewrite (nth_map_lt _ sg _ _ 0) by auto. rewrite (nth_error_nth _ _ _ Hk). reflexivity.
Qed.
Lemma v_cost m k : nth_error multi m = Some k -> nth (nb + ng + m) v_all 0%K = y (nth k sg 0).
Proof.
  intros Hm. pose proof (nth_error_some_lt _ _ _ Hm) as L. destruct v_len as (L1 & L2 & _). unfold v_all.
  rewrite app_nth2 by lia. rewrite app_nth2 by lia. rewrite L1, L2. replace (nb + ng + m - nb - ng) with m by lia.
  unfold v_y. rewrite (nth_map_lt _ multi _ _ 0) by auto. rewrite (nth_error_nth _ _ _ Hm). reflexivity.
Qed.

Lemma B_nz : B <> 0%K.
Proof. apply pos_nz. auto. Qed.

Lemma flow_ext k j : nth_error sl k = Some j -> exists x yb, nth_error (p_branch p) j = Some x /\ nth_error (p_branch q) k = Some yb /\
  (B * dc_flow yb v_th = line_flow B th x)%K /\ angle_diff yb v_th = across th x /\ branch_in_service p j /\
  (forall c, c <> F_BUS -> c <> T_BUS -> cell yb c = cell x c) /\
  (forall n i z, nth_error sb n = Some i -> bus_at p z i ->
     (names x F_BUS =? z)%Z = (bus_no yb F_BUS =? n) /\ (names x T_BUS =? z)%Z = (bus_no yb T_BUS =? n)).
Proof.
  intros Hk. destruct (sch_br _ _ Hk) as (x & yb & nf & nt & Hx & Hy & Sf & St & Nf & Nt & Sj & ON & KP).
  exists x, yb. do 2 (split; [auto|]). destruct (v_angle _ _ Sf) as (_ & Af). destruct (v_angle _ _ St) as (_ & At).
  split; [|split; [|split; [auto|split; [auto|]]]].
  - unfold dc_flow, line_flow, across, degrees. rewrite Nf, Nt, ON, Af, At.
    unfold tap_ratio. rewrite (KP SHIFT), (KP BR_X), (KP TAP) by discriminate.
    match goal with |- (_ * (1 * ?a / ?b))%K = _ => assert ((1 * a = a)%K) as -> by ring end. reflexivity.
  - unfold angle_diff, across. rewrite Nf, Nt, Af, At. reflexivity.
  - intros n i z Hn Bi. apply (bus_at_wide p z i W) in Bi. rewrite Nf, Nt.
    split; eapply (ca_same _ _ _ _ _ _ _ _ _ CAR); eauto.
Qed.

Lemma perm_gens : Permutation gens sg.
Proof.
  destruct (sc_gens _ _ _ _ _ _ _ SC) as (ND & I). destruct (if_sg _ _ _ _ _ _ IF) as (ND' & I').
  apply NoDup_Permutation; auto. intros j. rewrite I, I'. symmetry. apply gen_service_wide; auto.
Qed.
Lemma perm_brs : Permutation brs sl.
Proof.
  destruct (sc_brs _ _ _ _ _ _ _ SC) as (ND & I). destruct (if_sl _ _ _ _ _ _ IF) as ((ND' & I') & _).
  apply NoDup_Permutation; auto. intros j. rewrite I, I'. symmetry. apply br_service_wide; auto.
Qed.

Lemma div_le a b : le a b -> le (a / B - b / B)%K 0%K.
Proof.
  intros H. pose proof B_nz. apply le_sub in H. apply le_sub.
  assert ((0 - (a / B - b / B) = (b - a) / B)%K) as -> by (field; auto). apply div_nn; auto.
Qed.

Theorem schedule_point :
  dc_point equal_ no_excess ign B (p_bus q) (p_gen q) (p_branch q) gcq None [] [] [] [] v_all.
Proof.
  pose proof B_nz as NB. constructor.
  - intros k yb Hy. destruct (nth_error_lt sb k) as [i Hk]; [rewrite <- (if_bus_len _ _ _ _ _ _ IF); eapply nth_error_some_lt; eauto|].
    destruct (sch_bus _ _ Hk) as (x & y' & a & z & b' & Hx & Hy' & _ & _ & Bi & _ & Si & KP & _). assert (y' = yb) by congruence. subst y'.
    pose proof (sc_balance _ _ _ _ _ _ _ SC i x z Si Bi Hx) as BAL. rewrite (lsum_perm _ _ _ perm_gens), (lsum_perm _ _ _ perm_brs) in BAL.
    assert (B * injected (p_gen q) nb v_all k = lsum (fun j => if (names (nth j (p_gen p) []) GEN_BUS =? z)%Z then pg j else 0) sg)%K as EI.
    { unfold injected. rewrite <- lsum_scal. apply lsum_pair.
      { rewrite combine_length, seq_length, (if_gen_len _ _ _ _ _ _ IF). lia. }
      intros m (m', g) j Hg Hj. apply combine_seq in Hg as (Hg & E). cbn [fst snd] in *. subst m'. cbn [Nat.add].
      destruct (sch_gen _ _ Hj) as (x2 & y2 & a2 & n2 & g2 & G1 & G2 & _ & _ & G3 & G4 & _). assert (y2 = g) by congruence. subst y2.
      rewrite (nth_error_nth _ _ _ G1). rewrite (v_output _ _ Hj).
      rewrite (ca_same _ _ _ _ _ _ _ _ _ CAR k i z _ n2 Hk (proj2 (bus_at_wide p z i W) Bi) G3). rewrite G4.
      destruct (n2 =? k); [field; auto|ring]. }
    assert (B * net_out (flow_at (angles nb v_all)) (p_branch q) k = lsum (fun j => leaves B th z (nth j (p_branch p) [])) sl)%K as EF.
    { unfold net_out. rewrite <- lsum_scal. apply lsum_pair; [apply (if_br_len _ _ _ _ _ _ IF)|].
      intros m l j Hl Hj. destruct (flow_ext _ _ Hj) as (x2 & y2 & F1 & F2 & F3 & _ & _ & _ & F4). assert (y2 = l) by congruence. subst y2.
      rewrite (nth_error_nth _ _ _ F1). unfold leaves, flow_at. rewrite v_angles. destruct (F4 k i z Hk Bi) as (-> & ->). rewrite <- F3.
      destruct (_ =? k), (_ =? k); ring. }
    unfold equal_. rewrite (KP PD), (KP GS) by discriminate. rewrite <- EI, <- EF in BAL.
    assert (injected (p_gen q) nb v_all k = (cell x PD + cell x GS) / B + net_out (flow_at (angles nb v_all)) (p_branch q) k)%K as ->.
    { assert (forall a b : K, (B * a = B * b)%K -> a = b) as CAN.
      { intros a1 b1 E. assert (a1 = (B * a1) / B)%K as -> by (field; auto). rewrite E. field; auto. }
      apply CAN. rewrite BAL. field; auto. }
    ring.
  - intros l Il FL. apply In_nth_error in Il as (k & Hl).
    destruct (nth_error_lt sl k) as [j Hj]; [rewrite <- (if_br_len _ _ _ _ _ _ IF); eapply nth_error_some_lt; eauto|].
    destruct (flow_ext _ _ Hj) as (x & y2 & F1 & F2 & F3 & _ & Sj & KP & _). assert (y2 = l) by congruence. subst y2.
    assert (flow_limited x) as FL' by (unfold flow_limited in *; rewrite (KP RATE_A) in FL by discriminate; exact FL).
    destruct (sc_flow _ _ _ _ _ _ _ SC j x Sj F1 FL') as (L1 & L2). rewrite <- F3 in L1, L2. rewrite v_angles, (KP RATE_A) by discriminate.
    apply div_le in L1, L2. unfold no_excess.
    assert ((B * dc_flow l v_th / B = dc_flow l v_th)%K) as E1 by (field; auto).
    assert ((- (B * dc_flow l v_th) / B = - dc_flow l v_th)%K) as E2 by (field; auto). rewrite E1 in L1. rewrite E2 in L2. auto.
  - intros k g Hg. destruct (nth_error_lt sg k) as [j Hj]; [rewrite <- (if_gen_len _ _ _ _ _ _ IF); eapply nth_error_some_lt; eauto|].
    destruct (sch_gen _ _ Hj) as (x2 & y2 & a2 & n2 & g2 & G1 & G2 & _ & _ & G3 & G4 & Sj & KP & _). assert (y2 = g) by congruence. subst y2.
    destruct (sc_output _ _ _ _ _ _ _ SC j x2 Sj G1) as (O1 & O2). rewrite (v_output _ _ Hj), (KP PMIN), (KP PMAX) by discriminate.
    unfold no_excess. split; apply div_le; auto.
  - intros k yb Hy TY. destruct (nth_error_lt sb k) as [i Hk]; [rewrite <- (if_bus_len _ _ _ _ _ _ IF); eapply nth_error_some_lt; eauto|].
    destruct (sch_bus _ _ Hk) as (x & y' & a & z & b' & Hx & Hy' & _ & _ & Bi & _ & Si & KP & _). assert (y' = yb) by congruence. subst y'.
    rewrite (KP VA) by discriminate. rewrite (KP BUS_TYPE) in TY by discriminate.
    rewrite <- (sc_reference _ _ _ _ _ _ _ SC i x z Si Bi Hx TY).
    destruct (v_angle k z) as (L & E); [exists i; split; auto; apply bus_at_wide; auto|].
    unfold equal_, v_all. rewrite app_nth1 by (destruct v_len; lia). rewrite E. ring.
  - intros NI l Il AL. apply In_nth_error in Il as (k & Hl).
    destruct (nth_error_lt sl k) as [j Hj]; [rewrite <- (if_br_len _ _ _ _ _ _ IF); eapply nth_error_some_lt; eauto|].
    destruct (flow_ext _ _ Hj) as (x & y2 & F1 & F2 & _ & F3 & Sj & KP & _). assert (y2 = l) by congruence. subst y2.
    assert (angle_limited x) as AL' by (unfold angle_limited in *; rewrite (KP ANGMIN), (KP ANGMAX) in AL by discriminate; exact AL).
    destruct (sc_angles _ _ _ _ _ _ _ SC NI j x Sj F1 AL') as (L1 & L2). rewrite v_angles, F3, (KP ANGMIN), (KP ANGMAX) by discriminate.
    unfold no_excess. split; intros N; [specialize (L1 N); apply le_sub in L1; apply le_sub|specialize (L2 N); apply le_sub in L2; apply le_sub];
      match goal with H : le _ ?a |- le _ ?b => replace b with a by ring; exact H end.
  - intros m k a b Hm IN. rewrite (v_cost _ _ Hm).
    assert (k < ng /\ segmented (nth k gcq []) = true) as (Lk & SG).
    { apply nth_error_In in Hm. unfold multi_rows in Hm. apply filter_In in Hm as (H1 & H2). apply in_seq in H1. split; auto. lia. }
    destruct (nth_error_lt sg k) as [j Hj]; [rewrite <- (if_gen_len _ _ _ _ _ _ IF); auto|].
    rewrite (nth_error_nth _ _ _ Hj). rewrite (v_output _ _ Hj).
    assert ((B * (pg j / B) = pg j)%K) as -> by (field; auto).
    rewrite (cost_row p1 q sb sg sl sa gc gcq IF Hgc Hgq k j Hj) in SG, IN.
    assert (In j gens) as Ij by (apply (Permutation_in _ (Permutation_sym perm_gens)); eapply nth_error_In; eauto).
    pose proof (AB j a b Ij SG IN) as L. apply le_sub in L. unfold no_excess. apply le_sub.
    match goal with H : le _ ?a |- le _ ?b => replace b with a by ring; exact H end.
  - discriminate.
  - cbn. intros k Hk. lia.
Qed.

Theorem schedule_gen_cost : gen_cost B nb ng gcq v_all = schedule_cost gens pg gc y.
Proof.
  pose proof B_nz as NB. destruct (if_sg _ _ _ _ _ _ IF) as (NDs & Is).
  unfold schedule_cost. rewrite (lsum_perm _ _ _ perm_gens). unfold gen_cost, gen_cost_by.
  assert (lsum (fun j => nth (nb + ng + j) v_all 0%K) (seq 0 (length multi)) = lsum (fun k => y (nth k sg 0)) multi) as ->.
  { apply lsum_pair; [apply seq_length|]. intros k a b Ha Hb.
    assert (a = k). { pose proof (nth_error_some_lt _ _ _ Ha) as L. rewrite seq_length in L. rewrite seq_nth_error in Ha by auto. cbn in Ha. congruence. }
    subst a. apply v_cost. auto. }
  unfold multi_rows. rewrite lsum_multi, <- lsum_add. apply lsum_pair.
  { rewrite seq_length, (if_gen_len _ _ _ _ _ _ IF). reflexivity. }
  intros k a j Ha Hj.
  assert (a = k). { pose proof (nth_error_some_lt _ _ _ Ha) as L. rewrite seq_length in L. rewrite seq_nth_error in Ha by auto. cbn in Ha. congruence. }
  subst a. cbv zeta. rewrite (cost_row p1 q sb sg sl sa gc gcq IF Hgc Hgq k j Hj), (v_output _ _ Hj), (nth_error_nth _ _ _ Hj).
  assert ((B * (pg j / B) = pg j)%K) as -> by (field; auto). destruct (segmented _); ring.
Qed.

(** distance from a solved point, measured in the reported tables *)
Variable x : list K.
Hypothesis HB : forall k yb b, nth_error (p_bus q) k = Some yb -> nth_error bus' k = Some b -> degrees (cell b VA) = nth k x 0%K.
Hypothesis HG : forall k yg g, nth_error (p_gen q) k = Some yg -> nth_error gen' k = Some g -> cell g PG = (B * output nb x k)%K.
Theorem schedule_apart buses : lists_exactly buses (bus_in_service p) ->
  lsum (fun j => fabs (nth j v_all 0 - nth j x 0)%K) (seq 0 (nb + ng + length multi))
  = distance_from B p gens th pg gc y r buses (ext_y q sg x gcq).
Proof.
  intros (NDi & Ii). pose proof B_nz as NB. destruct (if_sg _ _ _ _ _ _ IF) as (NDs & Is).
  assert (PB : Permutation buses sb).
  { destruct (if_sb _ _ _ _ _ _ IF) as ((ND' & I') & _). apply NoDup_Permutation; auto. intros j. rewrite Ii, I'. symmetry. apply bus_service_wide; auto. }
  unfold distance_from. rewrite (lsum_perm _ _ _ PB), (lsum_perm _ _ _ perm_gens), (lsum_perm _ gens sg perm_gens).
  rewrite !seq_app, !lsum_app. f_equal; [f_equal|].
  - apply lsum_pair; [rewrite seq_length; apply (if_bus_len _ _ _ _ _ _ IF)|]. intros k a i Ha Hk.
    assert (a = k). { pose proof (nth_error_some_lt _ _ _ Ha) as L. rewrite seq_length in L. rewrite seq_nth_error in Ha by auto. cbn in Ha. congruence. }
    subst a. destruct (sch_bus _ _ Hk) as (xb & yb & a & z & b' & Hx & Hy & Ha' & Hb' & Bi & Nz & Si & KP & KP').
    rewrite (nth_error_nth _ _ _ Hx), (nth_error_nth _ _ _ Ha'), Nz, (KP' VA) by discriminate. rewrite (HB _ _ _ Hy Hb').
    destruct (v_angle k z) as (L & E); [exists i; split; auto; apply bus_at_wide; auto|].
    unfold v_all. rewrite app_nth1 by (destruct v_len; lia). rewrite E. reflexivity.
  - apply lsum_pair; [rewrite seq_length; apply (if_gen_len _ _ _ _ _ _ IF)|]. intros k a j Ha Hk.
    assert (a = nb + k). { pose proof (nth_error_some_lt _ _ _ Ha) as L. rewrite seq_length in L. rewrite seq_nth_error in Ha by auto. cbn in Ha. congruence. }
    subst a. destruct (sch_gen _ _ Hk) as (x2 & y2 & a2 & n2 & g2 & G1 & G2 & G5 & G6 & G3 & G4 & Sj & KP & KP').
    rewrite (nth_error_nth _ _ _ G5), (KP' PG) by discriminate. rewrite (HG _ _ _ G2 G6).
    pose proof (v_output _ _ Hk) as VO. unfold output in *. rewrite VO. f_equal. field; auto.
  - rewrite <- (lsum_pair (fun k => if segmented (nth k gcq []) then fabs (y (nth k sg 0%nat) - yval q x gcq k)%K else 0%K) _ (seq 0 ng) sg).
    + rewrite <- lsum_multi. change (filter (fun i => segmented (nth i gcq [])) (seq 0 ng)) with multi.
      apply lsum_pair; [apply seq_length|]. intros m a k Ha Hm.
      assert (a = nb + ng + m). { pose proof (nth_error_some_lt _ _ _ Ha) as L. rewrite seq_length in L. rewrite seq_nth_error in Ha by auto. cbn in Ha. congruence. }
      subst a. rewrite (v_cost _ _ Hm). unfold yval. rewrite (posn_nth k multi m); auto. apply NoDup_filter, seq_NoDup.
    + rewrite seq_length. apply (if_gen_len _ _ _ _ _ _ IF).
    + intros k a j Ha Hj.
      assert (a = k). { pose proof (nth_error_some_lt _ _ _ Ha) as L. rewrite seq_length in L. rewrite seq_nth_error in Ha by auto. cbn in Ha. congruence. }
      subst a. rewrite (cost_row p1 q sb sg sl sa gc gcq IF Hgc Hgq k j Hj), (nth_error_nth _ _ _ Hj).
      unfold ext_y. rewrite (posn_nth _ _ _ NDs Hj). reflexivity.
Qed.
Hypothesis LG : lists_exactly gens (gen_in_service p).
Lemma PG' : Permutation gens sg.
Proof.
  destruct LG as (ND & I). destruct (if_sg _ _ _ _ _ _ IF) as (ND' & I').
  apply NoDup_Permutation; auto. intros j. rewrite I, I'. symmetry. apply gen_service_wide; auto.
Qed.
Theorem reported_cost : gen_cost B nb ng gcq x = schedule_cost gens (fun j => cell (nth j (p_gen r) []) PG) gc (ext_y q sg x gcq).
Proof.
  destruct (if_sg _ _ _ _ _ _ IF) as (NDs & Is). unfold schedule_cost. rewrite (lsum_perm _ _ _ PG').
  unfold gen_cost, gen_cost_by. rewrite cost_vars. unfold multi_rows. rewrite lsum_multi, <- lsum_add. apply lsum_pair.
  { rewrite seq_length, (if_gen_len _ _ _ _ _ _ IF). reflexivity. }
  intros k a j Ha Hj.
  assert (a = k). { pose proof (nth_error_some_lt _ _ _ Ha) as L. rewrite seq_length in L. rewrite seq_nth_error in Ha by auto. cbn in Ha. congruence. }
  subst a. cbv zeta. rewrite (cost_row p1 q sb sg sl sa gc gcq IF Hgc Hgq k j Hj).
  destruct (sch_gen _ _ Hj) as (x2 & y2 & a2 & n2 & g2 & G1 & G2 & G5 & G6 & G3 & G4 & Sj & KP & KP').
  rewrite (nth_error_nth _ _ _ G5), (KP' PG) by discriminate. rewrite (HG _ _ _ G2 G6).
  destruct (segmented _); [|ring]. unfold ext_y. rewrite (posn_nth _ _ _ NDs Hj). ring.
Qed.
End Schedule.
