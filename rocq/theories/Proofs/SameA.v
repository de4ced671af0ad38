(** The power flow equations of two descriptions of one network have the same solutions. *)
From Coq Require Import Permutation FinFun Lia.
From Verif Require Import Lib.ListFacts Proofs.TableEdit Proofs.PfsolnA Proofs.NetworkE Spec.SameSpec Proofs.SparseFacts Proofs.NetworkA Proofs.FldFacts Proofs.RunPfB Proofs.FlowA.
Local Open Scope nat_scope.

Section Same.
Context {K : Type} {F : Fld K}.
Add Field KF : (@f_ok K F).

(** sums over matching positions *)
Lemma matched_perm s P P' idx idx' : matches s P P' -> lists_exactly idx P -> lists_exactly idx' P' ->
  Permutation idx (map s idx').
Proof.
  intros M (N & I) (N' & I'). apply NoDup_Permutation; auto.
  - assert (G : forall l, NoDup l -> (forall i, In i l -> P' i) -> NoDup (map s l)).
    { induction l as [|x l IH]; intros ND Q; cbn; [constructor|]. inversion ND as [|? ? N1 N2]; subst. constructor.
      - intros C. apply in_map_iff in C as (y & E & Hy). apply N1. rewrite (mt_one _ _ _ M x y); auto; [apply Q; left; auto|apply Q; right; auto].
      - apply IH; auto. intros i Hi. apply Q. right; auto. }
    apply G; auto. intros i. apply I'.
  - intros i. split; intros H.
    + apply I in H. destruct (mt_onto _ _ _ M _ H) as (i' & P1 & <-). apply in_map. apply I'; auto.
    + apply in_map_iff in H as (i' & <- & H). apply I. apply (mt_in _ _ _ M). apply I'; auto.
Qed.
Lemma lsum_matched s P P' idx idx' (f g : nat -> K) : matches s P P' -> lists_exactly idx P -> lists_exactly idx' P' ->
  (forall i, P' i -> f (s i) = g i) -> lsum f idx = lsum g idx'.
Proof.
  intros M I I' H. rewrite (lsum_perm f _ _ (matched_perm _ _ _ _ _ M I I')), lsum_map.
  apply lsum_ext. intros i Hi. apply H. apply I'; auto.
Qed.

Variables (B : K) (rho : Z -> Z) (sb sg sl : nat -> nat) (p p' : ppc_of K).
Hypothesis W : wf_case p.
Hypothesis W' : wf_case p'.
Hypothesis S : same_network rho sb sg sl p p'.

Lemma same_bus i z : bus_in_service p i -> bus_at p z i ->
  exists i', bus_in_service p' i' /\ sb i' = i /\ bus_at p' (rho z) i'.
Proof.
  intros I (b & Hb & Hz). destruct (mt_onto _ _ _ (sn_buses _ _ _ _ _ _ S) _ I) as (i' & I' & <-).
  pose proof I' as (b' & Hb' & _). exists i'. split; auto. split; auto. exists b'. split; auto.
  apply (sn_bus _ _ _ _ _ _ S i' b b' I' Hb Hb'). exact Hz.
Qed.
Lemma same_bus_back i' : bus_in_service p' i' -> exists z, bus_at p z (sb i') /\ bus_at p' (rho z) i'.
Proof.
  intros I'. pose proof (mt_in _ _ _ (sn_buses _ _ _ _ _ _ S) _ I') as I. pose proof I as (b & Hb & _).
  pose proof I' as (b' & Hb' & _). destruct (wf_bus_num _ W _ _ Hb) as (z & _ & Hz). exists z. split; [exists b; auto|].
  exists b'. split; auto. apply (sn_bus _ _ _ _ _ _ S i' b b' I' Hb Hb'). exact Hz.
Qed.

Lemma same_reference i z : bus_in_service p i -> bus_at p z i -> (reference p z <-> reference p' (rho z)).
Proof.
  intros I A. destruct (same_bus i z I A) as (i' & I' & <- & A'). pose proof A as (b & Hb & _). pose proof A' as (b' & Hb' & _).
  destruct (sn_bus _ _ _ _ _ _ S i' b b' I' Hb Hb') as (_ & T & _). split.
  - intros (k & c & Ik & Ak & Hc & Tc). assert (k = sb i') by (eapply (wf_bus_distinct _ W); eauto). subst k.
    assert (c = b) by congruence. subst c. exists i', b'. split; auto. split; auto. split; auto. congruence.
  - intros (k & c & Ik & Ak & Hc & Tc). assert (k = i') by (eapply (wf_bus_distinct _ W'); eauto). subst k.
    assert (c = b') by congruence. subst c. exists (sb i'), b. split; auto. split; auto. split; auto. congruence.
Qed.

Lemma same_number i z y j : bus_in_service p i -> bus_at p z i -> bus_in_service p j -> bus_at p y j ->
  (rho y =? rho z)%Z = (y =? z)%Z.
Proof.
  intros I A J C. destruct (y =? z)%Z eqn:E.
  - apply Z.eqb_eq in E. subst. apply Z.eqb_refl.
  - apply Z.eqb_neq in E. apply Z.eqb_neq. intros X. apply E. exact (sn_distinct _ _ _ _ _ _ S y z j i J C I A X).
Qed.

Lemma same_line j l l' th' : branch_in_service p' j -> nth_error (p_branch p) (sl j) = Some l -> nth_error (p_branch p') j = Some l' ->
  names l' F_BUS = rho (names l F_BUS) /\ names l' T_BUS = rho (names l T_BUS) /\
  line_flow B th' l' = line_flow B (fun z => th' (rho z)) l.
Proof.
  intros J Hl Hl'. destruct (sn_branch _ _ _ _ _ _ S j l l' J Hl Hl') as (Ff & Ft & X & T & H).
  pose proof (mt_in _ _ _ (sn_branches _ _ _ _ _ _ S) _ J) as (m & Hm & _ & (zf & jf & Cf & _) & (zt & jt & Ct & _)).
  assert (m = l) by congruence. subst m.
  assert (Nf : names l' F_BUS = rho (names l F_BUS)). { unfold names. rewrite (cell_ofZ _ _ _ Cf), (cell_ofZ _ _ _ (Ff _ Cf)). reflexivity. }
  assert (Nt : names l' T_BUS = rho (names l T_BUS)). { unfold names. rewrite (cell_ofZ _ _ _ Ct), (cell_ofZ _ _ _ (Ft _ Ct)). reflexivity. }
  split; auto. split; auto. unfold line_flow, across, tap_ratio. rewrite Nf, Nt, X, T, H. reflexivity.
Qed.

(** solutions for [p'] are solutions for [p] *)
Theorem same_flow gens brs gens' brs' th' :
  lists_exactly gens (gen_in_service p) -> lists_exactly brs (branch_in_service p) ->
  lists_exactly gens' (gen_in_service p') -> lists_exactly brs' (branch_in_service p') ->
  power_flow B p' gens' brs' th' -> power_flow B p gens brs (fun z => th' (rho z)).
Proof.
  intros G L G' L' PF. split.
  - intros i b z I A Hb R. destruct (same_bus i z I A) as (i' & I' & <- & A'). pose proof A' as (b' & Hb' & _).
    destruct (sn_bus _ _ _ _ _ _ S i' b b' I' Hb Hb') as (_ & _ & D & GS' & _).
    assert (R' : ~ reference p' (rho z)) by (intros C; apply R; eapply same_reference; eauto).
    pose proof (fl_balance _ _ _ _ _ PF i' b' (rho z) I' A' Hb' R') as Q. rewrite D, GS' in Q.
    assert (QG : served p gens (fun g => cell g PG) z = served p' gens' (fun g => cell g PG) (rho z)).
    { unfold served. apply (lsum_matched _ _ _ _ _ _ _ (sn_gens _ _ _ _ _ _ S) G G'). intros j J. cbn beta zeta.
      pose proof (mt_in _ _ _ (sn_gens _ _ _ _ _ _ S) _ J) as (g & _ & Hg & _ & _ & (zg & k & Cg & Ag & Kg)).
      pose proof J as (g' & _ & Hg' & _). destruct (sn_gen _ _ _ _ _ _ S j g g' J Hg Hg' zg Cg) as (Cg' & E).
      rewrite (nth_error_nth _ _ _ Hg), (nth_error_nth _ _ _ Hg'), (cell_ofZ _ _ _ Cg), (cell_ofZ _ _ _ Cg').
      rewrite (same_number _ z zg k I A Kg Ag). destruct (zg =? z)%Z eqn:EZ; auto. apply Z.eqb_eq in EZ. subst zg. symmetry; auto. }
    assert (QL : lsum (fun j => leaves B (fun z => th' (rho z)) z (nth j (p_branch p) [])) brs
                 = lsum (fun j => leaves B th' (rho z) (nth j (p_branch p') [])) brs').
    { apply (lsum_matched _ _ _ _ _ _ _ (sn_branches _ _ _ _ _ _ S) L L'). intros j J. cbn beta.
      pose proof (mt_in _ _ _ (sn_branches _ _ _ _ _ _ S) _ J) as J0. pose proof J0 as (l & Hl & _). pose proof J as (l' & Hl' & _).
      destruct (same_line j l l' th' J Hl Hl') as (Nf & Nt & E). rewrite (nth_error_nth _ _ _ Hl), (nth_error_nth _ _ _ Hl').
      destruct (ends p (sl j) l J0 Hl _ (or_introl eq_refl)) as (i1 & I1 & A1). destruct (ends p (sl j) l J0 Hl _ (or_intror eq_refl)) as (i2 & I2 & A2).
      unfold leaves. rewrite Nf, Nt, E, (same_number _ z _ _ I A I1 A1), (same_number _ z _ _ I A I2 A2). reflexivity. }
    rewrite QG, QL. exact Q.
  - intros i b z I A Hb R. destruct (same_bus i z I A) as (i' & I' & <- & A'). pose proof A' as (b' & Hb' & _).
    destruct (sn_bus _ _ _ _ _ _ S i' b b' I' Hb Hb') as (_ & _ & _ & _ & V).
    rewrite (fl_reference _ _ _ _ _ PF i' b' (rho z) I' A' Hb' (proj1 (same_reference _ _ I A) R)).
    destruct R as (k & c & Ik & Ak & Hc & Tc). assert (k = sb i') by (eapply (wf_bus_distinct _ W); eauto). subst k.
    assert (c = b) by congruence. subst c. rewrite (V Tc). reflexivity.
Qed.

Lemma same_served : references_served p -> references_served p'.
Proof.
  intros ((z & R) & H). split.
  - pose proof R as (i & b & I & A & _). exists (rho z). apply (same_reference i z I A). exact R.
  - intros z' R'. pose proof R' as (i' & b' & I' & A' & Hb' & _). destruct (same_bus_back i' I') as (y & Ay & Ay').
    assert (z' = rho y).
    { destruct A' as (c & Hc & E1). destruct Ay' as (d & Hd & E2). assert (c = d) by congruence. subst d.
      rewrite <- (cell_ofZ _ _ _ E1). apply (cell_ofZ _ _ _ E2). }
    subst z'. pose proof (mt_in _ _ _ (sn_buses _ _ _ _ _ _ S) _ I') as I.
    destruct (H y (proj2 (same_reference _ _ I Ay) R')) as (g & j & J & Hg & Cg).
    destruct (mt_onto _ _ _ (sn_gens _ _ _ _ _ _ S) _ J) as (j' & J' & <-). pose proof J' as (g' & _ & Hg' & _).
    exists g', j'. split; auto. split; auto. apply (sn_gen _ _ _ _ _ _ S j' g g' J' Hg Hg' y Cg).
Qed.
End Same.

(** ** Rows in another order, under other numbers *)
Section Rewritten.
Context {K : Type} {F : Fld K}.

Lemma perm_positions {T U} (f : T -> U) (t : list T) (t' : list U) : Permutation (map f t) t' ->
  exists s, matches s (fun i => i < length t) (fun i => i < length t') /\ forall i, i < length t' -> nth_error t' i = option_map f (nth_error t (s i)).
Proof.
  intros P. destruct t as [|d t0] eqn:Et.
  { cbn in P. apply Permutation_nil in P. subst t'. exists (fun i => i). split; [split; cbn; auto; intros; lia|]. cbn. intros; lia. }
  rewrite <- Et in *. assert (Lt : length t' = length t) by (rewrite <- (Permutation_length P); apply map_length).
  apply (Permutation_nth (map f t) t' (f d)) in P. cbv zeta in P. rewrite map_length in P. destruct P as (_ & s & BF & BI & H).
  exists s. rewrite Lt. split.
  - split.
    + intros i Hi. apply BF, Hi.
    + intros i j Hi Hj. apply BI; auto.
    + intros i Hi. destruct (proj1 (bInjective_bSurjective BF) BI i Hi) as (x & Hx & E). eauto.
  - intros i Hi. pose proof (H i Hi) as E. pose proof (BF i Hi) as Hs.
    destruct (nth_error t (s i)) as [x|] eqn:Ex; [|apply nth_error_None in Ex; lia]. cbn [option_map].
    rewrite (nth_error_nth' t' (f d)) by lia. f_equal. rewrite E. rewrite map_nth. f_equal. apply nth_error_nth. exact Ex.
Qed.

Lemma relabel_at rho c (r : list K) z : nth_error r c = Some (ofZ z) -> nth_error (relabel rho c r) c = Some (ofZ (rho z)).
Proof.
  intros H. unfold relabel. rewrite H. rewrite nth_error_upd_same by (eapply nth_error_some_lt; eauto).
  change (ofZ z : K) with (fofZ z : K). rewrite ftrunc_ofZ. reflexivity.
Qed.
Lemma relabel_other rho c d (r : list K) : c <> d -> nth_error (relabel rho c r) d = nth_error r d.
Proof. intros N. unfold relabel. destruct (nth_error r c); auto. apply nth_error_upd_other. auto. Qed.
Lemma relabel_cell rho c d (r : list K) : c <> d -> cell (relabel rho c r) d = cell r d.
Proof. intros N. unfold relabel. destruct (nth_error r c); auto. apply upd_cell_other. auto. Qed.

Variables (rho : Z -> Z) (p p' : ppc_of K).
Hypothesis W : wf_case p.
Hypothesis R : rewritten rho p p'.

Theorem rewritten_same : exists sb sg sl, same_network rho sb sg sl p p' /\
  (forall i, i < length (p_bus p') -> nth_error (p_bus p') i = option_map (relabel rho BUS_I) (nth_error (p_bus p) (sb i))) /\
  (forall i, i < length (p_branch p') ->
      nth_error (p_branch p') i = option_map (fun l => relabel rho T_BUS (relabel rho F_BUS l)) (nth_error (p_branch p) (sl i))).
Proof.
  destruct (perm_positions _ _ _ (rw_bus _ _ _ R)) as (sb & MB & HB).
  destruct (perm_positions _ _ _ (rw_gen _ _ _ R)) as (sg & MG & HG).
  destruct (perm_positions _ _ _ (rw_branch _ _ _ R)) as (sl & ML & HL).
  assert (LB : forall i b', nth_error (p_bus p') i = Some b' -> exists b, nth_error (p_bus p) (sb i) = Some b /\ b' = relabel rho BUS_I b).
  { intros i b' H. rewrite (HB i) in H by (eapply nth_error_some_lt; eauto). destruct (nth_error (p_bus p) (sb i)) as [b|]; [|discriminate].
    injection H as <-. eauto. }
  assert (LG : forall i b', nth_error (p_gen p') i = Some b' -> exists b, nth_error (p_gen p) (sg i) = Some b /\ b' = relabel rho GEN_BUS b).
  { intros i b' H. rewrite (HG i) in H by (eapply nth_error_some_lt; eauto). destruct (nth_error (p_gen p) (sg i)) as [b|]; [|discriminate].
    injection H as <-. eauto. }
  assert (LL : forall i b', nth_error (p_branch p') i = Some b' -> exists b, nth_error (p_branch p) (sl i) = Some b /\ b' = relabel rho T_BUS (relabel rho F_BUS b)).
  { intros i b' H. rewrite (HL i) in H by (eapply nth_error_some_lt; eauto). destruct (nth_error (p_branch p) (sl i)) as [b|]; [|discriminate].
    injection H as <-. eauto. }
  assert (SB : forall i, i < length (p_bus p') -> (bus_in_service p' i <-> bus_in_service p (sb i))).
  { intros i Hi. split.
    - intros (b' & Hb' & T). destruct (LB _ _ Hb') as (b & Hb & ->). exists b. split; auto. rewrite relabel_other in T by discriminate. exact T.
    - intros (b & Hb & T). exists (relabel rho BUS_I b). split; [rewrite (HB i Hi), Hb; reflexivity|]. rewrite relabel_other by discriminate. exact T. }
  assert (AB : forall i z, i < length (p_bus p') -> bus_at p z (sb i) -> bus_at p' (rho z) i).
  { intros i z Hi (b & Hb & Hz). exists (relabel rho BUS_I b). split; [rewrite (HB i Hi), Hb; reflexivity|]. apply relabel_at, Hz. }
  assert (AB' : forall i z', bus_at p' z' i -> exists z, z' = rho z /\ bus_at p z (sb i)).
  { intros i z' (b' & Hb' & Hz'). destruct (LB _ _ Hb') as (b & Hb & ->). destruct (wf_bus_num _ W _ _ Hb) as (z & _ & Hz).
    exists z. split; [|exists b; auto]. pose proof (relabel_at rho _ _ _ Hz) as Q. rewrite Hz' in Q. injection Q as Q.
    apply fofZ_inj. exact Q. }
  assert (CN : forall c c0 r r' z, names_bus p c r z -> nth_error r' c0 = Some (ofZ (rho z)) -> (connected p' c0 r' <-> connected p c r)).
  { intros c c0 r r' z (Hz & i0 & A0) Hr'. split.
    - intros (z' & i & Hz' & A & S). rewrite Hr' in Hz'. injection Hz' as Q. apply fofZ_inj in Q.
      destruct (AB' _ _ A) as (y & E & Ay). assert (y = z) by (apply (rw_distinct _ _ _ R y z (sb i) i0); congruence). subst y.
      exists z, (sb i). split; auto. split; auto. apply SB; auto. destruct A as (? & H & _). eapply nth_error_some_lt; eauto.
    - intros (z1 & i & Hz1 & A & S). rewrite Hz in Hz1. injection Hz1 as Q. apply fofZ_inj in Q. subst z1.
      destruct (mt_onto _ _ _ MB i) as (i' & Hi' & <-); [destruct A as (? & H & _); eapply nth_error_some_lt; eauto|].
      exists (rho z), i'. split; auto. split; [apply AB; auto|apply SB; auto]. }
  assert (SG : forall j, j < length (p_gen p') -> (gen_in_service p' j <-> gen_in_service p (sg j))).
  { intros j Hj. assert (X : forall g, nth_error (p_gen p) (sg j) = Some g -> connected p' GEN_BUS (relabel rho GEN_BUS g) <-> connected p GEN_BUS g).
    { intros g Hg. destruct (wf_gen_bus _ W g (nth_error_In _ _ Hg)) as (z & N). apply (CN GEN_BUS GEN_BUS _ _ z N). apply relabel_at, N. }
    split.
    - intros (g' & s & Hg' & Hs & T & C). destruct (LG _ _ Hg') as (g & Hg & ->). exists g, s. rewrite relabel_other in Hs by discriminate.
      repeat split; auto. apply X; auto.
    - intros (g & s & Hg & Hs & T & C). exists (relabel rho GEN_BUS g), s. split; [rewrite (HG j Hj), Hg; reflexivity|].
      rewrite relabel_other by discriminate. repeat split; auto. apply X; auto. }
  assert (RB : forall l zf zt, nth_error l F_BUS = Some (ofZ zf) -> nth_error l T_BUS = Some (ofZ zt) ->
     nth_error (relabel rho T_BUS (relabel rho F_BUS l)) F_BUS = Some (ofZ (rho zf)) /\
     nth_error (relabel rho T_BUS (relabel rho F_BUS l)) T_BUS = Some (ofZ (rho zt))).
  { intros l zf zt Hf Ht. split; [rewrite relabel_other by discriminate; apply relabel_at, Hf|].
    apply relabel_at. rewrite relabel_other by discriminate. exact Ht. }
  assert (SL : forall j, j < length (p_branch p') -> (branch_in_service p' j <-> branch_in_service p (sl j))).
  { intros j Hj. assert (X : forall l, nth_error (p_branch p) (sl j) = Some l ->
       (connected p' F_BUS (relabel rho T_BUS (relabel rho F_BUS l)) <-> connected p F_BUS l) /\
       (connected p' T_BUS (relabel rho T_BUS (relabel rho F_BUS l)) <-> connected p T_BUS l)).
    { intros l Hl. destruct (wf_br_bus _ W l (nth_error_In _ _ Hl)) as ((zf & Nf) & (zt & Nt)).
      destruct (RB l zf zt (proj1 Nf) (proj1 Nt)) as (Q1 & Q2). split; [exact (CN F_BUS F_BUS _ _ zf Nf Q1)|exact (CN T_BUS T_BUS _ _ zt Nt Q2)]. }
    split.
    - intros (l' & Hl' & Hs & C1 & C2). destruct (LL _ _ Hl') as (l & Hl & ->). exists l. rewrite !relabel_other in Hs by discriminate.
      destruct (X l Hl). repeat split; auto; tauto.
    - intros (l & Hl & Hs & C1 & C2). exists (relabel rho T_BUS (relabel rho F_BUS l)). split; [rewrite (HL j Hj), Hl; reflexivity|].
      rewrite !relabel_other by discriminate. destruct (X l Hl). repeat split; auto; tauto. }
  assert (LE : forall i, bus_in_service p' i -> i < length (p_bus p')) by (intros i (? & H & _); eapply nth_error_some_lt; eauto).
  assert (LE2 : forall i, gen_in_service p' i -> i < length (p_gen p')) by (intros i (? & ? & H & _); eapply nth_error_some_lt; eauto).
  assert (LE3 : forall i, branch_in_service p' i -> i < length (p_branch p')) by (intros i (? & H & _); eapply nth_error_some_lt; eauto).
  exists sb, sg, sl. split; [|split; [exact HB|exact HL]]. split.
  - split.
    + intros i I. apply SB; auto.
    + intros i j I J. apply (mt_one _ _ _ MB); auto.
    + intros i I. pose proof I as (? & H & _). destruct (mt_onto _ _ _ MB i) as (i' & Hi' & <-); [eapply nth_error_some_lt; eauto|].
      exists i'. split; auto. apply SB; auto.
  - split.
    + intros i I. apply SG; auto.
    + intros i j I J. apply (mt_one _ _ _ MG); auto.
    + intros i I. pose proof I as (? & ? & H & _). destruct (mt_onto _ _ _ MG i) as (i' & Hi' & <-); [eapply nth_error_some_lt; eauto|].
      exists i'. split; auto. apply SG; auto.
  - split.
    + intros i I. apply SL; auto.
    + intros i j I J. apply (mt_one _ _ _ ML); auto.
    + intros i I. pose proof I as (? & H & _). destruct (mt_onto _ _ _ ML i) as (i' & Hi' & <-); [eapply nth_error_some_lt; eauto|].
      exists i'. split; auto. apply SL; auto.
  - intros z z' i i' _ A _ A'. apply (rw_distinct _ _ _ R z z' i i'); auto.
  - intros i b b' I Hb Hb'. destruct (LB _ _ Hb') as (b1 & Hb1 & ->). assert (b1 = b) by congruence. subst b1.
    split; [intros z; apply relabel_at|]. rewrite !relabel_cell by discriminate. auto.
  - intros j g g' J Hg Hg' z Hz. destruct (LG _ _ Hg') as (g1 & Hg1 & ->). assert (g1 = g) by congruence. subst g1.
    split; [apply relabel_at, Hz|]. intros _. apply relabel_cell. discriminate.
  - intros j l l' J Hl Hl'. destruct (LL _ _ Hl') as (l1 & Hl1 & ->). assert (l1 = l) by congruence. subst l1.
    pose proof (mt_in _ _ _ (Build_matches sl (branch_in_service p) (branch_in_service p')
      ltac:(intros i I; apply SL; auto) ltac:(intros i k I Q; apply (mt_one _ _ _ ML); auto)
      ltac:(intros i I; pose proof I as (? & H & _); destruct (mt_onto _ _ _ ML i) as (i' & Hi' & <-); [eapply nth_error_some_lt; eauto|]; exists i'; split; auto; apply SL; auto)) j J) as J0.
    destruct J0 as (m & Hm & _ & (zf & _ & Cf & _) & (zt & _ & Ct & _)). assert (m = l) by congruence. subst m.
    destruct (RB l zf zt Cf Ct) as (Q1 & Q2).
    split; [intros z Hz; rewrite Cf in Hz; injection Hz as Hz; apply fofZ_inj in Hz; subst; exact Q1|].
    split; [intros z Hz; rewrite Ct in Hz; injection Hz as Hz; apply fofZ_inj in Hz; subst; exact Q2|].
    rewrite !relabel_cell by discriminate. auto.
Qed.
End Rewritten.
