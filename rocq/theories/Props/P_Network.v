(** C15 (bus types), C16 (DC matrices), C17 (DC power flow). *)
From Coq Require Import Permutation Sorted.
From Verif Require Import Lib.ListFacts Lib.Sparse Lib.QcFacts Proofs.LinAlgFacts
  Proofs.SparseFacts Model.Network Spec.NetSpec Proofs.NetworkA Proofs.NetworkB
  Proofs.NetworkC Proofs.NetworkD Proofs.NetworkE.
Local Open Scope nat_scope.

Section Theorems.
Context {K : Type} {F : Fld K}.
Add Ring KR : (@r_ok K _).
Add Field KF : (@f_ok K _).
Implicit Types bus gen branch : list (list K).

(** ** C15 *)

(** with types PQ/PV/REF every bus is in exactly one of the three lists *)
Theorem C15_partition :
  forall bus gen ref pv pq, bustypes bus gen = Ok (ref, pv, pq) -> types_ok bus ->
  Permutation (ref ++ pv ++ pq) (seq 0 (length bus)).
Proof. exact bustypes_partition. Qed.

(** a bus without in-service generator is a PQ bus and nothing else, whatever its type *)
Theorem C15_no_generator :
  forall bus gen ref pv pq i, bustypes bus gen = Ok (ref, pv, pq) -> i < length bus ->
  ~ has_gen gen i -> In i pq /\ ~ In i ref /\ ~ In i pv.
Proof.
  intros bus gen ref pv pq i H Li N. split; [|split; intros C; apply N;
    eapply bustypes_gen; eauto].
  assert (In i (find (mask bus gen m_pq))).
  { apply in_mask. destruct (nth_error_lt bus i Li) as (r & Hr). exists r. split; auto.
    unfold m_pq. destruct (gen_on gen i) eqn:E; [|apply orb_true_r].
    apply gen_on_iff in E. contradiction. }
  destruct (bustypes_cases _ _ _ _ _ H) as [(_ & _ & _ & ->)|(p & _ & _ & _ & ->)]; auto.
Qed.

(** which buses are in the lists; a PV bus is promoted only if no reference bus is usable, and
    then it is the first one *)
Theorem C15_members :
  forall bus gen ref pv pq, bustypes bus gen = Ok (ref, pv, pq) ->
  (forall i, In i pq <-> has_type bus i 1 \/ (i < length bus /\ ~ has_gen gen i)) /\
  (((exists i, has_type bus i 3 /\ has_gen gen i) /\
    (forall i, In i ref <-> has_type bus i 3 /\ has_gen gen i) /\
    (forall i, In i pv <-> has_type bus i 2 /\ has_gen gen i)) \/
   ((~ exists i, has_type bus i 3 /\ has_gen gen i) /\
    exists p, ref = [p] /\ has_type bus p 2 /\ has_gen gen p /\
    (forall i, In i pv <-> p < i /\ has_type bus i 2 /\ has_gen gen i) /\
    (forall i, i < p -> has_type bus i 2 -> ~ has_gen gen i))).
Proof.
  intros bus gen ref pv pq H.
  assert (forall z i, (exists r, nth_error bus i = Some r /\
            feqb (cell r BUS_TYPE) (fofZ z) && gen_on gen i = true)
          <-> has_type bus i z /\ has_gen gen i) as M.
  { intros z i. rewrite <- gen_on_iff. unfold has_type. split.
    - intros (r & Hr & E). apply andb_true_iff in E as [E G]. apply feqb_ok in E. eauto.
    - intros ((r & Hr & E) & G). exists r. split; auto. apply andb_true_iff. split; auto.
      apply feqb_ok; auto. }
  assert (forall i, In i (find (mask bus gen m_ref)) <-> has_type bus i 3 /\ has_gen gen i) as MR
    by (intros i; rewrite in_mask; apply (M 3%Z)).
  assert (forall i, In i (find (mask bus gen m_pv)) <-> has_type bus i 2 /\ has_gen gen i) as MV
    by (intros i; rewrite in_mask; apply (M 2%Z)).
  assert (forall i, In i (find (mask bus gen m_pq)) <->
            has_type bus i 1 \/ (i < length bus /\ ~ has_gen gen i)) as MQ.
  { intros i. rewrite in_mask. unfold has_type, m_pq, PQ_BUS. rewrite <- gen_on_iff. split.
    - intros (r & Hr & E). apply orb_true_iff in E as [E|E].
      + apply feqb_ok in E. eauto.
      + right. split; [eapply nth_error_some_lt; eauto|]. apply negb_true_iff in E. congruence.
    - intros [(r & Hr & E)|[Li N]].
      + exists r. split; auto. apply orb_true_iff. left. apply feqb_ok; auto.
      + destruct (nth_error_lt bus i Li) as (r & Hr). exists r. split; auto.
        apply orb_true_iff. right. apply negb_true_iff. destruct (gen_on gen i); congruence. }
  pose proof (find_sorted (mask bus gen m_pv)) as SS.
  destruct (bustypes_cases _ _ _ _ _ H) as [(NE & -> & -> & ->)|(p & E & -> & E' & ->)];
    (split; [exact MQ|]).
  - left. split; [|split; auto]. destruct (find (mask bus gen m_ref)) as [|i l] eqn:E; [congruence|].
    exists i. apply MR. left; auto.
  - right. split.
    + intros (i & C). apply MR in C. rewrite E in C. contradiction.
    + exists p. rewrite E' in SS, MV. inversion SS as [|? ? _ FA]; subst.
      rewrite Forall_forall in FA.
      split; auto. destruct (proj1 (MV p) (or_introl eq_refl)) as [A B]. split; auto. split; auto.
      split.
      * intros i. split.
        -- intros Hi. split; [apply FA; auto|]. apply MV. right; auto.
        -- intros (Li & C). apply MV in C. destruct C as [->|C]; auto. lia.
      * intros i Li T G. assert (In i (p :: pv)) as C by (apply MV; auto).
        destruct C as [->|C]; [lia|]. specialize (FA _ C). lia.
Qed.

(** it fails exactly when no reference or PV bus has an in-service generator *)
Theorem C15_error :
  forall bus gen, wide GEN_STATUS gen -> buses_ok (length bus) GEN_BUS gen -> wide BUS_TYPE bus ->
  (exists r, bustypes bus gen = Ok r) <->
  exists i, (has_type bus i 3 \/ has_type bus i 2) /\ has_gen gen i.
Proof.
  intros bus gen W B WB. pose proof (bustypes_pick bus gen _ eq_refl W B WB) as P. split.
  - intros ([[ref pv] pq] & H). destruct (C15_members _ _ _ _ _ H)
      as (_ & [((i & T & G) & _)|(_ & p & _ & T & G & _)]); eauto.
  - intros (i & T & G). rewrite P. unfold pick.
    destruct (find (mask bus gen m_ref)) eqn:E; [|eauto].
    destruct (find (mask bus gen m_pv)) eqn:E'; [exfalso|eauto].
    destruct T as [(r & Hr & T)|(r & Hr & T)].
    + assert (In i (find (mask bus gen m_ref))) as C; [|rewrite E in C; contradiction].
      apply in_mask. exists r. split; auto. unfold m_ref, REF_BUS. rewrite T, feqb_fofZ. simpl.
      apply gen_on_iff; auto.
    + assert (In i (find (mask bus gen m_pv))) as C; [|rewrite E' in C; contradiction].
      apply in_mask. exists r. split; auto. unfold m_pv, PV_BUS. rewrite T, feqb_fofZ. simpl.
      apply gen_on_iff; auto.
Qed.

(** ** C16 *)

(** the matrices exist for every usable branch table with nonzero reactances *)
Theorem C16_defined :
  forall bus branch, wide BUS_I bus -> wide BR_STATUS branch ->
  buses_ok (length bus) F_BUS branch -> buses_ok (length bus) T_BUS branch ->
  Forall (fun r => cell r BR_X <> 0%K) branch ->
  exists Bbus Bf Pbi Pfi, makeBdc bus branch = Ok (Bbus, Bf, Pbi, Pfi).
Proof. exact makeBdc_def. Qed.

(** [Bf * Va + Pfinj] is the DC branch equation of every branch *)
Theorem C16_branch_flows :
  forall bus branch Bbus Bf Pbi Pfi, makeBdc bus branch = Ok (Bbus, Bf, Pbi, Pfi) ->
  forall Va, length Va = length bus ->
  exists bv, mulv Bf Va = Ok bv /\ map2 radd bv Pfi = map (fun r => dc_flow r Va) branch.
Proof.
  intros bus branch Bbus Bf Pbi Pfi H Va L. apply makeBdc_ok in H.
  destruct H as [_ _ _ BX _ (_ & NR & NC) FLOW EPfi _ _].
  rewrite mulv_def by lia. eexists. split; [reflexivity|].
  assert (map (mulrow Bf Va) (seq 0 (nrows Bf)) = map (fun r => susc r * dth r Va)%K branch) as ->.
  { rewrite NR. apply nth_error_ext. intros l. rewrite !nth_error_map.
    destruct (nth_error branch l) as [r|] eqn:E.
    - rewrite seq_nth_error by (eapply nth_error_some_lt; eauto). simpl.
      rewrite (FLOW _ _ _ E). reflexivity.
    - rewrite (proj2 (nth_error_None _ _)); auto. rewrite seq_length. apply nth_error_None; auto. }
  rewrite EPfi, map2_map. apply map_ext_in. intros r Hr.
  rewrite Forall_forall in BX. rewrite dc_flow_susc; auto.
Qed.

(** [Bbus * Va + Pbusinj] is, at each bus, the flow leaving minus the flow entering *)
Theorem C16_kirchhoff :
  forall bus branch Bbus Bf Pbi Pfi, makeBdc bus branch = Ok (Bbus, Bf, Pbi, Pfi) ->
  forall Va, length Va = length bus ->
  exists pv, mulv Bbus Va = Ok pv /\
  map2 radd pv Pbi = map (net_out (fun r => dc_flow r Va) branch) (seq 0 (length bus)).
Proof.
  intros bus branch Bbus Bf Pbi Pfi H Va L. apply makeBdc_ok in H.
  destruct H as [_ _ _ BX (_ & NR & NC) _ _ _ INJ EPbi].
  rewrite mulv_def by lia. eexists. split; [reflexivity|].
  rewrite NR, EPbi, map2_map. apply map_ext. intros i. rewrite INJ, <- lsum_add.
  apply lsum_ext. intros r Hr. rewrite Forall_forall in BX. rewrite dc_flow_susc by auto.
  unfold inc. destruct (_ =? i); destruct (_ =? i); ring.
Qed.

(** an out-of-service branch carries nothing *)
Theorem C16_out_of_service :
  forall (r Va : list K), cell r BR_STATUS = 0%K -> cell r BR_X <> 0%K -> dc_flow r Va = 0%K.
Proof.
  intros r Va E N. rewrite dc_flow_susc by auto. unfold susc. rewrite E.
  pose proof (tap_ratio_nz r). field. auto.
Qed.

(** ** C17 *)
Lemma refgen_nodup gen (ref refgen : list nat) : NoDup ref ->
  Forall2 (fun b g => exists row, nth_error gen g = Some row /\ in_service row = true /\
       bus_no row GEN_BUS = b /\
       forall g' row', g' < g -> nth_error gen g' = Some row' ->
         in_service row' = true -> bus_no row' GEN_BUS <> b) ref refgen -> NoDup refgen.
Proof.
  intros N FA. induction FA as [|b g ref refgen H FA IH]; constructor.
  - inversion N; subst. intros C. destruct H as (row & Hr & _ & Hb & _).
    clear IH. apply H2. clear H2 N H3. induction FA as [|b' g' ref refgen H FA IH]; [contradiction|].
    destruct C as [->|C]; [|right; auto]. left. destruct H as (row' & Hr' & _ & Hb' & _).
    congruence.
  - inversion N; auto.
Qed.

Theorem C17_balance :
  forall solve baseMVA bus gen branch bus' gen' branch',
  solver_exact solve -> types_ok bus ->
  runpf_dc solve baseMVA bus gen branch = Ok (bus', gen', branch') ->
  forall i b, nth_error bus' i = Some b ->
  (gen_total (fun g => cell g PG) gen' i - cell b PD - cell b GS)%K
  = drawn (fun r => cell r PF) (fun r => cell r PT) branch' i.
Proof.
  intros solve baseMVA bus gen branch bus' gen' branch' SE TY H i b Hb.
  destruct (runpf_dc_ok _ _ _ _ _ _ _ _ SE TY H)
    as (Va & ref & pv & pq & refgen & HB & LVa & WVA & WG & WQ & EB & EBR & _ & RG & EG & PQ).
  pose proof (bustypes_partition _ _ _ _ _ HB TY) as PERM.
  rewrite EBR, drawn_new by auto.
  assert (length bus' = length bus) as Lb
    by (rewrite EB; unfold map2; rewrite map_length, combine_length; lia).
  assert (i < length bus) as Li by (apply nth_error_some_lt in Hb; lia).
  assert (cell b PD = cell (nth i bus []) PD /\ cell b GS = cell (nth i bus []) GS) as [-> ->].
  { rewrite EB in Hb. apply (nth_error_nth _ _ []) in Hb.
    rewrite (nth_map2_d _ _ _ _ 0%K []) in Hb by lia. subst b. unfold new_bus.
    rewrite !upd_cell_other; auto; unfold VM, VA, PD, GS; lia. }
  pose proof (Permutation_NoDup (Permutation_sym PERM) (seq_NoDup _ _)) as ND.
  assert (NoDup ref) as NR by (eapply NoDup_app_l; eauto).
  pose proof (refgen_nodup _ _ _ NR RG) as NRG.
  pose proof (Forall2_len _ _ _ RG) as LRG.
  set (dl := fun b => (injection baseMVA branch Va b
     - (gen_total (fun g => cell g PG) gen b - cell (nth b bus []) PD - cell (nth b bus []) GS))%K).
  assert (gen_total (fun g => cell g PG) gen' i
    = (gen_total (fun g => cell g PG) gen i + lsum (fun b => if i =? b then dl b else 0%K) ref)%K) as GT.
  { rewrite EG. unfold gen_total at 1.
    rewrite (lsum_scatter _ refgen _ gen (map (fun g => nth g gen []) refgen)).
    - f_equal. rewrite (lsum_combine _ _ _ [] []) by (rewrite !map_length, combine_length; lia).
      rewrite map_length, combine_length, <- LRG, Nat.min_id.
      rewrite (lsum_nth _ ref 0). apply lsum_ext. intros k Hk. apply in_seq in Hk.
      cbn [fst snd]. rewrite (nth_map_lt _ (combine ref refgen) k _ (0, 0)) by (rewrite combine_length; lia).
      rewrite combine_nth by auto. rewrite (nth_map_lt _ refgen k _ 0) by lia.
      cbn [fst snd]. cbv zeta. fold (dl (nth k ref 0)).
      set (bb := nth k ref 0). set (gg := nth k refgen 0).
      assert (nth_error ref k = Some bb) as Hbb by (apply nth_error_nth'; lia).
      destruct (Forall2_nth _ _ _ _ _ RG Hbb) as (g0 & Hg0 & row & Hrow & S & BN & _).
      assert (gg = g0) as Eg by (unfold gg; apply nth_error_nth; auto).
      rewrite Eg, (nth_error_nth _ _ _ Hrow).
      assert (In row gen) as Irow by (eapply nth_error_In; eauto).
      unfold wide in WG. rewrite Forall_forall in WG. specialize (WG _ Irow).
      assert (forall v, in_service (upd row PG v) = true) as S'
        by (intros v; unfold in_service; rewrite upd_cell_other by (unfold PG, GEN_STATUS; lia); exact S).
      assert (forall v, bus_no (upd row PG v) GEN_BUS = bb) as BN'
        by (intros v; unfold bus_no; rewrite upd_cell_other by (unfold PG, GEN_BUS; lia); exact BN).
      rewrite S, S', BN, BN'. rewrite (Nat.eqb_sym i bb). cbn [andb].
      destruct (bb =? i); [|ring].
      unfold cell at 1. rewrite nth_upd_same by (unfold PG, GEN_STATUS in *; lia). ring.
    - exact NRG.
    - clear -RG. induction RG as [|b g ref refgen H FA IH]; simpl; constructor; auto.
      destruct H as (row & Hrow & _). rewrite (nth_error_nth _ _ _ Hrow). auto.
    - rewrite map_length, combine_length. lia. }
  assert (In i (ref ++ pv ++ pq)) as I
    by (eapply Permutation_in; [symmetry; exact PERM|apply in_seq; lia]).
  rewrite GT. apply in_app_or in I as [I|I].
  - rewrite lsum_list_single by auto. unfold dl. ring.
  - rewrite (lsum_zero _ ref).
    + rewrite <- (PQ i I). ring.
    + intros b' Hb'. destruct (Nat.eqb_spec i b') as [->|]; auto. exfalso.
      clear -ND Hb' I. induction ref as [|a ref IH]; [contradiction|].
      inversion ND; subst. destruct Hb' as [->|Hb']; [apply H1, in_or_app; auto|auto].
Qed.

(** what is reported for buses: everything but VM and VA is kept, VM is one, and the angle of
    every reference bus is kept *)
Theorem C17_buses :
  forall solve baseMVA bus gen branch bus' gen' branch' ref pv pq,
  solver_exact solve -> types_ok bus ->
  runpf_dc solve baseMVA bus gen branch = Ok (bus', gen', branch') ->
  bustypes bus gen = Ok (ref, pv, pq) ->
  length bus' = length bus /\
  forall i b b', nth_error bus i = Some b -> nth_error bus' i = Some b' ->
  length b' = length b /\ cell b' VM = 1%K /\
  (forall j, j <> VM -> j <> VA -> cell b' j = cell b j) /\
  (In i ref -> b' = upd b VM 1%K).
Proof.
  intros solve baseMVA bus gen branch bus' gen' branch' ref pv pq SE TY H HB0.
  destruct (runpf_dc_ok _ _ _ _ _ _ _ _ SE TY H)
    as (Va & ref' & pv' & pq' & refgen & HB & LVa & WVA & WG & WQ & EB & EBR & VR & _ & _ & _).
  rewrite HB in HB0. injection HB0 as -> -> ->.
  split. { rewrite EB. unfold map2. rewrite map_length, combine_length. lia. }
  intros i b b' Hb Hb'. assert (i < length bus) as Li by (eapply nth_error_some_lt; eauto).
  rewrite EB in Hb'. apply (nth_error_nth _ _ []) in Hb'.
  rewrite (nth_map2_d _ _ _ _ 0%K []) in Hb' by lia. rewrite (nth_error_nth _ _ _ Hb) in Hb'.
  assert (VA < length b) as Wb.
  { unfold wide in WVA. rewrite Forall_forall in WVA. apply WVA. eapply nth_error_In; eauto. }
  subst b'. unfold new_bus.
  split; [rewrite !upd_length; auto|]. split.
  { rewrite upd_cell_other by (unfold VA, VM; lia). apply nth_upd_same. unfold VM, VA in *; lia. }
  split.
  { intros j N1 N2. rewrite !upd_cell_other; auto. }
  intros Hi. rewrite (VR i Hi), (nth_error_nth _ _ _ Hb).
  assert ((cell b VA * (fpi / fofZ 180) * (fofZ 180 / fpi))%K = cell b VA) as ->.
  { assert ((fofZ 180 : K) <> 0%K) by (apply fofZ_nz; lia). pose proof (@fpi_nz K F).
    field. auto. }
  apply upd_self. rewrite nth_error_upd_other by (unfold VA, VM; lia).
  unfold cell. apply nth_error_nth'; auto.
Qed.

(** branches: only the flow columns change; PF is the DC branch equation at the reported
    angles, PT its negative, no reactive flow *)
Theorem C17_branches :
  forall solve baseMVA bus gen branch bus' gen' branch',
  solver_exact solve -> types_ok bus ->
  runpf_dc solve baseMVA bus gen branch = Ok (bus', gen', branch') ->
  let Va := map (fun b => cell b VA * (fpi / fofZ 180))%K bus' in
  length branch' = length branch /\
  forall l r r', nth_error branch l = Some r -> nth_error branch' l = Some r' ->
  cell r' PF = (dc_flow r Va * baseMVA)%K /\ cell r' PT = (- cell r' PF)%K /\
  cell r' QF = 0%K /\ cell r' QT = 0%K /\ length r' = length r /\
  forall j, j <> PF -> j <> PT -> j <> QF -> j <> QT -> cell r' j = cell r j.
Proof.
  intros solve baseMVA bus gen branch bus' gen' branch' SE TY H Va.
  destruct (runpf_dc_ok _ _ _ _ _ _ _ _ SE TY H)
    as (Va' & ref' & pv' & pq' & refgen & HB & LVa & WVA & WG & WQ & EB & EBR & VR & _ & _ & _).
  assert (Va = Va') as ->.
  { unfold Va. rewrite EB. clear -LVa WVA. revert bus LVa WVA.
    induction Va' as [|v Va IH]; intros [|b bus] L W; simpl in *; try discriminate; auto.
    inversion W; subst. unfold map2 in *. simpl. f_equal; [|apply IH; auto].
    unfold new_bus, cell. rewrite nth_upd_same by (rewrite upd_length; auto).
    assert ((fofZ 180 : K) <> 0%K) by (apply fofZ_nz; lia). pose proof (@fpi_nz K F).
    field. auto. }
  split. { rewrite EBR, map_length; auto. }
  intros l r r' Hr Hr'. rewrite EBR, nth_error_map, Hr in Hr'. injection Hr' as <-.
  unfold wide in WQ. rewrite Forall_forall in WQ.
  assert (QT < length r) as W by (apply WQ; eapply nth_error_In; eauto).
  assert (cell (new_branch baseMVA Va' r) PF = (dc_flow r Va' * baseMVA)%K) as EPF.
  { unfold new_branch. cbv zeta. rewrite upd_cell_other by (unfold PT, PF; lia).
    apply nth_upd_same. rewrite !upd_length. unfold PF, QT in *; lia. }
  split; [exact EPF|]. split.
  { rewrite EPF. unfold new_branch. cbv zeta. apply nth_upd_same. rewrite !upd_length.
    unfold PT, QT in *; lia. }
  unfold new_branch. cbv zeta. split.
  { rewrite !upd_cell_other by (unfold PT, PF, QT, QF; lia). apply nth_upd_same.
    unfold QF, QT in *; lia. }
  split.
  { rewrite !upd_cell_other by (unfold PT, PF, QT, QF; lia). apply nth_upd_same.
    rewrite upd_length; auto. }
  split. { rewrite !upd_length; auto. }
  intros j N1 N2 N3 N4. rewrite !upd_cell_other; auto.
Qed.

(** generators: only the active power of the first in-service generator at a reference bus can
    change *)
Theorem C17_generators :
  forall solve baseMVA bus gen branch bus' gen' branch' ref pv pq,
  solver_exact solve -> types_ok bus ->
  runpf_dc solve baseMVA bus gen branch = Ok (bus', gen', branch') ->
  bustypes bus gen = Ok (ref, pv, pq) ->
  length gen' = length gen /\
  forall k g g', nth_error gen k = Some g -> nth_error gen' k = Some g' ->
  (exists p, g' = upd g PG p) /\
  (g' = g \/ (in_service g = true /\ In (bus_no g GEN_BUS) ref /\
     forall k' h, k' < k -> nth_error gen k' = Some h -> in_service h = true ->
       bus_no h GEN_BUS <> bus_no g GEN_BUS)).
Proof.
  intros solve baseMVA bus gen branch bus' gen' branch' ref pv pq SE TY H HB0.
  destruct (runpf_dc_ok _ _ _ _ _ _ _ _ SE TY H)
    as (Va & ref' & pv' & pq' & refgen & HB & LVa & WVA & WG & WQ & EB & EBR & VR & RG & EG & _).
  rewrite HB in HB0. injection HB0 as -> -> ->.
  split. { rewrite EG. apply scatter_length. }
  intros k g g' Hg Hg'. rewrite EG in Hg'.
  destruct (in_dec Nat.eq_dec k refgen) as [I|NI].
  - pose proof (bustypes_partition _ _ _ _ _ HB TY) as PERM.
    pose proof (Permutation_NoDup (Permutation_sym PERM) (seq_NoDup _ _)) as ND.
    assert (NoDup ref) as NR by (eapply NoDup_app_l; eauto).
    pose proof (refgen_nodup _ _ _ NR RG) as NRG. pose proof (Forall2_len _ _ _ RG) as LRG.
    apply In_nth_error in I as (m & Hm).
    destruct (nth_error_lt ref m) as (b & Hb); [apply nth_error_some_lt in Hm; lia|].
    destruct (Forall2_nth _ _ _ _ _ RG Hb) as (k2 & Hk2 & row & Hrow & S & BN & FST).
    rewrite Hm in Hk2. injection Hk2 as <-. rewrite Hg in Hrow. injection Hrow as <-.
    assert (nth_error (combine ref refgen) m = Some (b, k)) as Hc.
    { rewrite (nth_error_nth' _ (0, 0)) by (rewrite combine_length; apply nth_error_some_lt in Hm; lia).
      rewrite combine_nth by auto. rewrite (nth_error_nth _ _ _ Hb), (nth_error_nth _ _ _ Hm). auto. }
    match type of Hg' with nth_error (scatter _ _ (map ?f _)) _ = _ =>
      assert (nth_error (map f (combine ref refgen)) m = Some (f (b, k))) as Hv
        by (rewrite nth_error_map, Hc; reflexivity) end.
    rewrite (scatter_at _ gen _ _ _ _ NRG Hm Hv) in Hg'.
    + injection Hg' as <-. cbn [fst snd]. rewrite (nth_error_nth _ _ _ Hg). split; [eauto|].
      right. split; auto. rewrite BN. split; [eapply nth_error_In; eauto|exact FST].
    + eapply nth_error_some_lt; eauto.
  - rewrite scatter_other in Hg' by auto. rewrite Hg in Hg'. injection Hg' as <-.
    split; [|auto]. exists (cell g PG). symmetry. apply upd_self. unfold cell.
    unfold wide in WG. rewrite Forall_forall in WG.
    assert (GEN_STATUS < length g) by (apply WG; eapply nth_error_In; eauto).
    apply nth_error_nth'. unfold GEN_STATUS, PG in *. lia.
Qed.
End Theorems.

(** ** Examples *)

(** any candidate solver becomes exact when its answer is checked *)
Definition checked (g : list (list Qc) -> list Qc -> list Qc) (A : list (list Qc)) (b : list Qc)
  : result (list Qc) :=
  let x := g A b in
  if forallb (fun r => length r =? length x) A && (length b =? length A)
     && forallb (fun p => qc_eqb (lsum (fun p => fst p * snd p)%K (combine (fst p) x)) (snd p))
          (combine A b)
  then Ok x else Err ValueError.

Lemma checked_exact g : solver_exact (checked g).
Proof.
  intros A b x H. unfold checked in H.
  destruct (forallb _ A && _) eqn:E1; [|discriminate]. cbn [andb] in H.
  destruct (forallb _ (combine A b)) eqn:E2; [|discriminate]. injection H as <-.
  apply andb_true_iff in E1 as [E1 L]. apply Nat.eqb_eq in L. rewrite forallb_forall in E1. split.
  - apply Forall_forall. intros r Hr. apply Nat.eqb_eq. auto.
  - rewrite forallb_forall in E2. set (x := g A b) in *. clearbody x. clear E1. revert b L E2.
    induction A as [|r A IH]; intros [|c b] L E2; simpl in *; try discriminate; auto.
    f_equal.
    + apply qc_eqb_eq. apply (E2 (r, c)). auto.
    + apply IH; auto.
Qed.

(** Cramer's rule for two unknowns *)
Definition cramer2 (A : list (list Qc)) (b : list Qc) : list Qc :=
  match A, b with
  | [[a11; a12]; [a21; a22]], [b1; b2] =>
      let d := (a11 * a22 - a12 * a21)%Qc in
      [((b1 * a22 - a12 * b2) / d)%Qc; ((a11 * b2 - b1 * a21) / d)%Qc]
  | _, _ => []
  end.

(** three buses: reference with two running units and one stopped, a load with a shunt, a PV
    bus; a line, a transformer, a phase shifter *)
Definition ex_bus : list (list Qc) := map (map zc)
  [[0;3;0;0;0;0;1;1;5;0;0;0;0]; [1;1;90;30;5;0;1;1;0;0;0;0;0]; [2;2;0;0;0;0;1;1;0;0;0;0;0]]%Z.
Definition ex_gen : list (list Qc) := map (map zc)
  [[0;77;0;0;0;1;100;0;0;0]; [0;10;0;0;0;1;100;1;0;0]; [0;3;0;0;0;1;100;1;0;0];
   [2;40;0;0;0;1;100;1;0;0]]%Z.
Definition ex_branch : list (list Qc) :=
  [ map zc [0;1;0]%Z ++ [qc 1 10] ++ map zc [0;0;0;0;0;0;1;0;0;0;0;0;0]%Z;
    map zc [1;2;0]%Z ++ [qc 1 5] ++ map zc [0;0;0;0]%Z ++ [qc 19 20] ++ map zc [0;1;0;0;0;0;0;0]%Z;
    map zc [0;2;0]%Z ++ [qc 1 4] ++ map zc [0;0;0;0;0;2;1;0;0;0;0;0;0]%Z;
    map zc [0;2;0]%Z ++ [qc 1 4] ++ map zc [0;0;0;0;0;2;0;0;0;0;0;0;0]%Z ].

Example C15_example : bustypes ex_bus ex_gen = Ok ([0], [2], [1]).
Proof. vm_compute. reflexivity. Qed.

Definition ex_run := runpf_dc (checked cramer2) (zc 100) ex_bus ex_gen ex_branch.
(** total generation after the run is the load plus the shunt: 95 MW *)
Example C17_example :
  match ex_run with
  | Ok (b, g, br) =>
      (qc_eqb (gen_total (fun g => cell g PG) g 0 + gen_total (fun g => cell g PG) g 2)%K (zc 95)
       && negb (qc_eqb (cell (nth 2 br []) PF) (zc 0)) && qc_eqb (cell (nth 3 br []) PF) (zc 0))%bool
  | Err _ => false
  end = true.
Proof. vm_compute. reflexivity. Qed.
Example C17_example_types : types_ok ex_bus.
Proof. repeat (apply Forall_cons; [vm_compute; tauto|]). apply Forall_nil. Qed.
Example C16_example : is_ok (makeBdc ex_bus ex_branch) = true.
Proof. vm_compute. reflexivity. Qed.

Print Assumptions C15_partition.
Print Assumptions C15_no_generator.
Print Assumptions C15_members.
Print Assumptions C15_error.
Print Assumptions C16_defined.
Print Assumptions C16_branch_flows.
Print Assumptions C16_kirchhoff.
Print Assumptions C16_out_of_service.
Print Assumptions C17_balance.
Print Assumptions C17_buses.
Print Assumptions C17_branches.
Print Assumptions C17_generators.
