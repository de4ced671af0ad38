(** C102: prices in the reported tables of a DC optimal power flow run. *)
From Verif Require Import Proofs.Ext2intA Lib.ListFacts Lib.QcFacts Lib.GaussQ Model.RunOpf Spec.PriceSpec Spec.PipsRun
  Proofs.SparseFacts Proofs.FldFacts Proofs.OrdFacts Proofs.PfsolnA Proofs.TableEdit Proofs.OpfLinA Proofs.DcOpfA
  Proofs.DcOpfC Proofs.DcOpfE Proofs.PipsI Proofs.Ext2intB Proofs.RunPfA Proofs.RunPfB Proofs.RunOpfA Proofs.RunOpfB
  Proofs.RunOpfC Proofs.RunOpfD Props.P_DcOpf Props.P_DcOpt Props.P_RunOpf.
From Coq Require Import Permutation.
Local Open Scope nat_scope.

Section Theorems.
Context {K : Type} {F : Fld K}.
Add Field KF : (@f_ok K F).
Variable argsort : list Z -> list nat.
Hypothesis Has : argsort_spec argsort.
Variable solve : smat K -> list K -> result (option (list K)).
Variable ln : K -> K.
Variables (ign : bool) (opts : dcopt (K := K)) (B : K) (p r : ppc_of K) (f : K) (ok : bool).
Hypothesis W : wf_case p.
Hypothesis E : in_ext_state p.
Hypothesis RUN : dc_opf argsort solve ln ign opts B p = Ok (r, f, ok).
Hypothesis HB : lt 0%K B.
Hypothesis OUT : forall j g, gen_in_service p j -> nth_error (p_gen p) j = Some g -> le (cell g PMIN) (cell g PMAX).
Hypothesis ANG : ign = false -> forall j g, branch_in_service p j -> nth_error (p_branch p) j = Some g ->
  cell g ANGMIN <> 0%K -> cell g ANGMAX <> 0%K -> le (degrees (cell g ANGMIN)) (degrees (cell g ANGMAX)).
Variable gencost : list (list K).
Hypothesis GCO : p_gencost p = Some gencost.
Hypothesis MOD : forall q gc o z, stages argsort solve ln ign opts B p q gc o z -> Forall moderate (d_l o ++ d_u o ++ d_xmin o ++ d_xmax o).
Notation p1 := (opf_columns p).

(** on success: marginal cost, price at the bus and prices of the output limits of a generator agree *)
Theorem C102_generator_price j g0 g zn i y : ok = true ->
  gen_in_service p j -> nth_error (p_gen p) j = Some g0 -> nth_error (p_gen r) j = Some g ->
  nth_error g0 GEN_BUS = Some (ofZ zn) -> bus_at p zn i -> nth_error (p_bus r) i = Some y ->
  segmented (nth j gencost []) = false -> cost_is 1 (nth j gencost []) = true \/ lin_or_quad (nth j gencost []) ->
  exists q gc o z HH CC s, stages argsort solve ln ign opts B p q gc o z /\
    solved_by solve ln B (p_bus q) o (no_user_costs (d_nx o)) opts z HH CC s /\
    forall lam_n mu_n, is_norm (t_lam s) lam_n -> is_norm (t_mu s) mu_n -> exists b, (b = lam_n \/ b = mu_n) /\
    lt (fabs (B * (marginal (nth j gencost []) (cell g PG) - cell y LAM_P + cell g MU_PMAX - cell g MU_PMIN))%K)
       (p_gradtol opts * (1 + b) + cut_of (EFin (cell g PMIN / B)) (EFin (cell g PMAX / B)))%K.
Proof.
  intros OKT Sj Hg0 Hg Hzn Hi Hy SG CVX.
  destruct (parts argsort Has solve ln ign opts B p r f ok W E RUN)
    as (q & gc & o & z & sb & sg & sl & sa & br & ST & Hf & Hok & IF & RI & CAR & GT & LT & TB & TG & TL & TM).
  pose proof (MOD _ _ _ _ ST) as MO. pose proof (ordered_in ign B p W HB OUT ANG _ _ _ _ _ IF) as LO. pose proof ST as (S1 & S2 & S3 & S4).
  assert (shaped 0 (d_nx o) (k_N (no_user_costs (K := K) (d_nx o)))) as WN by (split; [reflexivity|]; split; [reflexivity|constructor]).
  assert (shaped 0 0 (k_H (no_user_costs (K := K) (d_nx o)))) as WH by (split; [reflexivity|]; split; [reflexivity|constructor]).
  assert (sym_mat (k_H (no_user_costs (K := K) (d_nx o)))) as SH by (intros ? ?; reflexivity).
  apply (gen_service_wide p j W) in Sj. apply (if_sg _ _ _ _ _ _ IF) in Sj. apply In_nth_error in Sj as (k & Hk).
  destruct (nth_error_lt (z_gen z) k) as [g' Hg']; [rewrite (ca_gen_len _ _ _ _ _ _ _ _ _ CAR); eapply nth_error_some_lt; eauto|].
  destruct (ca_gen _ _ _ _ _ _ _ _ _ CAR _ _ _ Hk Hg') as (x2 & y2 & a2 & z2 & n2 & C1 & C2 & C3 & C4 & C5 & C6 & C7 & C8 & C9 & C10).
  assert (a2 = g) by congruence. subst a2.
  assert (z2 = zn) as ->.
  { cbn in C1. apply widen_inv in C1 as (r0 & Hr0 & ->). rewrite <- (cell_ofZ _ _ _ C4), wide_cell.
    apply cell_ofZ. congruence. }
  destruct C5 as (i' & Hn2 & Bi'). apply (bus_at_wide p _ _ W) in Bi'. assert (i' = i) by (eapply (wf_bus_distinct _ W); eauto). subst i'.
  destruct (nth_error_lt (z_bus z) n2) as [b' Hb']; [rewrite (ca_bus_len _ _ _ _ _ _ _ _ _ CAR); eapply nth_error_some_lt; eauto|].
  destruct (ca_bus _ _ _ _ _ _ _ _ _ CAR _ _ _ Hn2 Hb') as (xb & yb & ab & D1 & D2 & D3 & _ & D4).
  assert (ab = y) by congruence. subst ab.
  rewrite <- (cost_row p1 q sb sg sl sa gencost gc IF GCO S2 k j Hk) in SG, CVX |- *.
  destruct (TG _ _ _ C2 Hg') as (_ & _ & _ & KP).
  destruct (C59_generator_price solve ln ign B _ _ _ gc no_user o ltac:(discriminate) S3 (no_user_costs (d_nx o)) WN WH SH opts z k y2
     eq_refl eq_refl LO MO S4 ltac:(congruence) C2 SG CVX) as (HH & CC & s & SB & H).
  exists q, gc, o, z, HH, CC, s. split; auto. split; auto. intros lam_n mu_n N1 N2.
  destruct (H lam_n mu_n N1 N2) as (b & g1 & r1 & Hb & Hg1 & Hr1 & T). exists b. split; auto.
  rewrite (ofN_no _ _ _ C6) in Hr1. assert (g1 = g') by congruence. assert (r1 = b') by congruence. subst g1 r1.
  rewrite (D4 LAM_P), (C10 PG), (C10 MU_PMAX), (C10 MU_PMIN), (C10 PMIN), (C10 PMAX) by discriminate.
  rewrite (KP PMIN), (KP PMAX) by (cbn; intuition discriminate). exact T.
Qed.

(** the solved problem keeps a row for every branch *)
Lemma branch_kept q gc o z : dc_setup ign B (p_bus q) (p_gen q) (p_branch q) gc no_user = Ok o ->
  dcopf solve ln opts B (p_bus q) (p_gen q) (p_branch q) o (no_user_costs (d_nx o)) = Ok z ->
  forall k y, nth_error (p_branch q) k = Some y -> exists y', nth_error (z_branch z) k = Some y'.
Proof.
  intros S3 H k y Hy. unfold dcopf in H. apply bind_ok in H as (((HH & CC) & C0) & HO & H).
  apply bind_ok in H as (x0 & H0 & H). apply bind_ok in H as (s & HS & H).
  destruct (set_ok ign B _ _ _ gc no_user o ltac:(discriminate) S3) as (Bb & Pbi & S).
  destruct (dc_update_ok _ _ _ _ _ _ _ _ _ _ S C0 s z H) as (X & _ & _ & _ & _ & _ & _ & RB & _ & RL).
  destruct (RL k y Hy) as (y' & Hy' & _). eauto.
Qed.

(** the flow of an internal branch row changes with the angle of a bus as its external row says *)
Lemma flow_by_ext nb (y l : list K) nf nt (zn : Z) k : nf < nb -> nt < nb -> k < nb ->
  bus_no y F_BUS = nf -> bus_no y T_BUS = nt -> cell y BR_STATUS = 1%K ->
  (ftrunc (cell l F_BUS) =? zn)%Z = (nf =? k) -> (ftrunc (cell l T_BUS) =? zn)%Z = (nt =? k) ->
  cell l BR_X = cell y BR_X -> cell l TAP = cell y TAP -> cell y BR_X <> 0%K -> flow_by nb y k = flow_per_angle l zn.
Proof.
  intros Lf Lt Lk Ef Et ON Zf Zt EX ETp NZ. unfold flow_by, flow_per_angle, dc_flow. rewrite Ef, Et, ON, Zf, Zt.
  assert (tap_ratio l = tap_ratio y) as -> by (unfold tap_ratio; rewrite ETp; reflexivity). rewrite EX.
  rewrite !(nth_map_lt _ (seq 0 nb) _ _ 0) by (rewrite seq_length; auto). rewrite !seq_nth, !nth_repeat by auto. cbn [Nat.add].
  pose proof (NetworkB.tap_ratio_nz y). assert ((fofZ 180 : K) <> 0%K) by (apply NetworkE.fofZ_nz; lia).
  destruct (nf =? k), (nt =? k); field; auto.
Qed.

(** on success, at a bus in service other than the reference: price differences over the branches at the bus and
    prices of the flow limits balance, weighted by how much each flow changes with the angle of the bus *)
Theorem C102_congestion_price zn i x : ok = true ->
  ign = true \/ (forall j l, branch_in_service p j -> nth_error (p_branch p) j = Some l -> ~ angle_limited l) ->
  bus_in_service p i -> bus_at p zn i -> nth_error (p_bus p) i = Some x -> cell x BUS_TYPE <> fofZ 3 ->
  exists q gc o z HH CC s, stages argsort solve ln ign opts B p q gc o z /\
    solved_by solve ln B (p_bus q) o (no_user_costs (d_nx o)) opts z HH CC s /\
    forall lam_n mu_n lam idx, is_norm (t_lam s) lam_n -> is_norm (t_mu s) mu_n ->
    prices_of p r lam -> lists_exactly idx (branch_in_service p) ->
    let row j := nth j (p_branch r) [] in
    exists b, (b = lam_n \/ b = mu_n) /\
    lt (fabs (B * lsum (fun j => flow_per_angle (row j) zn * price_gap lam (row j)) idx)%K)
       (p_gradtol opts * (1 + b)
        + lsum (fun j => if flow_limitedb (row j) then fabs (flow_per_angle (row j) zn) * clean_tol
                                                       + fabs (flow_per_angle (row j) zn) * clean_tol else 0) idx)%K.
Proof.
  intros OKT AL Si Hi Hx NR.
  destruct (parts argsort Has solve ln ign opts B p r f ok W E RUN)
    as (q & gc & o & z & sb & sg & sl & sa & br & ST & Hf & Hok & IF & RI & CAR & GT & LT & TB & TG & TL & TM).
  pose proof (MOD _ _ _ _ ST) as MO. pose proof (ordered_in ign B p W HB OUT ANG _ _ _ _ _ IF) as LO. pose proof ST as (S1 & S2 & S3 & S4).
  assert (shaped 0 (d_nx o) (k_N (no_user_costs (K := K) (d_nx o)))) as WN by (split; [reflexivity|]; split; [reflexivity|constructor]).
  assert (shaped 0 0 (k_H (no_user_costs (K := K) (d_nx o)))) as WH by (split; [reflexivity|]; split; [reflexivity|constructor]).
  assert (sym_mat (k_H (no_user_costs (K := K) (d_nx o)))) as SH by (intros ? ?; reflexivity).
  apply (bus_service_wide p i W) in Si. apply (if_sb _ _ _ _ _ _ IF) in Si. apply In_nth_error in Si as (n & Hn).
  pose proof (proj2 (bus_at_wide p zn i W) Hi) as Hi1.
  destruct (nth_error_lt (z_bus z) n) as [b' Hb']; [rewrite (ca_bus_len _ _ _ _ _ _ _ _ _ CAR); eapply nth_error_some_lt; eauto|].
  destruct (ca_bus _ _ _ _ _ _ _ _ _ CAR _ _ _ Hn Hb') as (xb & yb & ab & D1 & D2 & D3 & D5 & D4).
  assert (cell yb BUS_TYPE <> fofZ 3) as NR'.
  { rewrite (D5 BUS_TYPE) by discriminate. cbn in D1. apply widen_inv in D1 as (r0 & Hr0 & ->). rewrite wide_cell. congruence. }
  (* rows of the branches in service, inside and outside *)
  assert (forall k j y, nth_error sl k = Some j -> nth_error (p_branch q) k = Some y -> exists g zg l0 l zf zt nf nt,
      nth_error br k = Some g /\ nth_error (z_branch z) k = Some zg /\ nth_error (p_branch p) j = Some l0 /\ nth_error (p_branch r) j = Some l /\
      ftrunc (cell l F_BUS) = zf /\ ftrunc (cell l T_BUS) = zt /\ stands_for p1 sb nf zf /\ stands_for p1 sb nt zt /\
      bus_no y F_BUS = nf /\ bus_no y T_BUS = nt /\ cell y BR_STATUS = 1%K /\
      (forall c, c <> F_BUS -> c <> T_BUS -> cell y c = cell l0 c) /\
      cell l BR_X = cell y BR_X /\ cell l TAP = cell y TAP /\ cell l RATE_A = cell y RATE_A /\
      cell l MU_SF = cell zg MU_SF /\ cell l MU_ST = cell zg MU_ST) as ROWS.
  { intros k j y Hk Hy.
    destruct (nth_error_lt br k) as [g Hg]; [rewrite (ca_br_len _ _ _ _ _ _ _ _ _ CAR); eapply nth_error_some_lt; eauto|].
    destruct (ca_br _ _ _ _ _ _ _ _ _ CAR _ _ _ Hk Hg)
      as (x0 & y0 & a & zf & zt & nf & nt & Hx0 & Hy0 & Ha & Zf & Sf & Nf & Zt & Stt & Nt & Ef & Et & ON & E1 & E2).
    assert (y0 = y) by congruence. subst y0. cbn in Hx0. apply widen_inv in Hx0 as (l0 & Hl0 & ->).
    destruct (branch_kept _ _ _ _ S3 S4 _ _ Hy) as (zg & Hzg). destruct (TM _ _ _ Hzg Hg) as (M1 & M2).
    destruct (TL _ _ _ Hy Hg) as ((_ & _ & _ & _ & KP) & _).
    exists g, zg, l0, a, zf, zt, nf, nt. rewrite Ef, Et. do 4 (split; [auto|]).
    split; [apply cell_ofZ; auto|]. split; [apply cell_ofZ; auto|]. do 2 (split; [auto|]).
    split; [apply ofN_no; auto|]. split; [apply ofN_no; auto|].
    split. { rewrite (E1 BR_STATUS) by discriminate. unfold cell. erewrite nth_error_nth by eauto. apply fofZ_1. }
    split. { intros c N1 N2. rewrite (E1 c) by auto. apply wide_cell. }
    rewrite (E2 BR_X), (E2 TAP), (E2 RATE_A), (E2 MU_SF), (E2 MU_ST) by discriminate.
    rewrite (KP BR_X), (KP TAP), (KP RATE_A) by (cbn; intuition discriminate). auto 10. }
  destruct (set_ok ign B _ _ _ gc no_user o ltac:(discriminate) S3) as (Bb & Pbi & S).
  pose proof (NetworkB.bs_x _ _ _ _ _ _ (ss_bdc _ _ _ _ _ _ _ _ _ _ S)) as NX. rewrite Forall_forall in NX.
  assert (ign = true \/ (forall y, In y (p_branch q) -> ~ angle_limited y)) as AL'.
  { destruct AL as [AL|AL]; [left; auto|right]. intros y Iy LA. apply In_nth_error in Iy as (k & Hy).
    destruct (nth_error_lt sl k) as [j Hj]; [rewrite <- (if_br_len _ _ _ _ _ _ IF); eapply nth_error_some_lt; eauto|].
    destruct (ROWS _ _ _ Hj Hy) as (g & zg & l0 & l & zf & zt & nf & nt & R1 & R2 & R3 & R4 & R5 & R6 & R7 & R8 & R9 & R10 & R11 & R12 & _).
    apply (AL j l0); auto.
    - apply (br_service_wide p j W). apply (if_sl _ _ _ _ _ _ IF). eapply nth_error_In; eauto.
    - unfold angle_limited in *. rewrite <- !R12 by discriminate. exact LA. }
  destruct (C59_congestion_price solve ln ign B _ _ _ gc no_user o ltac:(discriminate) S3 (no_user_costs (d_nx o)) WN WH SH opts z n yb
     eq_refl eq_refl AL' LO MO S4 ltac:(congruence) D2 NR') as (HH & CC & s & SB & H).
  exists q, gc, o, z, HH, CC, s. split; auto. split; auto. intros lam_n mu_n lam idx N1 N2 PL LI row.
  destruct (H lam_n mu_n N1 N2) as (b & Hb & T). exists b. split; auto.
  assert (Permutation idx sl) as PM.
  { destruct LI as (ND & LI). destruct (if_sl _ _ _ _ _ _ IF) as ((ND' & LI') & _). apply NoDup_Permutation; auto.
    intros j. rewrite LI, LI'. symmetry. apply br_service_wide; auto. }
  rewrite (lsum_perm _ _ _ PM), (lsum_perm _ idx sl PM).
  assert (n < length (p_bus q)) as Ln by (eapply nth_error_some_lt; eauto).
  assert (forall m zz, stands_for p1 sb m zz -> m < length (p_bus q) /\ cell (nth m (z_bus z) []) LAM_P = lam zz) as LAMS.
  { intros m zz (i' & Hm & Bi'). pose proof (nth_error_some_lt _ _ _ Hm) as Lm. split; [rewrite (if_bus_len _ _ _ _ _ _ IF); auto|].
    destruct (nth_error_lt (z_bus z) m) as [c' Hc']; [rewrite (ca_bus_len _ _ _ _ _ _ _ _ _ CAR); auto|].
    destruct (ca_bus _ _ _ _ _ _ _ _ _ CAR _ _ _ Hm Hc') as (xc & yc & ac & G1 & G2 & G3 & G5 & G4).
    rewrite (nth_error_nth _ _ _ Hc'). rewrite (PL zz i' ac); auto; [symmetry; apply G4; discriminate| |].
    - apply (bus_service_wide p i' W). apply (if_sb _ _ _ _ _ _ IF). eapply nth_error_In; eauto.
    - apply (bus_at_wide p zz i' W); auto. }
  assert (forall k y j, nth_error (p_branch q) k = Some y -> nth_error sl k = Some j ->
      flow_by (length (p_bus q)) y n = flow_per_angle (row j) zn /\
      congestion (z_bus z) y (nth k (z_branch z) []) = price_gap lam (row j) /\ flow_limitedb y = flow_limitedb (row j)) as SAME.
  { intros k y j Hy Hj.
    destruct (ROWS _ _ _ Hj Hy) as (g & zg & l0 & l & zf & zt & nf & nt & R1 & R2 & R3 & R4 & R5 & R6 & R7 & R8 & R9 & R10 & R11 & R12 & R13 & R14 & R15 & R16 & R17).
    unfold row. rewrite (nth_error_nth _ _ _ R4), (nth_error_nth _ _ _ R2).
    destruct (LAMS _ _ R7) as (Lf & Ff). destruct (LAMS _ _ R8) as (Lt & Ft).
    split; [|split].
    - apply (flow_by_ext _ _ _ nf nt); auto.
      + rewrite R5. apply (ca_same _ _ _ _ _ _ _ _ _ CAR n i zn zf nf); auto.
      + rewrite R6. apply (ca_same _ _ _ _ _ _ _ _ _ CAR n i zn zt nt); auto.
      + apply NX. eapply nth_error_In; eauto.
    - unfold congestion, price_gap. rewrite R9, R10, Ff, Ft, R5, R6, R16, R17. reflexivity.
    - unfold flow_limitedb. rewrite R15. reflexivity. }
  match type of T with lt (fabs (B * ?a)%K) (?t + ?c)%K => match goal with |- lt (fabs (B * ?a')%K) (_ + ?c')%K =>
    replace a' with a; [replace c' with c; [exact T|]|] end end.
  - apply lsum_pair; [exact (if_br_len _ _ _ _ _ _ IF)|]. intros k y j Hy Hj. destruct (SAME _ _ _ Hy Hj) as (-> & _ & ->). reflexivity.
  - apply lsum_pair; [rewrite seq_length; exact (if_br_len _ _ _ _ _ _ IF)|]. intros k k' j Hk' Hj.
    pose proof (nth_error_some_lt _ _ _ Hk') as Lk. rewrite seq_length in Lk. rewrite (nth_error_nth' _ 0) in Hk' by (rewrite seq_length; auto).
    rewrite seq_nth in Hk' by auto. cbn [Nat.add] in Hk'. assert (k' = k) by congruence. subst k'.
    destruct (nth_error_lt (p_branch q) k Lk) as [y Hy]. rewrite (nth_error_nth _ _ _ Hy).
    destruct (SAME _ _ _ Hy Hj) as (-> & -> & _). reflexivity.
Qed.
End Theorems.

(** ** Example: the case of the optimal power flow run, with angle limits ignored *)
Definition xrun := dc_opf argsort_stable solveQ (fun a => a) true (ex_p 2) (zc 100) ep.
Definition xshow :=
  match xrun with
  | Ok (r, f, ok) => (ok, map (fun b => mil (cell b LAM_P)) (p_bus r),
      map (fun g => (mil (cell g PG), mil (cell g MU_PMAX), mil (cell g MU_PMIN))) (p_gen r),
      map (fun b => (mil (cell b MU_SF), mil (cell b MU_ST), mil (flow_per_angle b 7))) (p_branch r))
  | Err _ => (false, [], [], [])
  end.
(** 2 50 + 10 = 110 at the bus of the generator; the bus with the load is 0.001 dearer, and 0.002 is the price of
    the limit (barely felt) of the line *)
Example C102_example : xshow =
  (true, [110000; 0; 110001], [(0, 0, 0); (50000, 1, 1)], [(0, 0, 2000); (2, 0, -2000); (0, 0, -2000)])%Z.
Proof. vm_compute. reflexivity. Qed.

Definition xmod : bool :=
  match ext2int argsort_stable (opf_columns ep) with
  | Ok q => match p_gencost q with
            | Some gc => match dc_setup true (zc 100) (p_bus q) (p_gen q) (p_branch q) gc no_user with
                         | Ok o => forallb modb (d_l o ++ d_u o ++ d_xmin o ++ d_xmax o) | Err _ => true end
            | None => true end
  | Err _ => true end.
Lemma x_moderate q gc o z : stages argsort_stable solveQ (fun a => a) true (ex_p 2) (zc 100) ep q gc o z ->
  Forall moderate (d_l o ++ d_u o ++ d_xmin o ++ d_xmax o).
Proof.
  intros (H1 & H2 & H3 & _). assert (xmod = true) as C by (vm_compute; reflexivity).
  unfold xmod in C. rewrite H1, H2, H3 in C. rewrite forallb_forall in C. apply Forall_forall.
  intros [a| |] Ha; cbn; auto. exact (C _ Ha).
Qed.
Lemma x_bus0 : bus_in_service ep 0 /\ bus_in_service ep 2.
Proof.
  split; (eexists; split; [reflexivity|]; intros C; cbn [nth_error zs map eb BUS_TYPE] in C; apply some_zc in C; lia).
Qed.
Lemma x_gens j : gen_in_service ep j <-> j = 1.
Proof.
  split.
  - intros (x & s & Hx & Hs & Gs & _). erow; auto. cbn [ep p_gen nth_error] in Hx. esub. exfalso.
    cbn [nth_error eg zs map GEN_STATUS] in Hs. assert (s = zc 0) by congruence. subst s. vm_compute in Gs. discriminate.
  - intros ->. exists (eg 20 1), (zc 1). split; [reflexivity|]. split; [reflexivity|]. split; [vm_compute; reflexivity|].
    exists 20%Z, 0. split; [reflexivity|]. split; [eexists; split; reflexivity|]. exact (proj1 x_bus0).
Qed.
Lemma x_branches j : branch_in_service ep j <-> j = 1.
Proof.
  split.
  - intros (x & Hx & Hs & C1 & C2). erow; auto; cbn [ep p_branch nth_error] in Hx; esub; exfalso.
    + destruct C2 as (z & i & Hz & Bi & (r & Hr & Ht)). unfold el, T_BUS in Hz. cbn [nth_error app zs map] in Hz. apply some_zc in Hz. subst z.
      destruct Bi as (r' & Hr' & Hb). assert (r' = r) by congruence. subst r'. cbn [ep p_bus] in Hr. erow; esub; cbn [nth_error zs map eb BUS_I BUS_TYPE] in Hb, Ht;
        first [apply some_zc in Hb; lia|apply Ht; reflexivity].
    + cbn [nth_error el app zs map BR_STATUS] in Hs. apply some_zc in Hs. lia.
  - intros ->. exists (el 20 7 1). split; [reflexivity|]. split; [reflexivity|].
    split; [exists 20%Z, 0|exists 7%Z, 2]; (split; [reflexivity|]; split; [eexists; split; reflexivity|]); apply x_bus0.
Qed.
(** the prices reported by the run *)
Definition x_lam (r : ppc_of Qc) (z : Z) : Qc := cell (nth (if (z =? 20)%Z then 0 else 2) (p_bus r) []) LAM_P.
Lemma x_lam_ok r : prices_of ep r (x_lam r).
Proof.
  intros z i b (x & Hx & NT) (x' & Hx' & Hz) Hb. unfold x_lam. assert (x' = x) by congruence. subst x'. cbn [ep p_bus] in Hx. clear Hx'.
  destruct i as [|[|[|[|?]]]]; cbn [nth_error] in Hx; try discriminate Hx; esub; cbn [nth_error zs map eb BUS_I BUS_TYPE] in Hz, NT; apply some_zc in Hz; subst z; cbn [Z.eqb Pos.eqb].
  - rewrite (nth_error_nth _ _ _ Hb). reflexivity.
  - exfalso. apply NT. reflexivity.
  - rewrite (nth_error_nth _ _ _ Hb). reflexivity.
Qed.

(** all hypotheses hold for this run *)
Example C102_example_prices r f g y : xrun = Ok (r, f, true) -> nth_error (p_gen r) 1 = Some g -> nth_error (p_bus r) 0 = Some y ->
  (exists t, lt (fabs (zc 100 * (marginal (nth 1%nat egc []) (cell g PG) - cell y LAM_P + cell g MU_PMAX - cell g MU_PMIN))%K) t) /\
  exists t, lt (fabs (zc 100 * lsum (fun j => flow_per_angle (nth j (p_branch r) []) 7 * price_gap (x_lam r) (nth j (p_branch r) [])) [1%nat])%K) t.
Proof.
  unfold xrun. intros RUN Hg Hy.
  assert (H1 : in_ext_state ep) by exact I.
  assert (H2 : lt 0%K (zc 100)) by (vm_compute; reflexivity).
  assert (H3 : forall j g, gen_in_service ep j -> nth_error (p_gen ep) j = Some g -> le (cell g PMIN) (cell g PMAX)).
  { intros j g0 Sj Hg0. apply x_gens in Sj as ->. cbn [ep p_gen nth_error] in Hg0. esub. vm_compute. reflexivity. }
  assert (H4 : true = false -> forall j g, branch_in_service ep j -> nth_error (p_branch ep) j = Some g ->
    cell g ANGMIN <> 0%K -> cell g ANGMAX <> 0%K -> le (degrees (cell g ANGMIN)) (degrees (cell g ANGMAX))) by discriminate.
  split.
  - pose proof (C102_generator_price argsort_stable argsort_stable_spec solveQ (fun a => a) true (ex_p 2) (zc 100) ep r f true
      ep_wf H1 RUN H2 H3 H4 egc eq_refl x_moderate 1 (eg 20 1) g 20%Z 0 y eq_refl (proj2 (x_gens 1) eq_refl) eq_refl Hg eq_refl) as X.
    destruct X as (q & gc & o & z & HH & CC & s & _ & _ & H).
    + eexists; split; reflexivity.
    + exact Hy.
    + vm_compute; reflexivity.
    + right. split; [vm_compute; reflexivity|right; apply qc_eqb_eq; vm_compute; reflexivity].
    + destruct (C83_norms (t_lam s)) as (n1 & N1). destruct (C83_norms (t_mu s)) as (n2 & N2).
      destruct (H n1 n2 N1 N2) as (b & _ & T). eexists. exact T.
  - pose proof (C102_congestion_price argsort_stable argsort_stable_spec solveQ (fun a => a) true (ex_p 2) (zc 100) ep r f true
      ep_wf H1 RUN H2 H3 H4 x_moderate 7%Z 2 (eb 7 1 50) eq_refl (or_introl eq_refl) (proj2 x_bus0)) as X.
    destruct X as (q & gc & o & z & HH & CC & s & _ & _ & H).
    + eexists; split; reflexivity.
    + reflexivity.
    + intros C. vm_compute in C. discriminate C.
    + destruct (C83_norms (t_lam s)) as (n1 & N1). destruct (C83_norms (t_mu s)) as (n2 & N2).
      destruct (H n1 n2 (x_lam r) [1] N1 N2 (x_lam_ok r)) as (b & _ & T).
      { split; [repeat constructor; intros []|]. intros j. rewrite x_branches. cbn. intuition. }
      eexists. exact T.
Qed.

Print Assumptions C102_generator_price.
Print Assumptions C102_congestion_price.
