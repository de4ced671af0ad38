(** C100: prices of reserves and of energy agree with costs; C101: the price of a unit in several zones. *)
From Verif Require Import Proofs.Ext2intA Lib.ListFacts Lib.QcFacts Model.Reserves Spec.ReserveSpec Spec.PipsRun
  Proofs.SparseFacts Proofs.FldFacts Proofs.OrdFacts Proofs.PfsolnA Proofs.DcOpfA Proofs.DcOpfB Proofs.DcOpfC Proofs.DcOpfD
  Proofs.DcOpfE Proofs.PipsI Proofs.Ext2intB Proofs.RunOpfA Proofs.RunOpfB
  Proofs.RunPfB Proofs.RunOpfC Proofs.RunOpfD Proofs.ReserveA Proofs.ReserveB Proofs.ReserveC Proofs.ReserveD Proofs.ReserveE Proofs.ReserveF
  Props.P_DcOpf Props.P_DcOpt Props.P_RunOpf Props.P_Reserves.
Local Open Scope nat_scope.

Section Price.
Context {K : Type} {F : Fld K}.
Variables (B : K) (R : reserves (K := K)).
(** the price of reserves in zone [i]: results['lin']['mu']['l']['Rreq'][i] / baseMVA *)
Definition zone_price (z : dcres (K := K)) (i : nat) : K :=
  (nth (length (m_mu_l (z_lmbda z)) - length (rs_zones R) + i) (m_mu_l (z_lmbda z)) 0 / B)%K.
(** runopf_w_res.py:43-45: "equal to maximum of the shadow prices on the zonal requirement constraint for each zone the
    generator belongs to" *)
Definition max_price (z : dcres (K := K)) (j : nat) (a : K) : Prop :=
  (exists i, i < length (rs_zones R) /\ nth j (nth i (rs_zones R) []) 0%K <> 0%K /\ a = zone_price z i) /\
  forall i, i < length (rs_zones R) -> nth j (nth i (rs_zones R) []) 0%K <> 0%K -> le (zone_price z i) a.
End Price.

Section Theorems.
Context {K : Type} {F : Fld K}.
Add Field KF : (@f_ok K F).
Variable argsort : list Z -> list nat.
Hypothesis Has : argsort_spec argsort.
Variable solve : smat K -> list K -> result (option (list K)).
Variable ln : K -> K.
Variables (ign : bool) (opts : dcopt (K := K)) (B : K) (p r : ppc_of K) (R : reserves (K := K)) (rr : rres (K := K))
  (f : K) (ok : bool).
Hypothesis W : wf_case p.
Hypothesis E : in_ext_state p.
Hypothesis RUN : dc_opf_res argsort solve ln ign opts B p R = Ok (r, rr, f, ok).
Hypothesis HB : lt 0%K B.
Hypothesis OUT : forall j g, gen_in_service p j -> nth_error (p_gen p) j = Some g -> le (cell g PMIN) (cell g PMAX).
Hypothesis ANG : ign = false -> forall j g, branch_in_service p j -> nth_error (p_branch p) j = Some g ->
  cell g ANGMIN <> 0%K -> cell g ANGMAX <> 0%K -> le (degrees (cell g ANGMIN)) (degrees (cell g ANGMAX)).
Hypothesis RAMP : forall j g, provides p (rs_zones R) j -> nth_error (p_gen p) j = Some g -> le 0%K (cell g RAMP_10).
Notation n := (length (p_gen p)).
Hypothesis QTY : forall v j a, rs_qty R = Some v -> provides p (rs_zones R) j -> stated n (rs_zones R) v j a -> le 0%K a.
Variable gencost : list (list K).
Hypothesis GCO : p_gencost p = Some gencost.
Hypothesis MOD : forall q od igr0 ri U Cw gc o z, res_stages argsort solve ln ign opts B p R q od igr0 ri U Cw gc o z ->
  Forall moderate (d_l o ++ d_u o ++ d_xmin o ++ d_xmax o).
(** a unit is in a zone or not *)
Hypothesis ZO : forall z j, In z (rs_zones R) -> nth j z 0%K = 0%K \/ nth j z 0%K = 1%K.
Notation p1 := (opf_columns p).

Lemma cut_le (a b : ext K) : le (cut_of a b) clean_tol.
Proof.
  assert (le 0%K (clean_tol : K)) as C0 by (apply lt_le; unfold clean_tol; apply div_pos; [apply lt_0_1|apply fofZ_pos; lia]).
  unfold cut_of. destruct a as [a| |], b as [b| |]; try apply le_refl; auto. destruct (fltb _ _); auto. apply le_refl.
Qed.

Lemma cut_same (a : K) : cut_of (EFin a) (EFin a) = 0%K.
Proof.
  apply (proj1 (cut_of_tight _ _)). cbn [tight]. replace (a - a)%K with (0%K : K) by ring.
  assert (fabs (0 : K)%K = 0%K) as -> by (unfold fabs; destruct (fltb 0%K 0%K); ring). apply lt_le. unfold eps_. apply div_pos; [apply lt_0_1|apply fofZ_pos; lia].
Qed.

(** at success: the cost of reserves of a unit, its price and the prices of its limits agree; so do marginal cost, price
    at the bus, and prices of the limits for every generator with an unsegmented cost *)
Theorem C100_prices : ok = true -> exists q od igr0 ri U Cw gc o z HH CC s,
  res_stages argsort solve ln ign opts B p R q od igr0 ri U Cw gc o z /\
  solved_by solve ln B (p_bus q) o (res_costs Cw (d_nx o)) opts z HH CC s /\
  forall lam_n mu_n, is_norm (t_lam s) lam_n -> is_norm (t_mu s) mu_n -> exists b, (b = lam_n \/ b = mu_n) /\
  (forall j a, provides p (rs_zones R) j -> stated n (rs_zones R) (rs_cost R) j a ->
     lt (fabs (B * (a - nth j (rr_prc rr) 0 + nth j (rr_mu_u rr) 0 - nth j (rr_mu_l rr) 0 + nth j (rr_mu_Pmax rr) 0))%K)
        (p_gradtol opts * (1 + b) + clean_tol * (1 + 1 + lsum (fun z => nth j z 0) (rs_zones R)))%K) /\
  (forall j g0 g zn i y, gen_in_service p j -> nth_error (p_gen p) j = Some g0 -> nth_error (p_gen r) j = Some g ->
     nth_error g0 GEN_BUS = Some (ofZ zn) -> bus_at p zn i -> nth_error (p_bus r) i = Some y ->
     segmented (nth j gencost []) = false -> cost_is 1 (nth j gencost []) = true \/ lin_or_quad (nth j gencost []) ->
     lt (fabs (B * (marginal (nth j gencost []) (cell g PG) - cell y LAM_P + cell g MU_PMAX - cell g MU_PMIN
                    + nth j (rr_mu_Pmax rr) 0))%K)
        (p_gradtol opts * (1 + b) + clean_tol * (1 + 1))%K).
Proof.
  intros OKT.
  destruct (parts_r argsort Has solve ln ign opts B p r R rr f ok W E RUN)
    as (q & od & igr0 & ri & U & Cw & gc & o & z & A & sb & sg & sl & sa & br & i2eZ & gon & ge &
    ST & NZ & Hf & Hok & CV & ED & FO & BN & WU & HI & IF & RI & CAR & GT & LT & HB' & HG' & HL' & HLAM & HMU).
  pose proof (MOD _ _ _ _ _ _ _ _ _ ST) as MO.
  pose proof ST as (S1 & S2 & S3 & S4 & S5 & S6 & S7).
  destruct (set_ok ign B _ _ _ _ U o WU S6) as (Bb & Pbi & SS).
  pose proof (ss_gbus _ _ _ _ _ _ _ _ _ _ SS) as GB.
  pose proof (ed_nodup _ _ _ _ _ _ ED) as NDi.
  assert (RQ : length (rs_req R) = length (ri_zones ri)) by (rewrite (ed_zones_len _ _ _ _ _ _ ED), (ed_req _ _ _ _ _ _ ED); auto).
  pose proof (res_ordered argsort ign B p R W HB OUT ANG RAMP QTY q od igr0 ri U Cw A sb sg sl sa i2eZ gon ge CV ED FO GB NZ) as LO.
  pose proof (nx_r ign B _ _ _ gc U _ Cw ri A FO GB NZ NDi RQ o Bb Pbi SS) as NX.
  pose proof (rows_ge ign B _ _ _ gc U _ Cw ri A FO NZ RQ o Bb Pbi SS) as NR.
  set (nb := length (p_bus q)) in *. set (ng := length (p_gen q)) in *. set (ny := length (multi_rows ng gc)) in *.
  set (ngr := length (ri_igr ri)) in *. set (nrz := length (ri_zones ri)) in *.
  assert (LCw : length Cw = ngr) by (rewrite (fo_Cw _ _ _ _ _ _ _ _ FO), map_length; auto).
  destruct (res_costs_shaped Cw (d_nx o)) as (WN & WH & SH & UNS & UC); [lia|].
  destruct (result_lengths solve ln ign opts B _ _ _ gc U o z _ WU S6 WN WH SH LO MO S7)
    as (Lx & Ll & Lu & Lml & Lmu & OS1 & OS2). cbv zeta in *.
  assert (RET : returned p1 sg R ri B (u_zu U) Cw (z_x z) (m_lower (z_lmbda z)) (m_upper (z_lmbda z)) (m_mu_l (z_lmbda z))
     (m_mu_u (z_lmbda z)) rr).
  { apply (res_int2ext_ok argsort Has p1 q od i2eZ sb gon ge sg sl sa CV R igr0 ri ED B (u_zl U)); auto; fold ngr nrz; try lia.
    rewrite (fo_zu _ _ _ _ _ _ _ _ FO), map_length. auto. }
  destruct (stationary solve ln ign B _ _ _ gc U o WU S6 _ WN WH SH opts z LO MO S7 ltac:(congruence))
    as (HH & CC & C0 & s & sol & SB & HO & UP & Lr & _ & _ & T).
  destruct (dc_update_ok _ _ _ _ _ _ _ _ _ _ SS C0 sol z UP) as (_ & _ & _ & LAM & _).
  rewrite <- LAM in T. set (M := z_lmbda z) in *. set (N := nrows (d_A o)) in *.
  exists q, od, igr0, ri, U, Cw, gc, o, z, HH, CC, s. do 2 (split; [auto|]).
  intros lam_n mu_n X1 X2. destruct (T lam_n mu_n X1 X2) as (b & Hb & T'). exists b. split; auto.
  assert (CT0 : le 0%K (clean_tol : K)) by (apply lt_le; unfold clean_tol; apply div_pos; [apply lt_0_1|apply fofZ_pos; lia]).
  assert (F1 : fabs (1 : K)%K = 1%K) by (unfold fabs; rewrite (lt_le _ _ lt_0_1 : fltb (1 : K)%K 0%K = false); reflexivity).
  assert (F0 : fabs (0 : K)%K = 0%K) by (unfold fabs; destruct (fltb 0%K 0%K); ring).
  (* rows of units have no lower bound, rows of zones no upper one *)
  assert (UB : forall m, m < ngr + nrz -> lower (d_l o) (N - nrz - ngr + m) = lower (u_l U) m /\ upper (d_u o) (N - nrz - ngr + m) = upper (u_u U) m).
  { intros m Hm. destruct (ss_desc _ _ _ _ _ _ _ _ _ _ SS) as (_ & EN & _ & EL & EU' & _).
    rewrite (user_rows_r B _ _ gc U _ Cw ri A FO) in EN, EL, EU'. fold nb ng ny ngr nrz in EN, EL, EU'. fold N in EN.
    unfold lower, upper. rewrite !bound_nth, EL, EU'.
    set (Rs := map _ (seq 0 (ngr + nrz))) in *.
    assert (forall (h : row -> ext K) d, nth (N - nrz - ngr + m) (map h (mis_rows B (p_bus q) (p_gen q) (p_branch q) Pbi
       ++ pf_rows B (p_bus q) (p_branch q) (d_Pfinj o) (d_il o) ++ pt_rows B (p_bus q) (p_branch q) (d_Pfinj o) (d_il o)
       ++ ang_rows (p_bus q) (p_branch q) (d_iang o) ++ y_rows B (p_bus q) (p_gen q) (d_gencost o) ++ Rs)) d = nth m (map h Rs) d) as NT.
    { intros h d. rewrite !app_assoc, map_app. rewrite !app_assoc, app_length in EN. unfold Rs in EN at 1. rewrite map_length, seq_length in EN.
      rewrite app_nth2; rewrite map_length; [|lia]. f_equal. lia. }
    rewrite !NT. unfold Rs. rewrite !map_map. unfold rlo, rup. cbn [fst snd].
    rewrite !(nth_map_lt _ (seq 0 (ngr + nrz)) m _ 0) by (rewrite seq_length; auto). rewrite seq_nth by auto. cbn [Nat.add].
    unfold lower, upper. rewrite !bound_nth. auto. }
  split.
  - intros j a Pj Sa. pose proof Pj as Pj'. apply (provides_wide p R W) in Pj'.
    apply (provides_at _ _ _ _ _ _ _ _ _ _ _ CV R igr0 ri ED) in Pj' as (m & k & Hm & Hk).
    assert (Lm : m < ngr) by (eapply nth_error_some_lt; eauto).
    specialize (T' (nb + ng + ny + m) ltac:(lia)). cbv zeta in T'.
    pose proof (res_gradient ign B _ _ _ gc U _ Cw ri A FO GB NZ NDi RQ o Bb Pbi SS HH CC C0 (z_x z) m HO Lr Lm) as RW. fold nb ng ny ngr nrz N in RW. cbv beta in RW. rewrite RW in T'. clear RW.
    unshelve epose proof (res_col ign B _ _ _ gc U _ Cw ri A FO GB NZ NDi RQ o Bb Pbi SS m k Hm
       (fun i c _ _ => (c * (nth i (m_mu_u M) 0 - nth i (m_mu_l M) 0))%K) _) as RW; [intros; cbv beta; ring|]. fold nb ng ny ngr nrz N in RW. cbv beta in RW. rewrite RW in T'. clear RW.
    unshelve epose proof (res_col ign B _ _ _ gc U _ Cw ri A FO GB NZ NDi RQ o Bb Pbi SS m k Hm (fun i c u v => (fabs c * cut_of u v)%K) _) as RW; [intros; cbv beta; rewrite F0; ring|]. fold nb ng ny ngr nrz N in RW. cbv beta in RW. rewrite RW in T'. clear RW.
    fold nb ng ny ngr nrz N in T'. rewrite F1 in T'.
    destruct (ed_cost _ _ _ _ _ _ ED) as (_ & _ & _ & V2). rewrite n1 in V2.
    assert (Ec : nth_error (ri_cost ri) k = Some a) by (apply (V2 k j); auto; apply Pj).
    assert (nth m Cw 0%K = a * B)%K as EC.
    { rewrite (fo_Cw _ _ _ _ _ _ _ _ FO), (nth_map_lt _ (ri_igr ri) m _ 0) by auto.
      rewrite (nth_error_nth _ _ _ Hm), (nth_error_nth _ _ _ Ec). auto. }
    destruct (rt_mu_u _ _ _ _ _ _ _ _ _ _ _ _ _ RET) as (_ & Q1 & _). specialize (Q1 _ _ _ Hm Hk).
    destruct (rt_mu_l _ _ _ _ _ _ _ _ _ _ _ _ _ RET) as (_ & Q2 & _). specialize (Q2 _ _ _ Hm Hk).
    destruct (rt_mu_p _ _ _ _ _ _ _ _ _ _ _ _ _ RET) as (_ & Q3 & _). specialize (Q3 _ _ _ Hm Hk).
    destruct (rt_prc _ _ _ _ _ _ _ _ _ _ _ _ _ RET) as (_ & Q4 & _).
    assert (Lj : j < n) by (destruct Pj as ((gg & ? & Hgg & _) & _); eapply nth_error_some_lt; eauto).
    rewrite n1 in Q4. specialize (Q4 j Lj ltac:(apply Pj)). fold ngr nrz in Q1, Q2, Q3, Q4.
    rewrite Lu in Q1. rewrite Ll in Q2. rewrite Lmu in Q3, Q4. fold N in Q3, Q4.
    replace (d_nx o - ngr + m) with (nb + ng + ny + m) in Q1, Q2 by lia.
    assert (Z1 : nth (N - nrz - ngr + m) (m_mu_l M) 0%K = 0%K).
    { apply OS2; [fold N; lia|]. rewrite (proj1 (UB m ltac:(lia))). apply (l_unit B (p_bus q) _ U _ Cw ri A FO). auto. }
    assert (Z2 : forall i, i < nrz -> nth (N - nrz + i) (m_mu_u M) 0%K = 0%K).
    { intros i Hi. apply OS2; [fold N; lia|]. replace (N - nrz + i) with (N - nrz - ngr + (ngr + i)) by lia.
      rewrite (proj2 (UB (ngr + i) ltac:(lia))). apply (u_zone B (p_bus q) _ U _ Cw ri A FO NZ RQ). auto. }
    assert (ZW : forall i, i < nrz -> nth k (nth i (ri_zones ri) []) 0%K = nth j (nth i (rs_zones R) []) 0%K /\
       (nth j (nth i (rs_zones R) []) 0%K = 0%K \/ nth j (nth i (rs_zones R) []) 0%K = 1%K)).
    { intros i Hi. destruct (nth_error_lt (rs_zones R) i) as [zz Hz]; [rewrite <- (ed_zones_len _ _ _ _ _ _ ED); auto|].
      destruct (ed_zones _ _ _ _ _ _ ED _ _ Hz) as (w & Hw & _ & _ & Ww). specialize (Ww _ _ Hk).
      rewrite (nth_error_nth _ _ _ Hz), (nth_error_nth _ _ _ Hw). split; [|apply ZO; eapply nth_error_In; eauto].
      destruct (nth_error zz j) as [v|] eqn:Ea.
      - rewrite (nth_error_nth _ _ _ Ea), (nth_error_nth _ _ _ Ww). auto.
      - apply nth_error_None in Ea, Ww. rewrite !nth_overflow by auto. auto. }
    assert (G1 : lsum (fun i => nth k (nth i (ri_zones ri) []) 0 * (nth (N - nrz + i)%nat (m_mu_u M) 0 - nth (N - nrz + i)%nat (m_mu_l M) 0))%K (seq 0 nrz)
       = (- (B * nth j (rr_prc rr) 0))%K).
    { rewrite Q4. match goal with |- _ = (- (B * (?t / B)))%K => transitivity (- t)%K; [|field; auto] end.
      rewrite <- lsum_opp. apply lsum_ext. intros i Hi. apply in_seq in Hi. rewrite Z2 by lia. destruct (ZW i ltac:(lia)) as (-> & [H|H]); rewrite H.
      - assert (nonzero (0 : K)%K = false) as -> by (unfold nonzero; rewrite (proj2 (feqb_ok _ _) eq_refl); auto). ring.
      - assert (nonzero (1 : K)%K = true) as ->.
        { unfold nonzero. destruct (feqb 1%K 0%K) eqn:E1; auto. apply feqb_ok in E1. exfalso. apply (F_1_neq_0 (@f_ok K F)). auto. }
        ring. }
    assert (G2 : lsum (fun i => fabs (nth k (nth i (ri_zones ri) []) 0) * cut_of (lower (u_l U) (ngr + i)) EPos)%K (seq 0 nrz)
       = (clean_tol * lsum (fun z0 => nth j z0 0) (rs_zones R))%K).
    { rewrite (lsum_nth _ (rs_zones R) []), <- (ed_zones_len _ _ _ _ _ _ ED), <- lsum_scal. fold nrz. apply lsum_ext. intros i Hi. apply in_seq in Hi.
      destruct (nth_error_lt (rs_req R) i) as [d Hd]; [lia|]. unfold ngr. rewrite (l_zone B (p_bus q) _ U _ Cw ri A FO NZ RQ i d Hd). cbn [cut_of].
      destruct (ZW i ltac:(lia)) as (-> & [H|H]); rewrite H, ?F0, ?F1; ring. }
    rewrite G1, G2, EC, Z1 in T'.
    eapply lt_le_trans; [|eapply le_trans].
    + match type of T' with lt (fabs ?u) _ => match goal with |- lt (fabs ?v) _ => replace v with u; [exact T'|] end end.
      rewrite Q1, Q2, Q3. field. auto.
    + apply le_refl.
    + cbn [cut_of].
      match goal with |- le (?g + (?c + (1 * ?t + ?s)))%K _ => apply le_sub;
        match goal with |- le _ ?d => replace d with (t - c)%K by ring end end.
      apply (proj1 (le_sub _ _)), cut_le.
  - intros j g0 g zn i y Sj Hg0 Hg Hzn Hi Hy SG CVX.
    assert (Sj1 : gen_in_service p1 j) by (apply (gen_service_wide p j W); auto).
    destruct (gen_row p1 q r sb sg sl sa (z_bus z) (z_gen z) br B (z_x z) IF CAR HG' j g Sj1 Hg)
      as (k & x1 & y1 & g' & Hk & Hx1 & Hy1 & Hg' & V & E1 & E2 & E3).
    assert (Lk : k < ng) by (eapply nth_error_some_lt; eauto).
    destruct (ca_gen _ _ _ _ _ _ _ _ _ CAR _ _ _ Hk Hg') as (x2 & y2 & a2 & z2 & n2 & C1 & C2 & C3 & C4 & C5 & C6 & _).
    assert (x2 = x1) by congruence. assert (y2 = y1) by congruence. assert (a2 = g) by congruence. subst x2 y2 a2.
    assert (z2 = zn) as ->.
    { assert (nth_error x1 GEN_BUS = Some (ofZ zn)) as H.
      { cbn in Hx1. apply widen_inv in Hx1 as (r0 & Hr0 & ->). apply wide_nth. congruence. }
      rewrite <- (cell_ofZ _ _ _ C4). apply (cell_ofZ _ _ _ H). }
    destruct C5 as (i' & Hn2 & Bi'). apply (bus_at_wide p _ _ W) in Bi'. assert (i' = i) by (eapply (wf_bus_distinct _ W); eauto). subst i'.
    destruct (nth_error_lt (z_bus z) n2) as [b' Hb']; [rewrite (ca_bus_len _ _ _ _ _ _ _ _ _ CAR); eapply nth_error_some_lt; eauto|].
    destruct (ca_bus _ _ _ _ _ _ _ _ _ CAR _ _ _ Hn2 Hb') as (xb & yb & ab & D1 & D2 & D3 & _ & D4).
    assert (ab = y) by congruence. subst ab.
    pose proof (HLAM _ _ _ D2 Hb') as HP. rewrite <- (D4 LAM_P) in HP by discriminate.
    destruct (HMU _ _ _ Hy1 Hg') as (M1 & M2). rewrite <- (E3 MU_PMIN) in M1 by discriminate. rewrite <- (E3 MU_PMAX) in M2 by discriminate.
    assert (GN : bus_no y1 GEN_BUS = n2) by (apply ofN_no; auto).
    rewrite <- (cost_row p1 q sb sg sl sa gencost gc IF GCO S5 k j Hk) in SG, CVX |- *.
    specialize (T' (nb + k) ltac:(lia)). cbv zeta in T'.
    pose proof (gen_gradient_r ign B _ _ _ gc U _ Cw ri A FO GB NZ NDi RQ o Bb Pbi SS HH CC C0 (z_x z) k HO Lr Lk SG CVX) as RW. fold nb ng ny ngr nrz N in RW. cbv beta in RW. rewrite RW in T'. clear RW.
    unshelve epose proof (gen_col_r ign B _ _ _ gc U _ Cw ri A FO GB NZ NDi RQ o Bb Pbi SS k y1 Hy1 SG
       (fun i c _ _ => (c * (nth i (m_mu_u M) 0 - nth i (m_mu_l M) 0))%K) _) as RW; [intros; cbv beta; ring|]. fold nb ng ny ngr nrz N in RW. cbv beta in RW. rewrite RW in T'. clear RW.
    unshelve epose proof (gen_col_r ign B _ _ _ gc U _ Cw ri A FO GB NZ NDi RQ o Bb Pbi SS k y1 Hy1 SG (fun i c u v => (fabs c * cut_of u v)%K) _) as RW; [intros; cbv beta; rewrite F0; ring|]. fold nb ng ny ngr nrz N in RW. cbv beta in RW. rewrite RW in T'. clear RW.
    fold nb ng ny ngr nrz N in T'. rewrite F1, GN in T'. fold nb in V. rewrite <- V in T'.
    rewrite (cut_same (mis_b B (p_bus q) Pbi n2)) in T'.
    set (c1 := lsum _ (seq 0 ngr)) in T' at 2.
    set (c2 := lsum _ (seq 0 ngr)) in T' at 1.
    destruct (rt_mu_p _ _ _ _ _ _ _ _ _ _ _ _ _ RET) as (_ & Q3 & Q3'). fold ngr nrz in Q3. rewrite Lmu in Q3. fold N in Q3.
    assert (le c1 clean_tol /\ c2 = (B * nth j (rr_mu_Pmax rr) 0)%K) as (Lc1 & Ec2).
    { unfold c1, c2. destruct (in_dec Nat.eq_dec k (ri_igr ri)) as [I|I].
      - apply In_nth_error in I as (m & Hm). assert (Lm : m < ngr) by (eapply nth_error_some_lt; eauto).
        assert (ONE : forall h : nat -> K, lsum (fun m0 => if nth m0 (ri_igr ri) 0 =? k then h m0 else 0%K) (seq 0 ngr) = h m).
        { intros h. rewrite (lsum_ext _ (fun m0 => if m =? m0 then h m0 else 0%K)).
          - rewrite lsum_seq_single'; [reflexivity|]. auto.
          - intros m0 H0. apply in_seq in H0. destruct (nth_error_lt (ri_igr ri) m0) as [k0 Hk0]; [fold ngr; lia|].
            rewrite (nth_error_nth _ _ _ Hk0). destruct (Nat.eqb_spec m m0) as [->|Nm].
            + assert (k0 = k) by congruence. subst. rewrite Nat.eqb_refl. auto.
            + destruct (Nat.eqb_spec k0 k) as [->|]; auto. exfalso. apply Nm. eapply (NoDup_nth_error_eq (ri_igr ri)); eauto. }
        rewrite !ONE. split.
        + cbn [cut_of]. replace (1 * clean_tol)%K with (clean_tol : K) by ring. apply le_refl.
        + rewrite (Q3 _ _ _ Hm Hk).
          assert (Z1 : nth (N - nrz - ngr + m) (m_mu_l M) 0%K = 0%K).
          { apply OS2; [fold N; lia|]. rewrite (proj1 (UB m ltac:(lia))). apply (l_unit B (p_bus q) _ U _ Cw ri A FO). auto. }
          rewrite Z1. field. auto.
      - assert (ZER : forall h : nat -> K, lsum (fun m0 => if nth m0 (ri_igr ri) 0 =? k then h m0 else 0%K) (seq 0 ngr) = 0%K).
        { intros h. apply lsum_zero. intros m0 H0. apply in_seq in H0. destruct (nth_error_lt (ri_igr ri) m0) as [k0 Hk0]; [fold ngr; lia|].
          rewrite (nth_error_nth _ _ _ Hk0). destruct (Nat.eqb_spec k0 k) as [->|]; auto. exfalso. apply I. eapply nth_error_In; eauto. }
        rewrite !ZER. split; auto. rewrite Q3'; [ring|]. intros PJ. apply (provides_at _ _ _ _ _ _ _ _ _ _ _ CV R igr0 ri ED) in PJ as (m & k' & Hm & Hk').
        apply I. assert (k' = k) by (eapply (NoDup_nth_error_eq sg); eauto; apply (if_sg _ _ _ _ _ _ IF)). subst k'. eapply nth_error_In; eauto. }
    rewrite Ec2 in T'. rewrite <- M1, <- M2 in T'.
    eapply lt_le_trans.
    + match type of T' with lt (fabs ?u) _ => match goal with |- lt (fabs ?v) _ => replace v with u; [exact T'|] end end.
      transitivity (B * marginal (nth k gc []) (cell g PG) - (nth n2 (m_mu_u M) 0 - nth n2 (m_mu_l M) 0) + B * (cell g MU_PMAX - cell g MU_PMIN + nth j (rr_mu_Pmax rr) 0))%K; [ring|].
      rewrite <- HP. ring.
    + match goal with |- le (?u + (?c + (?t + ?e)))%K _ => replace (u + (c + (t + e)))%K with (u + (c + e))%K by ring end.
      replace (clean_tol * (1 + 1))%K with (clean_tol + clean_tol : K)%K by ring.
      apply add_le; [apply le_refl|]. apply add_le; [apply cut_le|auto].
Qed.

(** the reported price of a unit is the sum of the prices of its zones; for a unit in one zone this is the largest of them *)
Theorem C101_partial : exists q od igr0 ri U Cw gc o z,
  res_stages argsort solve ln ign opts B p R q od igr0 ri U Cw gc o z /\
  (forall j, j < n -> provider (rs_zones R) j ->
     nth j (rr_prc rr) 0%K = lsum (fun i => if nonzero (nth j (nth i (rs_zones R) []) 0) then zone_price B R z i else 0)%K
        (seq 0 (length (rs_zones R)))) /\
  (forall j i, j < n -> i < length (rs_zones R) ->
     (forall i', i' < length (rs_zones R) -> nth j (nth i' (rs_zones R) []) 0%K <> 0%K <-> i' = i) ->
     max_price B R z j (nth j (rr_prc rr) 0%K)).
Proof.
  destruct (parts_r argsort Has solve ln ign opts B p r R rr f ok W E RUN)
    as (q & od & igr0 & ri & U & Cw & gc & o & z & A & sb & sg & sl & sa & br & i2eZ & gon & ge &
    ST & NZ & Hf & Hok & CV & ED & FO & BN & WU & HI & IF & RI & CAR & GT & LT & HB' & HG' & HL' & HLAM & HMU).
  pose proof (MOD _ _ _ _ _ _ _ _ _ ST) as MO.
  pose proof ST as (S1 & S2 & S3 & S4 & S5 & S6 & S7).
  destruct (set_ok ign B _ _ _ _ U o WU S6) as (Bb & Pbi & SS).
  pose proof (ss_gbus _ _ _ _ _ _ _ _ _ _ SS) as GB.
  pose proof (ed_nodup _ _ _ _ _ _ ED) as NDi.
  assert (RQ : length (rs_req R) = length (ri_zones ri)) by (rewrite (ed_zones_len _ _ _ _ _ _ ED), (ed_req _ _ _ _ _ _ ED); auto).
  pose proof (res_ordered argsort ign B p R W HB OUT ANG RAMP QTY q od igr0 ri U Cw A sb sg sl sa i2eZ gon ge CV ED FO GB NZ) as LO.
  pose proof (nx_r ign B _ _ _ gc U _ Cw ri A FO GB NZ NDi RQ o Bb Pbi SS) as NX.
  pose proof (rows_ge ign B _ _ _ gc U _ Cw ri A FO NZ RQ o Bb Pbi SS) as NR.
  assert (LCw : length Cw = length (ri_igr ri)) by (rewrite (fo_Cw _ _ _ _ _ _ _ _ FO), map_length; auto).
  destruct (res_costs_shaped Cw (d_nx o)) as (WN & WH & SH & UNS & UC); [lia|].
  destruct (result_lengths solve ln ign opts B _ _ _ gc U o z _ WU S6 WN WH SH LO MO S7)
    as (Lx & Ll & Lu & Lml & Lmu & OS1 & OS2). cbv zeta in *.
  assert (RET : returned p1 sg R ri B (u_zu U) Cw (z_x z) (m_lower (z_lmbda z)) (m_upper (z_lmbda z)) (m_mu_l (z_lmbda z))
     (m_mu_u (z_lmbda z)) rr).
  { apply (res_int2ext_ok argsort Has p1 q od i2eZ sb gon ge sg sl sa CV R igr0 ri ED B (u_zl U)); auto; try lia.
    rewrite (fo_zu _ _ _ _ _ _ _ _ FO), map_length. auto. }
  exists q, od, igr0, ri, U, Cw, gc, o, z. split; auto.
  destruct (rt_prc _ _ _ _ _ _ _ _ _ _ _ _ _ RET) as (_ & Q4 & _). rewrite n1 in Q4.
  assert (SUM : forall j, j < n -> provider (rs_zones R) j ->
     nth j (rr_prc rr) 0%K = lsum (fun i => if nonzero (nth j (nth i (rs_zones R) []) 0) then zone_price B R z i else 0)%K
        (seq 0 (length (rs_zones R)))).
  { intros j Lj Pj. rewrite (Q4 j Lj Pj). rewrite (ed_zones_len _ _ _ _ _ _ ED).
    transitivity (1 / B * lsum (fun i => if nonzero (nth j (nth i (rs_zones R) []) 0)
       then nth (length (m_mu_u (z_lmbda z)) - length (rs_zones R) + i)%nat (m_mu_l (z_lmbda z)) 0 else 0) (seq 0 (length (rs_zones R))))%K; [field; auto|].
    rewrite <- lsum_scal. apply lsum_ext. intros i _. unfold zone_price. rewrite Lml, Lmu. destruct (nonzero _); [field; auto|ring]. }
  split; auto. intros j i Lj Li ONE.
  assert (nonzero_iff : forall a : K, nonzero a = true <-> a <> 0%K).
  { intros a. unfold nonzero. destruct (feqb a 0%K) eqn:Ea; cbn; split; try discriminate; auto.
    - apply feqb_ok in Ea. intros Hn. contradiction.
    - intros _ Hn. apply feqb_ok in Hn. congruence. }
  rewrite SUM; auto.
  - rewrite (lsum_ext _ (fun i' => if i =? i' then zone_price B R z i' else 0%K)).
    + rewrite lsum_seq_single' by auto. split.
      * exists i. split; auto. split; [apply ONE; auto|reflexivity].
      * intros i' Li' N'. apply (ONE i' Li') in N' as ->. apply le_refl.
    + intros i' Hi'. apply in_seq in Hi'. destruct (nonzero _) eqn:En.
      * apply nonzero_iff in En. apply ONE in En; [|lia]. subst i'. rewrite Nat.eqb_refl. auto.
      * destruct (Nat.eqb_spec i i') as [->|]; auto. exfalso. assert (nonzero (nth j (nth i' (rs_zones R) []) 0%K) = true); [|congruence].
        apply nonzero_iff, ONE; auto.
  - destruct (nth_error_lt (rs_zones R) i Li) as [zz Hz]. exists i, zz. split; auto. rewrite <- (nth_error_nth _ _ [] Hz). apply ONE; auto.
Qed.
End Theorems.

(** ** Examples *)

(** the case of C99: the cost of reserves of the running unit, its price and the prices of its limits agree; so do its
    marginal cost, the price at its bus and the prices of its limits *)
Example C100_example : exists r rr f g y b,
  dc_opf_res argsort_stable solveR (fun a => a) false (ex_p 3) (zc 100) rp rR = Ok (r, rr, f, true) /\
  nth_error (p_gen r) 1 = Some g /\ nth_error (p_bus r) 1 = Some y /\
  lt (fabs (zc 100 * (zc 2 - nth 1 (rr_prc rr) 0 + nth 1 (rr_mu_u rr) 0 - nth 1 (rr_mu_l rr) 0 + nth 1 (rr_mu_Pmax rr) 0))%K)
     (p_gradtol (ex_p 3) * (1 + b) + clean_tol * zc 3)%K /\
  lt (fabs (zc 100 * (zc 2 * cell g PG + zc 10 - cell y LAM_P + cell g MU_PMAX - cell g MU_PMIN + nth 1 (rr_mu_Pmax rr) 0))%K)
     (p_gradtol (ex_p 3) * (1 + b) + clean_tol * zc 2)%K.
Proof.
  assert (match dc_opf_res argsort_stable solveR (fun a => a) false (ex_p 3) (zc 100) rp rR with
          | Ok (r, _, _, b) => b && (2 <=? length (p_gen r)) && (2 <=? length (p_bus r)) | _ => false end = true)
    as C by (vm_compute; reflexivity).
  destruct (dc_opf_res argsort_stable solveR (fun a => a) false (ex_p 3) (zc 100) rp rR) as [(((r, rr), f), ok)|e] eqn:RUN; [|discriminate C].
  apply andb_prop in C as (C & C3). apply andb_prop in C as (C1 & C2). subst ok. apply Nat.leb_le in C2, C3.
  destruct (nth_error_lt (p_gen r) 1) as [g Hg]; [lia|]. destruct (nth_error_lt (p_bus r) 1) as [y Hy]; [lia|].
  assert (ZO : forall z j, In z (rs_zones rR) -> nth j z 0%K = 0%K \/ nth j z 0%K = 1%K).
  { intros z j Hz. cbn [rs_zones rR In] in Hz. destruct Hz as [<-|[]]. unfold zs. cbn [map].
    destruct j as [|[|[|j]]]; cbn [nth]; [right|right|left|left; destruct j; reflexivity]; apply qc_eqb_eq; reflexivity. }
  pose proof (C100_prices argsort_stable argsort_stable_spec solveR (fun a => a) false (ex_p 3) (zc 100) rp r rR rr f true
              rp_wf rp_h1 RUN rp_h2 rp_h3 rp_h4 rp_h6 rp_h7 rgc eq_refl rp_moderate ZO eq_refl) as X.
  destruct X as (q & od & igr0 & ri & U & Cw & gc & o & z & HH & CC & s & _ & _ & H).
  destruct (C83_norms (t_lam s)) as (ln & L1). destruct (C83_norms (t_mu s)) as (mn & L2).
  destruct (H ln mn L1 L2) as (b & _ & G1 & G2). exists r, rr, f, g, y, b. split; [reflexivity|]. do 2 (split; [assumption|]).
  assert (P1 : provides rp (rs_zones rR) 1) by (split; [apply rp_gs; reflexivity|apply rp_pz; right; reflexivity]).
  split.
  - specialize (G1 1 (zc 2) P1). 
    match type of G1 with _ -> lt _ ?t => match goal with |- lt _ ?t' => replace t' with t end end.
    + apply G1. apply (rp_st _ 1 _ (or_introl eq_refl)); [exact P1|]. split; reflexivity.
    + f_equal.
  - specialize (G2 1 (rg 20 1 100 0) g 20%Z 1 y).
    match type of G2 with _ -> _ -> _ -> _ -> _ -> _ -> _ -> _ -> lt (fabs ?a) ?t => match goal with |- lt (fabs ?a') ?t' => replace t' with t; [replace a' with a|] end end.
    + apply G2; try assumption; try reflexivity.
      * apply rp_gs. reflexivity.
      * eexists; split; reflexivity.
      * apply rp_h5, rp_gs. reflexivity.
    + f_equal. do 4 f_equal. unfold marginal. 
      replace (cost_is 1 (nth 1 rgc [])) with false by (vm_compute; reflexivity).
      replace (coeffs (nth 1 rgc [])) with (zs [1; 10; 7]%Z) by (symmetry; cbv [coeffs]; reflexivity).
      cbn. replace (zc 2) with (zc 1 + zc 1)%Qc by (apply qc_eqb_eq; reflexivity). replace (zc 1) with (Q2Qc 1) by (apply qc_eqb_eq; reflexivity).
      generalize (zc 10), (cell g PG). intros a b0. change (Q2Qc 1) with 1%Qc. change (Q2Qc 0) with 0%Qc. ring.
    + f_equal.
Qed.

(** a unit in two zones with equal requirements has the price 2, while each zone has the price 1 *)
Definition rR2 : reserves (K := Qc) := Reserves [zs [1; 1; 0]%Z; zs [0; 1; 1]%Z] (zs [20; 20]%Z) (zs [1; 2; 3]%Z) None.
Definition rp2 : ppc_of Qc :=
  {| p_bus := [eb 5 4 11; eb 20 3 50];
     p_gen := [rg 20 0 50 20; rg 20 1 100 32; rg 5 1 60 15];
     p_branch := [el 20 5 1];
     p_gencost := Some rgc; p_areas := None; p_A := None; p_N := None; p_order := None |}.
(** prices of two zones and of the units; whether both prices of zones are below that of unit 1 *)
Definition prices2 solve ln (opts : dcopt (K := Qc)) B (p : ppc_of Qc) (R : reserves (K := Qc)) : option (bool * list Z * list Z * bool) :=
  match ext2int argsort_stable (opf_columns p) with
  | Ok q => match p_order q, p_gencost q with
    | Some od, Some gc => match res_ext2int od (length (p_gen p)) R with
      | Ok (_, ri) => match res_formulation B (length (p_bus q)) (p_gen q) (rs_req R) ri with
        | Ok (U, Cw) => match dc_setup false B (p_bus q) (p_gen q) (p_branch q) gc U with
          | Ok o => match dcopf solve ln opts B (p_bus q) (p_gen q) (p_branch q) o (res_costs Cw (d_nx o)),
                          dc_opf_res argsort_stable solve ln false opts B p R with
                    | Ok z, Ok (_, rr, _, ok) => Some (ok, [mil (zone_price B R z 0); mil (zone_price B R z 1)], map mil (rr_prc rr),
                        fltb (zone_price B R z 0) (nth 1 (rr_prc rr) 0%K) && fltb (zone_price B R z 1) (nth 1 (rr_prc rr) 0%K))
                    | _, _ => None end
          | Err _ => None end
        | Err _ => None end
      | Err _ => None end
    | _, _ => None end
  | Err _ => None end.
Lemma prices2_sound solve ln opts B p R l l' : prices2 solve ln opts B p R = Some (true, l, l', true) -> length (rs_zones R) = 2 ->
  exists r rr f q od igr0 ri U Cw gc o z, dc_opf_res argsort_stable solve ln false opts B p R = Ok (r, rr, f, true) /\
    res_stages argsort_stable solve ln false opts B p R q od igr0 ri U Cw gc o z /\ ~ max_price B R z 1 (nth 1 (rr_prc rr) 0%K).
Proof.
  intros C Z2. unfold prices2 in C.
  destruct (ext2int argsort_stable (opf_columns p)) as [q|] eqn:S1; [|discriminate C].
  destruct (p_order q) as [od|] eqn:S2; [|discriminate C]. destruct (p_gencost q) as [gc|] eqn:S5; [|discriminate C].
  destruct (res_ext2int od (length (p_gen p)) R) as [(igr0, ri)|] eqn:S3; [|discriminate C].
  destruct (res_formulation B (length (p_bus q)) (p_gen q) (rs_req R) ri) as [(U, Cw)|] eqn:S4; [|discriminate C].
  destruct (dc_setup false B (p_bus q) (p_gen q) (p_branch q) gc U) as [o|] eqn:S6; [|discriminate C].
  destruct (dcopf solve ln opts B (p_bus q) (p_gen q) (p_branch q) o (res_costs Cw (d_nx o))) as [z|] eqn:S7; [|discriminate C].
  destruct (dc_opf_res argsort_stable solve ln false opts B p R) as [(((r, rr), f), ok)|] eqn:S8; [|discriminate C].
  assert (ok = true /\ fltb (zone_price B R z 0) (nth 1 (rr_prc rr) 0%K) && fltb (zone_price B R z 1) (nth 1 (rr_prc rr) 0%K) = true)
    as (-> & D) by (split; congruence). clear C.
  exists r, rr, f, q, od, igr0, ri, U, Cw, gc, o, z.
  split; [reflexivity|]. split; [unfold res_stages; auto 8|].
  intros ((i & Li & _ & V) & _). rewrite Z2 in Li. apply andb_prop in D as (D1 & D2).
  destruct i as [|[|i]]; [rewrite V in D1; exact (lt_irrefl _ D1)|rewrite V in D2; exact (lt_irrefl _ D2)|lia].
Qed.
Example C101_example : prices2 solveR (fun a => a) (ex_p 3) (zc 100) rp2 rR2 = Some (true, [1004; 1004], [1004; 2008; 1004], true)%Z.
Proof. vm_compute. reflexivity. Qed.

Lemma rp2_wf : wf_case rp2.
Proof.
  constructor; try discriminate.
  - exists 13; split; [lia|]. repeat constructor.
  - exists 18; split; [lia|]. repeat constructor.
  - exists 13; split; [lia|]. repeat constructor.
  - apply (wf_bus_num _ rp_wf).
  - apply (wf_bus_distinct _ rp_wf).
  - apply (wf_bus_type _ rp_wf).
  - apply (wf_some_bus _ rp_wf).
  - intros r Hr. repeat (destruct Hr as [<-|Hr]); [..|destruct Hr];
      (eexists; split; [reflexivity|]);
      first [exists 0; eexists; split; reflexivity|exists 1; eexists; split; reflexivity].
  - apply (wf_br_bus _ rp_wf).
  - apply (wf_br_status _ rp_wf).
  - apply (wf_gencost _ rp_wf).
Qed.
Lemma rp2_provides : provides rp2 (rs_zones rR2) 1.
Proof.
  split.
  - exists (rg 20 1 100 32), (zc 1). split; [reflexivity|]. split; [reflexivity|]. split; [vm_compute; reflexivity|].
    exists 20%Z, 1. split; [reflexivity|]. split; [eexists; split; reflexivity|]. eexists. split; [reflexivity|].
    intros C. cbn [nth_error zs map eb BUS_TYPE] in C. apply some_zc in C; lia.
  - exists 0. eexists. split; [reflexivity|]. cbn [nth zs map]. apply qc_eqb_neq. reflexivity.
Qed.
(** the documented maximum does not hold for a unit in two zones *)
Theorem C101_refuted : exists (p : ppc_of Qc) (R : reserves (K := Qc)) solve ln opts B r rr f q od igr0 ri U Cw gc o z j,
  wf_case p /\ dc_opf_res argsort_stable solve ln false opts B p R = Ok (r, rr, f, true) /\
  res_stages argsort_stable solve ln false opts B p R q od igr0 ri U Cw gc o z /\ provides p (rs_zones R) j /\
  ~ max_price B R z j (nth j (rr_prc rr) 0%K).
Proof.
  destruct (prices2_sound _ _ _ _ _ _ _ _ C101_example eq_refl) as (r & rr & f & q & od & igr0 & ri & U & Cw & gc & o & z & H1 & H2 & H3).
  exists rp2, rR2, solveR, (fun a => a), (ex_p 3), (zc 100), r, rr, f, q, od, igr0, ri, U, Cw, gc, o, z, 1.
  split; [exact rp2_wf|]. split; [exact H1|]. split; [exact H2|]. split; [exact rp2_provides|exact H3].
Qed.

Print Assumptions C100_prices.
Print Assumptions C101_partial.
Print Assumptions C101_refuted.
