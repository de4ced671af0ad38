(** C99: a DC optimal power flow run with zonal reserves; C100: the prices of reserves. *)
From Verif Require Import Proofs.Ext2intA Lib.ListFacts Lib.QcFacts Lib.GaussQ Model.Reserves Spec.ReserveSpec Spec.PipsRun
  Proofs.SparseFacts Proofs.FldFacts Proofs.OrdFacts Proofs.PfsolnA Proofs.TableEdit Proofs.OpfLinA Proofs.DcOpfA Proofs.DcOpfB
  Proofs.DcOpfC Proofs.DcOpfD Proofs.DcOpfE Proofs.Ext2intB Proofs.RunPfA Proofs.RunPfB Proofs.RunOpfA Proofs.RunOpfB
  Proofs.RunOpfC Proofs.RunOpfD Proofs.ReserveA Proofs.ReserveB Proofs.ReserveC Proofs.ReserveD Proofs.ReserveE
  Props.P_DcOpf Props.P_RunOpf.
Local Open Scope nat_scope.

Section Theorems.
Context {K : Type} {F : Fld K}.
Add Field KF : (@f_ok K F).
Variable argsort : list Z -> list nat.
Hypothesis Has : argsort_spec argsort.
Variable solve : smat K -> list K -> result (option (list K)).
Variable ln : K -> K.
Variables (ign : bool) (opts : dcopt (K := K)) (B : K) (p r : ppc_of K) (R : reserves (K := K)) (rr : rres (K := K))
  (f : K) (ok : bool).
Hypothesis W : wf_case p.
Hypothesis E : in_ext_state p.
Hypothesis RUN : dc_opf_res argsort solve ln ign opts B p R = Ok (r, rr, f, ok).
Notation n := (length (p_gen p)).

(** the internal case and reserve data, the problem set up for them and the result of the solver *)
Definition res_stages (q : ppc_of K) (od : order_of K) (igr0 : list nat) (ri : rint) (U : user) (Cw : list K)
    (gc : list (list K)) (o : dcom) (z : dcres) : Prop :=
  ext2int argsort (opf_columns p) = Ok q /\ p_order q = Some od /\ res_ext2int od n R = Ok (igr0, ri) /\
  res_formulation B (length (p_bus q)) (p_gen q) (rs_req R) ri = Ok (U, Cw) /\ p_gencost q = Some gc /\
  dc_setup ign B (p_bus q) (p_gen q) (p_branch q) gc U = Ok o /\
  dcopf solve ln opts B (p_bus q) (p_gen q) (p_branch q) o (res_costs Cw (d_nx o)) = Ok z.

Notation p1 := (opf_columns p).

Lemma n1 : length (p_gen p1) = n.
Proof. cbn. unfold widen_to. apply map_length. Qed.

Lemma provides_wide j : provides p1 (rs_zones R) j <-> provides p (rs_zones R) j.
Proof. unfold provides. rewrite (gen_service_wide p j W). reflexivity. Qed.

Lemma unfolded : exists q od igr0 ri U Cw o z gc,
  res_stages q od igr0 ri U Cw gc o z /\ length (ri_igr ri) <> 0 /\
  dc_solved solve ln ign opts B q U (res_costs Cw) = Ok (o, z, r) /\
  res_int2ext od n B R igr0 ri (u_zl U) (u_zu U) Cw (z_x z) (m_lower (z_lmbda z)) (m_upper (z_lmbda z))
     (m_mu_l (z_lmbda z)) (m_mu_u (z_lmbda z)) = Ok rr /\ f = z_f z /\ ok = z_success z.
Proof.
  unfold dc_opf_res in RUN.
  pose proof RUN as H. apply bind_ok in H as (_u & _ & H). apply bind_ok in H as (q & Hq & H).
  apply bind_ok in H as (od & Hod & H). apply bind_ok in H as ((igr0 & ri) & HE & H).
  apply bind_ok in H as (_u2 & HG & H). apply bind_ok in H as ((U & Cw) & HF & H).
  apply bind_ok in H as (((o & z) & r0) & HD & H). apply bind_ok in H as (rr0 & HI & H).
  assert (r0 = r /\ rr0 = rr /\ z_f z = f /\ z_success z = ok) as (-> & -> & <- & <-) by (repeat split; congruence). clear H.
  pose proof HD as HD'. unfold dc_solved in HD'. apply bind_ok in HD' as (gc & Hgc & HD'). apply bind_ok in HD' as (o' & Ho & HD').
  apply bind_ok in HD' as (z' & Hz & HD'). apply bind_ok in HD' as (br & _ & HD'). apply bind_ok in HD' as (r0 & _ & HD').
  assert (o' = o /\ z' = z) as (-> & ->) by (split; congruence). clear HD'.
  exists q, od, igr0, ri, U, Cw, o, z, gc. split.
  - split; auto. split; [destruct (p_order q); cbn in Hod; congruence|]. do 2 (split; [auto|]).
    split; [destruct (p_gencost q); cbn in Hgc; congruence|]. auto.
  - split; [|auto]. unfold guard in HG. destruct (length (ri_igr ri) =? 0) eqn:EG; [discriminate|]. apply Nat.eqb_neq in EG. auto.
Qed.

Lemma parts_r : exists q od igr0 ri U Cw gc o z A sb sg sl sa branch' i2eZ gon ge,
  res_stages q od igr0 ri U Cw gc o z /\ length (ri_igr ri) <> 0 /\ f = z_f z /\ ok = z_success z /\
  conv argsort p1 q od i2eZ sb gon ge sg sl sa /\ ext2int_done p1 od sg R igr0 ri /\
  formed B (length (p_bus q)) (p_gen q) (rs_req R) ri U Cw A /\ B <> 0%K /\
  (forall M, u_A U = Some M -> shaped (nrows M) (ncols M) M) /\
  res_int2ext od (length (p_gen p1)) B R igr0 ri (u_zl U) (u_zu U) Cw (z_x z) (m_lower (z_lmbda z)) (m_upper (z_lmbda z))
     (m_mu_l (z_lmbda z)) (m_mu_u (z_lmbda z)) = Ok rr /\
  internal_form p1 q sb sg sl sa /\
  reports_in bcols gcols goff lcols loff p r /\
  carried p1 q (z_bus z) (z_gen z) branch' r sb sg sl /\
  (forall k i y, nth_error sb k = Some i -> bus_at p1 y i ->
     total_at GEN_BUS (fun g => cell g PG) (p_gen r) y
     = lsum (fun g => if bus_no g GEN_BUS =? k then cell g PG else 0%K) (z_gen z)) /\
  (forall k i y, nth_error sb k = Some i -> bus_at p1 y i ->
     (total_at F_BUS (fun g => cell g PF) (p_branch r) y + total_at T_BUS (fun g => cell g PT) (p_branch r) y)%K
     = drawn (fun g => cell g PF) (fun g => cell g PT) branch' k) /\
  (forall k y b, nth_error (p_bus q) k = Some y -> nth_error (z_bus z) k = Some b ->
     degrees (cell b VA) = nth k (z_x z) 0%K /\ forall c, ~ In c bcols -> cell b c = cell y c) /\
  (forall k y g, nth_error (p_gen q) k = Some y -> nth_error (z_gen z) k = Some g ->
     cell g PG = (B * output (length (p_bus q)) (z_x z) k)%K /\ forall c, ~ In c gcols -> cell g c = cell y c) /\
  (forall k y g, nth_error (p_branch q) k = Some y -> nth_error branch' k = Some g ->
     (cell g PF = (B * dc_flow y (angles (length (p_bus q)) (z_x z)))%K /\ cell g PT = (- cell g PF)%K /\
      cell g QF = 0%K /\ cell g QT = 0%K /\ forall c, ~ In c lcols -> cell g c = cell y c)) /\
  (forall k y b, nth_error (p_bus q) k = Some y -> nth_error (z_bus z) k = Some b ->
     (B * cell b LAM_P = nth k (m_mu_u (z_lmbda z)) 0 - nth k (m_mu_l (z_lmbda z)) 0)%K) /\
  (forall k y g, nth_error (p_gen q) k = Some y -> nth_error (z_gen z) k = Some g ->
     (B * cell g MU_PMIN)%K = nth (length (p_bus q) + k) (m_lower (z_lmbda z)) 0%K /\
     (B * cell g MU_PMAX)%K = nth (length (p_bus q) + k) (m_upper (z_lmbda z)) 0%K).
Proof.
  destruct unfolded as (q & od & igr0 & ri & U & Cw & o & z & gc & ST & NZ & HD & HI & Hf & Hok).
  pose proof ST as (S1 & S2 & S3 & S4 & S5 & S6 & S7).
  destruct (res_formulation_ok _ _ _ _ _ _ _ S4) as (BN & A & FO).
  assert (WU : forall M, u_A U = Some M -> shaped (nrows M) (ncols M) M).
  { intros M EM. rewrite (fo_A _ _ _ _ _ _ _ _ FO) in EM. assert (M = A) by congruence. subst M.
    pose proof (fo_shape _ _ _ _ _ _ _ _ FO) as (X1 & X2 & X3). rewrite X1, X2. split; [|split]; auto. }
  destruct (dc_parts argsort Has solve ln ign opts B p q r U (res_costs Cw) o z W E WU S1 HD)
    as (gc' & sb & sg & sl & sa & br & (o0 & i2eZ & gon & ge & CV) & G1 & G2 & G3 & IF & RI & CAR & GT & LT & TB & TG & TL & _).
  assert (gc' = gc) by congruence. subst gc'.
  assert (o0 = od) by (pose proof (cv_order _ _ _ _ _ _ _ _ _ _ _ CV); congruence). subst o0.
  rewrite <- n1 in S3, HI.
  pose proof (res_ext2int_ok _ _ _ _ _ _ _ _ _ _ _ CV R igr0 ri S3) as ED.
  exists q, od, igr0, ri, U, Cw, gc, o, z, A, sb, sg, sl, sa, br, i2eZ, gon, ge.
  do 13 (split; [assumption|]). split; [assumption|]. split; [assumption|]. split.
  { intros k y b Hy Hb. destruct (TB _ _ _ Hy Hb) as (V & _ & KP). auto. }
  split. { intros k y b Hy Hb. destruct (TG _ _ _ Hy Hb) as (V & _ & _ & KP). auto. }
  split. { intros k y b Hy Hb. destruct (TL _ _ _ Hy Hb) as (V & _). exact V. }
  split. { intros k y b Hy Hb. destruct (TB _ _ _ Hy Hb) as (_ & V & _). exact V. }
  intros k y b Hy Hb. destruct (TG _ _ _ Hy Hb) as (_ & V1 & V2 & _). auto.
Qed.

Lemma NoDup_map_in {X Y} (h : X -> Y) l : NoDup l -> (forall a b, In a l -> In b l -> h a = h b -> a = b) -> NoDup (map h l).
Proof.
  induction 1 as [|a l NI ND IH]; cbn; intros I; constructor.
  - rewrite in_map_iff. intros (b & Eb & Ib). apply NI. rewrite <- (I b a); cbn; auto.
  - apply IH. intros; apply I; cbn; auto.
Qed.

(** whatever the outcome: the tables change as in a run without reserves, the reserve data come back as they were
    given, and units out of service or in no zone have no reserves *)
Theorem C99_tables : reports_in bcols gcols goff lcols loff p r /\
  rr_zones rr = rs_zones R /\ rr_cost rr = rs_cost R /\ rr_qty rr = rs_qty R /\
  length (rr_R rr) = n /\ forall j, ~ provides p (rs_zones R) j -> nth j (rr_R rr) 0%K = 0%K.
Proof.
  destruct parts_r as (q & od & igr0 & ri & U & Cw & gc & o & z & A & sb & sg & sl & sa & br & i2eZ & gon & ge &
    ST & NZ & Hf & Hok & CV & ED & FO & BN & WU & HI & IF & RI & _).
  split; auto.
  destruct (data_back argsort Has _ _ _ _ _ _ _ _ _ _ CV R igr0 ri ED _ _ _ _ _ _ _ _ _ _ HI) as (D1 & D2 & D3 & D4 & D5).
  rewrite n1 in D4. do 4 (split; [auto|]). intros j NP. apply D5. rewrite provides_wide. auto.
Qed.

(** ** the reported operating point *)
Hypothesis HB : lt 0%K B.
Hypothesis OUT : forall j g, gen_in_service p j -> nth_error (p_gen p) j = Some g -> le (cell g PMIN) (cell g PMAX).
Hypothesis ANG : ign = false -> forall j g, branch_in_service p j -> nth_error (p_branch p) j = Some g ->
  cell g ANGMIN <> 0%K -> cell g ANGMAX <> 0%K -> le (degrees (cell g ANGMIN)) (degrees (cell g ANGMAX)).
(** ramp limits and quantities are not negative *)
Hypothesis RAMP : forall j g, provides p (rs_zones R) j -> nth_error (p_gen p) j = Some g -> le 0%K (cell g RAMP_10).
Hypothesis QTY : forall v j a, rs_qty R = Some v -> provides p (rs_zones R) j -> stated n (rs_zones R) v j a -> le 0%K a.

Section Internal.
Variables (q : ppc_of K) (od : order_of K) (igr0 : list nat) (ri : rint (K := K)) (U : user (K := K)) (Cw : list K)
  (A : smat K) (sb sg sl sa : list nat) (i2eZ : list Z) (gon ge : list nat).
Hypothesis CV : conv argsort p1 q od i2eZ sb gon ge sg sl sa.
Hypothesis ED : ext2int_done p1 od sg R igr0 ri.

Lemma unit_row m k j g : nth_error (ri_igr ri) m = Some k -> nth_error sg k = Some j ->
  nth_error (p_gen p) j = Some g -> provides p (rs_zones R) j /\
  forall c, c <> GEN_BUS -> cell (nth k (p_gen q) []) c = cell g c.
Proof.
  intros Hm Hk Hg. pose proof (cv_form _ _ _ _ _ _ _ _ _ _ _ CV) as IF.
  assert (provides p1 (rs_zones R) j) as P by (apply (provides_at _ _ _ _ _ _ _ _ _ _ _ CV R igr0 ri ED); eauto).
  split; [apply provides_wide; auto|]. intros c Nc.
  destruct P as ((x & s & Hx & Hs & Gs & z & i & Hz & Bz & Si) & _).
  apply (if_sb _ _ _ _ _ _ IF) in Si. apply In_nth_error in Si as (nn & Hn).
  pose proof (if_gen _ _ _ _ _ _ IF _ _ _ _ _ Hk Hx Hz (ex_intro _ i (Logic.conj Hn Bz))) as Hy.
  rewrite (nth_error_nth _ _ _ Hy). rewrite (cell_nth_error (upd x GEN_BUS (ofN nn)) x c).
  - apply widen_inv in Hx as (x1 & Hx & ->). rewrite wide_cell. congruence.
  - apply nth_error_upd_other. auto.
Qed.
Hypothesis FO : formed B (length (p_bus q)) (p_gen q) (rs_req R) ri U Cw A.
Hypothesis GB : buses_ok (length (p_bus q)) GEN_BUS (p_gen q).
Hypothesis NZ : length (ri_igr ri) <> 0.
Lemma res_ordered : limits_ordered ign B (p_bus q) (p_gen q) (p_branch q) (u_A U) (u_l U) (u_u U) (u_zl U) (u_zu U).
Proof.
  pose proof (cv_form _ _ _ _ _ _ _ _ _ _ _ CV) as IF.
  pose proof (ed_nodup _ _ _ _ _ _ ED) as NDi.
  assert (RQ : length (rs_req R) = length (ri_zones ri)) by (rewrite (ed_zones_len _ _ _ _ _ _ ED), (ed_req _ _ _ _ _ _ ED); auto).
  pose proof (ordered_in ign B p W HB OUT ANG q sb sg sl sa IF) as LO0.
  assert (AT : forall m k, nth_error (ri_igr ri) m = Some k -> exists j g, nth_error sg k = Some j /\ nth_error (p_gen p) j = Some g /\
     provides p (rs_zones R) j /\ forall c, c <> GEN_BUS -> cell (nth k (p_gen q) []) c = cell g c).
  { intros m k Hm. assert (In k (ri_igr ri)) as I by (eapply nth_error_In; eauto).
    apply (ed_in _ _ _ _ _ _ ED) in I as (j & Hj & _).
    assert (j < n) as Lj by (rewrite <- n1; eapply sg_lt; eauto).
    destruct (nth_error_lt (p_gen p) j Lj) as [g Hg].
    destruct (unit_row m k j g Hm Hj Hg) as (P & C). exists j, g. auto. }
  apply (limits_with_reserves ign B _ _ _ U (rs_req R) Cw ri A FO GB NZ NDi RQ HB LO0).
    - intros k I. apply In_nth_error in I as (m & Hm). destruct (AT m k Hm) as (j & g & Hj & Hg & P & C).
      rewrite C by discriminate. apply (RAMP j g); auto.
    - intros k w I Hw. pose proof I as I'. apply In_nth_error in I' as (m & Hm). destruct (AT m k Hm) as (j & g & Hj & Hg & P & C).
      pose proof (ed_qty _ _ _ _ _ _ ED) as Q. rewrite Hw in Q. destruct (rs_qty R) as [v|] eqn:EV; [|contradiction].
      destruct Q as ((L1 & _ & _ & V) & _). apply (QTY v j); auto.
      rewrite n1 in V. apply (V k j); auto; [apply P|]. apply nth_error_nth'. eapply (fo_qty _ _ _ _ _ _ _ _ FO); eauto.
Qed.
End Internal.

Variable gencost : list (list K).
Hypothesis GCO : p_gencost p = Some gencost.
Hypothesis COV : forall j, gen_in_service p j ->
  cost_is 1 (nth j gencost []) = true \/ lin_or_quad (nth j gencost []).
Hypothesis MOD : forall q od igr0 ri U Cw gc o z, res_stages q od igr0 ri U Cw gc o z ->
  Forall moderate (d_l o ++ d_u o ++ d_xmin o ++ d_xmax o).

(** on success: the operating point is as in C83; the reserves of every unit in service and in a zone are at least
    zero and at most its ramp limit, the quantity given for it, and what its output leaves free; every zone has its
    requirement; the cost of the reserves is as stated and is part of the reported objective *)
Theorem C99_solution : ok = true -> exists q od igr0 ri U Cw gc o z x0 HH CC C0 sp s0 s k,
  res_stages q od igr0 ri U Cw gc o z /\
  dc_start o (p_bus q) = Ok x0 /\ dc_objective B o (res_costs Cw (d_nx o)) = Ok (HH, CC, C0) /\
  split_bounds (d_nx o) (Some (d_A o)) (d_l o) (d_u o) (d_xmin o) (d_xmax o) = Ok sp /\
  start ln (qp HH CC) (pips_options opts) sp x0 = Ok s0 /\
  visited solve ln (qp HH CC) (pips_options opts) sp (d_nx o) s0 k s /\ z_x z = t_x s /\
  forall xn zn, is_norm (t_x s) xn -> is_norm (t_z s) zn -> exists m, (m = xn \/ m = zn) /\
    let t := (o_feastol (pips_options opts) * (1 + m))%K in
    dc_report ign t B p r /\
    reserve_report (B * t)%K p r (rs_zones R) (rs_req R) (rs_qty R) (rr_R rr) /\
    reserve_cost p (rs_zones R) (rs_cost R) (rr_R rr) (rr_totalcost rr) /\
    forall idx, lists_exactly idx (gen_in_service p) -> exists fg,
      cost_of_report t gencost r idx fg /\ f = (fg + rr_totalcost rr)%K.
Proof.
  intros OKT.
  destruct parts_r as (q & od & igr0 & ri & U & Cw & gc & o & z & A & sb & sg & sl & sa & br & i2eZ & gon & ge &
    ST & NZ & Hf & Hok & CV & ED & FO & BN & WU & HI & IF & RI & CAR & GT & LT & HB' & HG' & HL' & _).
  pose proof (MOD _ _ _ _ _ _ _ _ _ ST) as MO.
  pose proof ST as (S1 & S2 & S3 & S4 & S5 & S6 & S7).
  destruct (set_ok ign B _ _ _ _ U o WU S6) as (Bb & Pbi & SS).
  pose proof (ss_gbus _ _ _ _ _ _ _ _ _ _ SS) as GB.
  pose proof (ed_nodup _ _ _ _ _ _ ED) as NDi.
  assert (RQ : length (rs_req R) = length (ri_zones ri)) by (rewrite (ed_zones_len _ _ _ _ _ _ ED), (ed_req _ _ _ _ _ _ ED); auto).
  pose proof (ordered_in ign B p W HB OUT ANG q sb sg sl sa IF) as LO0.
  set (ngr := length (ri_igr ri)) in *.
  pose proof (res_ordered q od igr0 ri U Cw A sb sg sl sa i2eZ gon ge CV ED FO GB NZ) as LO.
  assert (EU : user_vars (length (p_bus q)) (length (p_gen q)) (u_A U) = ngr) by (apply (uv B _ _ U (rs_req R) Cw ri A FO GB NZ NDi RQ)).
  set (nb := length (p_bus q)) in *. set (ng := length (p_gen q)) in *. set (ny := length (multi_rows ng gc)) in *.
  assert (NX : d_nx o = nb + ng + ny + ngr) by (rewrite (nx_eq _ _ _ _ _ _ _ _ _ _ SS); fold nb ng ny; rewrite EU; auto).
  assert (LCw : length Cw = ngr) by (rewrite (fo_Cw _ _ _ _ _ _ _ _ FO), map_length; auto).
  destruct (res_costs_shaped Cw (d_nx o)) as (WN & WH & SH & UNS & UC); [lia|].
  destruct (result_lengths solve ln ign opts B _ _ _ gc U o z _ WU S6 WN WH SH LO MO S7)
    as (Lx & Ll & Lu & Lml & Lmu & OS1 & OS2). cbv zeta in *.
  assert (NR : ngr + length (ri_zones ri) <= nrows (d_A o)).
  { destruct (ss_desc _ _ _ _ _ _ _ _ _ _ SS) as (_ & N & _). rewrite N, !app_length. unfold user_rows.
    rewrite (fo_A _ _ _ _ _ _ _ _ FO), map_length, seq_length, (nrows_A B _ _ U _ _ _ _ FO). fold ngr. lia. }
  assert (RET : returned p1 sg R ri B (u_zu U) Cw (z_x z) (m_lower (z_lmbda z)) (m_upper (z_lmbda z)) (m_mu_l (z_lmbda z))
     (m_mu_u (z_lmbda z)) rr).
  { apply (res_int2ext_ok argsort Has p1 q od i2eZ sb gon ge sg sl sa CV R igr0 ri ED B (u_zl U)); auto; fold ngr; try lia.
    rewrite (fo_zu _ _ _ _ _ _ _ _ FO), map_length. auto. }
  destruct (C33_solution solve ln ign B _ _ _ gc U o WU S6 _ WN WH SH opts z LO MO S7 ltac:(congruence))
    as (x0 & HH & CC & C0 & sp & s0 & s & k & P1 & P2 & P3 & P4 & P5 & P6 & P7).
  exists q, od, igr0, ri, U, Cw, gc, o, z, x0, HH, CC, C0, sp, s0, s, k. do 7 (split; [auto|]).
  intros xn zn X1 X2. rewrite <- P6 in X1. destruct (P7 xn zn X1 X2) as (m & Hm & DPU). exists m. split; auto. cbv zeta in *.
  set (t := (o_feastol (pips_options opts) * (1 + m))%K) in *.
  assert (Lx' : length (z_x z) = nb + ng + ny + ngr) by congruence.
  pose proof (point_plain ign B _ _ _ gc U (rs_req R) ri NZ RQ t (z_x z) Lx' DPU) as DP.
  set (X := res_at (p_bus q) (p_gen q) gc (z_x z)).
  assert (RR : spread p1 sg R ri (fun m => X m * B)%K (rr_R rr)).
  { destruct (rt_R _ _ _ _ _ _ _ _ _ _ _ _ _ RET) as (Q1 & Q2 & Q3). split; auto. split; auto.
    intros m' k' j' Hm' Hk'. rewrite (Q2 _ _ _ Hm' Hk'). fold ngr. unfold X, res_at. fold nb ng ny. f_equal. f_equal. lia. }
  destruct RR as (RL & RV & RZ). rewrite n1 in RL.
  assert (L0 : exists L, NoDup L /\ (forall j, In j L <-> provides p (rs_zones R) j) /\ length L = ngr /\
     forall m', m' < ngr -> exists k', nth_error (ri_igr ri) m' = Some k' /\ nth_error sg k' = Some (nth m' L 0)).
  { exists (map (fun k' => nth k' sg 0) (ri_igr ri)).
    assert (NDsg : NoDup sg) by (apply (if_sg _ _ _ _ _ _ IF)).
    assert (SGE : forall k', In k' (ri_igr ri) -> nth_error sg k' = Some (nth k' sg 0)).
    { intros k' I. apply (ed_in _ _ _ _ _ _ ED) in I as (j & Hj & _). rewrite Hj. f_equal. symmetry. apply nth_error_nth. auto. }
    split; [|split; [|split; [apply map_length|]]].
    - apply NoDup_map_in; auto. intros a b Ia Ib Eab. apply SGE in Ia, Ib.
      rewrite NoDup_nth_error in NDsg. apply NDsg; [eapply nth_error_some_lt; eauto|]. congruence.
    - intros j. rewrite in_map_iff. rewrite <- provides_wide, (provides_at _ _ _ _ _ _ _ _ _ _ _ CV R igr0 ri ED). split.
      + intros (k' & <- & I). pose proof (SGE _ I). apply In_nth_error in I as (m' & Hm'). eauto.
      + intros (m' & k' & Hm' & Hk'). exists k'. split; [apply nth_error_nth; auto|]. eapply nth_error_In; eauto.
    - intros m' Hm'. destruct (nth_error_lt (ri_igr ri) m' Hm') as [k' Hk']. exists k'. split; auto.
      rewrite (nth_map_lt _ (ri_igr ri) m' _ 0) by auto. rewrite (nth_error_nth _ _ _ Hk'). apply SGE. eapply nth_error_In; eauto. }
  destruct L0 as (L & NDL & IL & LL & NL).
  assert (SUM : forall g : nat -> K, lsum g L = lsum (fun m' => g (nth m' L 0)) (seq 0 ngr)).
  { intros g. rewrite (lsum_nth g L 0), LL. reflexivity. }
  split; [|split; [|split]].
  - pose proof (transfer p1 q r sb sg sl sa (z_bus z) (z_gen z) br ign B t (z_x z) gc IF CAR GT LT HB' HG' HL' HB DP) as RP.
    destruct RP as [D1 D2 D3 D4]. constructor.
    + intros i b y Si Bi Hb. apply (D1 i b y); auto; [apply bus_service_wide|apply bus_at_wide]; auto.
    + intros j g Sj Hg. apply (D2 j g); auto. apply gen_service_wide; auto.
    + intros j g Sj Hg. apply br_service_wide in Sj; auto. destruct (D3 j g Sj Hg) as (G1 & G2 & G3 & (af & at_ & A1 & A2 & A3) & G4).
      do 3 (split; [auto|]). split; auto. exists af, at_.
      split; [|split; auto].
      * destruct A1 as (y & i & b & Q1 & Q2 & Q3). exists y, i, b. rewrite bus_at_wide in Q2 by auto. auto.
      * destruct A2 as (y & i & b & Q1 & Q2 & Q3). exists y, i, b. rewrite bus_at_wide in Q2 by auto. auto.
    + intros i b b' Si Hb Hb' TY. rewrite <- (wide_cell (MU_VMIN + 1) b VA).
      apply (D4 i (RunOpfB.wide (MU_VMIN + 1) b) b'); auto.
      * apply bus_service_wide; auto.
      * apply (widen_some (MU_VMIN + 1)). auto.
      * rewrite wide_cell. auto.
  - constructor.
    + intros j g Pj Hg. pose proof Pj as Pj'. apply IL in Pj'. apply In_nth_error in Pj' as (m' & Hm').
      assert (m' < ngr) as Lm by (rewrite <- LL; eapply nth_error_some_lt; eauto).
      destruct (NL m' Lm) as (k' & Hk' & Hs'). rewrite (nth_error_nth _ _ _ Hm') in Hs'.
      rewrite (RV _ _ _ Hk' Hs').
      destruct (point_unit ign B _ _ _ gc U _ _ ri A FO GB NZ NDi RQ t (z_x z) Lx' DPU m' k' HB Hk') as (U1 & U2 & U3 & U4).
      fold X in U1, U2, U3, U4. fold nb in U4.
      assert (gen_in_service p1 j) as Sj by (apply (gen_service_wide p j W); apply Pj).
      destruct (gen_row p1 q r sb sg sl sa (z_bus z) (z_gen z) br B (z_x z) IF CAR HG' j g Sj Hg)
        as (k2 & x1 & y & g' & Hk2 & Hx1 & Hy & Hg' & V & E1 & E2 & _).
      assert (k2 = k') as ->.
      { assert (NDsg : NoDup sg) by (apply (if_sg _ _ _ _ _ _ IF)). rewrite NoDup_nth_error in NDsg.
        apply NDsg; [eapply nth_error_some_lt; eauto|]. congruence. }
      rewrite (nth_error_nth _ _ _ Hy) in *. rewrite V, (E2 RAMP_10), (E2 PMAX) by (cbn; intuition discriminate). fold nb.
      split; [|split; [|split]].
      * apply (excess_scale _ _ _ _ HB U1). ring.
      * intros NR10. apply (excess_scale _ _ _ _ HB (U2 NR10)). field. auto.
      * intros v a Ev Sa. pose proof (ed_qty _ _ _ _ _ _ ED) as Q. rewrite Ev in Q. destruct (ri_qty ri) as [w|] eqn:EW; [|contradiction].
        destruct Q as ((_ & _ & _ & V2) & _). rewrite n1 in V2. apply (V2 k' j a) in Sa; auto; [|apply Pj].
        apply (excess_scale _ _ _ _ HB (U3 w eq_refl)). rewrite (nth_error_nth _ _ _ Sa). field. auto.
      * apply (excess_scale _ _ _ _ HB U4). field. auto.
    + intros j NP. apply RZ. rewrite provides_wide. auto.
    + intros i zz d Hz Hd. destruct (ed_zones _ _ _ _ _ _ ED _ _ Hz) as (w & Hw & _ & Lw & Ww).
      pose proof (point_zone ign B _ _ _ gc U _ _ ri A FO GB NZ NDi RQ t (z_x z) Lx' DPU i w d Hw Hd) as PZ. fold X ngr in PZ.
      apply (excess_scale _ _ _ _ HB PZ).
      rewrite (lsum_support _ (seq 0 n) L).
      * rewrite SUM.
        assert (lsum (fun m' => nth (nth m' L 0%nat) zz 0 * nth (nth m' L 0%nat) (rr_R rr) 0)%K (seq 0 ngr)
                = (B * lsum (fun m' => nth (nth m' (ri_igr ri) 0%nat) w 0 * X m') (seq 0 ngr))%K) as ->.
        { rewrite <- lsum_scal. apply lsum_ext. intros m' Hm'. apply in_seq in Hm'. destruct (NL m' ltac:(lia)) as (k' & Hk' & Hs').
          rewrite (RV _ _ _ Hk' Hs'), (nth_error_nth _ _ _ Hk'). specialize (Ww _ _ Hs').
          assert (nth k' w 0%K = nth (nth m' L 0) zz 0%K) as ->; [|ring].
          destruct (nth_error zz (nth m' L 0)) as [a|] eqn:Ea.
          - rewrite (nth_error_nth _ _ _ Ea), (nth_error_nth _ _ _ Ww). auto.
          - apply nth_error_None in Ea, Ww. rewrite !nth_overflow by auto. auto. }
        field. auto.
      * apply seq_NoDup.
      * auto.
      * intros j Ij. apply in_seq. apply IL in Ij. destruct Ij as ((gg & ? & Hgg & _) & _). apply nth_error_some_lt in Hgg. lia.
      * intros j _ NI. rewrite RZ; [ring|]. rewrite provides_wide, <- IL. auto.
  - intros idx a (ND' & I') Sa. rewrite (rt_total _ _ _ _ _ _ _ _ _ _ _ _ _ RET). fold ngr.
    rewrite (lsum_perm _ idx L) by (apply Permutation.NoDup_Permutation; auto; intros j; rewrite I', IL; reflexivity).
    rewrite SUM. apply lsum_ext. intros m' Hm'. apply in_seq in Hm'. destruct (NL m' ltac:(lia)) as (k' & Hk' & Hs').
    rewrite (RV _ _ _ Hk' Hs'), (fo_Cw _ _ _ _ _ _ _ _ FO).
    rewrite (nth_map_lt _ (ri_igr ri) m' _ 0) by (fold ngr; lia). rewrite (nth_error_nth _ _ _ Hk').
    destruct (ed_cost _ _ _ _ _ _ ED) as (_ & _ & _ & V2). rewrite n1 in V2.
    assert (provides p (rs_zones R) (nth m' L 0)) as Pj by (apply IL, nth_In; lia).
    assert (nth_error (ri_cost ri) k' = Some (a (nth m' L 0))) as Ec.
    { apply (V2 k' (nth m' L 0)); auto; [apply Pj|]. apply Sa, I'. auto. }
    rewrite (nth_error_nth _ _ _ Ec). unfold X, res_at. fold nb ng ny.
    replace (length (z_x z) - ngr + m') with (nb + ng + ny + m') by lia. ring.
  - intros idx (NDx & Ix).
    destruct (C30_reported solve ln ign B _ _ _ gc U o WU S6 _ WN WH SH opts z) as (_ & FC); auto.
    { intros i Hi. destruct (nth_error_lt sg i) as [j Hj]; [rewrite <- (if_gen_len _ _ _ _ _ _ IF); auto|].
      rewrite (cost_row p1 q sb sg sl sa gencost gc IF GCO S5 i j Hj). apply COV.
      apply gen_service_wide; auto. apply (if_sg _ _ _ _ _ _ IF). eapply nth_error_In; eauto. }
    exists (gen_cost B nb ng gc (z_x z)). split.
    + apply (transfer_cost p1 q r sb sg sl sa (z_bus z) (z_gen z) br ign B t (z_x z) gencost gc IF CAR HG' DP GCO S5 _ eq_refl).
      split; auto. intros i. rewrite Ix. symmetry. apply gen_service_wide; auto.
    + rewrite Hf, FC. fold nb ng. f_equal. rewrite UC by auto. rewrite (rt_total _ _ _ _ _ _ _ _ _ _ _ _ _ RET). fold ngr.
      rewrite LCw, Lx. reflexivity.
Qed.
End Theorems.

(** ** Examples *)

(** bus 20 with a load of 50 MW, bus 5 isolated; units: idle, running, and one at the isolated bus; one zone with the
    first two units and a requirement of 20 MW; costs and quantities are given for these two only *)
Definition rg n st pmax ramp : list Qc := zs [n; 9; 9; 0; 0; 1; 100; st; pmax; 0; 0; 0; 0; 0; 0; 0; 0; ramp]%Z.
Definition rgc : list (list Qc) := [zs [2; 0; 0; 2; 5; 6; 0]%Z; zs [2; 0; 0; 3; 1; 10; 7]%Z; zs [2; 0; 0; 2; 30; 0; 0]%Z].
Definition rp : ppc_of Qc :=
  {| p_bus := [eb 5 4 11; eb 20 3 50];
     p_gen := [rg 20 0 50 20; rg 20 1 100 0; rg 5 1 60 15];
     p_branch := [el 20 5 1];
     p_gencost := Some rgc; p_areas := None; p_A := None; p_N := None; p_order := None |}.
Definition rR : reserves (K := Qc) := Reserves [zs [1; 1; 0]%Z] (zs [20]%Z) (zs [1; 2]%Z) (Some (zs [9; 32]%Z)).
(** a linear solver that rounds *)
Definition rnd (a : Qc) : Qc := Q2Qc (Qmake (Z.div (Qnum (this a) * 1000) (Zpos (Qden (this a)))) 1000).
Definition solveR M b :=
  match solveQ (mapm rnd M) (map rnd b) with Ok (Some v) => Ok (Some (map rnd v)) | e => e end.
Definition rshow (x : result (ppc_of Qc * rres (K := Qc) * Qc * bool)) :=
  match x with
  | Ok (r, rr, f, ok) => Some (ok, mil f, map (fun g => mil (cell g PG)) (p_gen r), map mil (rr_R rr),
      map (fun e => match e with EFin a => mil a | _ => (-1)%Z end) (rr_Rmax rr), map mil (rr_prc rr),
      mil (rr_totalcost rr), map (map mil) (rr_zones rr), map mil (rr_cost rr))
  | Err _ => None
  end.
(** reserves of 20 MW by the running unit cost 40; the idle unit has a price all the same *)
Example C99_example : rshow (dc_opf_res argsort_stable solveR (fun a => a) false (ex_p 3) (zc 100) rp rR) =
  Some (true, 3047000, [0; 50000; 0], [0; 20000; 0], [0; 32000; 0], [2001; 2001; 0], 40000, [[1000; 1000; 0]], [1000; 2000])%Z.
Proof. vm_compute. reflexivity. Qed.

Ltac rrow := repeat match goal with
  | H : nth_error ?l ?i = Some _ |- _ => is_var i; destruct i; cbn [nth_error rp p_bus p_gen p_branch] in H; try discriminate H
  end.
Lemma rp_wf : wf_case rp.
Proof.
  constructor; try discriminate.
  - exists 13; split; [lia|]. repeat constructor.
  - exists 18; split; [lia|]. repeat constructor.
  - exists 13; split; [lia|]. repeat constructor.
  - intros i r H. rrow; esub; eexists; (split; [|reflexivity]); lia.
  - intros z i j (r & H & Hc) (r' & H' & Hc'). cbn [rp p_bus] in H, H'.
    rrow; auto; exfalso; esub; unfold eb, BUS_I in Hc, Hc'; cbn [nth_error zs map] in Hc, Hc';
      apply some_zc in Hc; apply some_zc in Hc'; lia.
  - intros i r H. rrow; esub; eexists; (split; [|reflexivity]); lia.
  - exists 1. eexists. split; [reflexivity|]. intros C. cbn [nth_error zs map eb BUS_TYPE] in C. apply some_zc in C; lia.
  - intros r Hr. repeat (destruct Hr as [<-|Hr]); [..|destruct Hr];
      (eexists; split; [reflexivity|]);
      first [exists 0; eexists; split; reflexivity|exists 1; eexists; split; reflexivity].
  - intros r Hr. repeat (destruct Hr as [<-|Hr]); [..|destruct Hr]; split;
      (eexists; split; [reflexivity|]);
      first [exists 0; eexists; split; reflexivity|exists 1; eexists; split; reflexivity].
  - intros r Hr. repeat (destruct Hr as [<-|Hr]); [..|destruct Hr]; (left; reflexivity) || (right; reflexivity).
  - intros g Hg. assert (g = rgc) by (cbn in Hg; congruence). subst g. cbn. lia.
Qed.

Definition rmod : bool :=
  match ext2int argsort_stable (opf_columns rp) with
  | Ok q => match p_order q, p_gencost q with
    | Some od, Some gc => match res_ext2int od 3 rR with
      | Ok (_, ri) => match res_formulation (zc 100) (length (p_bus q)) (p_gen q) (rs_req rR) ri with
        | Ok (U, _) => match dc_setup false (zc 100) (p_bus q) (p_gen q) (p_branch q) gc U with
                       | Ok o => forallb modb (d_l o ++ d_u o ++ d_xmin o ++ d_xmax o) | Err _ => true end
        | Err _ => true end
      | Err _ => true end
    | _, _ => true end
  | Err _ => true end.
Lemma rp_moderate q od igr0 ri U Cw gc o z :
  res_stages argsort_stable solveR (fun a => a) false (ex_p 3) (zc 100) rp rR q od igr0 ri U Cw gc o z ->
  Forall moderate (d_l o ++ d_u o ++ d_xmin o ++ d_xmax o).
Proof.
  intros (H1 & H2 & H3 & H4 & H5 & H6 & _). assert (rmod = true) as C by (vm_compute; reflexivity).
  change (length (p_gen rp)) with 3 in H3. unfold rmod in C. rewrite H1, H2, H5, H3, H4, H6 in C.
  rewrite forallb_forall in C. apply Forall_forall. intros [a| |] Ha; cbn; auto. exact (C _ Ha).
Qed.

Lemma rp_gs : forall j, gen_in_service rp j <-> j = 1.
Proof.
  intros j. split.
    - intros (x & s & Hx & Hs & Gs & (z & i & Hz & (b0 & Hb0 & Bz) & (b & Hb & Si))).
      destruct j as [|[|[|j]]]; auto; cbn [rp p_gen nth_error] in Hx; [| |destruct j; discriminate]; esub; exfalso.
      + cbn [nth_error rg zs map GEN_STATUS] in Hs. assert (s = zc 0) by congruence. subst s. vm_compute in Gs. discriminate.
      + apply Si. assert (b0 = b) by congruence. subst b0. clear Hb0. unfold rg, GEN_BUS in Hz. cbn [nth_error zs map] in Hz. apply some_zc in Hz. subst z.
        destruct i as [|[|i]]; cbn [rp p_bus nth_error] in Hb; [| |destruct i; discriminate]; esub; [reflexivity|].
        exfalso. unfold eb, BUS_I in Bz. cbn [nth_error zs map] in Bz. apply some_zc in Bz. lia.
    - intros ->. exists (rg 20 1 100 0), (zc 1). split; [reflexivity|]. split; [reflexivity|]. split; [vm_compute; reflexivity|].
      exists 20%Z, 1. split; [reflexivity|]. split; [eexists; split; reflexivity|]. eexists. split; [reflexivity|].
      intros C. cbn [nth_error zs map eb BUS_TYPE] in C. apply some_zc in C; lia.
Qed.
Lemma rp_pz : forall j, provider (rs_zones rR) j <-> j = 0 \/ j = 1.
Proof.
  intros j. split.
    - intros (i & z & Hz & N). destruct i as [|i]; cbn in Hz; [|destruct i; discriminate].
      assert (z = zs [1; 1; 0]%Z) by (cbn; congruence). subst z. clear Hz. destruct j as [|[|[|j]]]; auto; exfalso; apply N; [apply qc_eqb_eq; reflexivity|destruct j; reflexivity].
    - intros Hj. exists 0. eexists. split; [reflexivity|]. destruct Hj as [-> | ->]; cbn [nth zs map]; apply qc_eqb_neq; reflexivity.
Qed.
Lemma rp_i01 : increasing [0; 1].
Proof.
  intros [|[|a]] [|[|b]] i j L Hi Hj; cbn in Hi, Hj; try lia; try congruence; try (destruct b; discriminate); destruct a; discriminate.
Qed.
Lemma rp_st : forall v j a, v = zs [1; 2]%Z \/ v = zs [9; 32]%Z -> provides rp (rs_zones rR) j ->
    (stated 3 (rs_zones rR) v j a <-> j = 1 /\ nth_error v 1 = Some a).
Proof.
  intros v j a Hv (Pj & _). apply rp_gs in Pj as ->.
    assert (length v = 2) as Lv by (destruct Hv; subst v; reflexivity). split.
    - intros [(C & _)|(_ & idx & k & I1 & I2 & I3 & I4)]; [lia|]. split; auto.
      assert (idx = [0; 1]) as ->.
      { apply increasing_unique; [auto|exact rp_i01|]. intros i. rewrite I2, rp_pz. cbn. intuition lia. }
      destruct k as [|[|k]]; [discriminate I3|exact I4|destruct k; discriminate I3].
    - intros (_ & H). right. split; [lia|]. exists [0; 1], 1. split; [|split; [|split; [reflexivity|exact H]]].
      + exact rp_i01.
      + intros i. rewrite rp_pz. cbn. intuition lia.
Qed.
Lemma rp_h1 : in_ext_state rp.
Proof.
  exact Logic.I.
Qed.
Lemma rp_h2 : lt 0%K (zc 100).
Proof.
  (vm_compute; reflexivity).
Qed.
Lemma rp_h3 : forall j g, gen_in_service rp j -> nth_error (p_gen rp) j = Some g -> le (cell g PMIN) (cell g PMAX).
Proof.
  intros j g Sj Hg. apply rp_gs in Sj as ->. cbn [rp p_gen nth_error] in Hg. esub. vm_compute. reflexivity.
Qed.
Lemma rp_h4 : false = false -> forall j g, branch_in_service rp j -> nth_error (p_branch rp) j = Some g ->
    cell g ANGMIN <> 0%K -> cell g ANGMAX <> 0%K -> le (degrees (cell g ANGMIN)) (degrees (cell g ANGMAX)).
Proof.
  intros _ j g Sj Hg N. exfalso. apply N. rrow; esub; apply Qc_is_canon; reflexivity.
Qed.
Lemma rp_h6 : forall j g, provides rp (rs_zones rR) j -> nth_error (p_gen rp) j = Some g -> le 0%K (cell g RAMP_10).
Proof.
  intros j g (Sj & _) Hg. apply rp_gs in Sj as ->. cbn [rp p_gen nth_error] in Hg. esub. vm_compute. reflexivity.
Qed.
Lemma rp_h7 : forall v j a, rs_qty rR = Some v -> provides rp (rs_zones rR) j -> stated (length (p_gen rp)) (rs_zones rR) v j a -> le 0%K a.
Proof.
  intros v j a Hv Pj Sa. change (rs_qty rR) with (Some (zs [9; 32]%Z)) in Hv. assert (v = zs [9; 32]%Z) by congruence. subst v.
    apply (rp_st _ j a (or_intror eq_refl) Pj) in Sa.
    destruct Sa as (_ & Sa). cbn [zs map nth_error] in Sa. esub. vm_compute. reflexivity.
Qed.
Lemma rp_h5 : forall j, gen_in_service rp j -> cost_is 1 (nth j rgc []) = true \/ lin_or_quad (nth j rgc []).
Proof.
  intros j Sj. apply rp_gs in Sj as ->. right. split; [vm_compute; reflexivity|right; apply qc_eqb_eq; vm_compute; reflexivity].
Qed.
(** all hypotheses hold for this case, so the report and the reserves are as stated *)
Lemma rp_solution r rr f :
  dc_opf_res argsort_stable solveR (fun a => a) false (ex_p 3) (zc 100) rp rR = Ok (r, rr, f, true) ->
  exists t fg, dc_report false t (zc 100) rp r /\
    reserve_report (zc 100 * t)%K rp r (rs_zones rR) (rs_req rR) (rs_qty rR) (rr_R rr) /\
    cost_of_report t rgc r [1] fg /\ f = (fg + rr_totalcost rr)%K /\ rr_totalcost rr = (zc 2 * nth 1 (rr_R rr) 0)%K.
Proof.
  intros RUN.
  pose proof (C99_solution argsort_stable argsort_stable_spec solveR (fun a => a) false (ex_p 3) (zc 100) rp r rR rr f true
              rp_wf rp_h1 RUN rp_h2 rp_h3 rp_h4 rp_h6 rp_h7 rgc eq_refl rp_h5 rp_moderate eq_refl) as X. clear RUN.
  destruct X as (q & od & igr0 & ri & U & Cw & gc & o & z & x0 & HH & CC & C0 & sp & s0 & s & k & _ & _ & _ & _ & _ & _ & _ & H).
  destruct (C83_norms (t_x s)) as (xn & X). destruct (C83_norms (t_z s)) as (zn & Zn).
  destruct (H xn zn X Zn) as (m & _ & G1 & G2 & G3 & G4). cbv zeta in *.
  destruct (G4 [1]) as (fg & G5 & G6).
  { split; [repeat constructor; intros []|]. intros j. rewrite rp_gs. cbn. intuition. }
  eexists. exists fg. split; [exact G1|]. split; [exact G2|]. split; [exact G5|]. split; [exact G6|].
  rewrite (G3 [1] (fun _ => zc 2)).
  - cbn [lsum fold_right map]. cbn. ring.
  - split; [repeat constructor; intros []|]. intros j. unfold provides. rewrite rp_gs, rp_pz. cbn. intuition.
  - intros j [<-|[]]. apply (rp_st _ 1 _ (or_introl eq_refl)).
    + split; [apply rp_gs; reflexivity|apply rp_pz; right; reflexivity].
    + split; reflexivity.
Qed.
Example C99_example_solution : exists r rr f t fg,
  dc_opf_res argsort_stable solveR (fun a => a) false (ex_p 3) (zc 100) rp rR = Ok (r, rr, f, true) /\
  dc_report false t (zc 100) rp r /\
  reserve_report (zc 100 * t)%K rp r (rs_zones rR) (rs_req rR) (rs_qty rR) (rr_R rr) /\
  cost_of_report t rgc r [1] fg /\ f = (fg + rr_totalcost rr)%K /\ rr_totalcost rr = (zc 2 * nth 1 (rr_R rr) 0)%K.
Proof.
  assert (match dc_opf_res argsort_stable solveR (fun a => a) false (ex_p 3) (zc 100) rp rR with Ok (_, _, _, b) => b | _ => false end = true)
    as C by (vm_compute; reflexivity).
  destruct (dc_opf_res argsort_stable solveR (fun a => a) false (ex_p 3) (zc 100) rp rR) as [(((r, rr), f), ok)|e] eqn:RUN; [|discriminate].
  subst ok. destruct (rp_solution r rr f RUN) as (t & fg & H). exists r, rr, f, t, fg. split; [reflexivity|exact H].
Qed.

Print Assumptions C99_tables.
Print Assumptions C99_solution.
