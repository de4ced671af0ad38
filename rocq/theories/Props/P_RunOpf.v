(** C83: a whole DC optimal power flow run, from the loaded case to the reported case; C84: multipliers of angle
    limits. *)
From Verif Require Import Proofs.Ext2intA Lib.ListFacts Lib.QcFacts Lib.GaussQ Model.RunOpf Spec.RunOpfSpec Spec.PipsRun
  Proofs.SparseFacts Proofs.FldFacts Proofs.OrdFacts Proofs.PfsolnA Proofs.TableEdit Proofs.OpfLinA Proofs.DcOpfA
  Proofs.DcOpfC Proofs.DcOpfE Proofs.Ext2intB Proofs.RunPfA Proofs.RunPfB Proofs.RunOpfA Proofs.RunOpfB
  Proofs.RunOpfC Proofs.RunOpfD Props.P_DcOpf.
Local Open Scope nat_scope.

Section Theorems.
Context {K : Type} {F : Fld K}.
Add Field KF : (@f_ok K F).
Variable argsort : list Z -> list nat.
Hypothesis Has : argsort_spec argsort.
Variable solve : smat K -> list K -> result (option (list K)).
Variable ln : K -> K.
Variables (ign : bool) (opts : dcopt (K := K)) (B : K) (p r : ppc_of K) (f : K) (ok : bool).
Hypothesis W : wf_case p.
Hypothesis E : in_ext_state p.
Hypothesis RUN : dc_opf argsort solve ln ign opts B p = Ok (r, f, ok).

(** the internal case, the problem set up for it and the result of the solver *)
Definition stages (q : ppc_of K) (gc : list (list K)) (o : dcom) (z : dcres) : Prop :=
  ext2int argsort (opf_columns p) = Ok q /\ p_gencost q = Some gc /\
  dc_setup ign B (p_bus q) (p_gen q) (p_branch q) gc no_user = Ok o /\
  dcopf solve ln opts B (p_bus q) (p_gen q) (p_branch q) o (no_user_costs (d_nx o)) = Ok z.

Lemma W' : wf_case (opf_columns p).
Proof. apply wf_wide. auto. Qed.

Lemma parts : exists q gc o z sb sg sl sa branch',
  stages q gc o z /\ f = z_f z /\ ok = z_success z /\
  internal_form (opf_columns p) q sb sg sl sa /\
  reports_in bcols gcols goff lcols loff p r /\
  carried (opf_columns p) q (z_bus z) (z_gen z) branch' r sb sg sl /\
  (forall k i y, nth_error sb k = Some i -> bus_at (opf_columns p) y i ->
     total_at GEN_BUS (fun g => cell g PG) (p_gen r) y
     = lsum (fun g => if bus_no g GEN_BUS =? k then cell g PG else 0%K) (z_gen z)) /\
  (forall k i y, nth_error sb k = Some i -> bus_at (opf_columns p) y i ->
     (total_at F_BUS (fun g => cell g PF) (p_branch r) y + total_at T_BUS (fun g => cell g PT) (p_branch r) y)%K
     = drawn (fun g => cell g PF) (fun g => cell g PT) branch' k) /\
  (forall k y b, nth_error (p_bus q) k = Some y -> nth_error (z_bus z) k = Some b ->
     degrees (cell b VA) = nth k (z_x z) 0%K /\
     (B * cell b LAM_P = nth k (m_mu_u (z_lmbda z)) 0 - nth k (m_mu_l (z_lmbda z)) 0)%K /\
     forall c, ~ In c bcols -> cell b c = cell y c) /\
  (forall k y g, nth_error (p_gen q) k = Some y -> nth_error (z_gen z) k = Some g ->
     cell g PG = (B * output (length (p_bus q)) (z_x z) k)%K /\
     (B * cell g MU_PMIN)%K = nth (length (p_bus q) + k) (m_lower (z_lmbda z)) 0%K /\
     (B * cell g MU_PMAX)%K = nth (length (p_bus q) + k) (m_upper (z_lmbda z)) 0%K /\
     forall c, ~ In c gcols -> cell g c = cell y c) /\
  (forall k y g, nth_error (p_branch q) k = Some y -> nth_error branch' k = Some g ->
     (cell g PF = (B * dc_flow y (angles (length (p_bus q)) (z_x z)))%K /\ cell g PT = (- cell g PF)%K /\
      cell g QF = 0%K /\ cell g QT = 0%K /\ forall c, ~ In c lcols -> cell g c = cell y c) /\
     (~ flow_limited y -> cell g MU_SF = 0%K /\ cell g MU_ST = 0%K) /\
     (flow_limited y -> exists n n',
        row_says (d_nx o) (d_A o) (d_l o) (d_u o) n ENeg (EFin (cell y RATE_A / B)%K)
          (fun x => dc_flow y (angles (length (p_bus q)) x)) /\
        row_says (d_nx o) (d_A o) (d_l o) (d_u o) n' ENeg (EFin (cell y RATE_A / B)%K)
          (fun x => - dc_flow y (angles (length (p_bus q)) x))%K /\
        (B * cell g MU_SF)%K = nth n (m_mu_u (z_lmbda z)) 0%K /\ (B * cell g MU_ST)%K = nth n' (m_mu_u (z_lmbda z)) 0%K) /\
     (ok = true -> ign = false -> angle_limited y -> exists n,
        row_says (d_nx o) (d_A o) (d_l o) (d_u o) n (ang_bound ENeg (cell y ANGMIN)) (ang_bound EPos (cell y ANGMAX))
          (fun x => angle_diff y (angles (length (p_bus q)) x)) /\
        cell g MU_ANGMIN = degrees (nth n (m_mu_l (z_lmbda z)) 0%K) /\
        cell g MU_ANGMAX = degrees (nth n (m_mu_u (z_lmbda z)) 0%K)) /\
     (ok = false \/ ign = true \/ ~ angle_limited y ->
        cell g MU_ANGMIN = cell y MU_ANGMIN /\ cell g MU_ANGMAX = cell y MU_ANGMAX)) /\
  (forall k y g, nth_error (z_branch z) k = Some y -> nth_error branch' k = Some g ->
     cell g MU_SF = cell y MU_SF /\ cell g MU_ST = cell y MU_ST).
Proof.
  unfold dc_opf in RUN.
  pose proof RUN as H. apply bind_ok in H as (_u & _ & H). apply bind_ok in H as (q & Hq & H).
  apply bind_ok in H as (((o & z) & r0) & HD & H).
  assert (r0 = r /\ z_f z = f /\ z_success z = ok) as (-> & <- & Eok) by (split; [|split]; congruence). clear H.
  assert (forall M : smat K, u_A (K := K) no_user = Some M -> shaped (nrows M) (ncols M) M) as WU by discriminate.
  destruct (dc_parts argsort Has solve ln ign opts B p q r no_user no_user_costs o z W E WU Hq HD)
    as (gc & sb & sg & sl & sa & br & _ & S1 & S2 & S3 & H).
  rewrite <- Eok. exists q, gc, o, z, sb, sg, sl, sa, br. split; [split; auto|]. split; [auto|]. split; [auto|]. exact H.
Qed.

(** whatever the outcome, only result columns change, and only for equipment in service; results of equipment out
    of service are zero, costs and areas as before *)
Theorem C83_tables : reports_in bcols gcols goff lcols loff p r.
Proof. destruct parts as (q & gc & o & z & sb & sg & sl & sa & br & _ & _ & _ & _ & H & _). exact H. Qed.

(** reported prices and multipliers are those of the bounds and rows of the problem that concern the same bus,
    generator and branch *)
Theorem C83_multipliers : exists q gc o z sb sg sl,
  stages q gc o z /\ ok = z_success z /\
  lists_exactly sb (bus_in_service p) /\ lists_exactly sg (gen_in_service p) /\ lists_exactly sl (branch_in_service p) /\
  (forall k i b, nth_error sb k = Some i -> nth_error (p_bus r) i = Some b -> exists y, nth_error (p_bus q) k = Some y /\
     row_says (d_nx o) (d_A o) (d_l o) (d_u o) k (EFin 0%K) (EFin 0%K)
       (fun x => net_out (flow_at (angles (length (p_bus q)) x)) (p_branch q) k + (cell b PD + cell b GS) / B
                 - injected (p_gen q) (length (p_bus q)) x k)%K /\
     (B * cell b LAM_P = nth k (m_mu_u (z_lmbda z)) 0 - nth k (m_mu_l (z_lmbda z)) 0)%K) /\
  (forall k j g, nth_error sg k = Some j -> nth_error (p_gen r) j = Some g ->
     cell g PG = (B * output (length (p_bus q)) (z_x z) k)%K /\
     (B * cell g MU_PMIN)%K = nth (length (p_bus q) + k) (m_lower (z_lmbda z)) 0%K /\
     (B * cell g MU_PMAX)%K = nth (length (p_bus q) + k) (m_upper (z_lmbda z)) 0%K) /\
  (forall k j g, nth_error sl k = Some j -> nth_error (p_branch r) j = Some g -> exists y, nth_error (p_branch q) k = Some y /\
     (forall c, c <> F_BUS -> c <> T_BUS -> ~ In c lcols -> cell g c = cell y c) /\
     (~ flow_limited g -> cell g MU_SF = 0%K /\ cell g MU_ST = 0%K) /\
     (flow_limited g -> exists n n',
        row_says (d_nx o) (d_A o) (d_l o) (d_u o) n ENeg (EFin (cell g RATE_A / B)%K)
          (fun x => dc_flow y (angles (length (p_bus q)) x)) /\
        row_says (d_nx o) (d_A o) (d_l o) (d_u o) n' ENeg (EFin (cell g RATE_A / B)%K)
          (fun x => - dc_flow y (angles (length (p_bus q)) x))%K /\
        (B * cell g MU_SF)%K = nth n (m_mu_u (z_lmbda z)) 0%K /\ (B * cell g MU_ST)%K = nth n' (m_mu_u (z_lmbda z)) 0%K) /\
     (ok = true -> ign = false -> angle_limited g -> exists n,
        row_says (d_nx o) (d_A o) (d_l o) (d_u o) n
          (if feqb (cell g ANGMIN) 0%K then ENeg else EFin (degrees (cell g ANGMIN)))
          (if feqb (cell g ANGMAX) 0%K then EPos else EFin (degrees (cell g ANGMAX)))
          (fun x => angle_diff y (angles (length (p_bus q)) x)) /\
        cell g MU_ANGMIN = degrees (nth n (m_mu_l (z_lmbda z)) 0%K) /\
        cell g MU_ANGMAX = degrees (nth n (m_mu_u (z_lmbda z)) 0%K))).
Proof.
  destruct parts as (q & gc & o & z & sb & sg & sl & sa & br & ST & Hf & Hok & IF & RI & CAR & GT & LT & HB & HG & HL & _).
  exists q, gc, o, z, sb, sg, sl. split; auto. split; auto.
  split. { destruct (if_sb _ _ _ _ _ _ IF) as ((N & I) & _). split; auto. intros i. rewrite I. apply bus_service_wide; auto. }
  split. { destruct (if_sg _ _ _ _ _ _ IF) as (N & I). split; auto. intros i. rewrite I. apply gen_service_wide; auto. }
  split. { destruct (if_sl _ _ _ _ _ _ IF) as ((N & I) & _). split; auto. intros i. rewrite I. apply br_service_wide; auto. }
  destruct ST as (S1 & S2 & S3 & S4). split; [|split].
  - intros k i b Hk Hb.
    destruct (nth_error_lt (z_bus z) k) as [b' Hb']; [rewrite (ca_bus_len _ _ _ _ _ _ _ _ _ CAR); eapply nth_error_some_lt; eauto|].
    destruct (ca_bus _ _ _ _ _ _ _ _ _ CAR _ _ _ Hk Hb') as (x0 & y & a & Hx & Hy & Ha & E1 & E2).
    assert (a = b) by congruence. subst a. destruct (HB _ _ _ Hy Hb') as (V & L & KP). exists y. split; auto.
    rewrite (E2 PD), (E2 GS), (E2 LAM_P) by discriminate. rewrite (KP PD), (KP GS) by (cbn; intuition discriminate).
    split; auto. apply (C33_balance_rows ign B _ _ _ gc no_user o ltac:(discriminate) S3 k y Hy).
  - intros k j g Hk Hg.
    destruct (nth_error_lt (z_gen z) k) as [g' Hg']; [rewrite (ca_gen_len _ _ _ _ _ _ _ _ _ CAR); eapply nth_error_some_lt; eauto|].
    destruct (ca_gen _ _ _ _ _ _ _ _ _ CAR _ _ _ Hk Hg') as (x0 & y & a & zz & n & Hx & Hy & Ha & _ & _ & _ & _ & _ & E1 & E2).
    assert (a = g) by congruence. subst a. destruct (HG _ _ _ Hy Hg') as (V & M1 & M2 & KP).
    rewrite (E2 PG), (E2 MU_PMIN), (E2 MU_PMAX) by discriminate. auto.
  - intros k j g Hk Hg.
    destruct (nth_error_lt br k) as [g' Hg']; [rewrite (ca_br_len _ _ _ _ _ _ _ _ _ CAR); eapply nth_error_some_lt; eauto|].
    destruct (ca_br _ _ _ _ _ _ _ _ _ CAR _ _ _ Hk Hg')
      as (x0 & y & a & zf & zt & nf & nt & Hx & Hy & Ha & Zf & Sf & Nf & Zt & Stt & Nt & Ef & Et & ON & E1 & E2).
    assert (a = g) by congruence. subst a. destruct (HL _ _ _ Hy Hg') as ((P1 & P2 & P3 & P4 & KP) & L1 & L2 & L3 & _).
    assert (forall c, c <> F_BUS -> c <> T_BUS -> ~ In c lcols -> cell g c = cell y c) as KK.
    { intros c N1 N2 N3. rewrite (E2 c N1 N2). auto. }
    exists y. split; auto. split; auto.
    unfold flow_limited, angle_limited in *. rewrite (KK RATE_A), (KK ANGMIN), (KK ANGMAX) by (cbn; intuition discriminate).
    rewrite (E2 MU_SF), (E2 MU_ST), (E2 MU_ANGMIN), (E2 MU_ANGMAX) by discriminate. auto.
Qed.

(** ** C84 *)

(** without an angle limit, or without success, a branch in service keeps the multipliers the case came with *)
Theorem C84_kept_partial j g g' : branch_in_service p j -> nth_error (p_branch p) j = Some g ->
  nth_error (p_branch r) j = Some g' -> ok = false \/ ign = true \/ ~ angle_limited g ->
  cell g' MU_ANGMIN = cell g MU_ANGMIN /\ cell g' MU_ANGMAX = cell g MU_ANGMAX.
Proof.
  intros Sj Hg Hg' NL.
  destruct parts as (q & gc & o & z & sb & sg & sl & sa & br & ST & Hf & Hok & IF & RI & CAR & GT & LT & TB & TG & TL & _).
  apply br_service_wide in Sj; auto. apply (if_sl _ _ _ _ _ _ IF) in Sj. apply In_nth_error in Sj as (k & Hk).
  destruct (nth_error_lt br k) as [b Hb]; [rewrite (ca_br_len _ _ _ _ _ _ _ _ _ CAR); eapply nth_error_some_lt; eauto|].
  destruct (ca_br _ _ _ _ _ _ _ _ _ CAR _ _ _ Hk Hb)
    as (x0 & y & a & zf & zt & nf & nt & Hx & Hy & Ha & Zf & Sf & Nf & Zt & Stt & Nt & Ef & Et & ON & E1 & E2).
  assert (a = g') by congruence. subst a. apply widen_inv in Hx as (x1 & Hx & ->). assert (x1 = g) by congruence. subst x1.
  destruct (TL _ _ _ Hy Hb) as (_ & _ & _ & _ & H).
  rewrite (E2 MU_ANGMIN), (E2 MU_ANGMAX) by discriminate.
  rewrite <- (wide_cell (MU_ANGMAX + 1) g MU_ANGMIN), <- (wide_cell (MU_ANGMAX + 1) g MU_ANGMAX).
  rewrite <- !E1 by discriminate. apply H. unfold angle_limited in *.
  rewrite (E1 ANGMIN), (E1 ANGMAX), !wide_cell by discriminate. exact NL.
Qed.

(** ** the reported operating point *)
Hypothesis HB : lt 0%K B.
(** outputs and angle limits do not contradict each other *)
Hypothesis OUT : forall j g, gen_in_service p j -> nth_error (p_gen p) j = Some g -> le (cell g PMIN) (cell g PMAX).
Hypothesis ANG : ign = false -> forall j g, branch_in_service p j -> nth_error (p_branch p) j = Some g ->
  cell g ANGMIN <> 0%K -> cell g ANGMAX <> 0%K -> le (degrees (cell g ANGMIN)) (degrees (cell g ANGMAX)).

Lemma ordered_in q sb sg sl sa : internal_form (opf_columns p) q sb sg sl sa ->
  limits_ordered ign B (p_bus q) (p_gen q) (p_branch q) None [] [] [] [].
Proof.
  intros IF. split; [|split; [|split; [discriminate|]]].
  - intros g I. apply In_nth_error in I as (k & Hk).
    destruct (nth_error_lt sg k) as [j Hj]; [rewrite <- (if_gen_len _ _ _ _ _ _ IF); eapply nth_error_some_lt; eauto|].
    assert (gen_in_service (opf_columns p) j) as Sj by (apply (if_sg _ _ _ _ _ _ IF); eapply nth_error_In; eauto).
    destruct Sj as (x & s & Hx & Hs & Gs & z & i & Hz & Bz & Si).
    pose proof Si as Si'. apply (if_sb _ _ _ _ _ _ IF) in Si'. apply In_nth_error in Si' as (n & Hn).
    pose proof (if_gen _ _ _ _ _ _ IF _ _ _ _ _ Hj Hx Hz (ex_intro _ i (Logic.conj Hn Bz))) as Hg.
    assert (g = upd x GEN_BUS (ofN n)) by congruence. subst g.
    assert (forall c, c <> GEN_BUS -> cell (upd x GEN_BUS (ofN n)) c = cell x c) as C.
    { intros c N. apply cell_nth_error, nth_error_upd_other. auto. }
    rewrite (C PMIN), (C PMAX) by discriminate. apply widen_inv in Hx as (x1 & Hx & ->). rewrite !wide_cell.
    assert (le (cell x1 PMIN) (cell x1 PMAX)) as LE.
    { apply (OUT j x1); auto. apply gen_service_wide; auto. apply (if_sg _ _ _ _ _ _ IF). eapply nth_error_In; eauto. }
    apply le_sub. apply le_sub in LE. assert (B <> 0%K) by (apply pos_nz; auto).
    assert ((cell x1 PMAX / B - cell x1 PMIN / B = (cell x1 PMAX - cell x1 PMIN) / B)%K) as -> by (field; auto).
    apply div_nn; auto.
  - intros IG g I AL N1 N2. apply In_nth_error in I as (k & Hk).
    destruct (nth_error_lt sl k) as [j Hj]; [rewrite <- (if_br_len _ _ _ _ _ _ IF); eapply nth_error_some_lt; eauto|].
    assert (branch_in_service (opf_columns p) j) as Sj by (apply (if_sl _ _ _ _ _ _ IF); eapply nth_error_In; eauto).
    pose proof Sj as (x & Hx & Hs & (zf & jf & Hf & Bf & Sf) & (zt & jt & Ht & Bt & Stt)).
    apply (if_sb _ _ _ _ _ _ IF) in Sf. apply In_nth_error in Sf as (nf & Hnf).
    apply (if_sb _ _ _ _ _ _ IF) in Stt. apply In_nth_error in Stt as (nt & Hnt).
    pose proof (if_br _ _ _ _ _ _ IF _ _ _ _ _ _ _ Hj Hx Hf Ht (ex_intro _ jf (Logic.conj Hnf Bf)) (ex_intro _ jt (Logic.conj Hnt Bt))) as Hg.
    assert (g = upd (upd x F_BUS (ofN nf)) T_BUS (ofN nt)) by congruence. subst g.
    assert (forall c, c <> F_BUS -> c <> T_BUS -> cell (upd (upd x F_BUS (ofN nf)) T_BUS (ofN nt)) c = cell x c) as C.
    { intros c M1 M2. apply cell_nth_error. rewrite !nth_error_upd_other; auto. }
    rewrite (C ANGMIN), (C ANGMAX) in * by discriminate. apply widen_inv in Hx as (x1 & Hx & ->). rewrite !wide_cell in *.
    apply (ANG IG j x1); auto. apply br_service_wide; auto.
  - intros k Hk. cbn in Hk. lia.
Qed.

Variable gencost : list (list K).
Hypothesis GCO : p_gencost p = Some gencost.
(** costs of generators in service: piecewise-linear, linear or quadratic *)
Hypothesis COV : forall j, gen_in_service p j ->
  cost_is 1 (nth j gencost []) = true \/ lin_or_quad (nth j gencost []).
(** bounds the solver does not take for absent ones *)
Hypothesis MOD : forall q gc o z, stages q gc o z -> Forall moderate (d_l o ++ d_u o ++ d_xmin o ++ d_xmax o).

(** on success: power balance at every bus, outputs, flows and angle differences within their limits, the branch
    equation, reference angles as given, and the reported cost, up to the tolerance of the solver: a multiple of its
    option feastol by one plus the largest variable or slack of its last iterate *)
Theorem C83_solution : ok = true -> exists q gc o z x0 HH CC C0 sp s0 s k,
  stages q gc o z /\
  dc_start o (p_bus q) = Ok x0 /\ dc_objective B o (no_user_costs (d_nx o)) = Ok (HH, CC, C0) /\
  split_bounds (d_nx o) (Some (d_A o)) (d_l o) (d_u o) (d_xmin o) (d_xmax o) = Ok sp /\
  start ln (qp HH CC) (pips_options opts) sp x0 = Ok s0 /\
  visited solve ln (qp HH CC) (pips_options opts) sp (d_nx o) s0 k s /\ z_x z = t_x s /\
  forall xn zn, is_norm (t_x s) xn -> is_norm (t_z s) zn -> exists m, (m = xn \/ m = zn) /\
    let t := (o_feastol (pips_options opts) * (1 + m))%K in
    dc_report ign t B p r /\
    forall idx, lists_exactly idx (gen_in_service p) -> cost_of_report t gencost r idx f.
Proof.
  intros OKT.
  destruct parts as (q & gc & o & z & sb & sg & sl & sa & br & ST & Hf & Hok & IF & RI & CAR & GT & LT & TB & TG & TL & _).
  pose proof (MOD _ _ _ _ ST) as MO. pose proof (ordered_in _ _ _ _ _ IF) as LO. pose proof ST as (S1 & S2 & S3 & S4).
  assert (shaped 0 (d_nx o) (k_N (no_user_costs (K := K) (d_nx o)))) as WN by (split; [reflexivity|]; split; [reflexivity|constructor]).
  assert (shaped 0 0 (k_H (no_user_costs (K := K) (d_nx o)))) as WH by (split; [reflexivity|]; split; [reflexivity|constructor]).
  assert (sym_mat (k_H (no_user_costs (K := K) (d_nx o)))) as SH by (intros i j; reflexivity).
  destruct (C33_solution solve ln ign B _ _ _ gc no_user o ltac:(discriminate) S3 _ WN WH SH opts z LO MO S4 ltac:(congruence))
    as (x0 & HH & CC & C0 & sp & s0 & s & k & P1 & P2 & P3 & P4 & P5 & P6 & P7).
  exists q, gc, o, z, x0, HH, CC, C0, sp, s0, s, k. do 7 (split; [auto|]).
  intros xn zn X1 X2. rewrite <- P6 in X1. destruct (P7 xn zn X1 X2) as (m & Hm & DP). exists m. split; auto. cbv zeta in *.
  set (t := (o_feastol (pips_options opts) * (1 + m))%K) in *. cbn [no_user u_A u_l u_u u_zl u_zu] in DP.
  assert (HB' : forall k y b, nth_error (p_bus q) k = Some y -> nth_error (z_bus z) k = Some b ->
    degrees (cell b VA) = nth k (z_x z) 0%K /\ forall c, ~ In c [VA; LAM_P; LAM_Q; MU_VMIN; MU_VMAX] -> cell b c = cell y c).
  { intros k' y b Hy Hb. destruct (TB _ _ _ Hy Hb) as (V & _ & KP). auto. }
  assert (HG' : forall k y g, nth_error (p_gen q) k = Some y -> nth_error (z_gen z) k = Some g ->
    cell g PG = (B * output (length (p_bus q)) (z_x z) k)%K /\
    forall c, ~ In c [PG; MU_PMIN; MU_PMAX; MU_QMIN; MU_QMAX] -> cell g c = cell y c).
  { intros k' y b Hy Hb. destruct (TG _ _ _ Hy Hb) as (V & _ & _ & KP). auto. }
  assert (HL' : forall k y g, nth_error (p_branch q) k = Some y -> nth_error br k = Some g ->
    cell g PF = (B * dc_flow y (angles (length (p_bus q)) (z_x z)))%K /\ cell g PT = (- cell g PF)%K /\ cell g QF = 0%K /\ cell g QT = 0%K /\
    forall c, ~ In c [PF; PT; QF; QT; MU_SF; MU_ST; MU_ANGMIN; MU_ANGMAX] -> cell g c = cell y c).
  { intros k' y b Hy Hb. destruct (TL _ _ _ Hy Hb) as (V & _). exact V. }
  split.
  - pose proof (transfer (opf_columns p) q r sb sg sl sa (z_bus z) (z_gen z) br ign B t (z_x z) gc IF CAR GT LT HB' HG' HL' HB DP) as R.
    destruct R as [D1 D2 D3 D4]. constructor.
    + intros i b y Si Bi Hb. apply (D1 i b y); auto; [apply bus_service_wide|apply bus_at_wide]; auto.
    + intros j g Sj Hg. apply (D2 j g); auto. apply gen_service_wide; auto.
    + intros j g Sj Hg. apply br_service_wide in Sj; auto. destruct (D3 j g Sj Hg) as (G1 & G2 & G3 & (af & at_ & A1 & A2 & A3) & G4).
      do 3 (split; [auto|]). split; auto. exists af, at_.
      split; [|split; auto].
      * destruct A1 as (y & i & b & Q1 & Q2 & Q3). exists y, i, b. rewrite bus_at_wide in Q2 by auto. auto.
      * destruct A2 as (y & i & b & Q1 & Q2 & Q3). exists y, i, b. rewrite bus_at_wide in Q2 by auto. auto.
    + intros i b b' Si Hb Hb' TY. rewrite <- (wide_cell (MU_VMIN + 1) b VA).
      apply (D4 i (RunOpfB.wide (MU_VMIN + 1) b) b'); auto.
      * apply bus_service_wide; auto.
      * apply (widen_some (MU_VMIN + 1)). auto.
      * rewrite wide_cell. auto.
  - intros idx (NDi & Ii).
    destruct (C30_reported solve ln ign B _ _ _ gc no_user o ltac:(discriminate) S3 _ WN WH SH opts z) as (Lx & FC); auto.
    { intros i Hi. destruct (nth_error_lt sg i) as [j Hj]; [rewrite <- (if_gen_len _ _ _ _ _ _ IF); auto|].
      rewrite (cost_row (opf_columns p) q sb sg sl sa gencost gc IF GCO S2 i j Hj). apply COV.
      apply gen_service_wide; auto. apply (if_sg _ _ _ _ _ _ IF). eapply nth_error_In; eauto. }
    { constructor. }
    apply (transfer_cost (opf_columns p) q r sb sg sl sa (z_bus z) (z_gen z) br ign B t (z_x z) gencost gc IF CAR HG' DP GCO S2 f).
    + rewrite Hf, FC. unfold user_cost, qform. cbn. ring.
    + split; auto. intros i. rewrite Ii. symmetry. apply gen_service_wide; auto.
Qed.

(** such norms exist *)
Theorem C83_norms (v : list K) : exists n, is_norm v n.
Proof. apply norm_exists. Qed.
End Theorems.

(** ** Examples *)

(** buses 20 (reference), 5 (isolated), 7 with a load of 50 MW; generators at 7 (idle) and 20; a line with limits
    on flow and angle, one to the isolated bus and an open one; no columns for results yet *)
Definition eb n t pd : list Qc := zs [n; t; pd; 0; 0; 0; 1; 1; 0; 1; 1; 2; 0]%Z.
Definition eg n st : list Qc := zs [n; 9; 9; 0; 0; 1; 100; st; 100; 0]%Z.
Definition el f t st : list Qc := zs [f; t; 0]%Z ++ Q2Qc (Qmake 1 2) :: zs [0; 80; 0; 0; 0; 0; st; 0; 30]%Z.
Definition egc : list (list Qc) := [zs [2; 0; 0; 2; 5; 6; 0]%Z; zs [2; 0; 0; 3; 1; 10; 7]%Z].
Definition ep : ppc_of Qc :=
  {| p_bus := [eb 20 3 0; eb 5 4 11; eb 7 1 50];
     p_gen := [eg 7 0; eg 20 1];
     p_branch := [el 7 5 1; el 20 7 1; el 20 7 0];
     p_gencost := Some egc; p_areas := None; p_A := None; p_N := None; p_order := None |}.
Definition erun := dc_opf argsort_stable solveQ (fun a => a) false (ex_p 2) (zc 100) ep.
Definition eshow :=
  match erun with
  | Ok (r, f, ok) => (ok, mil f, map (fun b => (mil (cell b VA), mil (cell b LAM_P))) (p_bus r),
      map (fun g => mil (cell g PG)) (p_gen r), map (fun b => (mil (cell b PF), mil (cell b PT), mil (cell b MU_ANGMAX))) (p_branch r))
  | Err _ => (false, 0%Z, [], [], [])
  end.
(** the generator in service covers the load at a cost of 50^2 + 10 50 + 7; results of the idle equipment and the
    row of the isolated bus are as they should be *)
Example C83_example : eshow =
  (true, 3007000, [(0, 110000); (0, 0); (-14324, 110002)], [0; 50000],
   [(0, 0, 0); (50000, -50000, 4); (0, 0, 0)])%Z.
Proof. vm_compute. reflexivity. Qed.

Ltac erow := repeat match goal with
  | H : nth_error ?l ?i = Some _ |- _ => is_var i; destruct i; cbn [nth_error ep p_bus p_gen p_branch] in H; try discriminate H
  end.
Ltac esub := repeat match goal with
  | H : Some ?x = Some ?r |- _ => is_var r; assert (r = x) by congruence; clear H; subst r end.
Lemma some_zc a b : Some (ofZ a : Qc) = Some (ofZ b) -> a = b.
Proof. intros H. apply (@ofZ_some Qc _) in H. exact H. Qed.
Lemma ep_wf : wf_case ep.
Proof.
  constructor; try discriminate.
  - exists 13; split; [lia|]. repeat constructor.
  - exists 10; split; [lia|]. repeat constructor.
  - exists 13; split; [lia|]. repeat constructor.
  - intros i r H. erow; esub; eexists; (split; [|reflexivity]); lia.
  - intros z i j (r & H & Hc) (r' & H' & Hc'). cbn [ep p_bus] in H, H'.
    erow; auto; exfalso; esub; unfold eb, BUS_I in Hc, Hc'; cbn [nth_error zs map] in Hc, Hc';
      apply some_zc in Hc; apply some_zc in Hc'; lia.
  - intros i r H. erow; esub; eexists; (split; [|reflexivity]); lia.
  - exists 0. eexists. split; [reflexivity|]. intros C. cbn [nth_error zs map eb BUS_TYPE] in C. apply some_zc in C; lia.
  - intros r Hr. repeat (destruct Hr as [<-|Hr]); [..|destruct Hr];
      (eexists; split; [reflexivity|]);
      first [exists 0; eexists; split; reflexivity|exists 1; eexists; split; reflexivity|exists 2; eexists; split; reflexivity].
  - intros r Hr. repeat (destruct Hr as [<-|Hr]); [..|destruct Hr]; split;
      (eexists; split; [reflexivity|]);
      first [exists 0; eexists; split; reflexivity|exists 1; eexists; split; reflexivity|exists 2; eexists; split; reflexivity].
  - intros r Hr. repeat (destruct Hr as [<-|Hr]); [..|destruct Hr]; (left; reflexivity) || (right; reflexivity).
  - intros g Hg. assert (g = egc) by (cbn in Hg; congruence). subst g. cbn. lia.
Qed.

Definition modb (e : ext Qc) : bool := match e with EFin a => fltb (fabs a) huge | _ => true end.
Definition emod : bool :=
  match ext2int argsort_stable (opf_columns ep) with
  | Ok q => match p_gencost q with
            | Some gc => match dc_setup false (zc 100) (p_bus q) (p_gen q) (p_branch q) gc no_user with
                         | Ok o => forallb modb (d_l o ++ d_u o ++ d_xmin o ++ d_xmax o) | Err _ => true end
            | None => true end
  | Err _ => true end.
Lemma ep_moderate q gc o z : stages argsort_stable solveQ (fun a => a) false (ex_p 2) (zc 100) ep q gc o z ->
  Forall moderate (d_l o ++ d_u o ++ d_xmin o ++ d_xmax o).
Proof.
  intros (H1 & H2 & H3 & _). assert (emod = true) as C by (vm_compute; reflexivity).
  unfold emod in C. rewrite H1, H2, H3 in C. rewrite forallb_forall in C. apply Forall_forall.
  intros [a| |] Ha; cbn; auto. exact (C _ Ha).
Qed.

(** all hypotheses hold for this case, so the report is as stated *)
Lemma ep_solution r f : dc_opf argsort_stable solveQ (fun a => a) false (ex_p 2) (zc 100) ep = Ok (r, f, true) ->
  exists t, dc_report false t (zc 100) ep r /\ cost_of_report t egc r [1] f.
Proof.
  intros RUN.
  assert (GS : forall j, gen_in_service ep j <-> j = 1).
  { intros j. split.
    - intros (x & s & Hx & Hs & Gs & _). erow; auto. cbn [ep p_gen nth_error] in Hx. esub. exfalso.
      cbn [nth_error eg zs map GEN_STATUS] in Hs. assert (s = zc 0) by congruence. subst s. vm_compute in Gs. discriminate.
    - intros ->. exists (eg 20 1), (zc 1). split; [reflexivity|]. split; [reflexivity|]. split; [vm_compute; reflexivity|].
      exists 20%Z, 0. split; [reflexivity|]. split; [eexists; split; reflexivity|]. eexists. split; [reflexivity|].
      intros C. cbn [nth_error zs map eb BUS_TYPE] in C. apply some_zc in C; lia. }
  assert (H1 : in_ext_state ep) by exact I.
  assert (H2 : lt 0%K (zc 100)) by (vm_compute; reflexivity).
  assert (H3 : forall j g, gen_in_service ep j -> nth_error (p_gen ep) j = Some g -> le (cell g PMIN) (cell g PMAX)).
  { intros j g Sj Hg. apply GS in Sj as ->. cbn [ep p_gen nth_error] in Hg. esub. vm_compute. reflexivity. }
  assert (H4 : false = false -> forall j g, branch_in_service ep j -> nth_error (p_branch ep) j = Some g ->
    cell g ANGMIN <> 0%K -> cell g ANGMAX <> 0%K -> le (degrees (cell g ANGMIN)) (degrees (cell g ANGMAX))).
  { intros _ j g Sj Hg N. exfalso. apply N. erow; esub; apply Qc_is_canon; reflexivity. }
  assert (H5 : forall j, gen_in_service ep j -> cost_is 1 (nth j egc []) = true \/ lin_or_quad (nth j egc [])).
  { intros j Sj. apply GS in Sj as ->. right. split; [vm_compute; reflexivity|right; apply qc_eqb_eq; vm_compute; reflexivity]. }
  pose proof (C83_solution argsort_stable argsort_stable_spec solveQ (fun a => a) false (ex_p 2) (zc 100) ep r f true
              ep_wf H1 RUN H2 H3 H4 egc eq_refl H5 ep_moderate eq_refl) as X. clear RUN.
  destruct X as (q & gc & o & z & x0 & HH & CC & C0 & sp & s0 & s & k & _ & _ & _ & _ & _ & _ & _ & H).
  destruct (C83_norms (t_x s)) as (xn & X). destruct (C83_norms (t_z s)) as (zn & Zn).
  destruct (H xn zn X Zn) as (m & _ & G1 & G2). eexists. split; [exact G1|]. apply G2.
  split; [repeat constructor; intros []|]. intros j. rewrite GS. cbn. intuition.
Qed.
Example C83_example_solution : exists r f t,
  dc_opf argsort_stable solveQ (fun a => a) false (ex_p 2) (zc 100) ep = Ok (r, f, true) /\
  dc_report false t (zc 100) ep r /\ cost_of_report t egc r [1] f.
Proof.
  assert (match dc_opf argsort_stable solveQ (fun a => a) false (ex_p 2) (zc 100) ep with Ok (_, _, b) => b | _ => false end = true)
    as C by (vm_compute; reflexivity).
  destruct (dc_opf argsort_stable solveQ (fun a => a) false (ex_p 2) (zc 100) ep) as [((r, f), ok)|e] eqn:RUN; [|discriminate].
  subst ok. destruct (ep_solution r f RUN) as (t & H). exists r, f, t. split; [reflexivity|exact H].
Qed.

(** ** C84 *)

(** a successful run for a branch without an angle limit that reports a multiplier for it: the branch of the
    report above, with the limit taken away *)
Definition stale (g : list Qc) : list Qc := upd (wide (MU_ANGMAX + 1) g) MU_ANGMAX (zc 4).
Definition sp_ : ppc_of Qc :=
  {| p_bus := p_bus ep; p_gen := p_gen ep; p_branch := map (fun b => stale (upd b ANGMAX (zc 0))) (p_branch ep);
     p_gencost := Some egc; p_areas := None; p_A := None; p_N := None; p_order := None |}.
Definition unlimitedb (g : list Qc) : bool := qc_eqb (cell g ANGMIN) (zc 0) && qc_eqb (cell g ANGMAX) (zc 0).
Theorem C84_stale_refuted : exists (p r : ppc_of Qc) f j g,
  dc_opf argsort_stable solveQ (fun a => a) false (ex_p 2) (zc 100) p = Ok (r, f, true) /\
  nth_error (p_branch r) j = Some g /\ cell g BR_STATUS = zc 1 /\ ~ angle_limited g /\ cell g MU_ANGMAX <> 0%K.
Proof.
  exists sp_.
  assert (match dc_opf argsort_stable solveQ (fun a => a) false (ex_p 2) (zc 100) sp_ with
          | Ok (r, _, b) => b && match nth_error (p_branch r) 1 with
              | Some g => unlimitedb g && qc_eqb (cell g BR_STATUS) (zc 1) && qc_eqb (cell g MU_ANGMAX) (zc 4)
              | None => false end
          | _ => false end = true) as C by (vm_compute; reflexivity).
  destruct (dc_opf argsort_stable solveQ (fun a => a) false (ex_p 2) (zc 100) sp_) as [((r, f), ok)|e]; [|discriminate].
  apply andb_true_iff in C as (-> & C). exists r, f, 1. destruct (nth_error (p_branch r) 1) as [g|]; [|discriminate].
  apply andb_true_iff in C as (C & C3). apply andb_true_iff in C as (C1 & C2). apply andb_true_iff in C1 as (L1 & L2).
  apply qc_eqb_eq in L1, L2, C2, C3. exists g. split; [reflexivity|]. split; [reflexivity|]. split; auto. split.
  - intros [(N & _)|(N & _)]; apply N; auto.
  - rewrite C3. intros H. apply (f_equal this) in H. vm_compute in H. discriminate.
Qed.

Print Assumptions C83_tables.
Print Assumptions C83_multipliers.
Print Assumptions C83_solution.
Print Assumptions C83_norms.
Print Assumptions C84_kept_partial.
Print Assumptions C84_stale_refuted.
