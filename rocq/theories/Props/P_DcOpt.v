(** The solution of the DC optimal power flow.  C58: its cost is near the optimum; C59: its prices. *)
From Verif Require Import Lib.ListFacts Lib.QcFacts Lib.GaussQ Model.DcOpf Spec.DcSpec Spec.PipsRun
  Proofs.LinAlgFacts Proofs.SparseFacts Proofs.FldFacts Proofs.OrdFacts Proofs.NetworkA Proofs.OpfLinA Proofs.OpfLinB
  Proofs.DcOpfA Proofs.DcOpfB Proofs.DcOpfC Proofs.DcOpfD Proofs.DcOpfE Proofs.DcOpfF Proofs.DcOpfG
  Proofs.DcOpfH Proofs.PipsF Proofs.PipsG Proofs.PipsH Proofs.DcOpfI Proofs.PipsI Proofs.DcOpfJ Props.P_DcOpf.
Local Open Scope nat_scope.

Section Theorems.
Context {K : Type} {F : Fld K}.
Add Field KF : (@f_ok K F).
Variable solve : smat K -> list K -> result (option (list K)).
Variable ln : K -> K.
Variables (ign : bool) (B : K) (bus gen branch gencost : list (list K)) (U : user (K := K)) (o : dcom (K := K)).
Notation nb := (length bus).
Notation ng := (length gen).
Hypothesis WU : forall M, u_A U = Some M -> shaped (nrows M) (ncols M) M.
Hypothesis SET : dc_setup ign B bus gen branch gencost U = Ok o.
(** ** C33, start and options of the solver *)
(** angles start at the angle of the first reference bus, outputs and user variables midway between
    their limits, cost variables a tenth above the largest cost at the end of a cost curve *)
Theorem C33_start x0 : dc_start o bus = Ok x0 ->
  length x0 = d_nx o /\
  (exists i r, nth_error bus i = Some r /\ cell r BUS_TYPE = fofZ 3 /\
     (forall i' r', i' < i -> nth_error bus i' = Some r' -> cell r' BUS_TYPE <> fofZ 3) /\
     forall n, n < nb -> nth n x0 0%K = degrees (cell r VA)) /\
  (forall k g, nth_error gen k = Some g -> output nb x0 k = ((cell g PMIN / B + cell g PMAX / B) / fofZ 2)%K) /\
  (forall j, j < length (multi_rows ng gencost) -> exists i c, In i (multi_rows ng gencost) /\
     c = cell (nth i gencost []) (NCOST + 2 * npoints (nth i gencost [])) /\
     (forall i', In i' (multi_rows ng gencost) -> le (cell (nth i' gencost []) (NCOST + 2 * npoints (nth i' gencost []))) c) /\
     nth (nb + ng + j) x0 0%K = (c + fabs c / fofZ 10)%K) /\
  (forall k a b, k < user_vars nb ng (u_A U) -> lower (u_zl U) k = EFin a -> upper (u_zu U) k = EFin b ->
     nth (nb + ng + length (multi_rows ng gencost) + k) x0 0%K = ((a + b) / fofZ 2)%K).
Proof.
  intros H. destruct (set_ok ign B bus gen branch gencost U o WU SET) as (Bb & Pbi & S).
  split; [exact (start_length _ _ _ _ _ _ _ _ _ _ S x0 H)|exact (start_ok _ _ _ _ _ _ _ _ _ _ S x0 H)].
Qed.
(** the constraint violation allowed for the power flow is used where no feasibility tolerance is given *)
Theorem C33_options (p : dcopt (K := K)) :
  (p_feastol p = 0%K -> o_feastol (pips_options p) = p_violation p) /\
  (p_feastol p <> 0%K -> o_feastol (pips_options p) = p_feastol p) /\
  o_gradtol (pips_options p) = p_gradtol p /\ o_comptol (pips_options p) = p_comptol p /\
  o_costtol (pips_options p) = p_costtol p /\ o_max_it (pips_options p) = p_max_it p /\
  o_step_control (pips_options p) = p_250 p /\ o_max_red (pips_options p) = p_max_red p /\
  o_cost_mult (pips_options p) = 1%K.
Proof.
  unfold pips_options. cbn. split; [|split; [|auto 10]]; intros H.
  - rewrite (proj2 (feqb_ok _ _) H). reflexivity.
  - rewrite (proj2 (feqb_false _ _) H). reflexivity.
Qed.
(** the solver's second derivatives are those of its objective *)
Theorem C30_hessian (H : smat K) c n x d : wf H -> nrows H = n -> ncols H = n -> sym_mat H -> length c = n ->
  length x = n -> length d = n ->
  exists M, p_d2f (qp H c) x = Ok M /\
    qform n H c (map2 radd x d)
    = (qform n H c x + lsum (fun j => (row_val H x j + nth j c 0) * nth j d 0) (seq 0 n)
       + qform n M (repeat 0 n) d)%K.
Proof. intros. exists H. split; [reflexivity|apply qform_step; auto]. Qed.

Variable cp : costp (K := K).
Hypothesis WN : shaped (nrows (k_N cp)) (d_nx o) (k_N cp).
Hypothesis WH : shaped (nrows (k_N cp)) (nrows (k_N cp)) (k_H cp).
Hypothesis SH : sym_mat (k_H cp).

(** ** C58 *)

(** with generator costs curved upwards and a convex user cost, no feasible dispatch is cheaper than
    the reported one by more than the solver's tolerances allow *)
Theorem C58_near_optimal p res : covered gen gencost -> unshifted cp ->
  (forall i, i < ng -> quad_rising (nth i gencost [])) ->
  (forall w, length w = nrows (k_N cp) ->
     le 0%K (qform (nrows (k_N cp)) (k_H cp) (repeat 0%K (nrows (k_N cp))) w)) ->
  limits_ordered ign B bus gen branch (u_A U) (u_l U) (u_u U) (u_zl U) (u_zu U) ->
  limits_clear ign B bus gen branch (u_A U) (u_l U) (u_u U) (u_zl U) (u_zu U) ->
  dcopf solve ln p B bus gen branch o cp = Ok res -> z_success res = true ->
  exists x0 HH CC C0 sp s0 s k,
    dc_start o bus = Ok x0 /\ dc_objective B o cp = Ok (HH, CC, C0) /\
    split_bounds (d_nx o) (Some (d_A o)) (d_l o) (d_u o) (d_xmin o) (d_xmax o) = Ok sp /\
    start ln (qp HH CC) (pips_options p) sp x0 = Ok s0 /\
    visited solve ln (qp HH CC) (pips_options p) sp (d_nx o) s0 k s /\ z_x res = t_x s /\
    forall xn zn lam_n mu_n, is_norm (t_x s) xn -> is_norm (t_z s) zn ->
      is_norm (t_lam s) lam_n -> is_norm (t_mu s) mu_n ->
    exists a b, (a = xn \/ a = zn) /\ (b = lam_n \/ b = mu_n) /\
    forall y, length y = d_nx o ->
      dc_point equal_ no_excess ign B bus gen branch gencost (u_A U) (u_l U) (u_u U) (u_zl U) (u_zu U) y ->
      le (z_f res)
         (gen_cost B nb ng gencost y + user_cost (k_N cp) (k_H cp) (k_Cw cp) (k_rh cp) (k_mm cp) y
          + (p_gradtol p * (1 + b) * lsum (fun j => fabs (nth j y 0 - nth j (z_x res) 0)) (seq 0 (d_nx o))
             + o_feastol (pips_options p) * (1 + a) * lsum fabs (t_lam s)
             + p_comptol p * (1 + xn)
             + lsum (fun i => nth i (t_mu s) 0 * fabs (nth i (e_h (t_e s)) 0 + nth i (t_z s) 0))
                 (seq 0 (length (t_mu s)))))%K.
Proof.
  intros CV RH QR PS LO LC H EF. unfold dcopf in H. apply bind_ok in H as (((HH & CC) & C0) & HO & H).
  apply bind_ok in H as (x0 & H0 & H). apply bind_ok in H as (s & HS & H).
  destruct (set_ok ign B bus gen branch gencost U o WU SET) as (Bb & Pbi & S).
  destruct (objective_ok _ _ _ _ _ _ _ _ _ _ S cp HH CC C0 WN WH SH HO) as (_ & _ & _ & W & N & C & LCC & SY & _).
  destruct (dc_update_ok _ _ _ _ _ _ _ _ _ _ S C0 s res H) as (X & Fv & ES & _).
  destruct (d_lengths _ _ _ _ _ _ _ _ _ _ S) as (L1 & L2 & L3 & L4 & WA & CA).
  pose proof (start_length _ _ _ _ _ _ _ _ _ _ S x0 H0) as Lx0.
  assert (shaped_opt (length x0) (Some (d_A o))) as SA.
  { cbn. split; [auto|]. split; [congruence|]. unfold wf in WA. rewrite Lx0, <- CA. exact WA. }
  destruct (near_optimal solve ln (qp HH CC) (pips_options p) x0 (Some (d_A o)) (d_l o) (d_u o) (d_xmin o) (d_xmax o)
    eq_refl SA) with (r := s) as (sp & s0 & st & k & f & df & SP & ST & VI & XS & PF & RF & T).
  { intros x f df E. cbn [p_f qp] in E. destruct (qp_f_ok HH CC (d_nx o) x f df W N C LCC E) as (_ & _ & Ld & _). congruence. }
  all: try (right; congruence); auto.
  { right. auto. } { right. auto. }
  { rewrite Lx0. exact (ordered_rows _ _ _ _ _ _ _ _ _ _ S LO). }
  { congruence. }
  { apply lt_0_1. }
  rewrite Lx0 in *. rewrite <- X in *. cbn [p_f qp] in PF.
  destruct (qp_f_ok HH CC (d_nx o) _ f df W N C LCC PF) as (Lr & Ef & Ldf & V).
  exists x0, HH, CC, C0, sp, s0, st, k. do 6 (split; [auto|]).
  intros xn zn lam_n mu_n X1 X2 X3 X4. destruct (T xn zn lam_n mu_n X1 X2 X3 X4) as (a & b & Ha & Hb & T').
  exists a, b. do 2 (split; [auto|]). intros y Ly DP.
  destruct (qp_f_total HH CC (d_nx o) y W N C LCC Ly) as (fy & dfy & FY).
  destruct (qp_f_ok HH CC (d_nx o) y fy dfy W N C LCC FY) as (_ & Efy & _).
  pose proof (C30_objective ign B bus gen branch gencost U o WU SET cp WN WH SH HH CC C0 CV RH HO y Ly) as OB.
  rewrite <- OB, <- Efy, Fv, RF.
  assert (linear_ok (d_nx o) (Some (d_A o)) (d_l o) (d_u o) (d_xmin o) (d_xmax o) y) as LK.
  { apply (dc_point_ok equal_ no_excess exact_sides _ _ _ _ _ _ _ _ _ _ S y Ly) in DP as (D1 & D2).
    destruct (clear_rows _ _ _ _ _ _ _ _ _ _ S LC) as (K1 & K2).
    split; [intros j Hj|intros i Hi]; apply inside_meets; auto. apply D1; auto. }
  specialize (T' y fy dfy LK FY).
  assert (le (f + lsum (fun j => nth j df 0 * (nth j y 0 - nth j (z_x res) 0)) (seq 0 (d_nx o)))%K fy) as CX.
  { set (d := map2 rsub y (z_x res)).
    assert (length d = d_nx o) as Ld by (unfold d; rewrite map2_length; lia).
    assert (map2 radd (z_x res) d = y) as Y.
    { apply nth_ext with (d := 0%K) (d' := 0%K); [rewrite map2_length; lia|]. intros j Hj. rewrite map2_length in Hj.
      rewrite (nth_map2_d _ _ _ _ 0%K 0%K) by lia. unfold d. rewrite (nth_map2_d _ _ _ _ 0%K 0%K) by lia. cbn. ring. }
    pose proof (qform_step HH CC (d_nx o) (z_x res) d W N C SY LCC Lr Ld) as QS. rewrite Y, <- Ef, <- Efy in QS.
    rewrite QS.
    replace (lsum (fun j => nth j df 0 * (nth j y 0 - nth j (z_x res) 0))%K (seq 0 (d_nx o)))
      with (lsum (fun j => (row_val HH (z_x res) j + nth j CC 0) * nth j d 0)%K (seq 0 (d_nx o))).
    2: { apply lsum_ext. intros j Hj. apply in_seq in Hj. rewrite V by lia. unfold d.
         rewrite (nth_map2_d _ _ _ _ 0%K 0%K) by lia. reflexivity. }
    pose proof (objective_convex _ _ _ _ _ _ _ _ _ _ S cp WN WH SH HH CC C0 HO QR PS d Ld) as CVX.
    apply le_sub. match goal with |- le _ ?z => replace z with (qform (d_nx o) HH (repeat 0%K (d_nx o)) d) by ring end.
    exact CVX. }
  specialize (T' CX). apply le_sub in T'. apply le_sub.
  match type of T' with le _ ?t => match goal with |- le _ ?z => replace z with t; [exact T'|] end end.
  unfold pips_options, sum_abs, slack_error. cbn. ring.
Qed.

(** ** C59 *)
(** the solver's path to the result *)
Definition solved_by (p : dcopt (K := K)) (res : dcres (K := K)) (HH : smat K) (CC : list K) (s : @Pips.state K) : Prop :=
  exists x0 C0 sp s0 k,
    dc_start o bus = Ok x0 /\ dc_objective B o cp = Ok (HH, CC, C0) /\
    split_bounds (d_nx o) (Some (d_A o)) (d_l o) (d_u o) (d_xmin o) (d_xmax o) = Ok sp /\
    start ln (qp HH CC) (pips_options p) sp x0 = Ok s0 /\
    visited solve ln (qp HH CC) (pips_options p) sp (d_nx o) s0 k s /\ z_x res = t_x s.

Lemma modest_of (a b : ext K) : moderate a -> moderate b -> modest a b.
Proof.
  intros Ma Mb T. unfold tight in T. destruct a as [a| |], b as [b| |]; try contradiction. unfold unb_lo, unb_up. cbn in *.
  assert (forall c : K, lt (fabs c) huge -> lt (- huge)%K c /\ lt c huge) as HB.
  { intros c Hc. destruct (proj1 (fabs_le c (fabs c)) (le_refl _)) as (C1 & C2). split; [|eapply le_lt_trans; eauto].
    eapply lt_le_trans; [|exact C1]. apply (proj1 (opp_lt _ _)). exact Hc. }
  split; intros H.
  - exact (lt_not_le _ _ (proj1 (HB a Ma)) H).
  - exact (lt_not_le _ _ (proj2 (HB b Mb)) H).
Qed.

Lemma stationary p res :
  limits_ordered ign B bus gen branch (u_A U) (u_l U) (u_u U) (u_zl U) (u_zu U) ->
  Forall moderate (d_l o ++ d_u o ++ d_xmin o ++ d_xmax o) ->
  dcopf solve ln p B bus gen branch o cp = Ok res -> z_success res = true ->
  exists HH CC C0 s sol, solved_by p res HH CC s /\ dc_objective B o cp = Ok (HH, CC, C0) /\
    dc_update B bus gen branch o C0 sol = Ok res /\ length (z_x res) = d_nx o /\
    (forall i, i < nrows (d_A o) -> lower (d_l o) i = ENeg -> nth i (m_mu_l (r_lmbda sol)) 0%K = 0%K) /\
    (forall j, j < d_nx o -> (lower (d_xmin o) j = ENeg -> nth j (m_lower (r_lmbda sol)) 0%K = 0%K) /\
       (upper (d_xmax o) j = EPos -> nth j (m_upper (r_lmbda sol)) 0%K = 0%K)) /\
    forall lam_n mu_n, is_norm (t_lam s) lam_n -> is_norm (t_mu s) mu_n ->
    exists b, (b = lam_n \/ b = mu_n) /\ forall j, j < d_nx o ->
      let m := r_lmbda sol in
      lt (fabs (row_val HH (z_x res) j + nth j CC 0 + (nth j (m_upper m) 0 - nth j (m_lower m) 0)
                + lsum (fun i => at_ (d_A o) i j * (nth i (m_mu_u m) 0 - nth i (m_mu_l m) 0)) (seq 0 (nrows (d_A o))))%K)
         (p_gradtol p * (1 + b) + (cut_of (lower (d_xmin o) j) (upper (d_xmax o) j)
            + lsum (fun i => fabs (at_ (d_A o) i j) * cut_of (lower (d_l o) i) (upper (d_u o) i)) (seq 0 (nrows (d_A o)))))%K.
Proof.
  intros LO MO H EF. unfold dcopf in H. apply bind_ok in H as (((HH & CC) & C0) & HO & H).
  apply bind_ok in H as (x0 & H0 & H). apply bind_ok in H as (s & HS & H).
  destruct (set_ok ign B bus gen branch gencost U o WU SET) as (Bb & Pbi & S).
  destruct (objective_ok _ _ _ _ _ _ _ _ _ _ S cp HH CC C0 WN WH SH HO) as (_ & _ & _ & W & N & C & LCC & SY & _).
  destruct (dc_update_ok _ _ _ _ _ _ _ _ _ _ S C0 s res H) as (X & Fv & ES & _).
  destruct (d_lengths _ _ _ _ _ _ _ _ _ _ S) as (L1 & L2 & L3 & L4 & WA & CA).
  pose proof (start_length _ _ _ _ _ _ _ _ _ _ S x0 H0) as Lx0.
  assert (shaped_opt (length x0) (Some (d_A o))) as SA.
  { cbn. split; [auto|]. split; [congruence|]. unfold wf in WA. rewrite Lx0, <- CA. exact WA. }
  assert (bounds_ordered (length x0) (rows_of (Some (d_A o))) (d_l o) (d_u o) (d_xmin o) (d_xmax o)) as BO.
  { rewrite Lx0. exact (ordered_rows _ _ _ _ _ _ _ _ _ _ S LO). }
  rewrite !Forall_app in MO. destruct MO as (M1 & M2 & M3 & M4).
  assert (forall (b : list (ext K)) i, Forall moderate b -> moderate (lower b i) /\ moderate (upper b i)) as MB.
  { intros b i HF. unfold lower, upper. rewrite !bound_nth. rewrite Forall_forall in HF.
    split; (destruct (lt_dec i (length b)); [apply HF; apply nth_In; auto|rewrite nth_overflow by lia; cbn; auto]). }
  destruct (reported_gradient solve ln (qp HH CC) (pips_options p) x0 (Some (d_A o)) (d_l o) (d_u o) (d_xmin o) (d_xmax o) 0 0
    SA ltac:(rewrite Lx0; apply qp_shaped; auto) ltac:(right; congruence) ltac:(right; congruence) ltac:(right; auto)
    ltac:(right; auto) s HS BO lt_0_1) as (sp & s0 & st & k & f & df & hn & gn & dhn & dgn & SP & ST & VI & XS & PF & NL & T).
  { intros j _. apply modest_of; apply MB; auto. } { intros j _. apply modest_of; apply MB; auto. } { congruence. }
  destruct (one_sided solve ln (qp HH CC) (pips_options p) x0 (Some (d_A o)) (d_l o) (d_u o) (d_xmin o) (d_xmax o)
    SA ltac:(right; congruence) ltac:(right; congruence) ltac:(right; auto)
    ltac:(right; auto) s HS BO) as (OS1 & OS2).
  rewrite Lx0 in *. cbn [p_f qp] in PF. rewrite <- X in PF, XS.
  destruct (qp_f_ok HH CC (d_nx o) _ f df W N C LCC PF) as (Lr & Ef & Ldf & V).
  exists HH, CC, C0, st, s. split; [exists x0, C0, sp, s0, k; auto 10|]. do 3 (split; [auto|]).
  split; [intros i Hi; apply OS2; auto|]. split; [intros j Hj; apply OS1; auto|].
  intros lam_n mu_n N1 N2. destruct (T lam_n mu_n N1 N2) as (b & Hb & T'). exists b. split; auto.
  intros j Hj m. specialize (T' j Hj). fold m in T'. unfold nonlinear_at in NL. cbn [p_gh qp] in NL. destruct NL as (-> & -> & -> & ->).
  unfold pull_rows, pull, abs_pull in T'. cbn [rows_of] in T'. rewrite V in T' by auto.
  destruct (Nat.ltb_spec j (d_nx o)); [|lia].
  match type of T' with lt (fabs ?a) ?b => match goal with |- lt (fabs ?a') ?b' => replace a' with a; [replace b' with b; [exact T'|]|] end end.
  - cbn [pips_options o_gradtol o_cost_mult]. ring.
  - cbn [pips_options o_gradtol o_cost_mult].
    rewrite (lsum_ext _ (fun i => at_ (d_A o) i j * (nth i (m_mu_u m) 0 - nth i (m_mu_l m) 0))%K).
    1: unfold pull, lin_val; ring.
    intros i Hi. destruct (Nat.ltb_spec (d_nx o + i) (d_nx o)); [lia|].
    replace (d_nx o + i - d_nx o) with i by lia. reflexivity.
Qed.

(** marginal cost, price at the bus and prices of the output limits of a generator agree *)
Theorem C59_generator_price p res k g :
  u_A U = None -> nrows (k_N cp) = 0 ->
  limits_ordered ign B bus gen branch (u_A U) (u_l U) (u_u U) (u_zl U) (u_zu U) ->
  Forall moderate (d_l o ++ d_u o ++ d_xmin o ++ d_xmax o) ->
  dcopf solve ln p B bus gen branch o cp = Ok res -> z_success res = true ->
  nth_error gen k = Some g -> segmented (nth k gencost []) = false ->
  cost_is 1 (nth k gencost []) = true \/ lin_or_quad (nth k gencost []) ->
  exists HH CC s, solved_by p res HH CC s /\
  forall lam_n mu_n, is_norm (t_lam s) lam_n -> is_norm (t_mu s) mu_n ->
  exists b g' r', (b = lam_n \/ b = mu_n) /\ nth_error (z_gen res) k = Some g' /\
    nth_error (z_bus res) (bus_no g GEN_BUS) = Some r' /\
    lt (fabs (B * (marginal (nth k gencost []) (cell g' PG) - cell r' LAM_P + cell g' MU_PMAX - cell g' MU_PMIN))%K)
       (p_gradtol p * (1 + b) + cut_of (EFin (cell g PMIN / B)) (EFin (cell g PMAX / B)))%K.
Proof.
  intros NU NC LO MO H EF Hg SG CV. destruct (stationary p res LO MO H EF) as (HH & CC & C0 & s & sol & SB & HO & UP & Lr & _ & _ & T).
  destruct (set_ok ign B bus gen branch gencost U o WU SET) as (Bb & Pbi & S).
  exists HH, CC, s. split; auto. intros lam_n mu_n N1 N2. destruct (T lam_n mu_n N1 N2) as (b & Hb & T').
  destruct (dc_update_ok _ _ _ _ _ _ _ _ _ _ S C0 sol res UP) as (X & _ & _ & _ & _ & _ & _ & RB & RG & _).
  destruct (RG k g Hg) as (g' & G1 & G2 & G3 & G4 & G5 & _).
  pose proof (nth_error_some_lt _ _ _ Hg) as Hk.
  assert (bus_no g GEN_BUS < nb) as Hbg.
  { pose proof (ss_gbus _ _ _ _ _ _ _ _ _ _ S) as GB. unfold buses_ok in GB. rewrite Forall_forall in GB. apply (GB g). eapply nth_error_In; eauto. }
  destruct (nth_error_lt bus _ Hbg) as (r & Hr). destruct (RB _ r Hr) as (r' & R1 & R2 & R3 & R4 & _).
  exists b, g', r'. do 3 (split; [auto|]).
  assert (nb + ng <= d_nx o) as LN by (rewrite (nx_eq _ _ _ _ _ _ _ _ _ _ S); lia).
  specialize (T' (nb + k) ltac:(lia)). cbv zeta in T'.
  rewrite (gen_col_sum _ _ _ _ _ _ _ _ _ _ S NU k g Hg SG (fun i => (nth i (m_mu_u (r_lmbda sol)) 0 - nth i (m_mu_l (r_lmbda sol)) 0)%K)) in T'.
  rewrite (gen_col_cut _ _ _ _ _ _ _ _ _ _ S NU k g Hg SG) in T'.
  rewrite (gen_gradient _ _ _ _ _ _ _ _ _ _ S cp WN WH SH NC HH CC C0 (z_x res) k HO Lr Hk SG CV) in T'.
  rewrite <- R4, <- G4, <- G5 in T'. rewrite X, <- G3 in T'.
  assert (lower (d_xmin o) (nb + k) = EFin (cell g PMIN / B)%K /\ upper (d_xmax o) (nb + k) = EFin (cell g PMAX / B)%K) as (BL & BU).
  { unfold lower, upper. rewrite !bound_nth. rewrite (ss_xmin _ _ _ _ _ _ _ _ _ _ S), (ss_xmax _ _ _ _ _ _ _ _ _ _ S).
    split; (rewrite app_nth2, map_length by (rewrite map_length; lia); replace (nb + k - nb) with k by lia;
      rewrite app_nth1 by (rewrite map_length; lia); rewrite (nth_map_lt _ _ _ _ []) by lia; rewrite (nth_error_nth _ _ _ Hg); auto). }
  rewrite BL, BU in T'.
  match type of T' with lt (fabs ?a) ?b => match goal with |- lt (fabs ?a') ?b' => replace a' with a by ring; replace b' with b by ring end end.
  exact T'.
Qed.

(** at a bus whose angle is free the prices of the balances and of the flow limits of the branches
    there agree *)
Theorem C59_congestion_price p res n rn :
  u_A U = None -> nrows (k_N cp) = 0 -> ign = true \/ (forall r, In r branch -> ~ angle_limited r) ->
  limits_ordered ign B bus gen branch (u_A U) (u_l U) (u_u U) (u_zl U) (u_zu U) ->
  Forall moderate (d_l o ++ d_u o ++ d_xmin o ++ d_xmax o) ->
  dcopf solve ln p B bus gen branch o cp = Ok res -> z_success res = true ->
  nth_error bus n = Some rn -> cell rn BUS_TYPE <> fofZ 3 ->
  exists HH CC s, solved_by p res HH CC s /\
  forall lam_n mu_n, is_norm (t_lam s) lam_n -> is_norm (t_mu s) mu_n ->
  exists b, (b = lam_n \/ b = mu_n) /\
    lt (fabs (B * lsum (fun l => flow_by nb (nth l branch []) n
                          * congestion (z_bus res) (nth l branch []) (nth l (z_branch res) [])) (seq 0 (length branch)))%K)
       (p_gradtol p * (1 + b)
        + lsum (fun r => if flow_limitedb r then fabs (flow_by nb r n) * clean_tol + fabs (flow_by nb r n) * clean_tol else 0) branch)%K.
Proof.
  intros NU NC AL LO MO H EF Hn NR. destruct (stationary p res LO MO H EF) as (HH & CC & C0 & s & sol & SB & HO & UP & Lr & OS & OV & T).
  destruct (set_ok ign B bus gen branch gencost U o WU SET) as (Bb & Pbi & S).
  exists HH, CC, s. split; auto. intros lam_n mu_n N1 N2. destruct (T lam_n mu_n N1 N2) as (b & Hb & T').
  destruct (dc_update_ok _ _ _ _ _ _ _ _ _ _ S C0 sol res UP) as (X & _ & _ & _ & _ & _ & _ & RB & _ & RL).
  exists b. split; auto. pose proof (nth_error_some_lt _ _ _ Hn) as Ln.
  assert (nb + ng <= d_nx o) as LN by (rewrite (nx_eq _ _ _ _ _ _ _ _ _ _ S); lia).
  assert (d_iang o = []) as NA.
  { destruct (d_iang o) as [|q l] eqn:E; auto. exfalso.
    destruct (proj1 (ss_iang _ _ _ _ _ _ _ _ _ _ S q) ltac:(rewrite E; simpl; auto)) as (I1 & r & Hr & HA).
    destruct AL as [AL|AL]; [congruence|]. apply (AL r); auto. eapply nth_error_In; eauto. }
  specialize (T' n ltac:(lia)). cbv zeta in T'.
  rewrite (ang_col_sum _ _ _ _ _ _ _ _ _ _ S NU n Ln NA (fun i => (nth i (m_mu_u (r_lmbda sol)) 0 - nth i (m_mu_l (r_lmbda sol)) 0)%K)) in T'.
  rewrite (ang_col_cut _ _ _ _ _ _ _ _ _ _ S NU n Ln NA) in T'.
  rewrite (ang_gradient _ _ _ _ _ _ _ _ _ _ S cp WN WH SH NC HH CC C0 (z_x res) n HO Lr Ln) in T'.
  assert (lower (d_xmin o) n = ENeg /\ upper (d_xmax o) n = EPos) as (BL & BU).
  { unfold lower, upper. rewrite !bound_nth. rewrite (ss_xmin _ _ _ _ _ _ _ _ _ _ S), (ss_xmax _ _ _ _ _ _ _ _ _ _ S).
    split; (rewrite app_nth1 by (rewrite map_length; lia); rewrite (nth_map_lt _ _ _ _ []) by lia; rewrite (nth_error_nth _ _ _ Hn);
      unfold ref_bound; rewrite (proj2 (feqb_false _ _) NR); auto). }
  destruct (OV n ltac:(lia)) as (OV1 & OV2). rewrite (OV1 BL), (OV2 BU), BL, BU in T'. cbn [cut_of] in T'.
  set (mm := r_lmbda sol) in *.
  (* sums over the limited branches, extended to all branches *)
  assert (forall h : nat -> K, lsum (fun q => h (nth q (d_il o) 0)) (seq 0 (length (d_il o)))
            = lsum (fun l => if flow_limitedb (nth l branch []) then h l else 0%K) (seq 0 (length branch))) as EXT.
  { intros h. rewrite <- (lsum_nth h (d_il o) 0). rewrite <- lsum_filter. apply lsum_perm.
    apply Permutation.NoDup_Permutation; [exact (ss_il_nodup _ _ _ _ _ _ _ _ _ _ S)|apply NoDup_filter, seq_NoDup|].
    intros l. rewrite (ss_il _ _ _ _ _ _ _ _ _ _ S), filter_In, in_seq. unfold flow_limitedb, flow_limited.
    split.
    - intros (r & Hr & F1 & F2). pose proof (nth_error_some_lt _ _ _ Hr). split; [lia|]. rewrite (nth_error_nth _ _ _ Hr).
      rewrite (proj2 (feqb_false _ _) F1). exact F2.
    - intros (Hl & F1). destruct (nth_error_lt branch l) as (r & Hr); [lia|]. exists r. split; auto.
      rewrite (nth_error_nth _ _ _ Hr) in F1. apply andb_true_iff in F1 as (F1 & F2). split; auto.
      apply negb_true_iff in F1. apply feqb_false in F1. exact F1. }
  assert (forall q, q < length (d_il o) -> exists r r', nth_error branch (nth q (d_il o) 0) = Some r /\
      nth_error (z_branch res) (nth q (d_il o) 0) = Some r' /\
      (nth (nb + q) (m_mu_u mm) 0 - nth (nb + q) (m_mu_l mm) 0 = B * cell r' MU_SF)%K /\
      (nth (nb + length (d_il o) + q) (m_mu_u mm) 0 - nth (nb + length (d_il o) + q) (m_mu_l mm) 0 = B * cell r' MU_ST)%K) as MU.
  { intros q Hq. destruct (nth_error_lt (d_il o) q Hq) as (l & Hl). rewrite (nth_error_nth _ _ _ Hl).
    destruct (proj1 (ss_il _ _ _ _ _ _ _ _ _ _ S l) ltac:(eapply nth_error_In; eauto)) as (r & Hr & FL).
    destruct (RL l r Hr) as (r' & P1 & _ & _ & _ & _ & _ & _ & P8). destruct (P8 FL) as (q' & Q1 & Q2 & Q3 & Q4 & Q5).
    assert (q' = q) as ->. { apply (proj1 (NoDup_nth_error (d_il o)) (ss_il_nodup _ _ _ _ _ _ _ _ _ _ S)); [eapply nth_error_some_lt; eauto|congruence]. }
    exists r, r'. do 2 (split; [auto|]). rewrite (ss_nl2 _ _ _ _ _ _ _ _ _ _ S) in *.
    destruct Q2 as (K1 & c1 & K2 & _). destruct Q3 as (K1' & c1' & K2' & _).
    rewrite (OS _ K1 K2), (OS _ K1' K2'), Q4, Q5. split; ring. }
  match type of T' with lt (fabs ?a) ?b => match goal with |- lt (fabs ?a') ?b' => replace a' with a; [replace b' with b; [exact T'|]|] end end.
  - f_equal. match goal with |- (0 + ?a)%K = _ => replace (0 + a)%K with a by ring end.
    rewrite (EXT (fun l => fabs (flow_by nb (nth l branch []) n) * clean_tol + fabs (flow_by nb (nth l branch []) n) * clean_tol)%K).
    symmetry. etransitivity; [apply (lsum_nth _ branch [])|]. reflexivity.
  - match goal with |- (0 + (0 - 0) + (?a + ?c) = _)%K => replace (0 + (0 - 0) + (a + c))%K with (a + c)%K by ring end.
    rewrite (lsum_ext (fun q => flow_by nb (nth (nth q (d_il o) 0%nat) branch []) n * _)%K
      (fun q => B * (flow_by nb (nth (nth q (d_il o) 0%nat) branch []) n
          * (cell (nth (nth q (d_il o) 0%nat) (z_branch res) []) MU_SF - cell (nth (nth q (d_il o) 0%nat) (z_branch res) []) MU_ST)))%K).
    2: { intros q Hq. apply in_seq in Hq. destruct (MU q ltac:(lia)) as (r & r' & U1 & U2 & U3 & U4). rewrite U3, U4.
         rewrite (nth_error_nth _ _ [] U2). ring. }
    rewrite (EXT (fun l => B * (flow_by nb (nth l branch []) n * (cell (nth l (z_branch res) []) MU_SF - cell (nth l (z_branch res) []) MU_ST)))%K).
    rewrite (lsum_nth _ branch []), <- lsum_add, <- lsum_scal. apply lsum_ext. intros l Hl. apply in_seq in Hl.
    destruct (nth_error_lt branch l) as (r & Hr); [lia|]. rewrite (nth_error_nth _ _ [] Hr).
    destruct (RL l r Hr) as (r' & P1 & _ & _ & _ & _ & _ & P7 & _). rewrite (nth_error_nth _ _ [] P1).
    pose proof (ss_bdc _ _ _ _ _ _ _ _ _ _ S) as HB. pose proof (NetworkB.bs_from _ _ _ _ _ _ HB) as B1. pose proof (NetworkB.bs_to _ _ _ _ _ _ HB) as B2.
    unfold buses_ok in B1, B2. rewrite Forall_forall in B1, B2. pose proof (nth_error_In _ _ Hr) as IR.
    destruct (B1 r IR) as (_ & B1'). destruct (B2 r IR) as (_ & B2').
    destruct (nth_error_lt bus _ B1') as (f1 & Hf). destruct (nth_error_lt bus _ B2') as (t1 & Ht).
    destruct (RB _ f1 Hf) as (f' & F1 & _ & _ & F4 & _). destruct (RB _ t1 Ht) as (t' & T1 & _ & _ & T4 & _).
    fold mm in F4, T4. rewrite <- F4, <- T4. unfold congestion. rewrite (nth_error_nth _ _ [] F1), (nth_error_nth _ _ [] T1).
    destruct (flow_limitedb r) eqn:FB; [ring|].
    destruct P7 as (Z1 & Z2).
    { intros (F1' & F2'). unfold flow_limitedb in FB. rewrite (proj2 (feqb_false _ _) F1') in FB. unfold lt in F2'. rewrite F2' in FB. discriminate. }
    rewrite Z1, Z2. ring.
Qed.
End Theorems.

(** ** Examples *)
(** the solved case of C33: near 110 per MWh everywhere *)
Example C59_example :
  match ex_run 2 with
  | Ok r => (z_success r,
      map (fun g => mil (marginal (nth 0 ex_gc1 []) (cell g PG))) (z_gen r),
      map (fun b => mil (cell b LAM_P)) (z_bus r),
      map (fun g => mil (cell g MU_PMAX - cell g MU_PMIN)%K) (z_gen r),
      mil (lsum (fun l => flow_by 2 (nth l ex_branch1 []) 1
             * congestion (z_bus r) (nth l ex_branch1 []) (nth l (z_branch r) []))%K (seq 0 1)),
      map (fun b => mil (flow_by 2 b 1)) ex_branch1, map flow_limitedb ex_branch1)
  | Err _ => (false, [], [], [], 0%Z, [], [])
  end = (true, [110000]%Z, [110000; 110001]%Z, [0]%Z, 0%Z, [-2000]%Z, [true]).
Proof. vm_compute. reflexivity. Qed.
Example C59_example_hypotheses :
  u_A no_U = None /\ nrows (k_N (no_cost 3)) = 0 /\ (forall r, In r ex_branch1 -> ~ angle_limited r) /\
  segmented (nth 0 ex_gc1 []) = false /\ lin_or_quad (nth 0 ex_gc1 []) /\ cell (nth 1 ex_bus []) BUS_TYPE <> fofZ 3.
Proof.
  split; [reflexivity|]. split; [reflexivity|]. split.
  { intros r [<-|[]] HL. unfold angle_limited, lt in HL. destruct HL as [(_ & H)|(_ & H)]; vm_compute in H; discriminate. }
  split; [vm_compute; reflexivity|]. split.
  { split; [vm_compute; reflexivity|right; apply qc_eqb_eq; vm_compute; reflexivity]. }
  intros H. apply (f_equal this) in H. vm_compute in H. discriminate.
Qed.
Example C58_example_hypotheses :
  (forall i, i < 1 -> quad_rising (nth i ex_gc1 [])) /\
  (forall w, length w = nrows (k_N (no_cost 3)) ->
     le 0%K (qform (nrows (k_N (no_cost 3))) (k_H (no_cost 3)) (repeat 0%K (nrows (k_N (no_cost 3)))) w)) /\
  limits_clear false (zc 100) ex_bus ex_gen1 ex_branch1 None [] [] [] [].
Proof.
  split; [|split].
  - intros i Hi _ _. destruct i; [|lia]. vm_compute. reflexivity.
  - intros w _. vm_compute. reflexivity.
  - split; [|split; [|split]].
    + intros g [<-|[]] T. exfalso. unfold tight, le in T. vm_compute in T. discriminate.
    + intros _ r [<-|[]] HL. exfalso. unfold angle_limited, lt in HL. destruct HL as [(_ & H)|(_ & H)]; vm_compute in H; discriminate.
    + discriminate.
    + intros k Hk. cbn in Hk. lia.
Qed.

(** angles at 0, the output midway between 0 and 100 MW *)
Example C33_example_start :
  match ex_o1 with Ok o => match dc_start o ex_bus with Ok x => map this x | Err _ => [] end | Err _ => [] end
  = [Qmake 0 1; Qmake 0 1; Qmake 1 2].
Proof. vm_compute. reflexivity. Qed.

Print Assumptions C33_start.
Print Assumptions C33_options.
Print Assumptions C30_hessian.
Print Assumptions C58_near_optimal.
Print Assumptions C59_generator_price.
Print Assumptions C59_congestion_price.
