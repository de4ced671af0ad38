(** The AC optimal power flow.  C62: the problem handed to the solver and the reported solution. *)
From Coq Require Import Sorted.
From Verif Require Import Lib.ListFacts Lib.QcFacts Lib.GaussQ Model.AcOpf Spec.AcOptSpec Spec.PipsRun
  Proofs.LinAlgFacts Proofs.SparseFacts Proofs.FldFacts Proofs.OrdFacts Proofs.NetworkA Proofs.YbusA Proofs.OpfLinA Proofs.OpfLinB
  Proofs.PipsF Proofs.PipsG Proofs.DcOpfA Proofs.DcOpfD Proofs.DcOpfE Proofs.DcOpfH Proofs.AcCostC
  Proofs.AcOptA Proofs.AcOptB Proofs.AcOptC Proofs.AcOptD Proofs.AcOptE Proofs.AcOptF Props.P_DcOpf Props.P_OpfFcn.
Local Open Scope nat_scope.

Section Theorems.
Context {K : Type} {F : Fld K}.
Add Field KF : (@f_ok K F).
Variables (cis : K -> cpx K) (cabs : cpx K -> K) (sin_ cos_ : K -> K) (atan2 norm2 : K -> K -> K).
Variable solve : smat K -> list K -> result (option (list K)).
Variable ln : K -> K.
Variables (ign : bool) (lim : flow_lim) (B : K) (bus gen branch gencost : list (list K)) (U : user (K := K)) (o : acom (K := K)).
Notation nb := (length bus).
Notation ng := (length gen).
Notation ny := (length (multi_rows ng gencost)).
Hypothesis WU : forall M, u_A U = Some M -> shaped (nrows M) (ncols M) M.
Hypothesis ONE : length gencost = ng.
Hypothesis SET : ac_setup sin_ cos_ atan2 norm2 ign B bus gen branch gencost U = Ok o.

Lemma ac_set_ok : exists ih ilo ivl iang, ac_spec sin_ cos_ atan2 norm2 ign B bus gen branch gencost U o ih ilo ivl iang.
Proof. apply ac_setup_ok; auto. intros M HM. apply (WU M HM). Qed.

(** a point satisfies the rows and bounds of the assembled problem exactly if voltages, outputs,
    capability curves, power factors of loads and angle differences keep their limits, the reference
    angles are as given, the cost variables are on or above their segments and the user constraints hold *)
Theorem C62_constraints x :
  c_nx o = nb + nb + ng + ng + ny + ac_user_vars nb ng (u_A U) /\
  (length x = c_nx o ->
   ((forall k, k < nrows (c_A o) -> inside no_excess (lower (c_l o) k) (upper (c_u o) k) (row_val (c_A o) x k)) /\
    (forall j, j < c_nx o -> inside no_excess (lower (c_xmin o) j) (upper (c_xmax o) j) (nth j x 0%K)))
   <-> ac_linear equal_ no_excess sin_ cos_ atan2 norm2 ign B bus gen branch gencost
         (u_A U) (u_l U) (u_u U) (u_zl U) (u_zu U) x).
Proof.
  destruct ac_set_ok as (ih & ilo & ivl & iang & S).
  split; [exact (ac_nx_eq _ _ _ _ _ _ _ _ _ _ _ o ih ilo ivl iang S)|]. intros Lx.
  exact (ac_linear_ok _ _ _ _ _ _ _ _ _ _ _ o ih ilo ivl iang S equal_ no_excess exact_sides x Lx).
Qed.

(** the solver starts with all angles at the one of the first reference bus, voltages, outputs and user
    variables with two finite bounds in the middle, and cost variables a tenth above the highest cost *)
Theorem C62_start x0 : ac_start o bus = Ok x0 ->
  length x0 = c_nx o /\
  (exists i r, nth_error bus i = Some r /\ cell r BUS_TYPE = fofZ 3 /\
     (forall i' r', i' < i -> nth_error bus i' = Some r' -> cell r' BUS_TYPE <> fofZ 3) /\
     forall n, n < nb -> nth n x0 0%K = degrees (cell r VA)) /\
  (forall i r, nth_error bus i = Some r -> nth (nb + i) x0 0%K = ((cell r VMIN + cell r VMAX) / fofZ 2)%K) /\
  (forall k g, nth_error gen k = Some g ->
     ac_output nb x0 k = ((cell g PMIN / B + cell g PMAX / B) / fofZ 2)%K /\
     ac_output nb x0 (ng + k) = ((cell g QMIN / B + cell g QMAX / B) / fofZ 2)%K) /\
  (forall j, j < ny -> exists i c, In i (multi_rows ng gencost) /\
     c = cell (nth i gencost []) (NCOST + 2 * npoints (nth i gencost [])) /\
     (forall i', In i' (multi_rows ng gencost) -> le (cell (nth i' gencost []) (NCOST + 2 * npoints (nth i' gencost []))) c) /\
     nth (nb + nb + ng + ng + j) x0 0%K = (c + fabs c / fofZ 10)%K) /\
  (forall k a b, k < ac_user_vars nb ng (u_A U) -> lower (u_zl U) k = EFin a -> upper (u_zu U) k = EFin b ->
     nth (nb + nb + ng + ng + ny + k) x0 0%K = ((a + b) / fofZ 2)%K).
Proof.
  intros H. destruct ac_set_ok as (ih & ilo & ivl & iang & S).
  split; [exact (ac_start_length _ _ _ _ _ _ _ _ _ _ _ o ih ilo ivl iang S x0 H)|
          exact (ac_start_ok _ _ _ _ _ _ _ _ _ _ _ o ih ilo ivl iang S x0 H)].
Qed.
(** the constraint violation allowed for the power flow is used where no feasibility tolerance is given;
    costs are scaled by 1/10000 *)
Theorem C62_options (p : dcopt (K := K)) :
  (p_feastol p = 0%K -> o_feastol (ac_options p) = p_violation p) /\
  (p_feastol p <> 0%K -> o_feastol (ac_options p) = p_feastol p) /\
  o_gradtol (ac_options p) = p_gradtol p /\ o_comptol (ac_options p) = p_comptol p /\
  o_costtol (ac_options p) = p_costtol p /\ o_max_it (ac_options p) = p_max_it p /\
  o_step_control (ac_options p) = p_250 p /\ o_max_red (ac_options p) = p_max_red p /\
  (fofZ 10000 * o_cost_mult (ac_options p))%K = 1%K.
Proof.
  unfold ac_options. cbn. split; [|split; [|repeat (split; [reflexivity|])]].
  - intros H. rewrite (proj2 (feqb_ok _ _) H). reflexivity.
  - intros H. rewrite (proj2 (OpfLinB.feqb_false _ _) H). reflexivity.
  - unfold dec. change (10 ^ Z.of_nat 4)%Z with 10000%Z. assert ((fofZ 10000 : K) <> 0%K) by (apply NetworkE.fofZ_nz; lia).
    rewrite fofZ_1. field. auto.
Qed.

Variables (cp : gcostp (K := K)) (p : dcopt (K := K)) (res : acres (K := K)).
Hypothesis RUN : pipsopf cis cabs solve ln p lim B bus gen branch o cp = Ok res.

(** what is reported: voltages, outputs and generator set points of the solver's point in degrees, per
    unit, MW and MVAr, the flows of the branch circuits, and the multipliers; those of the flow limits
    come in the order of the limited branches, first all from-ends, and belong to squared limits *)
Theorem C62_report :
  let x := y_x res in let m := y_lmbda res in let V := ac_volt cis nb x in
  length (y_bus res) = nb /\ length (y_gen res) = ng /\ length (y_branch res) = length branch /\
  (forall i r, nth_error bus i = Some r -> exists r', nth_error (y_bus res) i = Some r' /\
     kept_but [VM; VA; LAM_P; LAM_Q; MU_VMIN; MU_VMAX] r r' /\
     cell r' VM = nth (nb + i) x 0%K /\ degrees (cell r' VA) = nth i x 0%K /\
     (B * cell r' LAM_P)%K = nth i (m_eqnonlin m) 0%K /\ (B * cell r' LAM_Q)%K = nth (nb + i) (m_eqnonlin m) 0%K /\
     cell r' MU_VMIN = nth (nb + i) (m_lower m) 0%K /\ cell r' MU_VMAX = nth (nb + i) (m_upper m) 0%K) /\
  (forall k g, nth_error gen k = Some g -> exists g', nth_error (y_gen res) k = Some g' /\
     kept_but [PG; QG; VG; MU_PMIN; MU_PMAX; MU_QMIN; MU_QMAX] g g' /\
     cell g' PG = (B * ac_output nb x k)%K /\ cell g' QG = (B * ac_output nb x (ng + k))%K /\
     cell g' VG = nth (nb + bus_no g GEN_BUS) x 0%K /\
     (B * cell g' MU_PMIN)%K = nth (nb + nb + k) (m_lower m) 0%K /\
     (B * cell g' MU_PMAX)%K = nth (nb + nb + k) (m_upper m) 0%K /\
     (B * cell g' MU_QMIN)%K = nth (nb + nb + (ng + k)) (m_lower m) 0%K /\
     (B * cell g' MU_QMAX)%K = nth (nb + nb + (ng + k)) (m_upper m) 0%K) /\
  (exists If It, end_currents cis branch V If It /\ flows_reported B branch V If It (y_branch res)) /\
  exists il, StronglySorted Peano.lt il /\
    (forall q, In q il <-> exists r, nth_error branch q = Some r /\ flow_limited r) /\
    forall l r, nth_error branch l = Some r -> exists r', nth_error (y_branch res) l = Some r' /\
     kept_but [PF; QF; PT; QT; MU_SF; MU_ST] r r' /\
     (~ flow_limited r -> cell r' MU_SF = 0%K /\ cell r' MU_ST = 0%K) /\
     (forall q, nth_error il q = Some l ->
        (B * B * cell r' MU_SF)%K = (fofZ 2 * cell r RATE_A * nth q (m_ineqnonlin m) 0)%K /\
        (B * B * cell r' MU_ST)%K = (fofZ 2 * cell r RATE_A * nth (length il + q) (m_ineqnonlin m) 0)%K).
Proof.
  destruct ac_set_ok as (ih & ilo & ivl & iang & S). pose proof RUN as H. unfold pipsopf in H.
  apply bind_ok in H as (((Ybus & Yf) & Yt) & HY & H). apply bind_ok in H as (x0 & H0 & H).
  apply bind_ok in H as (rate & HR & H). apply bind_ok in H as (Yfl & Hfl & H). apply bind_ok in H as (Ytl & Htl & H).
  apply bind_ok in H as (s & HS & H).
  destruct (ac_update_ok cis B bus gen branch Ybus Yf Yt HY _ (il_ok branch Yf Yt Yfl Ytl rate HR Hfl Htl) (find_NoDup _)
    (as_B _ _ _ _ _ _ _ _ _ _ _ _ _ _ _ _ S) s res H) as (X & _ & _ & M & L1 & L2 & L3 & B1 & B2 & B3).
  rewrite <- X, <- M in *. intros x m V. fold x m in B1, B2, B3. fold V in B3.
  do 3 (split; [assumption|]). split; [exact B1|]. split; [exact B2|]. split.
  - exists (cur branch Yf V), (cur branch Yt V). split.
    + apply (currents_ok cis B bus branch Ybus Yf Yt HY). unfold V, ac_volt. rewrite map_length, seq_length. auto.
    + intros l r Hr. destruct (B3 l r Hr) as (r' & Q1 & _ & Q2 & Q3 & _). eauto.
  - exists (find (map limited rate)). split; [apply find_from_sorted|]. split; [exact (il_ok branch Yf Yt Yfl Ytl rate HR Hfl Htl)|].
    intros l r Hr. destruct (B3 l r Hr) as (r' & Q1 & Q2 & _ & _ & Q3 & Q4). exists r'. auto.
Qed.

Hypothesis LO : ac_limits_ordered ign B bus gen branch (u_A U) (u_l U) (u_u U) (u_zl U) (u_zu U).

Lemma solved : exists Ybus Yf Yt rate Yfl Ytl x0 s ih ilo ivl iang,
  ac_spec sin_ cos_ atan2 norm2 ign B bus gen branch gencost U o ih ilo ivl iang /\
  makeYbus cis B bus branch = Ok (Ybus, Yf, Yt) /\ ac_start o bus = Ok x0 /\ col RATE_A branch = Ok rate /\
  rowsel Yf (find (map limited rate)) = Ok Yfl /\ rowsel Yt (find (map limited rate)) = Ok Ytl /\
  pips solve ln (ac_problem cis cabs (AcData B bus gen branch (c_gencost o) (c_ny o) cp) lim Ybus Yfl Ytl (find (map limited rate)))
    (ac_options p) x0 (some_rows (c_A o)) (c_l o) (c_u o) (c_xmin o) (c_xmax o) = Ok s /\
  ac_update cis B bus gen branch Yf Yt (find (map limited rate)) s = Ok res /\
  y_x res = r_x s /\ y_f res = r_f s /\ y_success res = r_eflag s.
Proof.
  destruct ac_set_ok as (ih & ilo & ivl & iang & S). pose proof RUN as H. unfold pipsopf in H.
  apply bind_ok in H as (((Ybus & Yf) & Yt) & HY & H). apply bind_ok in H as (x0 & H0 & H).
  apply bind_ok in H as (rate & HR & H). apply bind_ok in H as (Yfl & Hfl & H). apply bind_ok in H as (Ytl & Htl & H).
  apply bind_ok in H as (s & HS & H).
  destruct (ac_update_ok cis B bus gen branch Ybus Yf Yt HY _ (il_ok branch Yf Yt Yfl Ytl rate HR Hfl Htl) (find_NoDup _)
    (as_B _ _ _ _ _ _ _ _ _ _ _ _ _ _ _ _ S) s res H) as (X & FV & ES & _).
  exists Ybus, Yf, Yt, rate, Yfl, Ytl, x0, s, ih, ilo, ivl, iang. do 8 (split; [assumption|]). auto.
Qed.


(** st is a state of the solver's run on the assembled problem, at the reported point *)
Definition ac_solved_by (st : @Pips.state K) : Prop :=
  exists Ybus Yf Yt rate Yfl Ytl x0 sp s0 k,
    let il := find (map limited rate) in
    let P := ac_problem cis cabs (AcData B bus gen branch (c_gencost o) (c_ny o) cp) lim Ybus Yfl Ytl il in
    makeYbus cis B bus branch = Ok (Ybus, Yf, Yt) /\ col RATE_A branch = Ok rate /\
    rowsel Yf il = Ok Yfl /\ rowsel Yt il = Ok Ytl /\ ac_start o bus = Ok x0 /\
    split_bounds (c_nx o) (some_rows (c_A o)) (c_l o) (c_u o) (c_xmin o) (c_xmax o) = Ok sp /\
    start ln P (ac_options p) sp x0 = Ok s0 /\ visited solve ln P (ac_options p) sp (c_nx o) s0 k st /\ y_x res = t_x st.

Lemma solved_ok : exists Ybus Yf Yt rate Yfl Ytl x0 s sp s0 st k f df hn gn dhn dgn ih ilo ivl iang,
  let il := find (map limited rate) in
  let P := ac_problem cis cabs (AcData B bus gen branch (c_gencost o) (c_ny o) cp) lim Ybus Yfl Ytl il in
  let O := ac_options p in
  ac_spec sin_ cos_ atan2 norm2 ign B bus gen branch gencost U o ih ilo ivl iang /\
  makeYbus cis B bus branch = Ok (Ybus, Yf, Yt) /\ ac_start o bus = Ok x0 /\ col RATE_A branch = Ok rate /\
  rowsel Yf il = Ok Yfl /\ rowsel Yt il = Ok Ytl /\
  ac_update cis B bus gen branch Yf Yt il s = Ok res /\
  split_bounds (c_nx o) (some_rows (c_A o)) (c_l o) (c_u o) (c_xmin o) (c_xmax o) = Ok sp /\
  start ln P O sp x0 = Ok s0 /\ visited solve ln P O sp (c_nx o) s0 k st /\ y_x res = t_x st /\
  length (y_x res) = c_nx o /\
  p_f P (y_x res) = Ok (f, df) /\ nonlinear_at P (y_x res) hn gn dhn dgn /\ y_f res = f /\
  (y_success res = true ->
     forall xn zn, is_norm (y_x res) xn -> is_norm (t_z st) zn -> exists s, (s = xn \/ s = zn) /\
       let t := (o_feastol O * (1 + s))%K in
       Forall (fun a => lt (fabs a) t) gn /\ Forall (fun a => lt a t) hn /\
       linear_to t (c_nx o) (some_rows (c_A o)) (c_l o) (c_u o) (c_xmin o) (c_xmax o) (y_x res)).
Proof.
  destruct solved as (Ybus & Yf & Yt & rate & Yfl & Ytl & x0 & s & ih & ilo & ivl & iang & S & HY & H0 & HR & Hfl & Htl & HS & HU & X & FV & ES).
  destruct (c_lengths _ _ _ _ _ _ _ _ _ _ _ o ih ilo ivl iang S) as (L1 & L2 & L3 & L4 & WA & CA).
  pose proof (ac_start_length _ _ _ _ _ _ _ _ _ _ _ o ih ilo ivl iang S x0 H0) as Lx0.
  assert (shaped_opt (length x0) (some_rows (c_A o))) as SA.
  { unfold some_rows. destruct (nrows (c_A o) =? 0); cbn; auto. split; [auto|]. split; [congruence|]. unfold wf in WA. rewrite Lx0, <- CA. exact WA. }
  destruct (result_ok solve ln _ (ac_options p) x0 (some_rows (c_A o)) (c_l o) (c_u o) (c_xmin o) (c_xmax o)
    (nb + nb) (length (find (map limited rate)) + length (find (map limited rate))) SA
    ltac:(rewrite Lx0; exact (problem_shaped cis cabs _ _ _ _ _ lim _ _ _ _ _ _ o ih ilo ivl iang S Ybus Yf Yt Yfl Ytl cp rate HY HR Hfl Htl))
    ltac:(right; congruence) ltac:(right; congruence) ltac:(right; rewrite rows_some; congruence) ltac:(right; rewrite rows_some; congruence) s HS)
    as (sp & f & df & hn & gn & dhn & dgn & lam & mu & mu0 & z & h & Lx & SP & (s0 & st & k & Q0 & Q1 & Q2 & Q3 & _) & E & NL & RF & _ & _ & _ & _ & CV & _).
  { rewrite Lx0, rows_some. exact (ac_ordered _ _ _ _ _ _ _ _ _ _ _ o ih ilo ivl iang S LO). }
  assert (length (y_x res) = c_nx o) as LX by (rewrite X, Q2, <- Lx0; eapply visited_len; eauto).
  rewrite Lx0, <- X, <- ?ES, ?Q3 in *.
  exists Ybus, Yf, Yt, rate, Yfl, Ytl, x0, s, sp, s0, st, k, f, df, hn, gn, dhn, dgn, ih, ilo, ivl, iang. cbv zeta.
  do 14 (split; [assumption|]). split; [congruence|]. intros EF. apply (CV EF).
Qed.

(** the reported cost is the cost of the reported point *)
Theorem C62_cost :
  let D := AcData B bus gen branch (c_gencost o) (c_ny o) cp in
  length (y_x res) = c_nx o /\
  (cost_shape D (y_x res) -> later_poly D -> N_used (g_N cp) -> y_f res = cost_of D (y_x res)).
Proof.
  intros D. destruct solved_ok as (Ybus & Yf & Yt & rate & Yfl & Ytl & x0 & s & sp & s0 & st & k & f & df & hn & gn & dhn & dgn & ih & ilo & ivl & iang & Q).
  cbv zeta in Q. fold D in Q. destruct Q as (_ & _ & _ & _ & _ & _ & _ & _ & _ & _ & _ & LX & E & _ & FV & _).
  split; [exact LX|]. intros CS LP NU. destruct (C34_value D (y_x res) CS LP NU) as (df' & E' & _).
  cbn [p_f ac_problem] in E. rewrite E' in E. injection E as E _. congruence.
Qed.

(** on success the reported point is one of the problem up to the tolerance of the solver: voltages,
    outputs and the other linear constraints, the balances of active and reactive power at every bus,
    and the limits of the reported flows *)
Theorem C62_solution :
  Forall moderate (c_l o ++ c_u o ++ c_xmin o ++ c_xmax o) -> y_success res = true ->
  exists st, ac_solved_by st /\
    forall xn zn, is_norm (y_x res) xn -> is_norm (t_z st) zn -> exists m, (m = xn \/ m = zn) /\
    let t := (o_feastol (ac_options p) * (1 + m))%K in
    ac_linear (equal_to t) (excess_to t) sin_ cos_ atan2 norm2 ign B bus gen branch gencost
      (u_A U) (u_l U) (u_u U) (u_zl U) (u_zu U) (y_x res) /\
    exists If It,
      end_currents cis branch (ac_volt cis nb (y_x res)) If It /\
      flows_reported B branch (ac_volt cis nb (y_x res)) If It (y_branch res) /\
      ac_network (equal_to t) (excess_to t) cis lim B bus gen branch If It (y_x res).
Proof.
  intros MO EF. destruct solved_ok as (Ybus & Yf & Yt & rate & Yfl & Ytl & x0 & s & sp & s0 & st & k & f & df & hn & gn & dhn & dgn & ih & ilo & ivl & iang & Q).
  cbv zeta in Q. destruct Q as (S & HY & H0 & HR & Hfl & Htl & HU & SP & S0 & VI & XS & LX & _ & NL & _ & CV).
  exists st. split; [exists Ybus, Yf, Yt, rate, Yfl, Ytl, x0, sp, s0, k; cbv zeta; auto 12|]. intros xn zn Hx Hz. destruct (CV EF xn zn Hx Hz) as (m & Hm & HG & HH & HL). exists m. split; [exact Hm|]. intros t.
  split; [exact (ac_inside _ _ _ _ _ _ _ _ _ _ _ o ih ilo ivl iang S t _ LO MO LX HL)|].
  set (V := ac_volt cis nb (y_x res)). exists (cur branch Yf V), (cur branch Yt V).
  split; [|split].
  - apply (currents_ok cis B bus branch Ybus Yf Yt HY). unfold V, ac_volt. rewrite map_length, seq_length. auto.
  - destruct (ac_update_ok cis B bus gen branch Ybus Yf Yt HY _ (il_ok branch Yf Yt Yfl Ytl rate HR Hfl Htl) (find_NoDup _)
      (as_B _ _ _ _ _ _ _ _ _ _ _ _ _ _ _ _ S) s res HU) as (X & _ & _ & _ & _ & _ & _ & _ & _ & B3).
    rewrite <- X in B3. intros l r Hr. destruct (B3 l r Hr) as (r' & Q1 & _ & Q2 & Q3 & _). eauto.
  - unfold nonlinear_at in NL. cbn [p_gh ac_problem] in NL. apply bind_ok in NL as (r & Hr & NL).
    assert (r = (hn, gn, dhn, dgn)) as -> by (destruct (find (map limited rate)); [discriminate|injection NL as ->; auto]).
    eapply (network_ok cis cabs _ _ _ _ _ lim _ _ _ _ _ _ o ih ilo ivl iang S Ybus Yf Yt Yfl Ytl cp rate HY HR Hfl Htl);
      [|exact Hr| |].
    + rewrite LX. exact (nx_big _ _ _ _ _ _ _ _ _ _ _ o ih ilo ivl iang S).
    + exact HG.
    + exact HH.
Qed.
End Theorems.

(** ** Examples *)
Definition qq (a : Z) (b : positive) : Qc := Q2Qc (Qmake a b).
Definition yb (ty pd qd : Z) : list Qc :=
  zs [0; ty; pd; qd; 0; 0; 1; 1; 0; 1; 1]%Z ++ [qq 11 10; qq 9 10] ++ zs [0; 0; 0; 0]%Z.
Definition yg (b qmin qmax pmin pmax : Z) (curve : list Z) : list Qc :=
  zs ([b; 0; 0; qmax; qmin; 1; 100; 1; pmax; pmin] ++ curve ++ [0; 0; 0; 0; 0; 0; 0; 0; 0])%Z.
Definition ybr (f t rate : Z) : list Qc :=
  zs [f; t; 0]%Z ++ [qq 1 2] ++ zs [0; rate; 0; 0; 0; 0; 1; -360; 360; 0; 0; 0; 0; 0; 0; 0; 0]%Z.
Definition no_curve : list Z := [0; 0; 0; 0; 0; 0]%Z.
Definition y_bus0 := [yb 3 0 0; yb 1 50 10].
Definition y_br0 := [ybr 0 1 80].

(** a generator with a capability curve and a segmented cost, a load of power factor 4/5 and one user
    variable between 0 and 1 above the difference of the reactive outputs *)
Definition yc_gen := [yg 0 (-50) 50 0 20 [0; 30; -40; 40; 0; 0]; yg 1 (-30) 0 (-40) 0 no_curve]%Z.
Definition y_gc := [zs [1; 0; 0; 3; 0; 0; 10; 200; 40; 1100]; zs [2; 0; 0; 2; 20; 5; 0; 0; 0; 0]]%Z.
Definition y_U : user (K := Qc) :=
  User (Some (SM 1 9 [Ent 0 6 (zc (-1)); Ent 0 7 (zc 1); Ent 0 8 (zc 1)])) [EFin (zc 0)] [EPos] [EFin (zc 0)] [EFin (zc 1)].
Definition load_sin (_ : Qc) : Qc := qq (-3) 5.
Definition load_cos (_ : Qc) : Qc := qq (-4) 5.
Definition load_atan2 (a b : Qc) : Qc := a.
Definition fifty (a b : Qc) : Qc := zc 50.
Definition y_o := ac_setup load_sin load_cos load_atan2 fifty false (zc 100) y_bus0 yc_gen y_br0 y_gc y_U.
Definition y_pt : list Qc := [zc 0; qq (-5) 100; zc 1; zc 1; qq 1 10; qq (-2) 10; qq 2 10; qq (-15) 100; zc 200; qq 1 2].
Example C62_example_setup :
  match y_o with
  | Ok o => (c_nx o, (c_npqh o, c_npql o, c_nvl o, c_nang o), c_ncony o, nrows (c_A o),
             map (fun e => (erow e, ecol e, this (ev e))) (ents (c_A o)))
  | Err _ => (0, (0, 0, 0, 0), 0, 0, [])
  end = (10, (1, 1, 1, 0), 2, 6,
         [(0, 4, Qmake 4 5); (0, 6, Qmake 3 5); (1, 4, Qmake 4 5); (1, 6, Qmake (-3) 5);
          (2, 5, Qmake (-3) 5); (2, 7, Qmake 4 5);
          (3, 4, Qmake 2000 1); (4, 4, Qmake 3000 1); (3, 8, Qmake (-1) 1); (4, 8, Qmake (-1) 1);
          (5, 6, Qmake (-1) 1); (5, 7, Qmake 1 1); (5, 9, Qmake 1 1)]).
Proof. vm_compute. reflexivity. Qed.
Example C62_example_start :
  match y_o with
  | Ok o => match ac_start o y_bus0 with Ok x => map mil x | Err _ => [] end
  | Err _ => []
  end = [0; 0; 1000; 1000; 100; -200; 0; -150; 1210000; 500]%Z.
Proof. vm_compute. reflexivity. Qed.
Example C62_example_point :
  ac_linear equal_ no_excess load_sin load_cos load_atan2 fifty false (zc 100) y_bus0 yc_gen y_br0 y_gc
    (u_A y_U) (u_l y_U) (u_u y_U) (u_zl y_U) (u_zu y_U) y_pt.
Proof.
  destruct y_o as [o|e] eqn:E; [|vm_compute in E; discriminate].
  assert (forall M, u_A y_U = Some M -> shaped (nrows M) (ncols M) M) as WU.
  { intros M HM. injection HM as <-. split; [auto|]. split; [auto|]. repeat constructor. }
  assert (length y_pt = c_nx o) as Lx by (vm_compute in E; injection E as <-; reflexivity).
  apply (C62_constraints load_sin load_cos load_atan2 fifty false (zc 100) y_bus0 yc_gen y_br0 y_gc y_U o WU eq_refl E y_pt); auto.
  assert (forallb (fun k => insideb (lower (c_l o) k) (upper (c_u o) k) (row_val (c_A o) y_pt k)) (seq 0 (nrows (c_A o)))
    && forallb (fun j => insideb (lower (c_xmin o) j) (upper (c_xmax o) j) (nth j y_pt 0%K)) (seq 0 (c_nx o)) = true) as C.
  { unfold y_o in E. vm_compute in E. injection E as <-. vm_compute. reflexivity. }
  apply andb_true_iff in C as (C1 & C2). rewrite forallb_forall in C1, C2.
  split; intros k Hk; apply insideb_ok; [apply C1|apply C2]; apply in_seq; lia.
Qed.

(** two generators share a load; rational stand-ins for the unit circle and the modulus, equal to them
    up to third order near angle 0, and tolerances met after one step *)
Definition acis (a : Qc) : cpx Qc :=
  Cx ((1 - a * a / zc 4) / (1 + a * a / zc 4))%K (a / (1 + a * a / zc 4))%K.
Definition acabs (z : cpx Qc) : Qc := (re z + im z * im z / zc 2)%K.
Definition un (a : Qc) : Qc := a.
Definition y_gen1 := [yg 0 (-50) 50 0 100 no_curve; yg 1 (-50) 50 0 40 no_curve].
Definition y_gc1 := [zs [2; 0; 0; 3; 1; 10; 7]; zs [2; 0; 0; 2; 80; 0; 0]]%Z.
Definition y_o1 := ac_setup load_sin load_cos load_atan2 fifty false (zc 100) y_bus0 y_gen1 y_br0 y_gc1 no_U.
Definition y_cp : gcostp (K := Qc) := GCostP (SM 0 8 []) (SM 0 0 []) [] [] [] [] [].
Definition y_p : dcopt (K := Qc) := DcOpt (qq 1 10) (zc 1) (zc 5) (zc 5) (zc 5) 1 3 false.
Definition y_run :=
  match y_o1 with
  | Ok o => pipsopf acis acabs solveQ un y_p LimS (zc 100) y_bus0 y_gen1 y_br0 o y_cp
  | Err e => Err e
  end.
Example C62_example_run :
  match y_run with
  | Ok r => (y_success r, map mil (y_x r), mil (y_f r), map (fun b => (mil (cell b VM), mil (cell b LAM_P))) (y_bus r),
             map (fun g => (mil (cell g PG), mil (cell g QG), mil (cell g VG))) (y_gen r),
             map (fun b => (mil (cell b PF), mil (cell b PT))) (y_branch r))
  | Err _ => (false, [], 0%Z, [], [], [])
  end = (true, [0; -115; 1006; 993; 230; 270; 24; 75]%Z, 2926000%Z, [(1006, 2000); (993, 94000)]%Z,
         [(23000, 2424, 1006); (27000, 7575, 993)]%Z, [(22923, -22924)]%Z).
Proof. vm_compute. reflexivity. Qed.
Example C62_example_hypotheses : ac_limits_ordered false (zc 100) y_bus0 y_gen1 y_br0 None [] [] [] [] /\
  match y_o1 with
  | Ok o => Forall moderate (c_l o ++ c_u o ++ c_xmin o ++ c_xmax o) /\
      let D := AcData (zc 100) y_bus0 y_gen1 y_br0 (c_gencost o) (c_ny o) y_cp in
      later_poly D /\ N_used (g_N y_cp) /\ forall x, length x = 8 -> cost_shape D x
  | Err _ => False
  end.
Proof.
  split.
  - split; [|split; [|split; [|split]]].
    + intros r [<-|[<-|[]]]; vm_compute; reflexivity.
    + intros g [<-|[<-|[]]]; vm_compute; auto.
    + intros _ r [<-|[]] HL. exfalso. unfold angle_limited, lt in HL.
      destruct HL as [(_ & H)|(_ & H)]; vm_compute in H; discriminate.
    + discriminate.
    + intros k Hk. cbn in Hk. lia.
  - destruct y_o1 as [o|e] eqn:E; [|vm_compute in E; discriminate]. split.
    + assert (forallb (fun e => match e with EFin a => fltb (fabs a) huge | _ => true end)
              (c_l o ++ c_u o ++ c_xmin o ++ c_xmax o) = true) as C.
      { unfold y_o1 in E. vm_compute in E. injection E as <-. vm_compute. reflexivity. }
      rewrite forallb_forall in C. apply Forall_forall. intros [a| |] Ha; cbn; auto. exact (C _ Ha).
    + assert (c_gencost o = y_gc1) as G.
      { unfold y_o1, ac_setup in E. apply bind_ok in E as (gc & HG & E). vm_compute in HG. injection HG as <-.
        vm_compute in E. injection E as <-. cbn [c_gencost]. vm_compute. reflexivity. }
      assert (c_ny o = 0) as N by (unfold y_o1 in E; vm_compute in E; injection E as <-; reflexivity).
      intros D. split; [|split].
      * exists 1. unfold D. cbn [a_gencost]. rewrite G. split; [cbn; lia|vm_compute; reflexivity].
      * left. reflexivity.
      * intros x Lx. unfold D. rewrite G, N. split.
        -- cbn. lia.
        -- cbn. lia.
        -- repeat constructor; cbn; unfold MODEL; lia.
        -- intros r [<-|[<-|[]]] _; [exists 3|exists 2]; (split; [lia|split; [vm_compute; reflexivity|cbn; unfold COST; lia]]).
        -- eexists. split; [left; reflexivity|vm_compute; reflexivity].
        -- cbn [a_cp y_cp g_N g_H g_Cw g_dd g_rh g_kk g_mm]. rewrite Lx. split; [|split; [|do 5 (split; [reflexivity|])]]; [| |constructor].
           ++ split; [reflexivity|split; [reflexivity|constructor]].
           ++ split; [reflexivity|split; [reflexivity|constructor]].
Qed.

Print Assumptions C62_constraints.
Print Assumptions C62_start.
Print Assumptions C62_options.
Print Assumptions C62_report.
Print Assumptions C62_cost.
Print Assumptions C62_solution.
