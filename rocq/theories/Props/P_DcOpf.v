(** The DC optimal power flow.  C33: the problem handed to the solver and the reported solution;
    C30: the objective; C54: shifted user costs; C55: polynomial costs of other orders. *)
From Verif Require Import Lib.ListFacts Lib.QcFacts Lib.GaussQ Model.DcOpf Spec.DcSpec Spec.PipsRun
  Proofs.LinAlgFacts Proofs.SparseFacts Proofs.FldFacts Proofs.OrdFacts Proofs.NetworkA Proofs.OpfLinA
  Proofs.DcOpfA Proofs.DcOpfB Proofs.DcOpfC Proofs.DcOpfD Proofs.DcOpfE Proofs.DcOpfF Proofs.DcOpfG
  Proofs.DcOpfH Proofs.PipsF Proofs.PipsG.
Local Open Scope nat_scope.

Section Theorems.
Context {K : Type} {F : Fld K}.
Add Field KF : (@f_ok K F).
Variable solve : smat K -> list K -> result (option (list K)).
Variable ln : K -> K.
Variables (ign : bool) (B : K) (bus gen branch gencost : list (list K)) (U : user (K := K)) (o : dcom (K := K)).
Notation nb := (length bus).
Notation ng := (length gen).
Notation ny := (length (multi_rows ng gencost)).
Hypothesis WU : forall M, u_A U = Some M -> shaped (nrows M) (ncols M) M.
Hypothesis SET : dc_setup ign B bus gen branch gencost U = Ok o.

Lemma set_ok : exists Bb Pbi, setup_spec ign B bus gen branch gencost U o Bb Pbi.
Proof. apply dc_setup_ok; auto. intros M HM. apply (WU M HM). Qed.

(** ** C33 *)

(** a point satisfies the rows and bounds of the assembled problem exactly if every bus is balanced,
    branch flows, generator outputs and angle differences keep their limits, the reference angles are
    as given, the cost variables are on or above their segments and the user constraints hold *)
Theorem C33_constraints x :
  d_nx o = nb + ng + ny + user_vars nb ng (u_A U) /\
  (length x = d_nx o ->
   ((forall k, k < nrows (d_A o) -> inside no_excess (lower (d_l o) k) (upper (d_u o) k) (row_val (d_A o) x k)) /\
    (forall j, j < d_nx o -> inside no_excess (lower (d_xmin o) j) (upper (d_xmax o) j) (nth j x 0%K)))
   <-> dc_point equal_ no_excess ign B bus gen branch gencost (u_A U) (u_l U) (u_u U) (u_zl U) (u_zu U) x).
Proof.
  destruct set_ok as (Bb & Pbi & S). split; [exact (nx_eq _ _ _ _ _ _ _ _ _ _ S)|]. intros Lx.
  exact (dc_point_ok equal_ no_excess exact_sides _ _ _ _ _ _ _ _ _ _ S x Lx).
Qed.

(** the rows written for balances and flow limits belong to the branches with a limit: rate A neither
    zero nor 1e10 or more *)
Theorem C33_limited_branches p :
  In p (d_il o) <-> exists r, nth_error branch p = Some r /\ flow_limited r.
Proof. destruct set_ok as (Bb & Pbi & S). exact (ss_il _ _ _ _ _ _ _ _ _ _ S p). Qed.

(** what is reported: the angles and outputs of the solver's point in degrees and MW, the DC flows it
    implies, no reactive power, and as multipliers those of the rows concerned *)
Theorem C33_report C0 s res : dc_update B bus gen branch o C0 s = Ok res ->
  let x := r_x s in let m := r_lmbda s in
  z_x res = x /\ z_f res = (r_f s + C0)%K /\ z_success res = r_eflag s /\ z_lmbda res = m /\
  length (z_bus res) = nb /\ length (z_gen res) = ng /\ length (z_branch res) = length branch /\
  (forall i r, nth_error bus i = Some r -> exists r', nth_error (z_bus res) i = Some r' /\
     kept_but [VA; LAM_P; LAM_Q; MU_VMIN; MU_VMAX] r r' /\
     degrees (cell r' VA) = nth i x 0%K /\
     (B * cell r' LAM_P = nth i (m_mu_u m) 0 - nth i (m_mu_l m) 0)%K /\
     cell r' LAM_Q = 0%K /\ cell r' MU_VMIN = 0%K /\ cell r' MU_VMAX = 0%K) /\
  (forall k g, nth_error gen k = Some g -> exists g', nth_error (z_gen res) k = Some g' /\
     kept_but [PG; MU_PMIN; MU_PMAX; MU_QMIN; MU_QMAX] g g' /\
     cell g' PG = (B * output nb x k)%K /\
     (B * cell g' MU_PMIN)%K = nth (nb + k) (m_lower m) 0%K /\ (B * cell g' MU_PMAX)%K = nth (nb + k) (m_upper m) 0%K /\
     cell g' MU_QMIN = 0%K /\ cell g' MU_QMAX = 0%K) /\
  (forall l r, nth_error branch l = Some r -> exists r', nth_error (z_branch res) l = Some r' /\
     kept_but [PF; PT; QF; QT; MU_SF; MU_ST] r r' /\
     cell r' PF = (B * dc_flow r (angles nb x))%K /\ cell r' PT = (- cell r' PF)%K /\ cell r' QF = 0%K /\ cell r' QT = 0%K /\
     (~ flow_limited r -> cell r' MU_SF = 0%K /\ cell r' MU_ST = 0%K) /\
     (flow_limited r -> exists k k',
        row_says (d_nx o) (d_A o) (d_l o) (d_u o) k ENeg (EFin (cell r RATE_A / B)%K) (fun x => dc_flow r (angles nb x)) /\
        row_says (d_nx o) (d_A o) (d_l o) (d_u o) k' ENeg (EFin (cell r RATE_A / B)%K) (fun x => - dc_flow r (angles nb x))%K /\
        (B * cell r' MU_SF)%K = nth k (m_mu_u m) 0%K /\ (B * cell r' MU_ST)%K = nth k' (m_mu_u m) 0%K)).
Proof.
  destruct set_ok as (Bb & Pbi & S). intros H.
  destruct (dc_update_ok _ _ _ _ _ _ _ _ _ _ S C0 s res H) as (A1 & A2 & A3 & A4 & A5 & A6 & A7 & A8 & A9 & A10).
  do 9 (split; [auto|]). intros l r Hr. destruct (A10 l r Hr) as (r' & D1 & D2 & D3 & D4 & D5 & D6 & D7 & D8). exists r'.
  do 7 (split; [auto|]). intros HL. destruct (D8 HL) as (p & _ & R1 & R2 & R3 & R4).
  exists (nb + p), (nb + d_nl2 o + p). auto.
Qed.
(** the multiplier rows of the buses are their balances *)
Theorem C33_balance_rows i r : nth_error bus i = Some r ->
  row_says (d_nx o) (d_A o) (d_l o) (d_u o) i (EFin 0%K) (EFin 0%K)
    (fun x => net_out (flow_at (angles nb x)) branch i + (cell r PD + cell r Idx.GS) / B - injected gen nb x i)%K.
Proof. destruct set_ok as (Bb & Pbi & S). exact (mis_row _ _ _ _ _ _ _ _ _ _ S i r). Qed.

(** ** C30 *)
Variable cp : costp (K := K).
Hypothesis WN : shaped (nrows (k_N cp)) (d_nx o) (k_N cp).
Hypothesis WH : shaped (nrows (k_N cp)) (nrows (k_N cp)) (k_H cp).
Hypothesis SH : sym_mat (k_H cp).
(** costs the formulation covers: piecewise-linear, linear and quadratic *)
Definition covered : Prop := forall i, i < ng ->
  cost_is 1 (nth i gencost []) = true \/ lin_or_quad (nth i gencost []).
Definition unshifted : Prop := Forall (fun a => a = 0%K) (k_rh cp).

Lemma unshifted_0 : unshifted -> inner (k_Cw cp) (map2 rmul (k_mm cp) (k_rh cp)) = 0%K.
Proof.
  unfold unshifted. generalize (k_Cw cp) (k_mm cp). induction (k_rh cp) as [|a t IH]; intros c m H.
  - destruct m; [destruct c|destruct c]; reflexivity.
  - inversion H; subst. destruct m as [|m0 m]; [destruct c; reflexivity|]. destruct c as [|c0 c]; [reflexivity|].
    specialize (IH c m ltac:(auto)). unfold inner, map2 in *. simpl. rewrite IH. ring.
Qed.

(** the quadratic objective plus the constant is the generation cost plus the user cost, at every point *)
Theorem C30_objective HH CC C0 : covered -> unshifted -> dc_objective B o cp = Ok (HH, CC, C0) ->
  forall x, length x = d_nx o ->
    (qform (d_nx o) HH CC x + C0
     = gen_cost B nb ng gencost x + user_cost (k_N cp) (k_H cp) (k_Cw cp) (k_rh cp) (k_mm cp) x)%K.
Proof.
  intros CV RH H x Lx. destruct set_ok as (Bb & Pbi & S).
  destruct (objective_ok _ _ _ _ _ _ _ _ _ _ S cp HH CC C0 WN WH SH H) as (_ & _ & _ & _ & _ & _ & _ & _ & V).
  rewrite V by auto. rewrite (supported_cost _ _ _ _ x CV), unshifted_0 by auto. ring.
Qed.

(** the value and the gradient given to the solver belong to that objective *)
Theorem C30_gradient HH CC C0 x f df : dc_objective B o cp = Ok (HH, CC, C0) ->
  p_f (qp HH CC) x = Ok (f, df) ->
  length x = d_nx o /\ length df = d_nx o /\ f = qform (d_nx o) HH CC x /\
  forall d, length d = d_nx o ->
    (qform (d_nx o) HH CC (map2 radd x d)
     = f + lsum (fun j => nth j df 0 * nth j d 0) (seq 0 (d_nx o)) + qform (d_nx o) HH (repeat 0 (d_nx o)) d)%K.
Proof.
  intros H E. destruct set_ok as (Bb & Pbi & S).
  destruct (objective_ok _ _ _ _ _ _ _ _ _ _ S cp HH CC C0 WN WH SH H) as (_ & _ & _ & W & N & C & LC & SY & _).
  cbn [p_f qp] in E. destruct (qp_f_ok HH CC (d_nx o) x f df W N C LC E) as (Lx & -> & Ld & V).
  do 3 (split; [auto|]). intros d Hd. rewrite (qform_step HH CC (d_nx o) x d W N C SY LC Lx Hd).
  f_equal. f_equal. apply lsum_ext. intros j Hj. apply in_seq in Hj. rewrite V by lia. reflexivity.
Qed.

(** the reported cost is the cost of the reported point *)
Theorem C30_reported p res : covered -> unshifted ->
  limits_ordered ign B bus gen branch (u_A U) (u_l U) (u_u U) (u_zl U) (u_zu U) ->
  dcopf solve ln p B bus gen branch o cp = Ok res ->
  length (z_x res) = d_nx o /\
  z_f res = (gen_cost B nb ng gencost (z_x res)
             + user_cost (k_N cp) (k_H cp) (k_Cw cp) (k_rh cp) (k_mm cp) (z_x res))%K.
Proof.
  intros CV RH LO H. unfold dcopf in H. apply bind_ok in H as (((HH & CC) & C0) & HO & H).
  apply bind_ok in H as (x0 & H0 & H). apply bind_ok in H as (s & HS & H).
  destruct set_ok as (Bb & Pbi & S).
  destruct (objective_ok _ _ _ _ _ _ _ _ _ _ S cp HH CC C0 WN WH SH HO) as (_ & _ & _ & W & N & C & LC & _ & _).
  destruct (dc_update_ok _ _ _ _ _ _ _ _ _ _ S C0 s res H) as (X & Fv & _).
  destruct (d_lengths _ _ _ _ _ _ _ _ _ _ S) as (L1 & L2 & L3 & L4 & WA & CA).
  pose proof (start_length _ _ _ _ _ _ _ _ _ _ S x0 H0) as Lx0.
  assert (shaped_opt (length x0) (Some (d_A o))) as SA.
  { cbn. split; [auto|]. split; [congruence|]. unfold wf in WA. rewrite Lx0, <- CA. exact WA. }
  destruct (result_ok solve ln (qp HH CC) (pips_options p) x0 (Some (d_A o)) (d_l o) (d_u o) (d_xmin o) (d_xmax o) 0 0
    SA ltac:(rewrite Lx0; apply qp_shaped; auto) ltac:(right; congruence) ltac:(right; congruence) ltac:(right; auto)
    ltac:(right; auto) s HS) as (sp & f & df & hn & gn & dhn & dgn & lam & mu & mu0 & z & h & Lx & _ & _ & E & _ & RF & _).
  { rewrite Lx0. exact (ordered_rows _ _ _ _ _ _ _ _ _ _ S LO). }
  cbn [p_f qp] in E. destruct (qp_f_ok HH CC (d_nx o) _ f df W N C LC E) as (Lr & Ef & _).
  rewrite X. split; auto. rewrite Fv, RF, Ef. apply (C30_objective HH CC C0 CV RH HO). auto.
Qed.

(** on success the reported point is one of the problem up to the tolerance of the solver *)
Theorem C33_solution p res :
  limits_ordered ign B bus gen branch (u_A U) (u_l U) (u_u U) (u_zl U) (u_zu U) ->
  Forall moderate (d_l o ++ d_u o ++ d_xmin o ++ d_xmax o) ->
  dcopf solve ln p B bus gen branch o cp = Ok res -> z_success res = true ->
  exists x0 HH CC C0 sp s0 s k,
    dc_start o bus = Ok x0 /\ dc_objective B o cp = Ok (HH, CC, C0) /\
    split_bounds (d_nx o) (Some (d_A o)) (d_l o) (d_u o) (d_xmin o) (d_xmax o) = Ok sp /\
    start ln (qp HH CC) (pips_options p) sp x0 = Ok s0 /\
    visited solve ln (qp HH CC) (pips_options p) sp (d_nx o) s0 k s /\ z_x res = t_x s /\
    forall xn zn, is_norm (z_x res) xn -> is_norm (t_z s) zn -> exists m, (m = xn \/ m = zn) /\
      let t := (o_feastol (pips_options p) * (1 + m))%K in
      dc_point (equal_to t) (excess_to t) ign B bus gen branch gencost (u_A U) (u_l U) (u_u U) (u_zl U) (u_zu U)
        (z_x res).
Proof.
  intros LO MO H EF. unfold dcopf in H. apply bind_ok in H as (((HH & CC) & C0) & HO & H).
  apply bind_ok in H as (x0 & H0 & H). apply bind_ok in H as (s & HS & H).
  destruct set_ok as (Bb & Pbi & S).
  destruct (objective_ok _ _ _ _ _ _ _ _ _ _ S cp HH CC C0 WN WH SH HO) as (_ & _ & _ & W & N & C & LC & _ & _).
  destruct (dc_update_ok _ _ _ _ _ _ _ _ _ _ S C0 s res H) as (X & _ & ES & _).
  destruct (d_lengths _ _ _ _ _ _ _ _ _ _ S) as (L1 & L2 & L3 & L4 & WA & CA).
  pose proof (start_length _ _ _ _ _ _ _ _ _ _ S x0 H0) as Lx0.
  assert (shaped_opt (length x0) (Some (d_A o))) as SA.
  { cbn. split; [auto|]. split; [congruence|]. unfold wf in WA. rewrite Lx0, <- CA. exact WA. }
  destruct (result_ok solve ln (qp HH CC) (pips_options p) x0 (Some (d_A o)) (d_l o) (d_u o) (d_xmin o) (d_xmax o) 0 0
    SA ltac:(rewrite Lx0; apply qp_shaped; auto) ltac:(right; congruence) ltac:(right; congruence) ltac:(right; auto)
    ltac:(right; auto) s HS)
    as (sp & f & df & hn & gn & dhn & dgn & lam & mu & mu0 & z & h & Lx & SP & (s0 & st & k & Q0 & Q1 & Q2 & Q3 & _) & E & _ & _ & _ & _ & _ & _ & CV & _).
  { rewrite Lx0. exact (ordered_rows _ _ _ _ _ _ _ _ _ _ S LO). }
  rewrite Lx0 in *. rewrite ES in EF. destruct (CV EF) as (FE & _). rewrite <- X in *.
  cbn [p_f qp] in E. destruct (qp_f_ok HH CC (d_nx o) _ f df W N C LC E) as (Lr & _).
  exists x0, HH, CC, C0, sp, s0, st, k. do 6 (split; [auto|]).
  intros xn zn X1 X2. rewrite Q3 in FE. destruct (FE xn zn X1 X2) as (m & Hm & _ & _ & LT). exists m. split; auto.
  intros t. exact (inside_rows _ _ _ _ _ _ _ _ _ _ S t _ LO MO Lr LT).
Qed.

(** ** C54, C55 *)

(** with shifts, the objective is off by a constant; costs of other orders count as nothing *)
Theorem C54_shifted_partial HH CC C0 : covered -> dc_objective B o cp = Ok (HH, CC, C0) ->
  forall x, length x = d_nx o ->
    (qform (d_nx o) HH CC x + C0
     = gen_cost B nb ng gencost x + user_cost (k_N cp) (k_H cp) (k_Cw cp) (k_rh cp) (k_mm cp) x
       + inner (k_Cw cp) (map2 rmul (k_mm cp) (k_rh cp)))%K.
Proof.
  intros CV H x Lx. destruct set_ok as (Bb & Pbi & S).
  destruct (objective_ok _ _ _ _ _ _ _ _ _ _ S cp HH CC C0 WN WH SH H) as (_ & _ & _ & _ & _ & _ & _ & _ & V).
  rewrite V by auto. rewrite (supported_cost _ _ _ _ x CV). reflexivity.
Qed.
Theorem C55_orders_partial HH CC C0 : unshifted -> dc_objective B o cp = Ok (HH, CC, C0) ->
  forall x, length x = d_nx o ->
    (qform (d_nx o) HH CC x + C0
     = gen_cost_by low_order_cost B nb ng gencost x + user_cost (k_N cp) (k_H cp) (k_Cw cp) (k_rh cp) (k_mm cp) x)%K.
Proof.
  intros RH H x Lx. destruct set_ok as (Bb & Pbi & S).
  destruct (objective_ok _ _ _ _ _ _ _ _ _ _ S cp HH CC C0 WN WH SH H) as (_ & _ & _ & _ & _ & _ & _ & _ & V).
  rewrite V by auto. rewrite unshifted_0 by auto. ring.
Qed.
End Theorems.

(** ** Examples *)
Definition zs (l : list Z) : list Qc := map zc l.
Definition xb (i ty pd : Z) : list Qc := zs [i; ty; pd; 0; 0; 0; 1; 1; 0; 1; 1; 2; 0; 0; 0; 0; 0]%Z.
Definition xg (b pmin pmax : Z) : list Qc :=
  zs [b; 0; 0; 0; 0; 1; 100; 1; pmax; pmin; 0; 0; 0; 0; 0; 0; 0; 0; 0; 0; 0; 0; 0; 0; 0]%Z.
Definition xbr (f t rate : Z) : list Qc :=
  zs [f; t; 0]%Z ++ [Q2Qc (Qmake 1 2)] ++ zs [0; rate; 0; 0; 0; 0; 1; -360; 360; 0; 0; 0; 0; 0; 0; 0; 0]%Z.
Definition ex_bus := [xb 0 3 0; xb 1 1 50].

(** a segmented, a linear and a single-segment cost, one user variable, a user row tying the outputs
    of two generators to it *)
Definition ex_gen := [xg 0 0 100; xg 1 0 60; xg 1 0 10].
Definition ex_branch := [xbr 0 1 30; xbr 0 1 0].
Definition ex_gc :=
  [zs [1; 0; 0; 3; 0; 0; 10; 200; 40; 1100]; zs [2; 0; 0; 2; 20; 5; 0; 0; 0; 0]; zs [1; 0; 0; 2; 0; 10; 10; 110; 0; 0]]%Z.
Definition ex_U : user (K := Qc) :=
  User (Some (SM 1 6 [Ent 0 2 (zc 1); Ent 0 3 (zc (-1)); Ent 0 5 (zc 1)])) [EFin (zc 0)] [EPos] [EFin (zc 0)] [EFin (zc 1)].
Definition ex_o := dc_setup false (zc 100) ex_bus ex_gen ex_branch ex_gc ex_U.
Definition cents (a : Z) : Qc := Q2Qc (Qmake a 100).
Definition ex_x : list Qc := [zc 0; Q2Qc (Qmake (-5) 100); cents 20; cents 25; cents 5; zc 500; cents 10].
Definition insideb (lo up : ext Qc) (v : Qc) : bool :=
  match lo with EFin a => negb (fltb 0%K (a - v)%K) | ENeg => true | EPos => false end &&
  match up with EFin b => negb (fltb 0%K (v - b)%K) | EPos => true | ENeg => false end.
Lemma insideb_ok lo up v : insideb lo up v = true -> inside no_excess lo up v.
Proof.
  unfold insideb, inside, no_excess, le. rewrite andb_true_iff.
  intros (H1 & H2). split; [destruct lo|destruct up]; auto; try discriminate; apply negb_true_iff; auto.
Qed.
Example C33_example_setup :
  match ex_o with
  | Ok o => (d_nx o, d_il o, d_ny o, nrows (d_A o),
             map (fun e => (erow e, ecol e, this (ev e))) (filter (fun e => 4 <=? erow e) (ents (d_A o))))
  | Err _ => (0, [], 0, 0, [])
  end = (7, [0], 1, 7,
         [(4, 2, Qmake 2000 1); (5, 2, Qmake 3000 1); (4, 5, Qmake (-1) 1); (5, 5, Qmake (-1) 1);
          (6, 2, Qmake 1 1); (6, 3, Qmake (-1) 1); (6, 6, Qmake 1 1)]).
Proof. vm_compute. reflexivity. Qed.
Example C33_example_point :
  dc_point equal_ no_excess false (zc 100) ex_bus ex_gen ex_branch ex_gc (u_A ex_U) (u_l ex_U) (u_u ex_U) (u_zl ex_U) (u_zu ex_U) ex_x.
Proof.
  destruct ex_o as [o|e] eqn:E; [|vm_compute in E; discriminate].
  assert (forall M, u_A ex_U = Some M -> shaped (nrows M) (ncols M) M) as WU.
  { intros M HM. injection HM as <-. split; [auto|]. split; [auto|]. repeat constructor. }
  assert (length ex_x = d_nx o) as Lx by (vm_compute in E; injection E as <-; reflexivity).
  apply (C33_constraints false (zc 100) ex_bus ex_gen ex_branch ex_gc ex_U o WU E ex_x); auto.
  assert (forallb (fun k => insideb (lower (d_l o) k) (upper (d_u o) k) (row_val (d_A o) ex_x k)) (seq 0 (nrows (d_A o)))
    && forallb (fun j => insideb (lower (d_xmin o) j) (upper (d_xmax o) j) (nth j ex_x 0%K)) (seq 0 (d_nx o)) = true) as C.
  { unfold ex_o in E. vm_compute in E. injection E as <-. vm_compute. reflexivity. }
  apply andb_true_iff in C as (C1 & C2). rewrite forallb_forall in C1, C2.
  split; intros k Hk; apply insideb_ok; [apply C1|apply C2]; apply in_seq; lia.
Qed.

(** one generator with a quadratic cost serving a load at the other end of a line *)
Definition ex_gen1 := [xg 0 0 100].
Definition ex_branch1 := [xbr 0 1 80].
Definition ex_gc1 := [zs [2; 0; 0; 3; 1; 10; 7]%Z].
Definition no_U : user (K := Qc) := User None [] [] [] [].
Definition ex_o1 := dc_setup false (zc 100) ex_bus ex_gen1 ex_branch1 ex_gc1 no_U.
Definition ex_p (n : nat) : dcopt (K := Qc) :=
  DcOpt (Q2Qc (Qmake 1 10)) (zc 1) (Q2Qc (Qmake 1 10)) (Q2Qc (Qmake 1 2)) (zc 1) n 3 false.
Definition no_cost (n : nat) : costp (K := Qc) := CostP (SM 0 n []) (SM 0 0 []) [] [] [].
Definition mil (a : Qc) : Z := Z.div (Qnum (this a) * 1000) (Zpos (Qden (this a))).
Definition ex_run n :=
  match ex_o1 with
  | Ok o => dcopf solveQ (fun a => a) (ex_p n) (zc 100) ex_bus ex_gen1 ex_branch1 o (no_cost 3)
  | Err e => Err e
  end.
(** 50 MW cost 3007; the flow of the line, the output and the price 110 per MWh are reported *)
Example C33_example_run :
  match ex_run 2 with
  | Ok r => (z_success r, map mil (z_x r), mil (z_f r), map (fun b => mil (cell b LAM_P)) (z_bus r),
             map (fun g => mil (cell g PG)) (z_gen r), map (fun b => (mil (cell b PF), mil (cell b PT))) (z_branch r))
  | Err _ => (false, [], 0%Z, [], [], [])
  end = (true, [0; -250; 500]%Z, 3007000%Z, [110000; 110001]%Z, [50000]%Z, [(50000, -50000)]%Z).
Proof. vm_compute. reflexivity. Qed.
Example C33_example_hypotheses : limits_ordered false (zc 100) ex_bus ex_gen1 ex_branch1 None [] [] [] [] /\
  match ex_o1 with Ok o => Forall moderate (d_l o ++ d_u o ++ d_xmin o ++ d_xmax o) | Err _ => False end.
Proof.
  split.
  - split; [|split; [|split]].
    + intros g [<-|[]]. vm_compute. reflexivity.
    + intros _ r [<-|[]] HL. exfalso. unfold angle_limited, lt in HL.
      destruct HL as [(_ & H)|(_ & H)]; vm_compute in H; discriminate.
    + discriminate.
    + intros k Hk. cbn in Hk. lia.
  - destruct ex_o1 as [o|e] eqn:E; [|vm_compute in E; discriminate].
    assert (forallb (fun e => match e with EFin a => fltb (fabs a) huge | _ => true end)
              (d_l o ++ d_u o ++ d_xmin o ++ d_xmax o) = true) as C.
    { unfold ex_o1 in E. vm_compute in E. injection E as <-. vm_compute. reflexivity. }
    rewrite forallb_forall in C. apply Forall_forall. intros [a| |] Ha; cbn; auto. exact (C _ Ha).
Qed.
Example C30_example :
  match ex_o1 with
  | Ok o => match dc_objective (zc 100) o (no_cost 3) with
            | Ok (HH, CC, C0) => (map (fun e => (erow e, ecol e, this (ev e))) (ents HH), map this CC, this C0)
            | Err _ => ([], [], Qmake 0 1) end
  | Err _ => ([], [], Qmake 0 1)
  end = ([(2, 2, Qmake 20000 1)], [Qmake 0 1; Qmake 0 1; Qmake 1000 1], Qmake 7 1).
Proof. vm_compute. reflexivity. Qed.
Example C30_example_hypotheses :
  covered ex_gen1 ex_gc1 /\ covered ex_gen ex_gc /\ unshifted (no_cost 3) /\ sym_mat (k_H (no_cost 3)) /\
  shaped 0 3 (k_N (no_cost 3)) /\ shaped 0 0 (k_H (no_cost 3)).
Proof.
  split; [|split; [|split; [|split; [|split]]]].
  - intros i Hi. cbn in Hi. destruct i as [|i]; [|lia]. right. split; [vm_compute; reflexivity|right; apply qc_eqb_eq; vm_compute; reflexivity].
  - intros i Hi. cbn in Hi. destruct i as [|[|[|i]]]; [left; vm_compute; reflexivity| |left; vm_compute; reflexivity|lia].
    right. split; [vm_compute; reflexivity|left; apply qc_eqb_eq; vm_compute; reflexivity].
  - constructor.
  - intros i j. reflexivity.
  - repeat constructor.
  - repeat constructor.
Qed.
Example C30_example_gradient :
  match ex_o1 with
  | Ok o => match dc_objective (zc 100) o (no_cost 3) with
            | Ok (HH, CC, C0) => match p_f (qp HH CC) [zc 0; zc 0; cents 50] with
                                 | Ok (f, df) => (this f, map this df) | _ => (Qmake 0 1, []) end
            | Err _ => (Qmake 0 1, []) end
  | Err _ => (Qmake 0 1, [])
  end = (Qmake 3000 1, [Qmake 0 1; Qmake 0 1; Qmake 11000 1]).
Proof. vm_compute. reflexivity. Qed.

(** ** C54 *)
(** one user cost of 1 per unit of the first angle, shifted by 1 *)
Definition shifted_cost : costp (K := Qc) :=
  CostP (SM 1 3 [Ent 0 0 (zc 1)]) (SM 1 1 []) [zc 1] [zc 1] [zc 1].
Theorem C54_shifted_refuted :
  exists (B : Qc) bus gen branch gencost o cp HH CC C0 x,
    dc_setup false B bus gen branch gencost no_U = Ok o /\
    shaped (nrows (k_N cp)) (d_nx o) (k_N cp) /\ shaped (nrows (k_N cp)) (nrows (k_N cp)) (k_H cp) /\ sym_mat (k_H cp) /\
    covered gen gencost /\ dc_objective B o cp = Ok (HH, CC, C0) /\ length x = d_nx o /\
    (qform (d_nx o) HH CC x + C0)%K <>
    (gen_cost B (length bus) (length gen) gencost x + user_cost (k_N cp) (k_H cp) (k_Cw cp) (k_rh cp) (k_mm cp) x)%K.
Proof.
  destruct ex_o1 as [o|e] eqn:E; [|vm_compute in E; discriminate].
  destruct (dc_objective (zc 100) o shifted_cost) as [((HH, CC), C0)|e] eqn:EO;
    [|unfold ex_o1 in E; vm_compute in E; injection E as <-; vm_compute in EO; discriminate].
  assert (d_nx o = 3) as NX by (unfold ex_o1 in E; vm_compute in E; injection E as <-; reflexivity).
  exists (zc 100), ex_bus, ex_gen1, ex_branch1, ex_gc1, o, shifted_cost, HH, CC, C0, (zs [0; 0; 0]%Z).
  split; [exact E|]. rewrite NX. split; [repeat constructor|]. split; [repeat constructor|].
  split; [intros i j; reflexivity|]. split; [apply C30_example_hypotheses|]. split; [exact EO|]. split; [reflexivity|].
  unfold ex_o1 in E. vm_compute in E. injection E as <-. vm_compute in EO. injection EO as <- <- <-.
  intros H. apply (f_equal this) in H. vm_compute in H. discriminate.
Qed.

(** ** C55 *)
(** a cubic cost of p^3 per hour *)
Definition ex_gc3 := [zs [2; 0; 0; 4; 1; 0; 0; 0]%Z].
Theorem C55_orders_refuted :
  exists (B : Qc) bus gen branch gencost o HH CC C0 x,
    dc_setup false B bus gen branch gencost no_U = Ok o /\
    dc_objective B o (no_cost (d_nx o)) = Ok (HH, CC, C0) /\ length x = d_nx o /\
    (qform (d_nx o) HH CC x + C0)%K <> gen_cost B (length bus) (length gen) gencost x.
Proof.
  destruct (dc_setup false (zc 100) ex_bus ex_gen1 ex_branch1 ex_gc3 no_U) as [o|e] eqn:E; [|vm_compute in E; discriminate].
  assert (d_nx o = 3) as NX by (vm_compute in E; injection E as <-; reflexivity).
  destruct (dc_objective (zc 100) o (no_cost 3)) as [((HH, CC), C0)|e] eqn:EO;
    [|vm_compute in E; injection E as <-; vm_compute in EO; discriminate].
  exists (zc 100), ex_bus, ex_gen1, ex_branch1, ex_gc3, o, HH, CC, C0, (zs [0; 0; 1]%Z).
  split; [exact E|]. rewrite NX. split; [exact EO|]. split; [reflexivity|].
  vm_compute in E. injection E as <-. vm_compute in EO. injection EO as <- <- <-.
  intros H. apply (f_equal this) in H. vm_compute in H. discriminate.
Qed.

Print Assumptions C33_constraints.
Print Assumptions C33_limited_branches.
Print Assumptions C33_report.
Print Assumptions C33_balance_rows.
Print Assumptions C33_solution.
Print Assumptions C30_objective.
Print Assumptions C30_gradient.
Print Assumptions C30_reported.
Print Assumptions C54_shifted_partial.
Print Assumptions C54_shifted_refuted.
Print Assumptions C55_orders_partial.
Print Assumptions C55_orders_refuted.
