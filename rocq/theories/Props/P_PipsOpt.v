(** The interior point solver on problems with linear constraints only.  C56: on success the cost is
    near the optimum if the cost function is convex; C57: the constraint residuals shrink by a common
    factor in every step. *)
From Verif Require Import Lib.ListFacts Lib.QcFacts Lib.GaussQ Model.Pips Spec.PipsSpec Spec.PipsRun
  Proofs.LinAlgFacts Proofs.SparseFacts Proofs.FldFacts Proofs.OrdFacts Proofs.PipsA Proofs.PipsB
  Proofs.PipsC Proofs.PipsD Proofs.PipsE Proofs.PipsF Proofs.PipsG Proofs.PipsH Proofs.PipsI Props.P_Pips.
Local Open Scope nat_scope.

Section Theorems.
Context {K : Type} {F : Fld K}.
Add Field KF : (@f_ok K F).
Variable solve : smat K -> list K -> result (option (list K)).
Variable ln : K -> K.
Variables (P : problem (K := K)) (O : popt (K := K)) (x0 : list K) (A : option (smat K))
  (l u xmin xmax : list (ext K)).
Notation nx := (length x0).

(** ** C56 *)

(** a feasible point y at which the cost is at least its linearisation at the returned point (any
    feasible y, for a convex cost) is better by no more than the tolerances allow: the gradient
    tolerance times the distance, the feasibility tolerance times the equality multipliers, the
    complementarity tolerance, and what the slacks miss of the inequalities *)
Theorem C56_near_optimal r :
  p_gh P = None -> (forall x f df, p_f P x = Ok (f, df) -> length df = nx) ->
  shaped_opt nx A ->
  sized nx xmin -> sized nx xmax -> sized (rows_of A) l -> sized (rows_of A) u ->
  bounds_ordered nx (rows_of A) l u xmin xmax -> lt 0%K (o_cost_mult O) ->
  pips solve ln P O x0 A l u xmin xmax = Ok r -> r_eflag r = true ->
  exists sp s0 s k f df, split_bounds nx A l u xmin xmax = Ok sp /\
    start ln P O sp x0 = Ok s0 /\ visited solve ln P O sp nx s0 k s /\ r_x r = t_x s /\
    p_f P (r_x r) = Ok (f, df) /\ r_f r = f /\
    forall xn zn lam_n mu_n, is_norm (t_x s) xn -> is_norm (t_z s) zn ->
      is_norm (t_lam s) lam_n -> is_norm (t_mu s) mu_n ->
    exists a b, (a = xn \/ a = zn) /\ (b = lam_n \/ b = mu_n) /\
    forall y fy dfy, linear_ok nx A l u xmin xmax y -> p_f P y = Ok (fy, dfy) ->
      le (f + lsum (fun j => nth j df 0 * (nth j y 0 - nth j (r_x r) 0)) (seq 0 nx))%K fy ->
      le (f * o_cost_mult O)%K
         (fy * o_cost_mult O
          + (o_gradtol O * (1 + b) * lsum (fun j => fabs (nth j y 0 - nth j (r_x r) 0)) (seq 0 nx)
             + o_feastol O * (1 + a) * lsum fabs (t_lam s)
             + o_comptol O * (1 + xn)
             + lsum (fun i => nth i (t_mu s) 0 * fabs (nth i (e_h (t_e s)) 0 + nth i (t_z s) 0))
                 (seq 0 (length (t_mu s)))))%K.
Proof.
  intros NL WP WA Z1 Z2 Z3 Z4 OB CP H E.
  exact (near_optimal solve ln P O x0 A l u xmin xmax NL WA WP Z1 Z2 Z3 Z4 OB r H E CP).
Qed.

(** ** C57 *)
Section Residuals.
Hypothesis (EX : sparse_exact solve) (NL : p_gh P = None).
Hypothesis (WP : forall x f df, p_f P x = Ok (f, df) -> length df = nx) (WA : shaped_opt nx A).
Hypothesis (Z1 : sized nx xmin) (Z2 : sized nx xmax) (Z3 : sized (rows_of A) l) (Z4 : sized (rows_of A) u).
Hypothesis HH : forall x lam mu M, p_hess P x lam mu (o_cost_mult O) = Ok M -> shaped nx nx M.
Hypothesis HD : forall x M, p_d2f P x = Ok M -> shaped nx nx M.
Variables (sp : Pips.split (K := K)) (s0 : @Pips.state K).
Hypothesis (HS : split_bounds nx A l u xmin xmax = Ok sp) (H0 : start ln P O sp x0 = Ok s0).

(** one step multiplies all equality residuals and all sums of inequality value and slack by the same
    factor, which is zero after a full step *)
Theorem C57_step k s s' ap ad :
  visited solve ln P O sp nx s0 k s ->
  iterate solve ln P O sp nx (e_ng (t_e s0)) (e_nh (t_e s0)) (length (e_g (t_e s0))) (length (e_h (t_e s0))) s
    = Ok (Some (s', ap, ad)) ->
  exists c, le 0%K c /\ lt c 1%K /\ (o_step_control O = false -> c = (1 - ap)%K) /\
    (forall i, i < length (e_g (t_e s)) -> nth i (e_g (t_e s')) 0%K = (c * nth i (e_g (t_e s)) 0)%K) /\
    (forall i, i < length (e_h (t_e s)) ->
       (nth i (e_h (t_e s')) 0 + nth i (t_z s') 0)%K = (c * (nth i (e_h (t_e s)) 0 + nth i (t_z s) 0))%K).
Proof.
  intros V H. pose proof (no_nonlinear P x0 NL WP) as WS.
  destruct (C51_step solve ln P O x0 sp s0 k s s' ap ad H0 V H)
    as (dx & dlam & dz & dmu & Lxx & r & D & R1 & R2 & R3 & A1 & A2 & _ & _ & X & Z & _).
  destruct (C51_newton_direction solve ln P O x0 A l u xmin xmax 0 0 sp s0 k s dx dlam dz dmu Lxx
    EX WA WS Z1 Z2 Z3 Z4 HH HD HS H0 V D) as (_ & _ & _ & _ & _ & _ & NG & NH & _).
  assert (visited solve ln P O sp nx s0 (S k) s') as V' by (eapply visited_step; eauto).
  destruct (linear_push solve ln P O x0 A l u xmin xmax NL WA Z1 Z2 Z3 Z4 sp s0 k s (S k) s' dx (ap * r)%K
    HS H0 V V') as (G & Hh).
  { intros j. rewrite X. ring. }
  exists (1 - ap * r)%K. split; [|split; [|split; [|split]]].
  - apply le_sub with (a := (ap * r)%K). apply le_trans with (b := (ap * 1)%K).
    + apply mul_le_l; auto. apply lt_le; auto.
    + replace (ap * 1)%K with ap by ring. auto.
  - apply lt_sub. replace (1 - (1 - ap * r))%K with (ap * r)%K by ring. apply mul_pos; auto.
  - intros Q. rewrite (R1 Q). ring.
  - intros i Hi. rewrite G, NG by auto. ring.
  - intros i Hi. rewrite Hh, Z by auto.
    transitivity (nth i (e_h (t_e s)) 0 + nth i (t_z s) 0 + ap * r * (push (e_dh (t_e s)) dx i + nth i dz 0))%K; [ring|].
    rewrite NH by auto. ring.
Qed.

(** so over a whole run the residuals are the initial ones times one factor between 0 and 1 *)
Theorem C57_run k s : visited solve ln P O sp nx s0 k s ->
  exists c, le 0%K c /\ le c 1%K /\
    (forall i, i < length (e_g (t_e s0)) -> nth i (e_g (t_e s)) 0%K = (c * nth i (e_g (t_e s0)) 0)%K) /\
    (forall i, i < length (e_h (t_e s0)) ->
       (nth i (e_h (t_e s)) 0 + nth i (t_z s) 0)%K = (c * (nth i (e_h (t_e s0)) 0 + nth i (t_z s0) 0))%K).
Proof.
  intros V. pose proof (no_nonlinear P x0 NL WP) as WS. induction V as [|k s s' ap ad V IH St].
  - exists 1%K. split; [apply lt_le, lt_0_1|]. split; [apply le_refl|]. split; intros; ring.
  - destruct IH as (c & C0 & C1 & G & Hh).
    destruct (C57_step k s s' ap ad V St) as (d & D0 & D1 & _ & G' & H').
    destruct (visited_shapes solve ln P O x0 A l u xmin xmax 0 0 WA WS Z1 Z2 Z3 Z4 sp s0 k s HS H0 V)
      as (_ & _ & _ & LZ & LM & LG).
    pose proof (visited_interior _ _ _ _ _ _ _ _ _ _ H0 V) as I.
    pose proof (i_lz _ _ _ _ _ _ I) as LZ0.
    exists (d * c)%K. split; [apply mul_nn; auto|]. split.
    + apply le_trans with (b := (d * 1)%K); [apply mul_le_l; auto|]. replace (d * 1)%K with d by ring. apply lt_le; auto.
    + split; intros i Hi.
      * rewrite G', G by (auto; lia). ring.
      * rewrite H', Hh by (auto; lia). ring.
Qed.

(** the slacks start so that a constraint satisfied with a margin of at least 1 has no residual *)
Theorem C57_start i : i < length (e_h (t_e s0)) ->
  (lt (nth i (e_h (t_e s0)) 0%K) (- (1))%K -> (nth i (e_h (t_e s0)) 0 + nth i (t_z s0) 0)%K = 0%K) /\
  (le (- (1))%K (nth i (e_h (t_e s0)) 0%K) -> nth i (t_z s0) 0%K = 1%K).
Proof.
  intros Hi. unfold start in H0. apply bind_ok in H0 as (e & He & H). apply measure_ok in H as (_ & Q2 & _ & _ & _ & Q6 & _).
  rewrite Q6 in *. rewrite Q2. unfold init_z. rewrite (nth_map_lt _ _ _ _ 0%K) by auto. split; intros Hl.
  - unfold lt in Hl. rewrite Hl. ring.
  - unfold le in Hl. rewrite Hl. reflexivity.
Qed.
End Residuals.
End Theorems.

(** ** Example: minimise (x - 3)^2 + y^2 subject to x + y = 2, 0 <= x <= 4 *)
Definition qd_P : problem (K := Qc) := Problem
  (fun x => Ok ((x1 x - zc 3) * (x1 x - zc 3) + x2 x * x2 x, [zc 2 * (x1 x - zc 3); zc 2 * x2 x])%Qc)
  (fun x => Ok (SM 2 2 [Ent 0 0 (zc 2); Ent 1 1 (zc 2)])) None (fun _ _ _ _ => Err TypeError).
Definition qd_O : popt (K := Qc) := POpt half half half half 3 false 3 (zc 1).
Definition qd_A : option (smat Qc) := Some (SM 1 2 [Ent 0 0 (zc 1); Ent 0 1 (zc 1)]).
Definition qd_lo : list (ext Qc) := [EFin (zc 0); ENeg].
Definition qd_up : list (ext Qc) := [EFin (zc 4); EPos].
Definition qd_run := pips solveQ (fun a => a) qd_P qd_O [zc 2; zc 1] qd_A [EFin (zc 2)] [EFin (zc 2)] qd_lo qd_up.
Example C56_example : show qd_run =
  Some (true, 2, Converged, [500; 2483; -484]%Z, ([27; 0], [94; 0])%Z, ([0], [966])%Z, ([], [])).
Proof. vm_compute. reflexivity. Qed.
Example C56_example_shape : p_gh qd_P = None /\ (forall x f df, p_f qd_P x = Ok (f, df) -> length df = 2) /\
  shaped_opt 2 qd_A /\ sized 2 qd_lo /\ sized 2 qd_up /\ sized 1 [EFin (zc 2)] /\
  bounds_ordered 2 1 [EFin (zc 2)] [EFin (zc 2)] qd_lo qd_up /\ lt (zc 0) (o_cost_mult qd_O) /\
  (forall x M, p_d2f qd_P x = Ok M -> shaped 2 2 M) /\ linear_ok 2 qd_A [EFin (zc 2)] [EFin (zc 2)] qd_lo qd_up [zc 2; zc 0].
Proof.
  split; [reflexivity|]. split. { intros x f df H. injection H as <- <-. reflexivity. }
  split. { split; [reflexivity|]. split; [reflexivity|]. repeat constructor. }
  split; [right; reflexivity|]. split; [right; reflexivity|]. split; [right; reflexivity|].
  split. { split; [intros [|[|j]] H; [vm_compute; reflexivity|exact I|lia]|intros [|j] H; [vm_compute; reflexivity|lia]]. }
  split; [vm_compute; reflexivity|].
  split. { intros x M H. injection H as <-. split; [reflexivity|]. split; [reflexivity|]. repeat constructor. }
  split.
  - intros [|[|j]] H; [right; split; [intros C; vm_compute in C; discriminate|split; right; vm_compute; reflexivity]| |lia].
    right. split; [intros []|]. split; exact I.
  - intros [|j] H; [|simpl in H; lia]. left. split; [vm_compute; reflexivity|].
    simpl. f_equal.
Qed.
(** the cost is convex *)
Example C56_example_convex x y f df fy dfy : p_f qd_P x = Ok (f, df) -> p_f qd_P y = Ok (fy, dfy) ->
  le (f + lsum (fun j => nth j df 0 * (nth j y 0 - nth j x 0)) (seq 0 2))%K fy.
Proof.
  intros H H'. injection H as <- <-. injection H' as <- <-. apply le_sub. cbn [seq lsum map fold_right nth].
  match goal with |- le 0%K ?e => assert (e = ((x1 y - x1 x) * (x1 y - x1 x) + (x2 y - x2 x) * (x2 y - x2 x))%K) as -> end.
  { unfold x1, x2. change (zc 0) with (0%Qc). change (zc 2) with (1 + 1)%Qc. cbn. ring. }
  apply (@add_nn Qc Qc_fld); apply (@sq_nn Qc Qc_fld).
Qed.
(** equality residual and slack errors of the start and after each of the two steps *)
Definition qd_res : option (list (list Z * list Z)) :=
  match split_bounds 2 qd_A [EFin (zc 2)] [EFin (zc 2)] qd_lo [EFin (zc 1); EPos] with
  | Ok sp =>
      let res s := (map mil (e_g (t_e s)), map mil (map2 Qcplus (e_h (t_e s)) (t_z s))) in
      match start (fun a => a) qd_P qd_O sp [zc 1; zc 9] with
      | Ok s0 =>
          let step s := iterate solveQ (fun a => a) qd_P qd_O sp 2 (e_ng (t_e s0)) (e_nh (t_e s0))
              (length (e_g (t_e s0))) (length (e_h (t_e s0))) s in
          match step s0 with
          | Ok (Some (s, _, _)) => match step s with Ok (Some (s', _, _)) => Some [res s0; res s; res s'] | _ => None end
          | _ => None
          end
      | Err _ => None
      end
  | Err _ => None
  end.
Example C57_example : qd_res = Some [([8000], [1000; 0]); ([3636], [454; 0]); ([0], [0; 0])]%Z.
Proof. vm_compute. reflexivity. Qed.

(** ** C29, the returned multipliers *)
Section Returned.
Context {K : Type} {F : Fld K}.
Variable solve : smat K -> list K -> result (option (list K)).
Variable ln : K -> K.
Variables (P : problem (K := K)) (O : popt (K := K)) (x0 : list K) (A : option (smat K))
  (l u xmin xmax : list (ext K)) (mg mh : nat).
Notation nx := (length x0).
Hypothesis (WA : shaped_opt nx A) (WP : well_shaped nx mg mh P).
Hypothesis (Z1 : sized nx xmin) (Z2 : sized nx xmax) (Z3 : sized (rows_of A) l) (Z4 : sized (rows_of A) u).
(** on success the gradient of the cost is balanced by the returned multipliers, up to the tolerance and
    the multipliers dropped as small *)
Theorem C29_stationary r : pips solve ln P O x0 A l u xmin xmax = Ok r ->
  bounds_ordered nx (rows_of A) l u xmin xmax -> lt 0%K (o_cost_mult O) ->
  (forall j, j < nx -> modest (lower xmin j) (upper xmax j)) ->
  (forall i, i < rows_of A -> modest (lower l i) (upper u i)) -> r_eflag r = true ->
  let m := r_lmbda r in
  exists sp s0 s k f df hn gn dhn dgn,
    split_bounds nx A l u xmin xmax = Ok sp /\ start ln P O sp x0 = Ok s0 /\
    visited solve ln P O sp nx s0 k s /\ r_x r = t_x s /\
    p_f P (r_x r) = Ok (f, df) /\ nonlinear_at P (r_x r) hn gn dhn dgn /\
    forall lam_n mu_n, is_norm (t_lam s) lam_n -> is_norm (t_mu s) mu_n ->
    exists b, (b = lam_n \/ b = mu_n) /\ forall j, j < nx ->
      lt (fabs ((nth j df 0 + pull dgn (m_eqnonlin m) j + pull dhn (m_ineqnonlin m) j
                 + pull_rows nx A (fun p => if p <? nx then nth p (m_upper m) 0 - nth p (m_lower m) 0
                                            else nth (p - nx) (m_mu_u m) 0 - nth (p - nx) (m_mu_l m) 0) j)
                * o_cost_mult O)%K)
         (o_gradtol O * (1 + b) + abs_pull dhn mh j * clean_tol
          + (cut_of (lower xmin j) (upper xmax j)
             + lsum (fun i => fabs (match A with Some M => at_ M i j | None => 0 end) * cut_of (lower l i) (upper u i))
                 (seq 0 (rows_of A))))%K.
Proof. exact (reported_gradient solve ln P O x0 A l u xmin xmax mg mh WA WP Z1 Z2 Z3 Z4 r). Qed.
(** a bound that is absent has the multiplier 0 *)
Theorem C29_absent_bounds r : pips solve ln P O x0 A l u xmin xmax = Ok r ->
  bounds_ordered nx (rows_of A) l u xmin xmax ->
  let m := r_lmbda r in
  (forall j, j < nx -> (lower xmin j = ENeg -> nth j (m_lower m) 0%K = 0%K) /\ (upper xmax j = EPos -> nth j (m_upper m) 0%K = 0%K)) /\
  (forall i, i < rows_of A -> (lower l i = ENeg -> nth i (m_mu_l m) 0%K = 0%K) /\ (upper u i = EPos -> nth i (m_mu_u m) 0%K = 0%K)).
Proof. exact (one_sided solve ln P O x0 A l u xmin xmax WA Z1 Z2 Z3 Z4 r). Qed.
End Returned.

Print Assumptions C29_stationary.
Print Assumptions C29_absent_bounds.
Print Assumptions C56_near_optimal.
Print Assumptions C57_step.
Print Assumptions C57_run.
Print Assumptions C57_start.
