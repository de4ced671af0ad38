(** The interior point solver.  C26: the split constraints describe the caller's feasible set;
    C27: iterates stay interior and the loop ends; C28: what the success flag means; C29: the
    returned multipliers; C51: the search direction solves the linearised optimality conditions;
    C52: multipliers of rows fixed at very large values. *)
From Verif Require Import Lib.ListFacts Lib.QcFacts Lib.GaussQ Model.Pips Spec.PipsSpec Spec.PipsRun
  Proofs.LinAlgFacts Proofs.SparseFacts Proofs.FldFacts Proofs.OrdFacts Proofs.PipsA Proofs.PipsB
  Proofs.PipsC Proofs.PipsD Proofs.PipsE Proofs.PipsF Proofs.PipsG.
Local Open Scope nat_scope.

Section Theorems.
Context {K : Type} {F : Fld K}.
Add Field KF : (@f_ok K F).
Variable solve : smat K -> list K -> result (option (list K)).
Variable ln : K -> K.
Variables (P : problem (K := K)) (O : popt (K := K)) (x0 : list K) (A : option (smat K))
  (l u xmin xmax : list (ext K)) (mg mh : nat).
Notation nx := (length x0).

(** ** C26 *)

(** the equalities g(x) = 0 and inequalities h(x) <= 0 the algorithm works with hold at x exactly if
    the nonlinear constraints, the linear constraints and the variable bounds do *)
Theorem C26_feasible_set sp x e hn gn dhn dgn :
  shaped_opt nx A -> sized nx xmin -> sized nx xmax -> sized (rows_of A) l -> sized (rows_of A) u ->
  bounds_ordered nx (rows_of A) l u xmin xmax ->
  split_bounds nx A l u xmin xmax = Ok sp ->
  eval P O sp None x = Ok e -> nonlinear_at P x hn gn dhn dgn ->
  (Forall (fun a => a = 0%K) (e_g e) /\ Forall (fun a => le a 0%K) (e_h e)) <->
  (Forall (fun a => a = 0%K) gn /\ Forall (fun a => le a 0%K) hn /\ linear_ok nx A l u xmin xmax x).
Proof.
  intros WA Z1 Z2 Z3 Z4 OB HS. exact (split_same ln P O x0 A l u xmin xmax WA Z1 Z2 Z3 Z4 sp x e hn gn dhn dgn HS OB).
Qed.

(** any ordered bounds can be split *)
Theorem C26_total :
  shaped_opt nx A -> sized nx xmin -> sized nx xmax -> sized (rows_of A) l -> sized (rows_of A) u ->
  bounds_ordered nx (rows_of A) l u xmin xmax -> exists sp, split_bounds nx A l u xmin xmax = Ok sp.
Proof. apply split_total. Qed.

(** ** C27 *)

(** whatever the callbacks and the linear solver do, slacks, inequality multipliers and the barrier
    parameter are positive in every state *)
Theorem C27_interior sp s0 k s :
  start ln P O sp x0 = Ok s0 -> visited solve ln P O sp nx s0 k s ->
  Forall (lt 0%K) (t_z s) /\ Forall (lt 0%K) (t_mu s) /\ lt 0%K (t_gamma s) /\
  length (t_z s) = length (e_h (t_e s0)) /\ length (t_mu s) = length (e_h (t_e s0)).
Proof.
  intros H V. destruct (visited_interior _ _ _ _ _ _ _ _ _ _ H V) as [I1 I2 I3 I4 I5 _ _]. auto.
Qed.

(** the loop ends within max_it iterations at one of those states *)
Theorem C27_terminates r : pips solve ln P O x0 A l u xmin xmax = Ok r ->
  r_iterations r <= o_max_it O /\
  exists sp s0 s k, split_bounds nx A l u xmin xmax = Ok sp /\ start ln P O sp x0 = Ok s0 /\
    visited solve ln P O sp nx s0 k s /\ k <= r_iterations r /\ r_x r = t_x s.
Proof.
  intros H. apply pips_ok in H as (sp & s0 & s & i & o & k & HS & H0 & V & L1 & L2 & _ & _ & HP).
  apply package_ok in HP as (X & I & _). rewrite I. split; auto. exists sp, s0, s, k. auto.
Qed.

(** step-size control shortens a step by halving it at most max_red times *)
Theorem C27_step_control sp s dx Lxx a : step_factor ln P O sp s dx Lxx = Ok (Some a) ->
  exists k, k <= o_max_red O /\ a = halves k.
Proof.
  unfold step_factor. destruct (o_step_control O); [|discriminate]. intros H.
  apply bind_ok in H as (x1 & _ & H). apply bind_ok in H as (e1 & _ & H). apply bind_ok in H as (Lx1 & _ & H).
  apply bind_ok in H as (f1 & _ & H). apply bind_ok in H as (g1 & _ & H).
  destruct (_ && _); [|discriminate]. apply bind_ok in H as (a' & H & E). injection E as <-.
  apply (reduce_step_ok ln P O sp _ s dx Lxx 0) in H. exact H.
Qed.

(** ** C28 *)

(** on success the returned point, with the slacks and multipliers of the last state of the run, is
    feasible up to the tolerance, the gradient of the Lagrangian
    (of the scaled cost and the caller's constraints) is small, slacks and multipliers are nearly
    complementary and the cost has settled *)
Theorem C28_success r :
  shaped_opt nx A -> well_shaped nx mg mh P ->
  sized nx xmin -> sized nx xmax -> sized (rows_of A) l -> sized (rows_of A) u ->
  bounds_ordered nx (rows_of A) l u xmin xmax ->
  pips solve ln P O x0 A l u xmin xmax = Ok r -> r_eflag r = true ->
  exists sp f df hn gn dhn dgn lam mu z Lx,
    split_bounds nx A l u xmin xmax = Ok sp /\
    (exists s0 s k, start ln P O sp x0 = Ok s0 /\ visited solve ln P O sp nx s0 k s /\ r_x r = t_x s /\
       z = t_z s /\ lam = t_lam s /\ mu = t_mu s) /\
    p_f P (r_x r) = Ok (f, df) /\ nonlinear_at P (r_x r) hn gn dhn dgn /\ r_f r = f /\
    Forall (lt 0%K) z /\ Forall (lt 0%K) mu /\
    (forall xn zn, is_norm (r_x r) xn -> is_norm z zn -> exists s, (s = xn \/ s = zn) /\
       let t := (o_feastol O * (1 + s))%K in
       Forall (fun a => lt (fabs a) t) gn /\ Forall (fun a => lt a t) hn /\
       linear_to t nx A l u xmin xmax (r_x r)) /\
    (length Lx = nx /\ forall j, j < nx -> nth j Lx 0%K =
       (nth j df 0 * o_cost_mult O + pull dgn (firstn mg lam) j + pull dhn (firstn mh mu) j
        + pull_rows nx A (row_mult sp mg mh lam mu) j)%K) /\
    stationary_to (o_gradtol O) Lx lam mu /\
    complementary_to (o_comptol O) (r_x r) z mu /\
    exists f0, cost_settled (o_costtol O) (f * o_cost_mult O)%K f0.
Proof.
  intros WA WP Z1 Z2 Z3 Z4 OB H EF.
  destruct (result_ok solve ln P O x0 A l u xmin xmax mg mh WA WP Z1 Z2 Z3 Z4 r H OB)
    as (sp & f & df & hn & gn & dhn & dgn & lam & mu & mu0 & z & h & Lx & A1 & AS & A2 & A3 & A4 & A5 & A6 & _ & A8 & A9 & _).
  destruct (A9 EF) as (B1 & B2 & B3 & B4).
  destruct AS as (s0 & s & k & AS). exists sp, f, df, hn, gn, dhn, dgn, lam, mu, z, Lx.
  split; [auto|]. split; [exists s0, s, k; tauto|]. tauto.
Qed.

(** the flag is set exactly when the message says converged; otherwise the iteration limit was
    reached or a numerical failure is reported *)
Theorem C28_failure r : pips solve ln P O x0 A l u xmin xmax = Ok r ->
  (r_eflag r = true <-> r_message r = Converged) /\
  (r_eflag r = false -> (r_message r = Limit /\ r_iterations r = o_max_it O) \/ r_message r = Failed).
Proof.
  intros H. apply pips_ok in H as (sp & s0 & s & i & o & k & HS & H0 & V & L1 & L2 & C & L & HP).
  apply package_ok in HP as (X & I & M & E & _). rewrite M, I. split; auto.
  intros EF. destruct o; auto. exfalso. destruct E as (_ & E). rewrite E in EF; congruence.
Qed.

(** a run that did not converge ends at a point where one of the four measures is not below its
    tolerance: the flag is never withheld at an acceptable point *)
Theorem C28_not_converged r : pips solve ln P O x0 A l u xmin xmax = Ok r -> r_eflag r = false ->
  exists sp s0 s k, split_bounds nx A l u xmin xmax = Ok sp /\ start ln P O sp x0 = Ok s0 /\
    visited solve ln P O sp nx s0 k s /\ r_x r = t_x s /\
    (le (o_feastol O) (t_feas s) \/ le (o_gradtol O) (t_grad s) \/ le (o_comptol O) (t_comp s)
     \/ le (o_costtol O) (t_cost s)).
Proof.
  intros H EF. apply pips_ok in H as (sp & s0 & s & i & o & k & HS & H0 & V & L1 & L2 & C & L & HP).
  apply package_ok in HP as (X & I & M & E & _). exists sp, s0, s, k. repeat (split; auto).
  assert (conv O s = false) as CF.
  { destruct (conv O s) eqn:Q; auto. assert (o = Converged) as Q' by (apply C; auto).
    apply E in Q'. congruence. }
  unfold conv in CF. unfold le. rewrite !andb_false_iff in CF. tauto.
Qed.

(** ** C29 *)

(** bound and linear multipliers are non-negative; upper minus lower is the signed multiplier of the
    row in the algorithm's Lagrangian, after the clean-up of small ones *)
Theorem C29_multipliers r :
  shaped_opt nx A -> well_shaped nx mg mh P ->
  sized nx xmin -> sized nx xmax -> sized (rows_of A) l -> sized (rows_of A) u ->
  bounds_ordered nx (rows_of A) l u xmin xmax -> lt 0%K (o_cost_mult O) ->
  (forall j, j < nx -> modest (lower xmin j) (upper xmax j)) ->
  (forall i, i < rows_of A -> modest (lower l i) (upper u i)) ->
  pips solve ln P O x0 A l u xmin xmax = Ok r ->
  let m := r_lmbda r in
  Forall (le 0%K) (m_mu_l m) /\ Forall (le 0%K) (m_mu_u m) /\
  Forall (le 0%K) (m_lower m) /\ Forall (le 0%K) (m_upper m) /\ Forall (le 0%K) (m_ineqnonlin m) /\
  length (m_mu_l m) = rows_of A /\ length (m_mu_u m) = rows_of A /\
  length (m_lower m) = nx /\ length (m_upper m) = nx /\
  exists sp f df hn gn dhn dgn lam mu mu0 h Lx,
    split_bounds nx A l u xmin xmax = Ok sp /\
    (exists s0 s k, start ln P O sp x0 = Ok s0 /\ visited solve ln P O sp nx s0 k s /\ r_x r = t_x s /\
       lam = t_lam s /\ mu = t_mu s /\ h = e_h (t_e s)) /\
    p_f P (r_x r) = Ok (f, df) /\ nonlinear_at P (r_x r) hn gn dhn dgn /\
    cleaned (o_feastol O) h mu mu0 /\
    (* the algorithm's own gradient, small on success *)
    (length Lx = nx /\ forall j, j < nx -> nth j Lx 0%K =
       (nth j df 0 * o_cost_mult O + pull dgn (firstn mg lam) j + pull dhn (firstn mh mu) j
        + pull_rows nx A (row_mult sp mg mh lam mu) j)%K) /\
    (r_eflag r = true -> stationary_to (o_gradtol O) Lx lam mu) /\
    (* what is returned *)
    m_eqnonlin m = map (fun a => a / o_cost_mult O)%K (firstn mg lam) /\
    m_ineqnonlin m = map (fun a => a / o_cost_mult O)%K (firstn mh mu0) /\
    (forall j, j < nx -> (nth j (m_upper m) 0 - nth j (m_lower m) 0)%K
                         = (row_mult sp mg mh lam mu0 j / o_cost_mult O)%K) /\
    (forall i, i < rows_of A -> (nth i (m_mu_u m) 0 - nth i (m_mu_l m) 0)%K
                         = (row_mult sp mg mh lam mu0 (nx + i) / o_cost_mult O)%K).
Proof.
  intros WA WP Z1 Z2 Z3 Z4 OB CP M1 M2 H m.
  destruct (result_ok solve ln P O x0 A l u xmin xmax mg mh WA WP Z1 Z2 Z3 Z4 r H OB)
    as (sp & f & df & hn & gn & dhn & dgn & lam & mu & mu0 & z & h & Lx & A1 & AS & A2 & A3 & A4 & A5 & A6 & A7 & A8 & A9
        & B1 & B2 & B3 & B4).
  destruct (B3 CP) as (C1 & C2 & C3 & C4 & C5). destruct (B4 M1 M2) as (D1 & D2 & D3 & D4 & D5 & D6).
  do 9 (split; [assumption|]). exists sp, f, df, hn, gn, dhn, dgn, lam, mu, mu0, h, Lx.
  destruct AS as (s0 & s & k & AS).
  split; [auto|]. split; [exists s0, s, k; tauto|]. split; [auto|]. split; [auto|]. split; [auto|]. split; [auto|].
  split; [intros E; apply (A9 E)|]. auto.
Qed.

(** ** C51 *)

(** with an exact linear solver the search direction computed in any state of a run satisfies the
    linearised optimality conditions: stationarity, both kinds of constraints, and perturbed
    complementarity *)
Theorem C51_newton_direction sp s0 k s dx dlam dz dmu Lxx :
  sparse_exact solve -> shaped_opt nx A -> well_shaped nx mg mh P ->
  sized nx xmin -> sized nx xmax -> sized (rows_of A) l -> sized (rows_of A) u ->
  (forall x lam mu M, p_hess P x lam mu (o_cost_mult O) = Ok M -> shaped nx nx M) ->
  (forall x M, p_d2f P x = Ok M -> shaped nx nx M) ->
  split_bounds nx A l u xmin xmax = Ok sp -> start ln P O sp x0 = Ok s0 ->
  visited solve ln P O sp nx s0 k s ->
  direction solve P O nx (e_ng (t_e s0)) (e_nh (t_e s0)) (length (e_g (t_e s0))) s
    = Ok (Some (dx, dlam, dz, dmu, Lxx)) ->
  let e := t_e s in let neq := length (e_g e) in let niq := length (e_h e) in
  length dx = nx /\ length dlam = neq /\ length dz = niq /\ length dmu = niq /\
  (match p_gh P with
   | Some _ => p_hess P (t_x s) (firstn mg (t_lam s)) (firstn mh (t_mu s)) (o_cost_mult O) = Ok Lxx
   | None => exists M, p_d2f P (t_x s) = Ok M /\ forall i j, at_ Lxx i j = (at_ M i j * o_cost_mult O)%K
   end) /\
  (forall j, j < nx -> (row_val Lxx dx j + pull (e_dg e) dlam j + pull (e_dh e) dmu j)%K
                       = (- nth j (t_Lx s) 0)%K) /\
  (forall i, i < neq -> push (e_dg e) dx i = (- nth i (e_g e) 0)%K) /\
  (forall i, i < niq -> (push (e_dh e) dx i + nth i dz 0)%K = (- (nth i (e_h e) 0 + nth i (t_z s) 0))%K) /\
  (forall i, i < niq -> (nth i (t_mu s) 0 * nth i dz 0 + nth i (t_z s) 0 * nth i dmu 0)%K
                        = (t_gamma s - nth i (t_mu s) 0 * nth i (t_z s) 0)%K).
Proof.
  intros EX WA WP Z1 Z2 Z3 Z4 HH HD HS H0 V H e neq niq.
  destruct (visited_shapes solve ln P O x0 A l u xmin xmax mg mh WA WP Z1 Z2 Z3 Z4 sp s0 k s HS H0 V)
    as (Jg & Jh & LX & LZ & LM & LG).
  rewrite <- LG in H.
  destruct (direction_ok solve P O nx s _ _ neq niq EX Jg Jh eq_refl eq_refl LX HH HD _ _ _ _ _ H LZ LM)
    as (_ & D1 & D2 & D3 & D4 & D5 & D6 & D7 & D8).
  do 4 (split; [assumption|]). split; [|auto].
  destruct (start_dims ln P O x0 A l u xmin xmax sp s0 mg mh HS H0 WA WP Z1 Z2 Z3 Z4) as (E1 & E2 & _).
  rewrite E1, E2 in H. unfold direction in H. apply bind_ok in H as (L' & HL & H).
  apply bind_ok in H as (MN & _ & H). destruct MN as (M & N). apply bind_ok in H as (Ab & _ & H).
  apply bind_ok in H as (sol & _ & H). destruct sol as [sol|]; [|discriminate].
  apply bind_ok in H as (hz & _ & H). apply bind_ok in H as (dz' & _ & H). apply bind_ok in H as (dmu' & _ & H).
  injection H as _ _ _ _ <-. destruct (p_gh P); auto.
  apply bind_ok in HL as (D & HDx & HL). injection HL as <-. exists D. split; auto.
  intros i j. unfold at_. simpl. rewrite lsum_map. simpl. rewrite <- lsum_scal_r.
  apply lsum_ext. intros t _. destruct (_ && _); ring.
Qed.

(** the next state follows that direction, shortened by one common factor: position and slacks by the
    primal step length, all multipliers by the dual one; each length is at most 1 and otherwise as long
    as it can be with every slack (multiplier) keeping the fraction 1 - xi of its value *)
Theorem C51_step sp s0 k s s' ap ad :
  start ln P O sp x0 = Ok s0 -> visited solve ln P O sp nx s0 k s ->
  iterate solve ln P O sp nx (e_ng (t_e s0)) (e_nh (t_e s0)) (length (e_g (t_e s0))) (length (e_h (t_e s0))) s
    = Ok (Some (s', ap, ad)) ->
  exists dx dlam dz dmu Lxx r,
    direction solve P O nx (e_ng (t_e s0)) (e_nh (t_e s0)) (length (e_g (t_e s0))) s
      = Ok (Some (dx, dlam, dz, dmu, Lxx)) /\
    (o_step_control O = false -> r = 1%K) /\ lt 0%K r /\ le r 1%K /\
    lt 0%K ap /\ le ap 1%K /\ lt 0%K ad /\ le ad 1%K /\
    (forall i, nth i (t_x s') 0%K = (nth i (t_x s) 0 + ap * (r * nth i dx 0))%K) /\
    (forall i, nth i (t_z s') 0%K = (nth i (t_z s) 0 + ap * (r * nth i dz 0))%K) /\
    (forall i, nth i (t_lam s') 0%K = (nth i (t_lam s) 0 + ad * (r * nth i dlam 0))%K) /\
    (forall i, nth i (t_mu s') 0%K = (nth i (t_mu s) 0 + ad * (r * nth i dmu 0))%K) /\
    (forall i, i < length (t_z s) -> le ((1 - xi) * nth i (t_z s) 0)%K (nth i (t_z s') 0%K)) /\
    (forall i, i < length (t_mu s) -> le ((1 - xi) * nth i (t_mu s) 0)%K (nth i (t_mu s') 0%K)) /\
    (ap = 1%K \/ exists i, i < length (t_z s) /\ nth i (t_z s') 0%K = ((1 - xi) * nth i (t_z s) 0)%K) /\
    (ad = 1%K \/ exists i, i < length (t_mu s) /\ nth i (t_mu s') 0%K = ((1 - xi) * nth i (t_mu s) 0)%K).
Proof.
  intros H0 V H. destruct (C27_interior sp s0 k s H0 V) as (IZ & IM & _).
  exact (step_ok solve ln P O sp nx _ _ _ _ s s' ap ad IZ IM H).
Qed.

(** ** C52 *)
(** without the restriction on fixed rows the multipliers are still non-negative *)
Theorem C52_nonnegative_partial r :
  shaped_opt nx A -> well_shaped nx mg mh P ->
  sized nx xmin -> sized nx xmax -> sized (rows_of A) l -> sized (rows_of A) u ->
  bounds_ordered nx (rows_of A) l u xmin xmax -> lt 0%K (o_cost_mult O) ->
  pips solve ln P O x0 A l u xmin xmax = Ok r ->
  let m := r_lmbda r in
  Forall (le 0%K) (m_mu_l m) /\ Forall (le 0%K) (m_mu_u m) /\
  Forall (le 0%K) (m_lower m) /\ Forall (le 0%K) (m_upper m) /\ Forall (le 0%K) (m_ineqnonlin m).
Proof.
  intros WA WP Z1 Z2 Z3 Z4 OB CP H m.
  destruct (result_ok solve ln P O x0 A l u xmin xmax mg mh WA WP Z1 Z2 Z3 Z4 r H OB)
    as (sp & f & df & hn & gn & dhn & dgn & lam & mu & mu0 & z & h & Lx & _ & _ & _ & _ & _ & _ & _ & _ & _ & _
        & _ & _ & B3 & _). exact (B3 CP).
Qed.
End Theorems.

(** ** Examples *)
Definition x1 (x : list Qc) : Qc := nth 0 x (zc 0).
Definition x2 (x : list Qc) : Qc := nth 1 x (zc 0).
(** minimise x1^2 + x2^2 subject to x1^2 = x2, x1 x2 >= 1, x1 + x2 >= 2, 0 <= x1 <= 10 *)
Definition ex_P : problem (K := Qc) := Problem
  (fun x => Ok (x1 x * x1 x + x2 x * x2 x, [zc 2 * x1 x; zc 2 * x2 x])%Qc)
  (fun x => Ok (eyem 2))
  (Some (fun x => Ok ([zc 1 - x1 x * x2 x]%Qc, [x1 x * x1 x - x2 x]%Qc,
      Some (SM 2 1 [Ent 0 0 (- x2 x)%Qc; Ent 1 0 (- x1 x)%Qc]),
      Some (SM 2 1 [Ent 0 0 (zc 2 * x1 x)%Qc; Ent 1 0 (zc (-1))]))))
  (fun x lam mu c => let l := nth 0 lam (zc 0) in let m := nth 0 mu (zc 0) in
     Ok (SM 2 2 [Ent 0 0 (zc 2 * c + zc 2 * l)%Qc; Ent 1 1 (zc 2 * c)%Qc; Ent 0 1 (- m)%Qc; Ent 1 0 (- m)%Qc])).
Definition half : Qc := (zc 1 / zc 2)%Qc.
Definition ex_O (n : nat) (sc : bool) : popt := POpt half half half half n sc 3 (zc 2).
Definition ex_A : option (smat Qc) := Some (SM 1 2 [Ent 0 0 (zc 1); Ent 0 1 (zc 1)]).
Definition ex_x : list Qc := [zc 1; zc 1].
Definition ex_lo : list (ext Qc) := [EFin (zc 0); ENeg].
Definition ex_up : list (ext Qc) := [EFin (zc 10); EPos].
Definition ex_run n sc x0 :=
  pips solveQ (fun a => a) ex_P (ex_O n sc) x0 ex_A [EFin (zc 2)] [] ex_lo ex_up.
(** thousandths, rounded down *)
Definition mil (a : Qc) : Z := Z.div (Qnum (this a) * 1000) (Zpos (Qden (this a))).
Definition show (r : result solution) :=
  match r with
  | Ok r => let m := r_lmbda r in
      Some (r_eflag r, r_iterations r, r_message r,
            map mil (r_f r :: r_x r), (map mil (m_lower m), map mil (m_upper m)),
            (map mil (m_mu_l m), map mil (m_mu_u m)), (map mil (m_eqnonlin m), map mil (m_ineqnonlin m)))
  | Err _ => None
  end.
(** hypotheses of the theorems *)
Example ex_shaped : shaped_opt 2 ex_A.
Proof. split; [reflexivity|]. split; [reflexivity|]. repeat constructor. Qed.
Example ex_sized : sized 2 ex_lo /\ sized 2 ex_up /\ sized (rows_of ex_A) [EFin (zc 2)] /\ sized (K := Qc) (rows_of ex_A) [].
Proof. repeat split; try (right; reflexivity); left; reflexivity. Qed.
Example ex_ordered : bounds_ordered 2 (rows_of ex_A) [EFin (zc 2)] [] ex_lo ex_up.
Proof.
  split.
  - intros [|[|j]] H; [vm_compute; reflexivity|exact I|lia].
  - intros [|i] H; [exact I|simpl in H; lia].
Qed.
Example ex_modest : (forall j, j < 2 -> modest (lower ex_lo j) (upper ex_up j)) /\
  (forall i, i < rows_of ex_A -> modest (lower [EFin (zc 2)] i) (upper (K := Qc) [] i)).
Proof.
  split.
  - intros [|[|j]] H; [|intros []|lia]. intros _. split; intros C; vm_compute in C; discriminate.
  - intros [|i] H; [intros []|simpl in H; lia].
Qed.
Example ex_well_shaped : well_shaped 2 1 1 ex_P.
Proof.
  constructor.
  - intros x f df _ H. injection H as <- <-. reflexivity.
  - intros x hn gn dhn dgn _ H. injection H as <- <- <- <-. split; [reflexivity|]. split; [reflexivity|].
    split; (split; [reflexivity|split; [reflexivity|]]); simpl; repeat constructor.
Qed.
Example ex_hess : forall x lam mu M, p_hess ex_P x lam mu (zc 2) = Ok M -> shaped 2 2 M.
Proof. intros x lam mu M H. injection H as <-. split; [reflexivity|]. split; [reflexivity|]. repeat constructor. Qed.
Example ex_d2f : forall x M, p_d2f ex_P x = Ok M -> shaped 2 2 M.
Proof. intros x M H. injection H as <-. split; [reflexivity|]. split; [reflexivity|]. repeat constructor. Qed.

Lemma solveQ_exact : sparse_exact solveQ.
Proof.
  intros M b x H. unfold solveQ in H.
  set (y := map _ (jordan _ _ _ _)) in H. clearbody y.
  destruct (_ && _) eqn:E in H; [|discriminate]. injection H as <-.
  apply andb_true_iff in E as (E1 & E2). apply andb_true_iff in E1 as (E0 & E1).
  apply Nat.eqb_eq in E0, E1. split; auto. split; auto.
  intros i Hi. rewrite forallb_forall in E2. unfold row_val. apply qc_eqb_eq. apply E2. apply in_seq. lia.
Qed.

(** splitting: a fixed variable, a box, one-sided and absent bounds; the bounds of 1e10 are absent *)
Definition sp_lo : list (ext Qc) := [EFin (zc 3); EFin (zc 0); EFin (zc (-10000000000)); ENeg; EFin (zc 4)].
Definition sp_up : list (ext Qc) := [EFin (zc 3); EFin (zc 10); EFin (zc 7); EPos; EFin (zc 10000000000)].
Example C26_example_split :
  match split_bounds 5 None [] [] sp_lo sp_up with
  | Ok sp => (s_ieq sp, s_ilt sp, s_igt sp, s_ibx sp, map this (s_be sp), map this (s_bi sp))
             = ([0], [2], [4], [1], map this [zc 3], map this [zc 7; zc (-4); zc 10; zc 0])
  | Err _ => False
  end.
Proof. vm_compute. reflexivity. Qed.
(** values at a feasible point (2, 4) and an infeasible one (0, 1) *)
Example C26_example_values :
  match split_bounds 2 ex_A [EFin (zc 2)] [] ex_lo ex_up with
  | Ok sp =>
      match eval ex_P (ex_O 5 false) sp None [zc 2; zc 4], eval ex_P (ex_O 5 false) sp None [zc 0; zc 1] with
      | Ok e, Ok e' =>
          (map this (e_g e), map this (e_h e)) = (map this [zc 0], map this [zc (-7); zc (-4); zc (-8); zc (-2)]) /\
          (map this (e_g e'), map this (e_h e')) = (map this [zc (-1)], map this [zc 1; zc 1; zc (-10); zc 0])
      | _, _ => False
      end
  | Err _ => False
  end.
Proof. vm_compute. auto. Qed.

(** two iterations to the optimum at (1, 1), with the multipliers of the row and the nonlinear
    inequality; one iteration is not enough; a solver that only returns NaNs *)
Example C28_example : show (ex_run 2 false ex_x) =
  Some (true, 2, Converged, [2054; 1009; 1017]%Z, ([35; 0], [3; 0])%Z, ([1000], [0])%Z, ([21], [1004])%Z).
Proof. vm_compute. reflexivity. Qed.
Example C28_example_limit : show (ex_run 1 false ex_x) =
  Some (false, 1, Limit, [2155; 1025; 1050]%Z, ([487; 0], [56; 0])%Z, ([962], [0])%Z, ([164], [962])%Z).
Proof. vm_compute. reflexivity. Qed.
Example C28_example_nan :
  show (pips (fun _ _ => Ok None) (fun a => a) ex_P (ex_O 7 false) ex_x ex_A [EFin (zc 2)] [] ex_lo ex_up) =
  Some (false, 1, Failed, [2000; 1000; 1000]%Z, ([500; 0], [500; 0])%Z, ([500], [0])%Z, ([0], [500])%Z).
Proof. vm_compute. reflexivity. Qed.
Example C29_example : match ex_run 2 false ex_x with Ok _ => True | Err _ => False end /\ lt (zc 0) (zc 2).
Proof. split; vm_compute; auto. Qed.

(** the first direction *)
Example C51_example :
  match split_bounds 2 ex_A [EFin (zc 2)] [] ex_lo ex_up with
  | Ok sp =>
      match start (fun a => a) ex_P (ex_O 5 false) sp ex_x with
      | Ok s => match direction solveQ ex_P (ex_O 5 false) 2 1 1 1 s with
                | Ok (Some (dx, dlam, dz, dmu, _)) => (length dx, length dlam, length dz, length dmu) = (2, 1, 4, 4)
                | _ => False
                end
      | Err _ => False
      end
  | Err _ => False
  end.
Proof. vm_compute. reflexivity. Qed.

(** minimise x^4 subject to x^3 = x: a full step overshoots *)
Definition cub_P : problem (K := Qc) := Problem
  (fun x => let a := x1 x in Ok (a * a * a * a, [zc 4 * a * a * a])%Qc)
  (fun x => Ok (SM 1 1 [Ent 0 0 (zc 12 * x1 x * x1 x)%Qc]))
  (Some (fun x => let a := x1 x in Ok ([], [a * a * a - a]%Qc, None, Some (SM 1 1 [Ent 0 0 (zc 3 * a * a - zc 1)%Qc]))))
  (fun x lam mu c => let l := nth 0 lam (zc 0) in
     Ok (SM 1 1 [Ent 0 0 (zc 12 * x1 x * x1 x * c + l * zc 6 * x1 x)%Qc])).
Definition sixth : Qc := (zc 6 / zc 10)%Qc.
Definition cub_run sc n red := pips solveQ (fun a => a) cub_P (POpt half half half half n sc red (zc 1)) [sixth] None [] [] [] [].
Example C27_example_control : show (cub_run true 1 20) =
  Some (true, 1, Converged, [316; 750]%Z, ([0], [0])%Z, ([], []), ([-8438]%Z, [])).
Proof. vm_compute. reflexivity. Qed.
Example C27_example_control_short : show (cub_run true 1 2) =
  Some (false, 1, Limit, [10497; 1800]%Z, ([0], [0])%Z, ([], []), ([-67500]%Z, [])).
Proof. vm_compute. reflexivity. Qed.
Example C27_example_no_control : show (cub_run false 1 20) =
  Some (false, 1, Limit, [850305; 5400]%Z, ([0], [0])%Z, ([], []), ([-270000]%Z, [])).
Proof. vm_compute. reflexivity. Qed.

(** fixed at 1e10 *)
Definition big_P : problem (K := Qc) := Problem (fun x => Ok (x1 x, [zc 1])) (fun x => Ok (SM 1 1 [Ent 0 0 (zc 1)])) None
  (fun _ _ _ _ => Err TypeError).
Definition big_b : list (ext Qc) := [EFin (zc 10000000000)].
Definition big_run n := pips solveQ (fun a => a) big_P (POpt half half half half n false 3 (zc 1)) [zc 0] None [] [] big_b big_b.
Definition big_O : popt := POpt half half half half 1 false 3 (zc 1).
Definition big_check : bool :=
  match split_bounds 1 None [] [] big_b big_b with
  | Ok sp =>
      match pips_run solveQ (fun a => a) big_P big_O sp 1 [zc 0], big_run 1 with
      | Ok (s, i, o), Ok r =>
          match clean_mu half (e_h (t_e s)) (t_mu s) with
          | Ok mu0 => negb (qc_eqb (nth 0 (m_upper (r_lmbda r)) 0 - nth 0 (m_lower (r_lmbda r)) 0)%K
                              (row_mult sp 0 0 (t_lam s) mu0 0 / zc 1)%K)
          | Err _ => false
          end
      | _, _ => false
      end
  | Err _ => false
  end.
(** a variable fixed at 1e10: the lower multiplier of the equality is overwritten by that of the
    one-sided bound, so upper minus lower is not the multiplier in the Lagrangian *)
Theorem C52_fixed_at_huge_refuted :
  exists (P : problem) (O : popt) x0 b sp s i o mu0 r,
    well_shaped 1 0 0 P /\ bounds_ordered (K := Qc) 1 0 [] [] b b /\ lt 0%K (o_cost_mult O) /\
    sized 1 b /\
    split_bounds 1 None [] [] b b = Ok sp /\ pips_run solveQ (fun a => a) P O sp 1 x0 = Ok (s, i, o) /\
    clean_mu (o_feastol O) (e_h (t_e s)) (t_mu s) = Ok mu0 /\
    pips solveQ (fun a => a) P O x0 None [] [] b b = Ok r /\ r_x r = t_x s /\
    (nth 0 (m_upper (r_lmbda r)) 0 - nth 0 (m_lower (r_lmbda r)) 0)%K
      <> (row_mult sp 0 0 (t_lam s) mu0 0 / o_cost_mult O)%K.
Proof.
  assert (big_check = true) as C by (vm_compute; reflexivity). unfold big_check in C.
  destruct (split_bounds 1 None [] [] big_b big_b) as [sp|] eqn:E1; [|discriminate].
  destruct (pips_run _ _ _ _ _ _ _) as [((s & i) & o)|] eqn:E2; [|discriminate].
  destruct (big_run 1) as [r|] eqn:E3; [|discriminate].
  destruct (clean_mu _ _ _) as [mu0|] eqn:E4; [|discriminate].
  exists big_P, big_O, [zc 0], big_b, sp, s, i, o, mu0, r.
  split. { constructor; [intros x f df _ H; injection H as <- <-; reflexivity|].
    intros x hn gn dhn dgn _ (-> & -> & -> & ->). repeat split. }
  split. { split; [|intros j H; lia]. intros [|j] H; [vm_compute; reflexivity|lia]. }
  split; [vm_compute; reflexivity|]. split; [right; reflexivity|].
  split; auto. split; auto. split; auto. split; auto. split.
  - unfold big_run, pips in E3. simpl length in E3. rewrite E1 in E3. cbn [bind] in E3.
    apply bind_ok in E3 as (s0 & _ & E3). change (POpt half half half half 1 false 3 (zc 1)) with big_O in E3.
    rewrite E2 in E3. cbn [bind] in E3. apply package_ok in E3. tauto.
  - intros Q. apply negb_true_iff in C. change (o_cost_mult big_O) with (zc 1) in Q.
    rewrite Q in C. assert (qc_eqb (row_mult sp 0 0 (t_lam s) mu0 0 / zc 1)%K (row_mult sp 0 0 (t_lam s) mu0 0 / zc 1)%K = true)
      by (apply qc_eqb_eq; reflexivity). congruence.
Qed.
Example C52_example : show (big_run 1) =
  Some (false, 1, Limit, [9999500000000; 9999500000000]%Z, ([2000], [0])%Z, ([], []), ([], [])).
Proof. vm_compute. reflexivity. Qed.

Print Assumptions C26_feasible_set.
Print Assumptions C26_total.
Print Assumptions C27_interior.
Print Assumptions C27_terminates.
Print Assumptions C27_step_control.
Print Assumptions C28_success.
Print Assumptions C28_failure.
Print Assumptions C28_not_converged.
Print Assumptions C29_multipliers.
Print Assumptions C51_newton_direction.
Print Assumptions C51_step.
Print Assumptions C52_nonnegative_partial.
Print Assumptions C52_fixed_at_huge_refuted.
