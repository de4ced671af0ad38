(** Vocabulary about runs of the interior point solver: well-shaped problems, the constraint rows
    behind each multiplier, the states a run passes through. *)
From Verif Require Export Model.Pips Spec.PipsSpec.

Section PipsRun.
Context {K : Type} {F : Fld K}.
Local Open Scope nat_scope.

(** values and transposed Jacobians of the nonlinear constraints at x; none without a callback *)
Definition nonlinear_at (P : problem) (x hn gn : list K) (dhn dgn : option (smat K)) : Prop :=
  match p_gh P with
  | None => hn = [] /\ gn = [] /\ dhn = None /\ dgn = None
  | Some gh => gh x = Ok (hn, gn, dhn, dgn)
  end.

(** callbacks with a fixed number of constraints and matching Jacobians, at points of [nx] variables *)
Record well_shaped (nx mg mh : nat) (P : problem (K := K)) : Prop := WS {
  ws_f : forall x f df, length x = nx -> p_f P x = Ok (f, df) -> length df = nx;
  ws_gh : forall x hn gn dhn dgn, length x = nx -> nonlinear_at P x hn gn dhn dgn ->
    length hn = mh /\ length gn = mg /\ jacobian nx mh dhn /\ jacobian nx mg dgn }.

(** the rows (variable bounds first, then linear constraints) behind the linear equalities and
    inequalities, with the sign of each *)
Definition tagged (s : K) (idx : list nat) : list (nat * K) := map (fun q => (q, s)) idx.
Definition eq_rows (sp : Pips.split (K := K)) : list (nat * K) := tagged 1%K (s_ieq sp).
Definition iq_rows (sp : Pips.split (K := K)) : list (nat * K) :=
  tagged 1%K (s_ilt sp) ++ tagged (ropp 1%K) (s_igt sp) ++ tagged 1%K (s_ibx sp) ++ tagged (ropp 1%K) (s_ibx sp).
(** the signed multiplier of row p: the first [mg] and [mh] multipliers are nonlinear ones *)
Definition row_mult (sp : Pips.split (K := K)) (mg mh : nat) (lam mu : list K) (p : nat) : K :=
  (signed (eq_rows sp) (skipn mg lam) p + signed (iq_rows sp) (skipn mh mu) p)%K.
(** the sum over the rows of the coefficient of variable j times a multiplier *)
Definition pull_rows (nx : nat) (A : option (smat K)) (sg : nat -> K) (j : nat) : K :=
  (sg j + lsum (fun i => (match A with Some M => at_ M i j | None => 0%K end) * sg (nx + i)%nat)%K
            (seq 0 (rows_of A)))%K.

(** small multipliers that are dropped: at most 1e-5 for an inequality, none for an equality or
    without a bound *)
Definition clean_tol : K := (1 / fofZ 100000)%K.
Definition cut_of (lo up : ext K) : K :=
  match lo, up with
  | EFin a, EFin b => if fltb eps_ (fabs (b - a)%K) then clean_tol else 0%K
  | ENeg, EPos => 0%K
  | _, _ => clean_tol
  end.
(** sum of the sizes of the derivatives by variable j *)
Definition abs_pull (d : option (smat K)) (n j : nat) : K :=
  match d with Some M => lsum (fun i => fabs (at_ M j i)) (seq 0 n) | None => 0%K end.

(** multipliers below 1e-5 of constraints that hold with a margin are set to zero *)
Definition cleaned (tol : K) (h mu mu0 : list K) : Prop :=
  length mu0 = length mu /\ length h = length mu /\
  forall i, i < length mu -> nth i mu0 0%K = nth i mu 0%K \/
    (nth i mu0 0%K = 0%K /\ lt (nth i h 0%K) (- tol)%K /\ lt (nth i mu 0%K) (1 / fofZ 100000)%K).

(** the states reached from s0, whether or not the loop would have stopped before *)
Variable solve : smat K -> list K -> result (option (list K)).
Variable ln : K -> K.
Variables (P : problem (K := K)) (O : popt (K := K)) (sp : Pips.split (K := K)) (nx : nat).
Definition step_from (s0 s : @Pips.state K) : result (option (@Pips.state K * K * K)) :=
  iterate solve ln P O sp nx (e_ng (t_e s0)) (e_nh (t_e s0)) (length (e_g (t_e s0)))
    (length (e_h (t_e s0))) s.
Inductive visited (s0 : @Pips.state K) : nat -> @Pips.state K -> Prop :=
| visited_start : visited s0 0 s0
| visited_step i s s' ap ad : visited s0 i s -> step_from s0 s = Ok (Some (s', ap, ad)) ->
    visited s0 (S i) s'.
End PipsRun.
