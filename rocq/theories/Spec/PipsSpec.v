(** Constrained optimisation problems, as the interior point solver's documentation states them:
    nonlinear equalities and inequalities, l <= A x <= u and xmin <= x <= xmax. *)
From Verif Require Export Lib.Ext Spec.PfSpec.

Section PipsSpec.
Context {K : Type} {F : Fld K}.
Local Open Scope nat_scope.

Definition lt (a b : K) : Prop := fltb a b = true.
Definition le (a b : K) : Prop := fltb b a = false.

(** machine epsilon and the magnitude from which a bound counts as absent *)
Definition eps_ : K := (1 / fofZ 4503599627370496)%K.
Definition huge : K := fofZ 10000000000.

(** v respects the bounds; bounds of magnitude [huge] mean unbounded, bounds closer than machine
    epsilon mean equality *)
Definition lower_ok (lo : ext K) (v : K) : Prop :=
  match lo with EFin a => le a (- huge)%K \/ le a v | ENeg => True | EPos => False end.
Definition upper_ok (up : ext K) (v : K) : Prop :=
  match up with EFin a => le huge a \/ le v a | EPos => True | ENeg => False end.
Definition tight (lo up : ext K) : Prop :=
  match lo, up with EFin a, EFin b => le (fabs (b - a)%K) eps_ | _, _ => False end.
Definition meets (lo up : ext K) (v : K) : Prop :=
  (tight lo up /\ up = EFin v) \/ (~ tight lo up /\ lower_ok lo v /\ upper_ok up v).
(** the same up to a violation of less than t *)
Definition lower_to (t : K) (lo : ext K) (v : K) : Prop :=
  match lo with EFin a => le a (- huge)%K \/ lt a (v + t)%K | ENeg => True | EPos => False end.
Definition upper_to (t : K) (up : ext K) (v : K) : Prop :=
  match up with EFin a => le huge a \/ lt v (a + t)%K | EPos => True | ENeg => False end.
Definition meets_to (t : K) (lo up : ext K) (v : K) : Prop :=
  (tight lo up /\ exists b, up = EFin b /\ lt (fabs (v - b)%K) t) \/
  (~ tight lo up /\ lower_to t lo v /\ upper_to t up v).
(** a lower bound does not exceed its upper bound *)
Definition ordered (lo up : ext K) : Prop :=
  match lo, up with
  | EFin a, EFin b => le a b
  | EPos, _ | _, ENeg => False
  | _, _ => True
  end.

(** a bound that counts as absent *)
Definition unb_up (u : ext K) : Prop := match u with EFin a => le huge a | EPos => True | ENeg => False end.
Definition unb_lo (u : ext K) : Prop := match u with EFin a => le a (- huge)%K | ENeg => True | EPos => False end.
(** bounds that are not at once an equality and absent *)
Definition modest (lo up : ext K) : Prop := tight lo up -> ~ unb_lo lo /\ ~ unb_up up.

(** bounds given as a vector of the right length or omitted *)
Definition sized (n : nat) (b : list (ext K)) : Prop := b = [] \/ length b = n.
Definition bound (d : ext K) (b : list (ext K)) (i : nat) : ext K :=
  match b with [] => d | _ => nth i b d end.
Definition lower (b : list (ext K)) (i : nat) : ext K := bound ENeg b i.
Definition upper (b : list (ext K)) (i : nat) : ext K := bound EPos b i.

(** a constraint matrix over [nx] variables, possibly absent *)
Definition shaped (nr nc : nat) (M : smat K) : Prop :=
  nrows M = nr /\ ncols M = nc /\ Forall (fun e => erow e < nr /\ ecol e < nc) (ents M).
Definition rows_of (A : option (smat K)) : nat := match A with Some M => nrows M | None => 0 end.
Definition shaped_opt (nx : nat) (A : option (smat K)) : Prop :=
  match A with Some M => shaped (nrows M) nx M | None => True end.
(** row i of M x *)
Definition row_val (M : smat K) (x : list K) (i : nat) : K :=
  lsum (fun j => at_ M i j * nth j x 0)%K (seq 0 (ncols M)).
Definition lin_val (A : option (smat K)) (x : list K) (i : nat) : K :=
  match A with Some M => row_val M x i | None => 0%K end.

(** the linear constraints and variable bounds of the problem hold at x *)
Definition linear_ok (nx : nat) (A : option (smat K)) (l u xmin xmax : list (ext K)) (x : list K)
  : Prop :=
  (forall j, j < nx -> meets (lower xmin j) (upper xmax j) (nth j x 0%K)) /\
  (forall i, i < rows_of A -> meets (lower l i) (upper u i) (lin_val A x i)).
Definition linear_to (t : K) (nx : nat) (A : option (smat K)) (l u xmin xmax : list (ext K))
    (x : list K) : Prop :=
  (forall j, j < nx -> meets_to t (lower xmin j) (upper xmax j) (nth j x 0%K)) /\
  (forall i, i < rows_of A -> meets_to t (lower l i) (upper u i) (lin_val A x i)).
Definition bounds_ordered (nx nA : nat) (l u xmin xmax : list (ext K)) : Prop :=
  (forall j, j < nx -> ordered (lower xmin j) (upper xmax j)) /\
  (forall i, i < nA -> ordered (lower l i) (upper u i)).
End PipsSpec.

(** ** termination conditions *)
Section Termination.
Context {K : Type} {F : Fld K}.

(** n is the largest absolute value of the entries of v; zero if there are none *)
Definition is_norm (v : list K) (n : K) : Prop :=
  (v = [] /\ n = 0%K) \/
  ((exists a, In a v /\ n = fabs a) /\ forall a, In a v -> le (fabs a) n).

(** the four conditions, for constraint values g = 0, h <= 0, slacks z, multipliers lam, mu and
    gradient Lx of the Lagrangian; f0 is the previous cost *)
Definition feasible_to (tol : K) (g h x z : list K) : Prop :=
  forall xn zn, is_norm x xn -> is_norm z zn -> exists s, (s = xn \/ s = zn) /\
    Forall (fun a => lt (fabs a) (tol * (1 + s))%K) g /\ Forall (fun a => lt a (tol * (1 + s))%K) h.
Definition stationary_to (tol : K) (Lx lam mu : list K) : Prop :=
  forall ln mn, is_norm lam ln -> is_norm mu mn -> exists s, (s = ln \/ s = mn) /\
    Forall (fun a => lt (fabs a) (tol * (1 + s))%K) Lx.
Definition complementary_to (tol : K) (x z mu : list K) : Prop :=
  forall xn, is_norm x xn -> lt (inner z mu) (tol * (1 + xn))%K.
Definition cost_settled (tol f f0 : K) : Prop :=
  lt (fabs (f - f0)%K) (tol * (1 + fabs f0))%K.
End Termination.

(** ** multipliers *)
Section Multipliers.
Context {K : Type} {F : Fld K}.
Local Open Scope nat_scope.

(** a list of one-sided constraints, each given by the original row it comes from and its sign *)
Definition signed (L : list (nat * K)) (w : list K) (p : nat) : K :=
  lsum (fun t => if fst (fst t) =? p then (snd (fst t) * snd t)%K else 0%K) (combine L w).

(** transposed Jacobian of [m] constraints in [nx] variables; it may be omitted if there are none *)
Definition jacobian (nx m : nat) (d : option (smat K)) : Prop :=
  match d with Some M => shaped nx m M | None => m = 0 end.
(** sum over the constraints of derivative j times multiplier *)
Definition pull (d : option (smat K)) (w : list K) (j : nat) : K := lin_val d w j.
End Multipliers.

(** ** Newton steps *)
Section Newton.
Context {K : Type} {F : Fld K}.
Local Open Scope nat_scope.

(** a sparse solver whose answers are exact solutions; it may fail or return NaNs (None) *)
Definition sparse_exact (solve : smat K -> list K -> result (option (list K))) : Prop :=
  forall M b x, solve M b = Ok (Some x) ->
    length x = ncols M /\ length b = nrows M /\
    forall i, i < nrows M -> row_val M x i = nth i b 0%K.
(** sum over the variables of derivative times step, for constraint i *)
Definition push (d : option (smat K)) (x : list K) (i : nat) : K :=
  match d with
  | Some M => lsum (fun j => at_ M j i * nth j x 0)%K (seq 0 (nrows M))
  | None => 0%K
  end.
End Newton.
