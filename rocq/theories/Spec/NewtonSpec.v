(** The power flow equations as real functions of the voltage angles and magnitudes, and linear solves. *)
From Verif Require Export Spec.AcDeriv.
Local Open Scope nat_scope.

Inductive part := Act | React.
Definition part_of (p : part) (z : cpx R) : R := match p with Act => re z | React => im z end.

(** active power at the PV and PQ buses, reactive power at the PQ buses *)
Definition eqns (pv pq : list nat) : list (part * nat) := map (pair Act) (pv ++ pq) ++ map (pair React) pq.
(** angles at the PV and PQ buses, magnitudes at the PQ buses *)
Definition unks (pv pq : list nat) : list (coord * nat) := map (pair Ang) (pv ++ pq) ++ map (pair Mag) pq.
(** mismatch against the injections [S] *)
Definition eqn (Y : smat (cpx R)) (S : list (cpx R)) (e : part * nat) (s : state) : R :=
  part_of (fst e) (power Y (snd e) (snd e) s - nth (snd e) S 0)%K.

Definition value (u : coord * nat) (s : state) : R := coord_get (fst u) (snd u) s.
(** [d] is the partial derivative of [f] in [u] at [s] *)
Definition slope (u : coord * nat) (f : state -> R) (s : state) (d : R) : Prop := partialR (fst u) (snd u) f s d.

(** [x] solves the square system [A x = b] given by rows *)
Definition solves (A : list (list R)) (b x : list R) : Prop :=
  length x = length b /\
  forall r row, nth_error A r = Some row -> lsum (fun c => nth c row 0 * nth c x 0)%K (seq 0 (length x)) = nth r b 0%R.
