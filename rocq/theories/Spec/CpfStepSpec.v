(** Continuation power flow over the reals: the parameterization equation as a function of the unknown
    angles, magnitudes and lambda. *)
From Verif Require Export Spec.NewtonSpec Spec.CpfSpec.
Local Open Scope nat_scope.

(** a function that recovers angles strictly between -pi and pi *)
Definition angle_fn (cang : cpx R -> R) : Prop :=
  forall m a, (0 < m)%R -> (- PI < a < PI)%R -> cang (Cx (m * cos a) (m * sin a))%R = a.
(** [n] buses with positive magnitudes and angles strictly between -pi and pi *)
Definition principal (n : nat) (s : state) : Prop :=
  ok n s /\ Forall (fun a => (- PI < a < PI)%R) (ang s).

(** place of an unknown in the tangent vector: angles first, then magnitudes, lambda last *)
Definition place (n : nat) (u : coord * nat) : nat := match fst u with Ang => snd u | Mag => n + snd u end.

(** natural, arc length and pseudo arc length parameterization, relative to the point [(s0, lam0)] *)
Definition param (par : nat) (step : R) (z : list R) (n : nat) (pv pq : list nat) (s0 : state) (lam0 : R)
    (s : state) (lam : R) : R :=
  match par with
  | 1 => (Rabs (lam - lam0) - step)%R
  | 2 => (lsum (fun u => (value u s - value u s0) * (value u s - value u s0))%R (unks pv pq)
          + (lam - lam0) * (lam - lam0) - step * step)%R
  | _ => (lsum (fun u => nth (place n u) z 0 * (value u s - value u s0))%R (unks pv pq)
          + nth (2 * n) z 0 * (lam - lam0) - step)%R
  end.

(** mismatch of equation [e] at lambda *)
Definition balance (Y : smat (cpx R)) (Sb Sx : list (cpx R)) (e : part * nat) (s : state) (lam : R) : R :=
  eqn Y (inj lam Sb Sx) e s.
