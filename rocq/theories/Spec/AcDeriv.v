(** Partial derivatives of complex functions of bus voltage magnitudes and angles. *)
From Coq Require Export Reals.
From Verif Require Export Lib.Sparse.
Local Open Scope nat_scope.

(** voltage magnitudes and angles (radians), one per bus *)
Record state := St { mag : list R; ang : list R }.
(** the complex voltages *)
Definition volt (s : state) : list (cpx R) :=
  map2 (fun m a => Cx (m * cos a)%R (m * sin a)%R) (mag s) (ang s).
(** [n] buses, every magnitude positive *)
Definition ok (n : nat) (s : state) : Prop :=
  length (mag s) = n /\ length (ang s) = n /\ Forall (fun m => (0 < m)%R) (mag s).

Inductive coord := Ang | Mag.
Definition coord_get (c : coord) (k : nat) (s : state) : R :=
  match c with Ang => nth k (ang s) 0%R | Mag => nth k (mag s) 0%R end.
Definition coord_set (c : coord) (k : nat) (s : state) (t : R) : state :=
  match c with
  | Ang => St (mag s) (upd (ang s) k t)
  | Mag => St (upd (mag s) k t) (ang s)
  end.

(** derivative of a complex function of a real variable *)
Definition cderiv (f : R -> cpx R) (t : R) (d : cpx R) : Prop :=
  derivable_pt_lim (fun x => re (f x)) t (re d) /\ derivable_pt_lim (fun x => im (f x)) t (im d).

(** [d] is the partial derivative of [f] at [s] in coordinate [c], bus [k] *)
Definition partial (c : coord) (k : nat) (f : state -> cpx R) (s : state) (d : cpx R) : Prop :=
  cderiv (fun t => f (coord_set c k s t)) (coord_get c k s) d.
Definition partialR (c : coord) (k : nat) (f : state -> R) (s : state) (d : R) : Prop :=
  derivable_pt_lim (fun t => f (coord_set c k s t)) (coord_get c k s) d.

(** [h] is the second partial derivative: first in [(c, k)], giving a function [g] on all states
    with positive magnitudes, then in [(c', m)] at [s] *)
Definition partial2 (n : nat) (c : coord) (k : nat) (c' : coord) (m : nat)
  (f : state -> cpx R) (s : state) (h : cpx R) : Prop :=
  exists g, (forall s', ok n s' -> partial c k f s' (g s')) /\ partial c' m g s h.
Definition partial2R (n : nat) (c : coord) (k : nat) (c' : coord) (m : nat)
  (f : state -> R) (s : state) (h : R) : Prop :=
  exists g, (forall s', ok n s' -> partialR c k f s' (g s')) /\ partialR c' m g s h.

(** absolute value of a complex number *)
Definition cabsR (z : cpx R) : R := sqrt (nrm2 z).

(** current number [l] given by admittances [Y], and the power it carries away from bus [i] *)
Definition current (Y : smat (cpx R)) (l : nat) (s : state) : cpx R :=
  lsum (fun k => at_ Y l k * nth k (volt s) 0)%K (seq 0 (ncols Y)).
Definition power (Y : smat (cpx R)) (i l : nat) (s : state) : cpx R :=
  (nth i (volt s) 0 * conj (current Y l s))%K.
(** weighted sums of [n] quantities *)
Definition weighted (lam : list (cpx R)) (n : nat) (q : nat -> state -> cpx R) (s : state) : cpx R :=
  lsum (fun l => nth l lam 0 * q l s)%K (seq 0 n).
Definition weightedR (lam : list R) (n : nat) (q : nat -> state -> R) (s : state) : R :=
  lsum (fun l => nth l lam 0 * q l s)%K (seq 0 n).

(** a sparse matrix of the given shape: stored positions lie within it *)
Definition shaped {K} (M : smat K) (nr nc : nat) : Prop :=
  nrows M = nr /\ ncols M = nc /\ Forall (fun e => erow e < nr /\ ecol e < nc) (ents M).
