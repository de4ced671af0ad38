(** What it means for voltages to solve the power flow equations. *)
From Verif Require Export Spec.NetSpec.

Section PfSpec.
Context {K : Type} {F : Fld K}.
Local Open Scope nat_scope.

(** current and power injected at bus [i] into the network with admittances [Y] *)
Definition bus_current (Y : smat (cpx K)) (V : list (cpx K)) (i : nat) : cpx K :=
  lsum (fun j => at_ Y i j * nth j V 0)%K (seq 0 (ncols Y)).
Definition bus_power (Y : smat (cpx K)) (V : list (cpx K)) (i : nat) : cpx K :=
  (nth i V 0 * conj (bus_current Y V i))%K.
(** excess over the specified injection *)
Definition excess (Y : smat (cpx K)) (S V : list (cpx K)) (i : nat) : cpx K :=
  (bus_power Y V i - nth i S 0)%K.

Definition within (tol a : K) : Prop := fltb (fabs a) tol = true.

(** active power to within [tol i] at the PV and PQ buses, reactive power at the PQ buses *)
Definition solved_by (tol : nat -> K) (Y : smat (cpx K)) (S V : list (cpx K)) (pv pq : list nat)
  : Prop :=
  (forall i, In i (pv ++ pq) -> within (tol i) (re (excess Y S V i))) /\
  (forall i, In i pq -> within (tol i) (im (excess Y S V i))).

(** a matrix of the given shape whose stored positions lie within it *)
Definition fits (nr nc : nat) (Y : smat (cpx K)) : Prop :=
  nrows Y = nr /\ ncols Y = nc /\ Forall (fun e => erow e < nr /\ ecol e < nc) (ents Y).
Definition square (n : nat) (Y : smat (cpx K)) : Prop := fits n n Y.

(** power the generators at bus [i] must deliver: injection in MW / MVAr plus local load *)
Definition required_p (baseMVA : K) (Y : smat (cpx K)) (V : list (cpx K)) (bus : list (list K))
    (i : nat) : K := (re (bus_power Y V i) * baseMVA + cell (nth i bus []) PD)%K.
Definition required_q (baseMVA : K) (Y : smat (cpx K)) (V : list (cpx K)) (bus : list (list K))
    (i : nat) : K := (im (bus_power Y V i) * baseMVA + cell (nth i bus []) QD)%K.

(** number of in-service generators, in all and at bus [i] *)
Definition gens_on (gen : list (list K)) : nat := length (filter in_service gen).
Definition gens_at (gen : list (list K)) (i : nat) : nat :=
  length (filter (fun g => in_service g && (bus_no g GEN_BUS =? i)) gen).
(** [k] is the first in-service generator at bus [i] *)
Definition first_at (gen : list (list K)) (i k : nat) : Prop :=
  (exists g, nth_error gen k = Some g /\ in_service g = true /\ bus_no g GEN_BUS = i) /\
  forall k' h, k' < k -> nth_error gen k' = Some h -> in_service h = true -> bus_no h GEN_BUS <> i.

(** ... and the last one *)
Definition last_at (gen : list (list K)) (i k : nat) (g : list K) : Prop :=
  nth_error gen k = Some g /\ in_service g = true /\ bus_no g GEN_BUS = i /\
  forall k' h, k < k' -> nth_error gen k' = Some h -> in_service h = true -> bus_no h GEN_BUS <> i.

(** complex power entering a branch at bus [i] through row [l] of [Y], in MVA *)
Definition branch_power (baseMVA : K) (Y : smat (cpx K)) (V : list (cpx K)) (i l : nat) : cpx K :=
  (nth i V 0 * conj (bus_current Y V l) * ofK baseMVA)%K.

(** polar coordinates: [cis a] has modulus one, and every complex number is [cabs] times [cis] of
    its [cang] *)
Definition polar_ok (cis : K -> cpx K) (cabs cang : cpx K -> K) : Prop :=
  (forall m a, cabs (ofK m * cis a)%K = fabs m) /\
  (forall z, (ofK (cabs z) * cis (cang z))%K = z).
(** [cabs] is the modulus *)
Definition modulus (cabs : cpx K -> K) : Prop := forall z, (cabs z * cabs z)%K = nrm2 z.
End PfSpec.
