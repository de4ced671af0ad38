(** Vocabulary for statements about zonal reserves, in the numbering of the case. *)
From Verif Require Export Spec.RunOpfSpec.

Section ReserveSpec.
Context {K : Type} {F : Fld K}.
Local Open Scope nat_scope.

(** unit [j] has an entry in some zone *)
Definition provider (zones : list (list K)) (j : nat) : Prop :=
  exists i z, nth_error zones i = Some z /\ nth j z 0%K <> 0%K.
(** [a] is the value given for unit [j] of [n] by a list for all units, or for those in zones only *)
Definition stated (n : nat) (zones : list (list K)) (v : list K) (j : nat) (a : K) : Prop :=
  (length v = n /\ nth_error v j = Some a) \/
  (length v <> n /\ exists idx k, increasing idx /\ (forall i, In i idx <-> i < n /\ provider zones i) /\
     nth_error idx k = Some j /\ nth_error v k = Some a).
(** units that may provide reserves *)
Definition provides (p : ppc_of K) (zones : list (list K)) (j : nat) : Prop :=
  gen_in_service p j /\ provider zones j.

(** reserves [R] of the units of the solved case [r], up to [t] *)
Record reserve_report (t : K) (p r : ppc_of K) (zones : list (list K)) (req : list K) (qty : option (list K))
    (R : list K) : Prop := {
  rv_limits : forall j g, provides p zones j -> nth_error (p_gen r) j = Some g ->
    excess_to t (- nth j R 0)%K /\
    (cell g RAMP_10 <> 0%K -> excess_to t (nth j R 0 - cell g RAMP_10)%K) /\
    (forall v a, qty = Some v -> stated (length (p_gen p)) zones v j a -> excess_to t (nth j R 0 - a)%K) /\
    excess_to t (cell g PG + nth j R 0 - cell g PMAX)%K;
  rv_none : forall j, ~ provides p zones j -> nth j R 0%K = 0%K;
  rv_zone : forall i z d, nth_error zones i = Some z -> nth_error req i = Some d ->
    excess_to t (d - lsum (fun j => nth j z 0 * nth j R 0) (seq 0 (length (p_gen p))))%K }.

(** the cost of the reserves *)
Definition reserve_cost (p : ppc_of K) (zones : list (list K)) (cost R : list K) (c : K) : Prop :=
  forall idx a, lists_exactly idx (provides p zones) ->
    (forall j, In j idx -> stated (length (p_gen p)) zones cost j (a j)) ->
    c = lsum (fun j => a j * nth j R 0)%K idx.
End ReserveSpec.
