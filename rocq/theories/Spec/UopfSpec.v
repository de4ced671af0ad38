(** Vocabulary for unit decommitment. *)
From Verif Require Export Spec.LoadSpec.
Local Open Scope nat_scope.

Section UopfSpec.
Context {K : Type} {F : Fld K}.

(** [gen'] is [gen] with unit [k] shut down: status and output zero, the rest unchanged *)
Definition shut_down (gen gen' : list (list K)) (k : nat) : Prop :=
  length gen' = length gen /\ k < length gen /\
  forall i g, nth_error gen i = Some g -> exists g', nth_error gen' i = Some g' /\ length g' = length g /\
    forall j, cell g' j = if (i =? k) && ((j =? PG) || (j =? QG) || (j =? GEN_STATUS)) then 0%K else cell g j.
(** a unit at its positive minimum output, with a price on that limit *)
Definition at_minimum (gen : list (list K)) (k : nat) : Prop :=
  exists g, nth_error gen k = Some g /\ fltb 0%K (cell g MU_PMIN) = true /\ fltb 0%K (cell g PMIN) = true.
Definition units_on (gen : list (list K)) : nat := length (filter in_service gen).
End UopfSpec.
