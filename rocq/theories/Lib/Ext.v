(** Numbers with infinities, for bounds. *)
Inductive ext (K : Type) := EFin (a : K) | EPos | ENeg.
Arguments EFin {K} a.
Arguments EPos {K}.
Arguments ENeg {K}.
