(** Vocabulary for DC lines. *)
From Verif Require Export Spec.NetSpec Spec.OpfSpec Spec.PipsSpec.
From Verif Require Import Model.DcLine.
Local Open Scope nat_scope.

Section DcLineSpec.
Context {K : Type} {F : Fld K}.

(** a line (row [d] of the dcline table, columns of idx_dcline) in service *)
Definition line_in_service (d : list K) : bool := fltb 0%K (cell d L_STATUS).
(** power sent and received: the difference is the loss L0 + L1 pf *)
Definition loss_law (d : list K) (pf pt : K) : Prop :=
  pt = (pf - (cell d L_LOSS0 + cell d L_LOSS1 * pf))%K.
(** limits: nonnegative ones hold for the sent power, negative ones for the received power.  A minimum of
    exactly zero is raised to 1e-6 MW unless the maximum is zero too. *)
Definition min_flow (d : list K) : K :=
  if feqb (cell d L_PMIN) 0%K && negb (feqb (cell d L_PMAX) 0%K) then (1 / fofZ 1000000)%K else cell d L_PMIN.
Definition line_limits (d : list K) (pf pt : K) : Prop :=
  (le 0%K (cell d L_PMIN) -> le (min_flow d) pf) /\
  (lt (cell d L_PMIN) 0%K -> le (cell d L_PMIN) pt) /\
  (le 0%K (cell d L_PMAX) -> le pf (cell d L_PMAX)) /\
  (lt (cell d L_PMAX) 0%K -> le pt (cell d L_PMAX)).

(** cells of a generator row with possibly infinite limits *)
Definition xcell (g : list (ext K)) (j : nat) : ext K := nth j g (EFin 0%K).
(** an output within the limits of such a row *)
Definition output_ok (g : list (ext K)) (p : K) : Prop := above_lo (xcell g PMIN) p /\ below_up (xcell g PMAX) p.
(** a generator at bus [i] with the given output, reactive output, voltage set-point, reactive limits and status; the
    remaining columns but the output limits are zero *)
Definition terminal (g : list (ext K)) (w i : nat) (pg qg vg qmin qmax st : K) : Prop :=
  length g = w /\
  xcell g GEN_BUS = EFin (fofZ (Z.of_nat i)) /\ xcell g PG = EFin pg /\ xcell g QG = EFin qg /\ xcell g VG = EFin vg /\
  xcell g QMIN = EFin qmin /\ xcell g QMAX = EFin qmax /\ xcell g GEN_STATUS = EFin st /\ xcell g MBASE = EFin (fofZ 100) /\
  forall j, ~ In j [GEN_BUS; PG; QG; VG; QMIN; QMAX; GEN_STATUS; MBASE; PMIN; PMAX] -> xcell g j = EFin 0%K.
End DcLineSpec.
