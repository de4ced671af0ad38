(** Schedules of a case: what may compete with the result of a DC optimal power flow, in the numbers of the case. *)
From Verif Require Export Spec.RunOpfSpec.

Section ScheduleSpec.
Context {K : Type} {F : Fld K}.
Local Open Scope nat_scope.
Variables (ignore_angles : bool) (baseMVA : K) (p : ppc_of K).
(** positions of the generators and branches in service *)
Variables (gens brs : list nat).
(** angle of each bus number, in radians, and output of each generator, in MW *)
Variables (th : Z -> K) (pg : nat -> K).

Definition names (l : list K) (c : nat) : Z := ftrunc (cell l c).
Definition across (l : list K) : K := (th (names l F_BUS) - th (names l T_BUS))%K.
(** flow in MW from the from end of a branch *)
Definition line_flow (l : list K) : K := (baseMVA * ((across l - degrees (cell l SHIFT)) / (cell l BR_X * tap_ratio l)))%K.
Definition leaves (z : Z) (l : list K) : K :=
  ((if (names l F_BUS =? z)%Z then line_flow l else 0) - (if (names l T_BUS =? z)%Z then line_flow l else 0))%K.

(** a schedule that meets every load and keeps every limit exactly *)
Record schedule : Prop := {
  sc_gens : lists_exactly gens (gen_in_service p);
  sc_brs : lists_exactly brs (branch_in_service p);
  sc_balance : forall i b z, bus_in_service p i -> bus_at p z i -> nth_error (p_bus p) i = Some b ->
    (lsum (fun j => if (names (nth j (p_gen p) []) GEN_BUS =? z)%Z then pg j else 0) gens
     = cell b PD + cell b GS + lsum (fun j => leaves z (nth j (p_branch p) [])) brs)%K;
  sc_output : forall j g, gen_in_service p j -> nth_error (p_gen p) j = Some g ->
    le (cell g PMIN) (pg j) /\ le (pg j) (cell g PMAX);
  sc_flow : forall j l, branch_in_service p j -> nth_error (p_branch p) j = Some l -> flow_limited l ->
    le (line_flow l) (cell l RATE_A) /\ le (- line_flow l)%K (cell l RATE_A);
  sc_reference : forall i b z, bus_in_service p i -> bus_at p z i -> nth_error (p_bus p) i = Some b ->
    cell b BUS_TYPE = fofZ 3 -> th z = degrees (cell b VA);
  sc_angles : ignore_angles = false -> forall j l, branch_in_service p j -> nth_error (p_branch p) j = Some l ->
    angle_limited l ->
    (cell l ANGMIN <> 0%K -> le (degrees (cell l ANGMIN)) (across l)) /\
    (cell l ANGMAX <> 0%K -> le (across l) (degrees (cell l ANGMAX))) }.

(** [y] bounds the segmented costs from above *)
Variables (gencost : list (list K)) (y : nat -> K).
Definition above_segments : Prop := forall j a b, In j gens -> let c := nth j gencost [] in segmented c = true ->
  In (a, b) (combine (bpts c) (tl (bpts c))) -> le (chord a b (pg j)) (y j).
Definition schedule_cost : K :=
  lsum (fun j => let c := nth j gencost [] in if segmented c then y j else row_cost c (pg j)) gens.

(** how far the schedule is from the reported case [r] with [yr] for the segmented costs; [buses] are the buses in service *)
Definition distance_from (r : ppc_of K) (buses : list nat) (yr : nat -> K) : K :=
  (lsum (fun i => fabs (th (names (nth i (p_bus p) []) BUS_I) - degrees (cell (nth i (p_bus r) []) VA))) buses
   + lsum (fun j => fabs (pg j / baseMVA - cell (nth j (p_gen r) []) PG / baseMVA)) gens
   + lsum (fun j => if segmented (nth j gencost []) then fabs (y j - yr j) else 0) gens)%K.
End ScheduleSpec.
