(** The DC power flow of a case, in the numbers of the case. *)
From Verif Require Export Spec.RunSpec Spec.ScheduleSpec.

Section FlowSpec.
Context {K : Type} {F : Fld K}.
Local Open Scope nat_scope.
Variables (baseMVA : K) (p : ppc_of K) (gens brs : list nat).

(** the bus numbered [z] is a reference bus *)
Definition reference (z : Z) : Prop :=
  exists i b, bus_in_service p i /\ bus_at p z i /\ nth_error (p_bus p) i = Some b /\ cell b BUS_TYPE = fofZ 3.

(** the angles [th] (in radians) give the flows that carry the scheduled generation to the loads *)
Record power_flow (th : Z -> K) : Prop := {
  fl_balance : forall i b z, bus_in_service p i -> bus_at p z i -> nth_error (p_bus p) i = Some b -> ~ reference z ->
    (served p gens (fun g => cell g PG) z
     = cell b PD + cell b GS + lsum (fun j => leaves baseMVA th z (nth j (p_branch p) [])) brs)%K;
  fl_reference : forall i b z, bus_in_service p i -> bus_at p z i -> nth_error (p_bus p) i = Some b -> reference z ->
    th z = degrees (cell b VA) }.

(** a branch in service joins the buses numbered [a] and [c] *)
Definition joined (a c : Z) : Prop := exists j l, branch_in_service p j /\ nth_error (p_branch p) j = Some l /\
  ((names l F_BUS = a /\ names l T_BUS = c) \/ (names l F_BUS = c /\ names l T_BUS = a)).
(** a reference bus, or joined to it over branches in service *)
Inductive fed : Z -> Prop :=
| fed_reference z : reference z -> fed z
| fed_joined a c : fed a -> joined a c -> fed c.
Definition all_fed : Prop := forall i z, bus_in_service p i -> bus_at p z i -> fed z.
Definition reactive : Prop := forall j l, branch_in_service p j -> nth_error (p_branch p) j = Some l ->
  lt 0%K (cell l BR_X * tap_ratio l)%K.
(** there is a reference bus, and a generator in service at each one *)
Definition references_served : Prop := (exists z, reference z) /\ forall z, reference z -> exists g, serves p z g.
End FlowSpec.
