(** One network under three operating conditions, the third a blend of the first two. *)
From Verif Require Export Spec.FlowSpec.

Section BlendSpec.
Context {K : Type} {F : Fld K}.
Local Open Scope nat_scope.
Variable t : K.

(** [1 - t] parts of [a] and [t] parts of [c] *)
Definition blend (a c : K) : K := ((1 - t) * a + t * c)%K.

Definition same_cells (cols : list nat) (a b c : list K) : Prop := forall k, In k cols -> nth_error a k = nth_error c k /\ nth_error b k = nth_error c k.

(** [p]: same buses, generators, branches as [p1] and [p2]; loads, shunts, schedules, shifts, and angles of reference buses blended *)
Record blended (p1 p2 p : ppc_of K) : Prop := {
  bl_len_bus : length (p_bus p1) = length (p_bus p) /\ length (p_bus p2) = length (p_bus p);
  bl_len_gen : length (p_gen p1) = length (p_gen p) /\ length (p_gen p2) = length (p_gen p);
  bl_len_branch : length (p_branch p1) = length (p_branch p) /\ length (p_branch p2) = length (p_branch p);
  bl_bus : forall i b1 b2 b, nth_error (p_bus p1) i = Some b1 -> nth_error (p_bus p2) i = Some b2 -> nth_error (p_bus p) i = Some b ->
    same_cells [BUS_I; BUS_TYPE] b1 b2 b /\
    cell b PD = blend (cell b1 PD) (cell b2 PD) /\ cell b GS = blend (cell b1 GS) (cell b2 GS) /\
    (cell b BUS_TYPE = fofZ 3 -> cell b VA = blend (cell b1 VA) (cell b2 VA));
  bl_gen : forall j g1 g2 g, nth_error (p_gen p1) j = Some g1 -> nth_error (p_gen p2) j = Some g2 -> nth_error (p_gen p) j = Some g ->
    same_cells [GEN_BUS; GEN_STATUS] g1 g2 g /\ cell g PG = blend (cell g1 PG) (cell g2 PG);
  bl_branch : forall j l1 l2 l, nth_error (p_branch p1) j = Some l1 -> nth_error (p_branch p2) j = Some l2 -> nth_error (p_branch p) j = Some l ->
    same_cells [F_BUS; T_BUS; BR_STATUS; BR_X; TAP] l1 l2 l /\ cell l SHIFT = blend (cell l1 SHIFT) (cell l2 SHIFT) }.
End BlendSpec.
