(** Two descriptions of one network: other bus numbers, another order of the rows, other rows for elements out of
    service, other data that a DC power flow does not use. *)
From Coq Require Export Permutation.
From Verif Require Export Spec.FlowSpec.

Section SameSpec.
Context {K : Type} {F : Fld K}.
Local Open Scope nat_scope.

(** [s] sends the positions with [P'] one to one onto those with [P] *)
Record matches (s : nat -> nat) (P P' : nat -> Prop) : Prop := {
  mt_in : forall i, P' i -> P (s i);
  mt_one : forall i j, P' i -> P' j -> s i = s j -> i = j;
  mt_onto : forall i, P i -> exists i', P' i' /\ s i' = i }.

(** the bus numbered [z] in [p] is the bus numbered [rho z] in [p'] *)
Record same_network (rho : Z -> Z) (sb sg sl : nat -> nat) (p p' : ppc_of K) : Prop := {
  sn_buses : matches sb (bus_in_service p) (bus_in_service p');
  sn_gens : matches sg (gen_in_service p) (gen_in_service p');
  sn_branches : matches sl (branch_in_service p) (branch_in_service p');
  sn_distinct : forall z z' i i', bus_in_service p i -> bus_at p z i -> bus_in_service p i' -> bus_at p z' i' ->
    rho z = rho z' -> z = z';
  sn_bus : forall i b b', bus_in_service p' i -> nth_error (p_bus p) (sb i) = Some b -> nth_error (p_bus p') i = Some b' ->
    (forall z, nth_error b BUS_I = Some (ofZ z) -> nth_error b' BUS_I = Some (ofZ (rho z))) /\
    cell b' BUS_TYPE = cell b BUS_TYPE /\ cell b' PD = cell b PD /\ cell b' GS = cell b GS /\
    (cell b BUS_TYPE = fofZ 3 -> cell b' VA = cell b VA);
  sn_gen : forall j g g', gen_in_service p' j -> nth_error (p_gen p) (sg j) = Some g -> nth_error (p_gen p') j = Some g' ->
    forall z, nth_error g GEN_BUS = Some (ofZ z) ->
      nth_error g' GEN_BUS = Some (ofZ (rho z)) /\ (~ reference p z -> cell g' PG = cell g PG);
  sn_branch : forall j l l', branch_in_service p' j -> nth_error (p_branch p) (sl j) = Some l -> nth_error (p_branch p') j = Some l' ->
    (forall z, nth_error l F_BUS = Some (ofZ z) -> nth_error l' F_BUS = Some (ofZ (rho z))) /\
    (forall z, nth_error l T_BUS = Some (ofZ z) -> nth_error l' T_BUS = Some (ofZ (rho z))) /\
    cell l' BR_X = cell l BR_X /\ cell l' TAP = cell l TAP /\ cell l' SHIFT = cell l SHIFT }.

(** the bus number in column [c] replaced *)
Definition relabel (rho : Z -> Z) (c : nat) (r : list K) : list K :=
  match nth_error r c with Some x => upd r c (ofZ (rho (ftrunc x))) | None => r end.
(** [p'] has the rows of [p] in some order, with bus numbers changed by [rho] *)
Record rewritten (rho : Z -> Z) (p p' : ppc_of K) : Prop := {
  rw_bus : Permutation (map (relabel rho BUS_I) (p_bus p)) (p_bus p');
  rw_gen : Permutation (map (relabel rho GEN_BUS) (p_gen p)) (p_gen p');
  rw_branch : Permutation (map (fun l => relabel rho T_BUS (relabel rho F_BUS l)) (p_branch p)) (p_branch p');
  rw_distinct : forall z z' i i', bus_at p z i -> bus_at p z' i' -> rho z = rho z' -> z = z' }.
End SameSpec.
