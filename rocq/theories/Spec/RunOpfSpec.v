(** Vocabulary for statements about a whole optimal power flow run. *)
From Verif Require Export Spec.RunSpec Spec.DcSpec.

Section RunOpfSpec.
Context {K : Type} {F : Fld K}.
Local Open Scope nat_scope.

(** what a run may change in a case: the columns [bc] of buses that are not isolated, [gc] of generators and
    [lc] of branches in service; [gz] and [lz] are zero for those out of service *)
Record reports_in (bc gc gz lc lz : list nat) (p r : ppc_of K) : Prop := {
  ri_bus : only_changes bc (p_bus p) (p_bus r);
  ri_isolated : forall i b b', nth_error (p_bus p) i = Some b -> nth_error (p_bus r) i = Some b' ->
     ~ bus_in_service p i -> forall c, cell b' c = cell b c;
  ri_gen : only_changes (gc ++ gz) (p_gen p) (p_gen r);
  ri_gen_on : forall i g g', nth_error (p_gen p) i = Some g -> nth_error (p_gen r) i = Some g' ->
     gen_in_service p i -> forall c, ~ In c gc -> cell g' c = cell g c;
  ri_gen_off : forall i g g', nth_error (p_gen p) i = Some g -> nth_error (p_gen r) i = Some g' ->
     ~ gen_in_service p i -> forall c, cell g' c = if in_dec Nat.eq_dec c gz then 0%K else cell g c;
  ri_branch : only_changes (lc ++ lz) (p_branch p) (p_branch r);
  ri_branch_on : forall i g g', nth_error (p_branch p) i = Some g -> nth_error (p_branch r) i = Some g' ->
     branch_in_service p i -> forall c, ~ In c lc -> cell g' c = cell g c;
  ri_branch_off : forall i g g', nth_error (p_branch p) i = Some g -> nth_error (p_branch r) i = Some g' ->
     ~ branch_in_service p i -> forall c, cell g' c = if in_dec Nat.eq_dec c lz then 0%K else cell g c;
  ri_gencost : p_gencost r = p_gencost p;
  ri_areas : p_areas r = drop_empty_areas (p_areas p);
  ri_A : p_A r = p_A p;
  ri_N : p_N r = p_N p }.

(** ** a DC optimal power flow, reported for the case [p] as the case [r], up to [t] per unit *)
Definition left_over (r : ppc_of K) (z : Z) (b : list K) : K :=
  (total_at GEN_BUS (fun g => cell g PG) (p_gen r) z - cell b PD - cell b GS
   - (total_at F_BUS (fun g => cell g PF) (p_branch r) z + total_at T_BUS (fun g => cell g PT) (p_branch r) z))%K.
(** the reported voltage angle, in radians, at the end of a branch named in column [c] *)
Definition end_angle (p r : ppc_of K) (l : list K) (c : nat) (a : K) : Prop :=
  exists z i b, cell l c = fofZ z /\ bus_at p z i /\ nth_error (p_bus r) i = Some b /\
    a = degrees (cell b VA).

Record dc_report (ignore_angles : bool) (t baseMVA : K) (p r : ppc_of K) : Prop := {
  dr_balance : forall i b z, bus_in_service p i -> bus_at p z i -> nth_error (p_bus r) i = Some b ->
    equal_to (baseMVA * t)%K (left_over r z b);
  dr_output : forall j g, gen_in_service p j -> nth_error (p_gen r) j = Some g ->
    excess_to (baseMVA * t)%K (cell g PMIN - cell g PG)%K /\ excess_to (baseMVA * t)%K (cell g PG - cell g PMAX)%K;
  dr_flow : forall j l, branch_in_service p j -> nth_error (p_branch r) j = Some l ->
    cell l PT = (- cell l PF)%K /\ cell l QF = 0%K /\ cell l QT = 0%K /\
    (exists af at_, end_angle p r l F_BUS af /\ end_angle p r l T_BUS at_ /\
       (cell l PF = baseMVA * ((af - at_ - degrees (cell l SHIFT)) / (cell l BR_X * tap_ratio l)))%K /\
       (ignore_angles = false -> angle_limited l ->
          (cell l ANGMIN <> 0%K -> excess_to t (degrees (cell l ANGMIN) - (af - at_))%K) /\
          (cell l ANGMAX <> 0%K -> excess_to t (af - at_ - degrees (cell l ANGMAX))%K))) /\
    (flow_limited l -> excess_to (baseMVA * t)%K (cell l PF - cell l RATE_A)%K /\
                       excess_to (baseMVA * t)%K (cell l PT - cell l RATE_A)%K);
  dr_reference : forall i b b', bus_in_service p i -> nth_error (p_bus p) i = Some b -> nth_error (p_bus r) i = Some b' ->
    cell b BUS_TYPE = fofZ 3 -> equal_to t (degrees (cell b' VA) - degrees (cell b VA))%K }.

(** [f] is the cost of the reported outputs of the generators listed in [idx]; costs with several segments are
    met from above, up to [t] *)
Definition cost_of_report (t : K) (gencost : list (list K)) (r : ppc_of K) (idx : list nat) (f : K) : Prop :=
  exists y : nat -> K,
    f = lsum (fun j => let c := nth j gencost [] in
                       if segmented c then y j else row_cost c (cell (nth j (p_gen r) []) PG)) idx /\
    forall j a b, In j idx -> let c := nth j gencost [] in segmented c = true ->
      In (a, b) (combine (bpts c) (tl (bpts c))) -> excess_to t (chord a b (cell (nth j (p_gen r) []) PG) - y j)%K.
End RunOpfSpec.
