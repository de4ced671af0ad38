(** Vocabulary for statements about a whole AC optimal power flow run. *)
From Verif Require Export Spec.RunOpfSpec Spec.AcOptSpec.

Section RunAcOpfSpec.
Context {K : Type} {F : Fld K}.
Local Open Scope nat_scope.

(** power left over at the bus numbered [z] with row [b] according to the reported tables *)
Definition spare_p (r : ppc_of K) (z : Z) (b : list K) : K :=
  (total_at GEN_BUS (fun g => cell g PG) (p_gen r) z - cell b PD - cell b GS * (cell b VM * cell b VM)
   - (total_at F_BUS (fun g => cell g PF) (p_branch r) z + total_at T_BUS (fun g => cell g PT) (p_branch r) z))%K.
Definition spare_q (r : ppc_of K) (z : Z) (b : list K) : K :=
  (total_at GEN_BUS (fun g => cell g QG) (p_gen r) z - cell b QD + cell b BS * (cell b VM * cell b VM)
   - (total_at F_BUS (fun g => cell g QF) (p_branch r) z + total_at T_BUS (fun g => cell g QT) (p_branch r) z))%K.

(** [b] is the reported row of the bus named in column [c] of the row [l] *)
Definition bus_of (p r : ppc_of K) (l : list K) (c : nat) (b : list K) : Prop :=
  exists z i, cell l c = fofZ z /\ bus_at p z i /\ nth_error (p_bus r) i = Some b.

Variable cis : K -> cpx K.
(** the reported voltage of a bus *)
Definition volt (b : list K) : cpx K := (ofK (cell b VM) * cis (degrees (cell b VA)))%K.

(** what the limit of a branch applies to, squared and in MVA; currents in MVA at nominal voltage *)
Definition loading_sq (lim : flow_lim) (baseMVA P Q : K) (c : cpx K) : K :=
  match lim with
  | LimS => (P * P + Q * Q)%K
  | LimP => (P * P)%K
  | LimI => (baseMVA * baseMVA * nrm2 c)%K
  end.

Variables (sin_ cos_ : K -> K) (atan2 norm2 : K -> K -> K).
(** an AC optimal power flow, reported for the case [p] as the case [r], up to [t] per unit *)
Record ac_report (ignore_angles : bool) (lim : flow_lim) (t baseMVA : K) (p r : ppc_of K) : Prop := {
  ar_active : forall i b z, bus_in_service p i -> bus_at p z i -> nth_error (p_bus r) i = Some b ->
    equal_to (baseMVA * t)%K (spare_p r z b);
  ar_reactive : forall i b z, bus_in_service p i -> bus_at p z i -> nth_error (p_bus r) i = Some b ->
    equal_to (baseMVA * t)%K (spare_q r z b);
  ar_voltage : forall i b, bus_in_service p i -> nth_error (p_bus r) i = Some b ->
    excess_to t (cell b VMIN - cell b VM)%K /\ excess_to t (cell b VM - cell b VMAX)%K;
  ar_reference : forall i b b', bus_in_service p i -> nth_error (p_bus p) i = Some b -> nth_error (p_bus r) i = Some b' ->
    cell b BUS_TYPE = fofZ 3 -> equal_to t (degrees (cell b' VA) - degrees (cell b VA))%K;
  ar_output : forall j g, gen_in_service p j -> nth_error (p_gen r) j = Some g ->
    excess_to (baseMVA * t)%K (cell g PMIN - cell g PG)%K /\ excess_to (baseMVA * t)%K (cell g PG - cell g PMAX)%K /\
    excess_to (baseMVA * t)%K (cell g QMIN - cell g QG)%K /\ excess_to (baseMVA * t)%K (cell g QG - cell g QMAX)%K;
  ar_curves : forall j g, gen_in_service p j -> nth_error (p_gen r) j = Some g ->
    (cuts_upper g -> excess_to (baseMVA * t)%K (over_upper norm2 g (cell g PG, cell g QG))) /\
    (cuts_lower g -> excess_to (baseMVA * t)%K (under_lower norm2 g (cell g PG, cell g QG)));
  ar_load : forall j g, gen_in_service p j -> nth_error (p_gen r) j = Some g -> var_load g ->
    equal_to (baseMVA * t)%K (off_line sin_ cos_ (pf_angle atan2 baseMVA g) (cell g PG) (cell g QG));
  ar_setpoint : forall j g, gen_in_service p j -> nth_error (p_gen r) j = Some g ->
    exists b, bus_of p r g GEN_BUS b /\ cell g VG = cell b VM;
  ar_branch : forall j l, branch_in_service p j -> nth_error (p_branch r) j = Some l ->
    exists bf bt cf ct, bus_of p r l F_BUS bf /\ bus_of p r l T_BUS bt /\
      pi_circuit cis l (volt bf) (volt bt) cf ct /\
      Cx (cell l PF) (cell l QF) = (ofK baseMVA * (volt bf * conj cf))%K /\
      Cx (cell l PT) (cell l QT) = (ofK baseMVA * (volt bt * conj ct))%K /\
      (flow_limited l ->
         excess_to (baseMVA * baseMVA * t)%K
           (loading_sq lim baseMVA (cell l PF) (cell l QF) cf - cell l RATE_A * cell l RATE_A)%K /\
         excess_to (baseMVA * baseMVA * t)%K
           (loading_sq lim baseMVA (cell l PT) (cell l QT) ct - cell l RATE_A * cell l RATE_A)%K) /\
      let diff := (degrees (cell bf VA) - degrees (cell bt VA))%K in
      (ignore_angles = false -> angle_limited l ->
         (cell l ANGMIN <> 0%K -> excess_to t (degrees (cell l ANGMIN) - diff)%K) /\
         (cell l ANGMAX <> 0%K -> excess_to t (diff - degrees (cell l ANGMAX))%K)) }.
End RunAcOpfSpec.

(** ** prices of generator limits *)
Section Edges.
Context {K : Type} {F : Fld K}.
Local Open Scope nat_scope.
(** coefficient of variable j in row n of a matrix with nx columns *)
Definition coef (nx : nat) (A : smat K) (n j : nat) : K :=
  row_val A (map (fun i => if i =? j then 1%K else 0%K) (seq 0 nx)) n.
(** what the first m rows contribute to the price of variable j *)
Definition row_prices (nx : nat) (A : smat K) (m : nat) (mu_l mu_u : list K) (j : nat) : K :=
  lsum (fun n => (nth n mu_u 0 - nth n mu_l 0) * coef nx A n j)%K (seq 0 m).
(** a pair of prices for the upper and the lower side of one quantity: the difference is d, and at most one of them
    is not zero *)
Definition net_price (B up dn d : K) : Prop :=
  (B * (up - dn))%K = d /\ le 0%K up /\ le 0%K dn /\ (up = 0%K \/ dn = 0%K).
End Edges.
