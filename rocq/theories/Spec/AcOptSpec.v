(** The AC optimal power flow problem: what a point of the problem is meant to satisfy.  A point is a
    vector x of bus voltage angles (radians) and magnitudes, active and reactive generator outputs in
    per unit, cost variables and user variables, in this order (see AcOpfSpec). *)
From Verif Require Export Spec.AcSpec Spec.AcConSpec.

Section AcOptSpec.
Context {K : Type} {F : Fld K}.
Local Open Scope nat_scope.

(** ** the network *)
Section Network.
Variable cis : K -> cpx K.
Variables (baseMVA : K) (bus gen branch : list (list K)).
(** currents at the two ends of each branch, under the voltages V *)
Definition end_currents (V If It : list (cpx K)) : Prop :=
  length If = length branch /\ length It = length branch /\
  forall l r, nth_error branch l = Some r ->
    (cell r BR_STATUS = 1%K ->
       pi_circuit cis r (nth (bus_no r F_BUS) V 0%K) (nth (bus_no r T_BUS) V 0%K) (nth l If 0%K) (nth l It 0%K)) /\
    (cell r BR_STATUS = 0%K -> nth l If 0%K = 0%K /\ nth l It 0%K = 0%K).
(** power leaving bus i into its branches and shunt *)
Definition bus_draw (V If It : list (cpx K)) (i : nat) : cpx K :=
  (nth i V 0 * conj (into_branches branch If It i + shunt baseMVA (nth i bus []) * nth i V 0))%K.
(** square of the apparent power, active power or current at a branch end with voltage v, current c *)
Definition flow_sq (lim : flow_lim) (v c : cpx K) : K :=
  match lim with
  | LimS => nrm2 (v * conj c)%K
  | LimP => (re (v * conj c) * re (v * conj c))%K
  | LimI => nrm2 c
  end.
(** the flows in MVA that the table [branch'] reports are those of the voltages and currents *)
Definition flows_reported (V If It : list (cpx K)) (branch' : list (list K)) : Prop :=
  forall l r, nth_error branch l = Some r -> exists r', nth_error branch' l = Some r' /\
    Cx (cell r' PF) (cell r' QF) = (ofK baseMVA * (nth (bus_no r F_BUS) V 0 * conj (nth l If 0)))%K /\
    Cx (cell r' PT) (cell r' QT) = (ofK baseMVA * (nth (bus_no r T_BUS) V 0 * conj (nth l It 0)))%K.
End Network.

(** ** dispatchable loads: P and Q along the direction of PMIN and the reactive limit *)
Definition pf_limit (g : list K) : K :=
  ((if feqb (cell g QMIN) 0 then cell g QMAX else 0) + (if feqb (cell g QMAX) 0 then cell g QMIN else 0))%K.
Definition pf_angle (atan2 : K -> K -> K) (baseMVA : K) (g : list K) : K :=
  atan2 (pf_limit g / baseMVA)%K (cell g PMIN / baseMVA)%K.
(** distance of (P, Q) from the line through the origin with direction th *)
Definition off_line (sin_ cos_ : K -> K) (th P Q : K) : K := (sin_ th * P - cos_ th * Q)%K.

(** ** capability curves: distance of p to the left of the line from a to b *)
Definition left_of (norm2 : K -> K -> K) (a b p : K * K) : K :=
  (((fst b - fst a) * (snd p - snd a) - (snd b - snd a) * (fst p - fst a))
   / norm2 (snd a - snd b) (fst b - fst a))%K.
Definition over_upper (norm2 : K -> K -> K) (g : list K) (p : K * K) : K :=
  left_of norm2 (cell g PC1, cell g QC1MAX) (cell g PC2, cell g QC2MAX) p.
Definition under_lower (norm2 : K -> K -> K) (g : list K) (p : K * K) : K :=
  left_of norm2 (cell g PC2, cell g QC2MIN) (cell g PC1, cell g QC1MIN) p.
(** the edge leaves the box of P and Q limits before PMAX *)
Definition cuts_upper (g : list K) : Prop := has_curve g /\
  lt (chord (cell g PC1, cell g QC1MAX) (cell g PC2, cell g QC2MAX) (cell g PMAX)) (cell g QMAX).
Definition cuts_lower (g : list K) : Prop := has_curve g /\
  lt (cell g QMIN) (chord (cell g PC1, cell g QC1MIN) (cell g PC2, cell g QC2MIN) (cell g PMAX)).

(** user variables: further columns of the user constraint matrix *)
Definition ac_user_vars (nb ng : nat) (A : option (smat K)) : nat :=
  match A with Some A => ncols A - (nb + nb + ng + ng) | None => 0 end.

(** ** the constraints, with E and L as in DcSpec *)
Variables E L : K -> Prop.
Variables (cis : K -> cpx K) (sin_ cos_ : K -> K) (atan2 norm2 : K -> K -> K).
Variables (ignore_angles : bool) (lim : flow_lim) (baseMVA : K) (bus gen branch gencost : list (list K)).
Variables (A : option (smat K)) (l u zl zu : list (ext K)).
Notation nb := (length bus).
Notation ng := (length gen).
Notation ny := (length (multi_rows ng gencost)).
Notation P x k := (ac_output nb x k).
Notation Q x k := (ac_output nb x (ng + k)).

(** everything linear in the point *)
Record ac_linear (x : list K) : Prop := {
  al_voltage : forall i r, nth_error bus i = Some r ->
    L (cell r VMIN - nth (nb + i) x 0)%K /\ L (nth (nb + i) x 0 - cell r VMAX)%K;
  al_reference : forall i r, nth_error bus i = Some r -> cell r BUS_TYPE = fofZ 3 ->
    E (nth i x 0 - degrees (cell r VA))%K;
  al_active : forall k g, nth_error gen k = Some g ->
    L (cell g PMIN / baseMVA - P x k)%K /\ L (P x k - cell g PMAX / baseMVA)%K;
  al_reactive : forall k g, nth_error gen k = Some g ->
    L (cell g QMIN / baseMVA - Q x k)%K /\ L (Q x k - cell g QMAX / baseMVA)%K;
  al_upper : forall k g, nth_error gen k = Some g -> cuts_upper g ->
    L (over_upper norm2 g (baseMVA * P x k, baseMVA * Q x k) / baseMVA)%K;
  al_lower : forall k g, nth_error gen k = Some g -> cuts_lower g ->
    L (under_lower norm2 g (baseMVA * P x k, baseMVA * Q x k) / baseMVA)%K;
  al_load : forall k g, nth_error gen k = Some g -> var_load g ->
    E (off_line sin_ cos_ (pf_angle atan2 baseMVA g) (P x k) (Q x k));
  al_angles : ignore_angles = false -> forall r, In r branch -> angle_limited r ->
    (cell r ANGMIN <> 0%K -> L (degrees (cell r ANGMIN) - angle_diff r (angles nb x))%K) /\
    (cell r ANGMAX <> 0%K -> L (angle_diff r (angles nb x) - degrees (cell r ANGMAX))%K);
  al_cost : forall j i a b, nth_error (multi_rows ng gencost) j = Some i ->
    In (a, b) (combine (bpts (nth i gencost [])) (tl (bpts (nth i gencost [])))) ->
    L (chord a b (baseMVA * P x i) - nth (nb + nb + ng + ng + j) x 0)%K;
  al_user : forall M i, A = Some M -> i < nrows M ->
    inside L (lower l i) (upper u i) (row_val M (without_y (nb + nb + ng + ng) ny x) i);
  al_z : forall k, k < ac_user_vars nb ng A ->
    inside L (lower zl k) (upper zu k) (nth (nb + nb + ng + ng + ny + k) x 0%K) }.

(** power balance and flow limits, for given branch currents *)
Record ac_network (If It x : list _) : Prop := {
  an_active : forall i r, nth_error bus i = Some r ->
    E (re (bus_draw baseMVA bus branch (ac_volt cis nb x) If It i) + cell r PD / baseMVA - ac_supply gen nb 0 x i)%K;
  an_reactive : forall i r, nth_error bus i = Some r ->
    E (im (bus_draw baseMVA bus branch (ac_volt cis nb x) If It i) + cell r QD / baseMVA - ac_supply gen nb ng x i)%K;
  an_flow : forall p r, nth_error branch p = Some r -> flow_limited r ->
    let rate := (cell r RATE_A / baseMVA)%K in
    L (flow_sq lim (nth (bus_no r F_BUS) (ac_volt cis nb x) 0%K) (nth p If 0%K) - rate * rate)%K /\
    L (flow_sq lim (nth (bus_no r T_BUS) (ac_volt cis nb x) 0%K) (nth p It 0%K) - rate * rate)%K }.

Definition ac_point (x : list K) : Prop :=
  ac_linear x /\ exists If It, end_currents cis branch (ac_volt cis nb x) If It /\ ac_network If It x.
End AcOptSpec.

(** limits that do not contradict each other *)
Section Limits.
Context {K : Type} {F : Fld K}.
Local Open Scope nat_scope.
Definition ac_limits_ordered (ignore_angles : bool) (baseMVA : K) (bus gen branch : list (list K))
    (A : option (smat K)) (l u zl zu : list (ext K)) : Prop :=
  (forall r, In r bus -> le (cell r VMIN) (cell r VMAX)) /\
  (forall g, In g gen -> le (cell g PMIN / baseMVA)%K (cell g PMAX / baseMVA)%K /\
                         le (cell g QMIN / baseMVA)%K (cell g QMAX / baseMVA)%K) /\
  (ignore_angles = false -> forall r, In r branch -> angle_limited r ->
     cell r ANGMIN <> 0%K -> cell r ANGMAX <> 0%K -> le (degrees (cell r ANGMIN)) (degrees (cell r ANGMAX))) /\
  (forall M i, A = Some M -> i < nrows M -> ordered (lower l i) (upper u i)) /\
  (forall k, k < ac_user_vars (length bus) (length gen) A -> ordered (lower zl k) (upper zu k)).
End Limits.

(** ** prices *)
Section Prices.
Context {K : Type} {F : Fld K}.
Local Open Scope nat_scope.
(** the multiplier of the squared flow limit of branch r that belongs to the reported price per MVA
    in column [col] of r' *)
Definition flow_price (baseMVA : K) (r r' : list K) (col : nat) : K :=
  (baseMVA * baseMVA * cell r' col / (fofZ 2 * cell r RATE_A))%K.
(** the balances and flow limits as functions of the point, If and It giving the branch currents *)
Variables (cis : K -> cpx K) (lim : flow_lim) (baseMVA : K) (bus gen branch : list (list K)).
Variables If It : list K -> list (cpx K).
Notation V := (ac_volt cis (length bus)).
Definition active_excess (i : nat) (x : list K) : K :=
  (re (bus_draw baseMVA bus branch (V x) (If x) (It x) i) + cell (nth i bus []) PD / baseMVA
   - ac_supply gen (length bus) 0 x i)%K.
Definition reactive_excess (i : nat) (x : list K) : K :=
  (im (bus_draw baseMVA bus branch (V x) (If x) (It x) i) + cell (nth i bus []) QD / baseMVA
   - ac_supply gen (length bus) (length gen) x i)%K.
Definition flow_excess (I : list K -> list (cpx K)) (end_ l : nat) (x : list K) : K :=
  let r := nth l branch [] in
  (flow_sq lim (nth (bus_no r end_) (V x) 0) (nth l (I x) 0)
   - (cell r RATE_A / baseMVA) * (cell r RATE_A / baseMVA))%K.
End Prices.
