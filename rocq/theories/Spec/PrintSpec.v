(** Vocabulary for statements about printed reports: what the tables say about generation, load, shunts,
    losses and areas. *)
From Coq Require Import Permutation.
From Verif Require Export Spec.RunSpec Spec.AcSpec Spec.RunAcOpfSpec Spec.PipsSpec.

Section PrintSpec.
Context {K : Type} {F : Fld K}.
Local Open Scope nat_scope.

(** a generator row that stands for a dispatchable load *)
Definition load_unit (g : list K) : bool := fltb (cell g PMIN) 0%K && feqb (cell g PMAX) 0%K.
Definition gen_running (g : list K) : bool := in_service g && negb (load_unit g).
Definition load_running (g : list K) : bool := in_service g && load_unit g.
Definition live (l : list K) : bool := negb (feqb (cell l BR_STATUS) 0%K).

(** a unit at a bus *)
Definition at_bus (b g : list K) : bool := feqb (cell g GEN_BUS) (cell b BUS_I).

(** total over the rows with a property *)
Definition sum_if {A} (p : A -> bool) (q : A -> K) (t : list A) : K := lsum (fun r => if p r then q r else 0%K) t.
Definition count_if {A} (p : A -> bool) (t : list A) : nat := length (filter p t).

(** the number of a bus; the rows of the bus table that carry the number in column [c] of a row *)
Definition bus_num (b : list K) : Z := ftrunc (cell b BUS_I).
Definition names (bus : list (list K)) (r : list K) (c : nat) (b : list K) : Prop :=
  In b bus /\ bus_num b = ftrunc (cell r c).

(** bus numbers are different and not negative, and generators and branches name listed buses *)
Record printable (bus gen branch : list (list K)) : Prop := {
  pr_once : NoDup (map bus_num bus);
  pr_pos : forall b, In b bus -> (0 <= bus_num b)%Z;
  pr_gen : forall g, In g gen -> exists b, names bus g GEN_BUS b;
  pr_from : forall l, In l branch -> exists b, names bus l F_BUS b;
  pr_to : forall l, In l branch -> exists b, names bus l T_BUS b }.

(** [t'] is [t] with zeros in the columns [cols] *)
Definition blanked (cols : list nat) (t t' : list (list K)) : Prop :=
  length t' = length t /\
  forall i r, nth_error t i = Some r -> exists r', nth_error t' i = Some r' /\ length r' = length r /\
    forall j, cell r' j = if existsb (Nat.eqb j) cols then 0%K else cell r j.

(** the lowest number of the list occurs at least twice *)
Definition low_twice (c : list K) : Prop :=
  exists a l, Permutation c (a :: a :: l) /\ forall b, In b c -> fltb b a = false.
(** the lines of a part of the report that may be missing *)
Definition lines {A} (t : option (list A)) : list A := match t with Some l => l | None => [] end.

(** the bus named in column [c] of row [r], and its area *)
Definition the_bus (bus : list (list K)) (c : nat) (r : list K) : list K :=
  match List.find (fun b => bus_num b =? ftrunc (cell r c))%Z bus with Some b => b | None => [] end.
Definition in_area (a : K) (b : list K) : bool := feqb (cell b BUS_AREA) a.

(** power left over at a bus: generation less load, shunt and what the branches take *)
Definition surplus_p (gen branch : list (list K)) (b : list K) : K :=
  (total_at GEN_BUS (fun g => if in_service g then cell g PG else 0) gen (bus_num b)
   - cell b PD - cell b GS * (cell b VM * cell b VM)
   - (total_at F_BUS (fun l => cell l PF) branch (bus_num b) + total_at T_BUS (fun l => cell l PT) branch (bus_num b)))%K.
Definition surplus_q (gen branch : list (list K)) (b : list K) : K :=
  (total_at GEN_BUS (fun g => if in_service g then cell g QG else 0) gen (bus_num b)
   - cell b QD + cell b BS * (cell b VM * cell b VM)
   - (total_at F_BUS (fun l => cell l QF) branch (bus_num b) + total_at T_BUS (fun l => cell l QT) branch (bus_num b)))%K.

Variable cis : K -> cpx K.
(** angles enter through the circle *)
Definition circular : Prop := (forall a, cis (- a)%K = conj (cis a)) /\ (forall a, nrm2 (cis a) = 1%K).

(** the flows of the branch table are those of the circuits between the voltages of the bus table; flows of
    branches that are switched off are zero *)
Definition flow_of (baseMVA : K) (bus : list (list K)) (l : list K) : Prop :=
  if live l
  then forall bf bt, names bus l F_BUS bf -> names bus l T_BUS bt ->
       exists cf ct, pi_circuit cis l (volt cis bf) (volt cis bt) cf ct /\
         Cx (cell l PF) (cell l QF) = (ofK baseMVA * (volt cis bf * conj cf))%K /\
         Cx (cell l PT) (cell l QT) = (ofK baseMVA * (volt cis bt * conj ct))%K
  else cell l PF = 0%K /\ cell l QF = 0%K /\ cell l PT = 0%K /\ cell l QT = 0%K.
Definition flows_solved (baseMVA : K) (bus branch : list (list K)) : Prop :=
  forall l, In l branch -> flow_of baseMVA bus l.

(** reactive power (MVAr) that the charging at the two ends of a branch produces *)
Definition charge_from (baseMVA : K) (bus : list (list K)) (l : list K) : K :=
  (nrm2 (cdiv (volt cis (the_bus bus F_BUS l)) (turns cis l)) * cell l BR_B * baseMVA / fofZ 2)%K.
Definition charge_to (baseMVA : K) (bus : list (list K)) (l : list K) : K :=
  (nrm2 (volt cis (the_bus bus T_BUS l)) * cell l BR_B * baseMVA / fofZ 2)%K.
(** the power lost in the series impedance of a branch in service, from the voltages of the bus table *)
Definition heat (baseMVA : K) (bus : list (list K)) (l : list K) : cpx K :=
  if live l then
    (ofK (baseMVA * nrm2 (cdiv (cdiv (volt cis (the_bus bus F_BUS l)) (turns cis l) - volt cis (the_bus bus T_BUS l)) (Cx (cell l BR_R) (cell l BR_X))))
     * Cx (cell l BR_R) (cell l BR_X))%K
  else 0%K.
Definition charging (baseMVA : K) (bus : list (list K)) (l : list K) : K :=
  if live l then (charge_from baseMVA bus l + charge_to baseMVA bus l)%K else 0%K.
(** the part of it at the area's end of the branches in service between the area and other areas *)
Definition tie_charge (baseMVA : K) (bus branch : list (list K)) (a : K) : K :=
  (sum_if (fun l => live l && in_area a (the_bus bus F_BUS l) && negb (in_area a (the_bus bus T_BUS l))) (charge_from baseMVA bus) branch
   + sum_if (fun l => live l && negb (in_area a (the_bus bus F_BUS l)) && in_area a (the_bus bus T_BUS l)) (charge_to baseMVA bus) branch)%K.

(** what the limit of a branch applies to at an end with power p + jq and voltage v: active power, current (times
    MVA base), or apparent power *)
Definition loading (cabs : cpx K -> K) (lim : Z) (p q : K) (v : cpx K) : K :=
  if (lim =? 1)%Z then p else if (lim =? 2)%Z then cabs (cdiv (Cx p q) (conj v)) else cabs (Cx p q).
(** a quantity is at one of its limits, up to [tol], or one of their prices is not negligible *)
Definition near_limit (tol lo v hi ml mh : K) : Prop :=
  lt v (lo + tol)%K \/ lt (hi - tol)%K v \/ lt (1 / fofZ 10000)%K ml \/ lt (1 / fofZ 10000)%K mh.
(** the loading at the from end or the to end is at the rating (zero: none), or a price is not negligible *)
Definition near_rating (tol ff ft rate mf mt : K) : Prop :=
  (rate <> 0%K /\ (lt (rate - tol)%K (fabs ff) \/ lt (rate - tol)%K (fabs ft)))
  \/ lt (1 / fofZ 10000)%K mf \/ lt (1 / fofZ 10000)%K mt.

End PrintSpec.
