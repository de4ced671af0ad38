(** Vocabulary for load totals: fixed loads sit at buses, dispatchable loads are generators with negative
    minimum and zero maximum output. *)
From Verif Require Export Spec.NetSpec.
Local Open Scope nat_scope.

Section LoadSpec.
Context {K : Type} {F : Fld K}.

(** an in-service dispatchable load *)
Definition disp_load (g : list K) : bool :=
  fltb (cell g PMIN) 0%K && feqb (cell g PMAX) 0%K && in_service g.
(** nominal demand of a dispatchable load: its largest consumption; reactive demand is given by the one
    nonzero reactive limit *)
Definition nominal_P (g : list K) : K := (- cell g PMIN)%K.
Definition nominal_Q (g : list K) : K :=
  (- (if feqb (cell g QMIN) 0 then cell g QMAX else if feqb (cell g QMAX) 0 then cell g QMIN else 0))%K.

(** bus [i] has the (external) number of the bus of generator [g] *)
Definition sits_at (bus : list (list K)) (g : list K) (i : nat) : bool :=
  bus_no (nth i bus []) BUS_I =? bus_no g GEN_BUS.
(** bus numbers are different, and every dispatchable load sits at a listed bus *)
Definition numbered (bus : list (list K)) : Prop := NoDup (map (fun r => bus_no r BUS_I) bus).
Definition placed (bus gen : list (list K)) : Prop :=
  forall g, In g gen -> disp_load g = true -> In (bus_no g GEN_BUS) (map (fun r => bus_no r BUS_I) bus).

(** sums over the buses of a zone *)
Definition fixed_sum (bus : list (list K)) (zone : nat -> bool) (c : nat) : K :=
  lsum (fun i => if zone i then cell (nth i bus []) c else 0%K) (seq 0 (length bus)).
Definition disp_sum (bus gen : list (list K)) (zone : nat -> bool) (q : nat -> K) : K :=
  lsum (fun k => let g := nth k gen [] in
          if disp_load g
          then lsum (fun i => if zone i && sits_at bus g i then q k else 0%K) (seq 0 (length bus)) else 0%K)
    (seq 0 (length gen)).

(** zones are numbered from 1; the factor of a zone, 1 outside the listed zones *)
Definition zone_factor (scale : list K) (z : K) : K :=
  match List.find (fun k => feqb z (fofZ (Z.of_nat (S k)))) (seq 0 (length scale)) with
  | Some k => nth k scale 0%K
  | None => 1%K
  end.
(** factor of the zone in which [g] sits *)
Definition gen_factor (bus : list (list K)) (f : nat -> K) (g : list K) : K :=
  match List.find (sits_at bus g) (seq 0 (length bus)) with Some i => f i | None => 1%K end.
End LoadSpec.
