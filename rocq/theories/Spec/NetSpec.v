(** Vocabulary for statements about networks: what a table row says about the physical network,
    independent of how the code assembles its matrices. *)
From Verif Require Export Lib.Fld Lib.Sparse Model.Idx.

Section NetSpec.
Context {K : Type} {F : Fld K}.
Local Open Scope nat_scope.

Definition cell (r : list K) (j : nat) : K := nth j r 0%K.
(** the bus number stored in column [j] *)
Definition bus_no (r : list K) (j : nat) : nat := Z.to_nat (ftrunc (cell r j)).

Definition in_service (g : list K) : bool := fltb 0%K (cell g GEN_STATUS).
(** some in-service generator is connected to bus [i] *)
Definition has_gen (gen : list (list K)) (i : nat) : Prop :=
  exists g, In g gen /\ in_service g = true /\ bus_no g GEN_BUS = i.
Definition has_type (bus : list (list K)) (i : nat) (z : Z) : Prop :=
  exists r, nth_error bus i = Some r /\ cell r BUS_TYPE = fofZ z.

(** every bus is PQ (1), PV (2) or REF (3) *)
Definition types_ok (bus : list (list K)) : Prop :=
  Forall (fun r => cell r BUS_TYPE = fofZ 1 \/ cell r BUS_TYPE = fofZ 2 \/
                   cell r BUS_TYPE = fofZ 3) bus.

(** a table is usable: every row has more than [w] columns *)
Definition wide (w : nat) (t : list (list K)) : Prop := Forall (fun r => w < length r) t.
(** the bus numbers in column [j] are valid positions *)
Definition buses_ok (nb j : nat) (t : list (list K)) : Prop :=
  Forall (fun r => (0 <= ftrunc (cell r j))%Z /\ bus_no r j < nb) t.

(** total of a quantity over the in-service generators at bus [i] *)
Definition gen_total (q : list K -> K) (gen : list (list K)) (i : nat) : K :=
  lsum (fun g => if in_service g && (bus_no g GEN_BUS =? i) then q g else 0%K) gen.

(** branches: zero tap means a line (ratio one) *)
Definition tap_ratio (r : list K) : K :=
  if feqb (cell r TAP) 0%K then 1%K else cell r TAP.
(** the DC branch equation: (angle difference - phase shift) / (x * tap), switched by status *)
Definition dc_flow (r : list K) (Va : list K) : K :=
  (cell r BR_STATUS
   * (nth (bus_no r F_BUS) Va 0 - nth (bus_no r T_BUS) Va 0 - cell r SHIFT * fpi / fofZ 180)
   / (cell r BR_X * tap_ratio r))%K.
Definition flow_at (Va : list K) (r : list K) : K := dc_flow r Va.
(** the same table with branch [o] out of service *)
Definition outage (branch : list (list K)) (o : nat) : list (list K) :=
  upd branch o (upd (nth o branch []) BR_STATUS 0%K).
(** inner product *)
Definition inner (u v : list K) : K := lsum (fun p => fst p * snd p)%K (combine u v).
(** flow leaving minus flow entering bus [i] *)
Definition net_out (fl : list K -> K) (branch : list (list K)) (i : nat) : K :=
  lsum (fun r => (if bus_no r F_BUS =? i then fl r else 0)
               - (if bus_no r T_BUS =? i then fl r else 0))%K branch.
(** power drawn from bus [i] at both ends of every branch *)
Definition drawn (pf pt : list K -> K) (branch : list (list K)) (i : nat) : K :=
  lsum (fun r => (if bus_no r F_BUS =? i then pf r else 0)
               + (if bus_no r T_BUS =? i then pt r else 0))%K branch.

(** a linear solver that only ever returns exact solutions *)
Definition solver_exact (solve : list (list K) -> list K -> result (list K)) : Prop :=
  forall A b x, solve A b = Ok x ->
    Forall (fun r => length r = length x) A /\
    map (fun r => lsum (fun p => fst p * snd p)%K (combine r x)) A = b.
End NetSpec.
