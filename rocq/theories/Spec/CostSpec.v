(** What generator cost rows mean. *)
From Verif Require Export Lib.LinAlg Model.Idx.

(** ** polynomials, highest coefficient first (Horner's rule) *)
Definition polyval (c : vec) (x : Qc) : Qc := fold_left (fun s a => s * x + a)%Qc c 0%Qc.

(** ** cost rows *)
Definition poly_row (r : vec) (cs : vec) : Prop :=
  nth_error r MODEL = Some (zc 2) /\ nth_error r NCOST = Some (zc (Z.of_nat (length cs))) /\
  exists pad, skipn COST r = cs ++ pad.

Definition flat (pts : list (Qc * Qc)) : vec := flat_map (fun p => [fst p; snd p]) pts.

Definition pwl_row (r : vec) (pts : list (Qc * Qc)) : Prop :=
  nth_error r MODEL = Some (zc 1) /\ nth_error r NCOST = Some (zc (Z.of_nat (length pts))) /\
  exists pad, skipn COST r = flat pts ++ pad.

(** breakpoints from left to right *)
Fixpoint x_increasing (pts : list (Qc * Qc)) : Prop :=
  match pts with
  | p :: (q :: _) as t => (fst p < fst q)%Qc /\ x_increasing t
  | _ => True
  end.

(** the line through two breakpoints *)
Definition line (p q : Qc * Qc) (x : Qc) : Qc :=
  (snd p + (snd q - snd p) / (fst q - fst p) * (x - fst p))%Qc.

(** segment [j] of [pts] is responsible for [x]: between its ends, where the first segment
    extends to the left and the last one to the right *)
Definition responsible (pts : list (Qc * Qc)) (j : nat) (p q : Qc * Qc) (x : Qc) : Prop :=
  nth_error pts j = Some p /\ nth_error pts (S j) = Some q /\
  (j = 0%nat \/ fst p <= x)%Qc /\ (S (S j) = length pts \/ x <= fst q)%Qc.

Definition pwl_value (pts : list (Qc * Qc)) (x v : Qc) : Prop :=
  forall j p q, responsible pts j p q x -> v = line p q x.

(** slopes do not decrease *)
Definition slope (p q : Qc * Qc) : Qc := ((snd q - snd p) / (fst q - fst p))%Qc.
Definition convex (pts : list (Qc * Qc)) : Prop :=
  forall j p q s, nth_error pts j = Some p -> nth_error pts (S j) = Some q ->
    nth_error pts (S (S j)) = Some s -> (slope p q <= slope q s)%Qc.

(** ** rows of a cost table: a polynomial with at least one coefficient, or at least two
    breakpoints from left to right *)
Inductive rowspec := SPoly (cs : vec) | SPwl (pts : list (Qc * Qc)).
Definition row_is (r : vec) (s : rowspec) : Prop :=
  match s with
  | SPoly cs => poly_row r cs /\ cs <> []
  | SPwl pts => pwl_row r pts /\ x_increasing pts /\ 2 <= length pts
  end.

(** [v] is the cost of the row at [x] *)
Definition row_value (s : rowspec) (x v : Qc) : Prop :=
  match s with SPoly cs => v = polyval cs x | SPwl pts => pwl_value pts x v end.
