(** What the linear constraints of the optimal power flow are meant to say. *)
From Verif Require Export Spec.PipsSpec.

Section OpfSpec.
Context {K : Type} {F : Fld K}.
Local Open Scope nat_scope.

(** all rows of A x <= b hold *)
Definition rows_le (A : smat K) (b x : list K) : Prop :=
  forall k, k < nrows A -> le (row_val A x k) (nth k b 0%K).
(** v lies between the bounds *)
Definition above_lo (lo : ext K) (v : K) : Prop :=
  match lo with EFin a => le a v | ENeg => True | EPos => False end.
Definition below_up (up : ext K) (v : K) : Prop :=
  match up with EFin a => le v a | EPos => True | ENeg => False end.
Definition rows_in (A : smat K) (l u : list (ext K)) (x : list K) : Prop :=
  forall k, k < nrows A ->
    above_lo (nth k l ENeg) (row_val A x k) /\ below_up (nth k u EPos) (row_val A x k).

(** ** piecewise-linear costs *)
Definition cost_is (z : Z) (r : list K) : bool := feqb (cell r MODEL) (fofZ z).
(** the rows with such a cost, in order *)
Definition pwl_rows (gencost : list (list K)) : list nat :=
  filter (fun i => cost_is 1 (nth i gencost [])) (seq 0 (length gencost)).
Definition npoints (r : list K) : nat := Z.to_nat (ftrunc (cell r NCOST)).
Definition bpts (r : list K) : list (K * K) :=
  map (fun k => (cell r (COST + 2 * k), cell r (COST + 1 + 2 * k))) (seq 0 (npoints r)).

Definition slope (a b : K * K) : K := ((snd b - snd a) / (fst b - fst a))%K.
(** the line through two points, at p *)
Definition chord (a b : K * K) (p : K) : K := (snd a + slope a b * (p - fst a))%K.
(** y lies on or above the line of every segment *)
Definition above (pts : list (K * K)) (p y : K) : Prop :=
  forall a b, In (a, b) (combine pts (tl pts)) -> le (chord a b p) y.
(** the cost at p: interpolation, the outer segments extended *)
Fixpoint interp (a : K * K) (pts : list (K * K)) (p : K) : K :=
  match pts with
  | [] => snd a
  | b :: rest =>
      match rest with
      | [] => chord a b p
      | _ => if fltb p (fst b) then chord a b p else interp b rest p
      end
  end.
Fixpoint convex_from (a : K * K) (pts : list (K * K)) : Prop :=
  match pts with
  | [] => True
  | b :: rest =>
      lt (fst a) (fst b) /\ match rest with [] => True | c :: _ => le (slope a b) (slope b c) end
      /\ convex_from b rest
  end.

(** ** branch angle differences *)
Definition degrees (a : K) : K := (a * fpi / fofZ 180)%K.
Definition angle_diff (r Va : list K) : K :=
  (nth (bus_no r F_BUS) Va 0 - nth (bus_no r T_BUS) Va 0)%K.
Definition angle_limited (r : list K) : Prop :=
  (cell r ANGMIN <> 0%K /\ lt (fofZ (-360)) (cell r ANGMIN)) \/
  (cell r ANGMAX <> 0%K /\ lt (cell r ANGMAX) (fofZ 360)).
Definition angle_ok (r Va : list K) : Prop :=
  (cell r ANGMIN <> 0%K -> le (degrees (cell r ANGMIN)) (angle_diff r Va)) /\
  (cell r ANGMAX <> 0%K -> le (angle_diff r Va) (degrees (cell r ANGMAX))).

(** ** dispatchable loads *)
Definition is_load (g : list K) : Prop := lt (cell g PMIN) 0%K /\ cell g PMAX = 0%K.
Definition var_load (g : list K) : Prop :=
  is_load g /\ (cell g QMIN <> 0%K \/ cell g QMAX <> 0%K).
(** P and Q of a load in the ratio of PMIN to its reactive limit *)
Definition const_pf (g : list K) (P Q : K) : Prop :=
  (cell g QMIN = 0%K -> (Q * cell g PMIN)%K = (P * cell g QMAX)%K) /\
  (cell g QMAX = 0%K -> (Q * cell g PMIN)%K = (P * cell g QMIN)%K) /\
  (cell g QMIN <> 0%K -> cell g QMAX <> 0%K -> Q = 0%K).
(** arctan2 with sin and cos: the direction of the point (x, y) *)
Definition trig_ok (sin_ cos_ : K -> K) (atan2 : K -> K -> K) : Prop :=
  forall x y, x <> 0%K -> exists h, lt 0%K h /\
    y = (h * sin_ (atan2 y x))%K /\ x = (h * cos_ (atan2 y x))%K.

(** ** generator capability curves *)
(** below the upper edge, from (PC1, QC1MAX) to (PC2, QC2MAX); above the lower edge *)
Definition under_cap (g : list K) (P Q : K) : Prop :=
  le Q (chord (cell g PC1, cell g QC1MAX) (cell g PC2, cell g QC2MAX) P).
Definition over_cap (g : list K) (P Q : K) : Prop :=
  le (chord (cell g PC1, cell g QC1MIN) (cell g PC2, cell g QC2MIN) P) Q.
(** the data describe a trapezoid narrowing with P *)
Definition trapezoid (g : list K) : Prop :=
  lt (cell g PC1) (cell g PC2) /\ le (cell g QC2MAX) (cell g QC1MAX) /\ le (cell g QC1MIN) (cell g QC2MIN).
Definition has_curve (g : list K) : Prop := cell g PC1 <> cell g PC2.
(** the operating box in MW and MVAr *)
Definition in_box (g : list K) (P Q : K) : Prop :=
  le P (cell g PMAX) /\ le (cell g QMIN) Q /\ le Q (cell g QMAX).
(** norm2 gives the length of the pair (a, b) *)
Definition norm_at (norm2 : K -> K -> K) (a b : K) : Prop :=
  le 0%K (norm2 a b) /\ (norm2 a b * norm2 a b)%K = (a * a + b * b)%K.
(** ... of the two sloped edges of a generator's curve *)
Definition norm_on (norm2 : K -> K -> K) (g : list K) : Prop :=
  norm_at norm2 (cell g QC1MAX - cell g QC2MAX)%K (cell g PC2 - cell g PC1)%K /\
  norm_at norm2 (cell g QC2MIN - cell g QC1MIN)%K (cell g PC1 - cell g PC2)%K.
End OpfSpec.
