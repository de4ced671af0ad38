(** Vectors and matrices of rationals as lists. *)
From Verif Require Export Lib.Num.

Notation vec := (list Qc).

(** dot product (of the common prefix) *)
Fixpoint dot (u v : vec) : Qc :=
  match u, v with
  | a :: u', b :: v' => (a * b + dot u' v')%Qc
  | _, _ => 0%Qc
  end.

Definition sumv (v : vec) : Qc := fold_right Qcplus 0%Qc v.

Definition matvec (A : list vec) (x : vec) : vec := map (fun r => dot r x) A.

(** [u .* v] *)
Definition map2 {A B C} (f : A -> B -> C) (u : list A) (v : list B) : list C :=
  map (fun p => f (fst p) (snd p)) (combine u v).

(** [l[i : i + length seg] = seg] *)
Definition put {A} (l : list A) (i : nat) (seg : list A) : list A :=
  firstn i l ++ seg ++ skipn (i + length seg) l.
