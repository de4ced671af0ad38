(** Rationals as reals. *)
From Coq Require Export Reals Qreals.
From Verif Require Export Lib.Num.

Definition q2r (q : Qc) : R := Q2R (this q).

(** a polynomial with rational coefficients (highest first) as a real function *)
Definition polyvalR (c : list Qc) (x : R) : R :=
  fold_left (fun s a => s * x + q2r a)%R c 0%R.
