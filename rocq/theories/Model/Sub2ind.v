(** pypower/util.py:9-18: sub2ind, for one pair of subscripts (arrays are treated entry by entry), and numpy's flatten.
    Subscripts that are floats are taken to have integer values. *)
From Verif Require Export Lib.Py.
Local Open Scope Z_scope.

(** numpy's %, zero if the divisor is *)
Definition np_mod (a b : Z) : Z := if b =? 0 then 0 else a mod b.
Definition sub2ind (shape : Z * Z) (I J : Z) (row_major : bool) : Z :=
  if row_major then np_mod I (fst shape) * snd shape + np_mod J (snd shape)
  else np_mod J (snd shape) * fst shape + np_mod I (fst shape).

(** flatten('F') and flatten() of a table with n columns *)
Definition column {A} (j : nat) (t : list (list A)) : list A := flat_map (fun r => match nth_error r j with Some x => [x] | None => [] end) t.
Definition flattenF {A} (n : nat) (t : list (list A)) : list A := flat_map (fun j => column j t) (seq 0 n).
Definition flattenC {A} (t : list (list A)) : list A := concat t.
