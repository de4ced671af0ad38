(** A sparse linear solver over the rationals for the examples: Gauss-Jordan elimination whose
    answer is checked, so that it is exact by construction. *)
From Verif Require Export Lib.Fld Lib.Sparse.
Local Open Scope nat_scope.

Definition q0 (a : Qc) : bool := qc_eqb a (Q2Qc 0).
(** bring a row with a nonzero entry in column j to the front *)
Fixpoint pivot (j : nat) (rows : list (list Qc)) : option (list Qc * list (list Qc)) :=
  match rows with
  | [] => None
  | r :: t => if q0 (nth j r (Q2Qc 0))
              then match pivot j t with Some (p, t') => Some (p, r :: t') | None => None end
              else Some (r, t)
  end.
Definition axpy (a : Qc) (p r : list Qc) : list Qc :=
  map (fun t => (snd t - a * fst t)%Qc) (combine p r).
Fixpoint jordan (n j : nat) (done rows : list (list Qc)) : list (list Qc) :=
  match n with
  | 0 => done
  | S k =>
      match pivot j rows with
      | None => []
      | Some (p, t) =>
          let p := map (fun a => (a / nth j p (Q2Qc 0))%Qc) p in
          let el := fun r => axpy (nth j r (Q2Qc 0)) p r in
          jordan k (S j) (map el done ++ [p]) (map el t)
      end
  end.
Definition solveQ (M : smat Qc) (b : list Qc) : result (option (list Qc)) :=
  let n := ncols M in
  let x := map (fun r => nth n r (Q2Qc 0))
             (jordan n 0 [] (map (fun i => map (at_ M i) (seq 0 n) ++ [nth i b (Q2Qc 0)]) (seq 0 (nrows M)))) in
  if (length x =? n) && (length b =? nrows M)
     && forallb (fun i => qc_eqb (lsum (fun j => at_ M i j * nth j x 0)%K (seq 0 n)) (nth i b 0%K))
          (seq 0 (nrows M))
  then Ok (Some x) else Ok None.
