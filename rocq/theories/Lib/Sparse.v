(** scipy sparse matrices as lists of (row, column, value) entries; repeated positions add up,
    as in [csr_matrix((data, (i, j)), shape)]. *)
From Verif Require Export Lib.Fld Lib.LinAlg.

Section Sparse.
Context {K : Type} {R : Rng K}.
Local Open Scope fld_scope.

(** sum of [f] over a list *)
Fixpoint lsum {A} (f : A -> K) (l : list A) : K :=
  match l with [] => 0 | x :: t => f x + lsum f t end.

Record entry := Ent { erow : nat; ecol : nat; ev : K }.
Record smat := SM { nrows : nat; ncols : nat; ents : list entry }.

Definition zip3 (rows cols : list nat) (data : list K) : list entry :=
  map (fun p => Ent (fst (fst p)) (snd (fst p)) (snd p)) (combine (combine rows cols) data).

(** the constructor: equal lengths and indices within the shape *)
Definition sparse (data : list K) (rows cols : list nat) (nr nc : nat) : result smat :=
  if negb ((length rows =? length data) && (length cols =? length data)) then Err ValueError
  else if forallb (fun r => r <? nr) rows && forallb (fun c => c <? nc) cols
       then Ok (SM nr nc (zip3 rows cols data))
       else Err ValueError.

(** M[i, j] *)
Definition at_ (M : smat) (i j : nat) : K :=
  lsum (fun e => if (erow e =? i) && (ecol e =? j) then ev e else 0) (ents M).

(** row i of [M * x] *)
Definition mulrow (M : smat) (x : list K) (i : nat) : K :=
  lsum (fun e => if erow e =? i then ev e * nth (ecol e) x 0 else 0) (ents M).

Definition mulv (M : smat) (x : list K) : result (list K) :=
  if length x =? ncols M then Ok (map (mulrow M x) (seq 0 (nrows M))) else Err ValueError.

(** M.T *)
Definition transp (M : smat) : smat :=
  SM (ncols M) (nrows M) (map (fun e => Ent (ecol e) (erow e) (ev e)) (ents M)).

(** A * B and A + B *)
Definition mulm_ents (a b : list entry) : list entry :=
  flat_map (fun e => flat_map (fun e' =>
     if ecol e =? erow e' then [Ent (erow e) (ecol e') (ev e * ev e')] else []) b) a.
Definition mulm (A B : smat) : result smat :=
  if ncols A =? nrows B then Ok (SM (nrows A) (ncols B) (mulm_ents (ents A) (ents B)))
  else Err ValueError.
Definition addm (A B : smat) : result smat :=
  if (nrows A =? nrows B) && (ncols A =? ncols B)
  then Ok (SM (nrows A) (ncols A) (ents A ++ ents B)) else Err ValueError.

(** elementwise operations on vectors of equal length *)
Definition ewise {A B C} (f : A -> B -> C) (u : list A) (v : list B) : result (list C) :=
  if length u =? length v then Ok (map2 f u v) else Err ValueError.

(** the columns of a table *)
Definition col (j : nat) (t : list (list K)) : result (list K) := mapM (fun r => get r j) t.
End Sparse.
Arguments entry K : clear implicits.
Arguments smat K : clear implicits.

(** a matrix with every stored value mapped by an additive [f] (conj, opposite, scaling, real
    part), and the square diagonal matrix [csr_matrix((v, (range(n), range(n))))]; without a
    shape argument scipy cannot infer a shape from empty index lists *)
Definition mapm {K L : Type} (f : K -> L) (M : smat K) : smat L :=
  SM (nrows M) (ncols M) (map (fun e => Ent (erow e) (ecol e) (f (ev e))) (ents M)).
Definition diagm {K : Type} (v : list K) : result (smat K) :=
  match v with
  | [] => Err ValueError
  | _ => let i := seq 0 (length v) in Ok (SM (length v) (length v) (zip3 i i v))
  end.
