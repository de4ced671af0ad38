(** External/internal numbering: pypower/ext2int.py, int2ext.py, e2i_data.py, i2e_data.py,
    get_reorder.py, set_reorder.py (the parts of e2i_field.py / i2e_field.py that deal with a
    top-level field).

    The tables hold cells of a type C with the operations of class [Cell]: [num] (finite floats and
    the special values) or the elements of a field.

    Simplifications: userfcn callbacks are not run here (see Model/Userfcn.v); copies/deepcopies
    disappear because values are immutable; messages written to stderr are dropped. *)
From Verif Require Import Lib.Num Model.Idx.

Inductive okind := OBus | OGen | OBranch.
Inductive ostate := StateI | StateE.

Notation row := (list num).
Notation table := (list (list num)).

Section Cells.
Context {C : Type} {CC : Cell C}.
Local Notation num := C.
Local Notation row := (list C).
Local Notation table := (list (list C)).

(** [t[:, c]] *)
Definition col (c : nat) (t : table) : result (list num) := mapM (fun r => get r c) t.

(** [t[:, c] = vals] *)
Definition set_col (c : nat) (t : table) (vals : list num) : result table :=
  if length t =? length vals
  then mapM (fun rv => set_checked (fst rv) c (snd rv)) (combine t vals)
  else Err ValueError.

(** [t[:, c].astype(int)] *)
Definition int_col (c : nat) (t : table) : result (list Z) :=
  xs <- col c t ;; mapM to_int xs.

(** user matrix (A or N): scipy sparse or numpy dense, with its number of columns *)
Record umat_of := { u_sparse : bool; u_cols : nat; u_rows : table }.

Local Notation umat := umat_of.

(** tables saved under order['ext'] / order['int'] *)
Record tabs_of := {
  x_bus : table; x_gen : table; x_branch : table;
  x_gencost : option table; x_areas : option table;
  x_A : option umat; x_N : option umat }.
Local Notation tabs := tabs_of.

(** ppc['order'].  [o_i2e] is order['bus']['i2e']; the array order['bus']['e2i'] is a function
    of it ([e2i_get] below) and is not stored separately. *)
Record order_of := {
  o_state : ostate;
  o_ext : option tabs;
  o_int : option tabs;
  o_i2e : list num;
  o_bus_on : list nat; o_bus_off : list nat;
  o_gen_e2i : list nat; o_gen_i2e : list nat;
  o_gen_on : list nat; o_gen_off : list nat;
  o_br_on : list nat; o_br_off : list nat;
  o_areas_on : list nat; o_areas_off : list nat }.
Local Notation order := order_of.

Record ppc_of := {
  p_bus : table; p_gen : table; p_branch : table;
  p_gencost : option table; p_areas : option table;
  p_A : option umat; p_N : option umat;
  p_order : option order }.
Local Notation ppc := ppc_of.

(** ** Functional arrays indexed by bus number *)

(** numpy index normalisation for an array of length [size] *)
Definition wrap (size k : Z) : result Z :=
  if (0 <=? k)%Z && (k <? size)%Z then Ok k
  else if (- size <=? k)%Z && (k <? 0)%Z then Ok (k + size)%Z
  else Err IndexError.

Definition zmax (l : list Z) : Z := fold_right Z.max 0%Z l.

(** sum of the positions holding [k] *)
Fixpoint sum_pos (i : nat) (nums : list Z) (k : Z) : nat :=
  match nums with
  | [] => 0
  | n :: r => (if (n =? k)%Z then i else 0) + sum_pos (S i) r k
  end.

(** last position holding [k], [d] if there is none *)
Fixpoint last_pos (i : nat) (nums : list Z) (k : Z) (d : nat) : nat :=
  match nums with
  | [] => d
  | n :: r => last_pos (S i) r k (if (n =? k)%Z then i else d)
  end.

(** ext2int.py:113-115: the dense vector built from
    [sparse((range(nb), (bus_i, zeros(nb))))], read at [k]: duplicate entries are summed,
    missing ones are 0. *)
Definition n2i_get (nums : list Z) (k : Z) : result nat :=
  k' <- wrap (zmax nums + 1) k ;; Ok (sum_pos 0 nums k').

(** ext2int.py:153-154: [e2i = zeros(max(i2e)+1); e2i[i2e] = arange(nb)], read at [k]. *)
Definition e2i_get (i2e : list Z) (k : Z) : result nat :=
  k' <- wrap (zmax i2e + 1) k ;; Ok (last_pos 0 i2e k' 0).

(** ** e2i_data / i2e_data (vectors, or matrices seen as lists of rows: dim = 0) *)

(** e2i_data.py:66-70, index vector of a single set *)
Definition e2i_idx (o : order) (k : okind) : result (list nat) :=
  match k with
  | OGen => gather (o_gen_on o) (o_gen_e2i o)
  | OBus => Ok (o_bus_on o)
  | OBranch => Ok (o_br_on o)
  end.

(** e2i_data.py:66-71 with get_reorder.py:20-33 *)
Definition e2i_single {A} (o : order) (k : okind) (v : list A) : result (list A) :=
  idx <- e2i_idx o k ;; gather v idx.

Definition ext_len (x : tabs) (k : okind) : nat :=
  match k with OBus => length (x_bus x) | OGen => length (x_gen x)
             | OBranch => length (x_branch x) end.

(** e2i_data.py:73-93 (dense): the blocks are converted one by one, the rest is kept *)
Fixpoint e2i_multi {A} (o : order) (x : tabs) (ords : list okind) (b : nat) (v : list A)
  : result (list A) :=
  match ords with
  | [] => Ok (skipn b v)
  | k :: ks =>
      blk <- gather v (seq b (ext_len x k)) ;;
      blk' <- e2i_single o k blk ;;
      rest <- e2i_multi o x ks (b + ext_len x k) v ;;
      Ok (blk' ++ rest)
  end.

Definition status_on (o : order) (k : okind) : list nat :=
  match k with OBus => o_bus_on o | OGen => o_gen_on o | OBranch => o_br_on o end.

(** i2e_data.py:69-74 with set_reorder.py:21-36 (same dtype for both arrays) *)
Definition i2e_single {A} (o : order) (k : okind) (v oldv : list A) : result (list A) :=
  v' <- match k with OGen => gather v (o_gen_i2e o) | _ => Ok v end ;;
  scatter_checked oldv (status_on o k) v'.

Definition int_len (p : ppc) (k : okind) : nat :=
  match k with OBus => length (p_bus p) | OGen => length (p_gen p)
             | OBranch => length (p_branch p) end.

(** i2e_data.py:76-91 *)
Fixpoint i2e_multi {A} (o : order) (x : tabs) (p : ppc) (ords : list okind) (be bi : nat)
         (v oldv : list A) : result (list A) :=
  match ords with
  | [] => Ok (skipn bi v)
  | k :: ks =>
      blk <- gather v (seq bi (int_len p k)) ;;
      old <- gather oldv (seq be (ext_len x k)) ;;
      blk' <- i2e_single o k blk old ;;
      rest <- i2e_multi o x p ks (be + ext_len x k) (bi + int_len p k) v oldv ;;
      Ok (blk' ++ rest)
  end.

(** e2i_data.py:85-93 along the columns (dim = 1) of a user matrix: for a sparse matrix the
    result of hstack is discarded and the unconverted matrix is returned (lines 85-91), after
    the column selections have been carried out (they can raise). *)
Definition e2i_umat (o : order) (x : tabs) (ords : list okind) (m : umat) : result umat :=
  let need := fold_right (fun k n => ext_len x k + n) 0 ords in
  if u_cols m <? need then Err IndexError
  else if u_sparse m then Ok m
  else rows <- mapM (e2i_multi o x ords 0) (u_rows m) ;;
       Ok {| u_sparse := false;
             u_cols := u_cols m; (* recomputed by numpy; not used afterwards *)
             u_rows := rows |}.

(** ** ext2int *)

Definition opt_map {A B} (f : A -> result B) (o : option A) : result (option B) :=
  match o with None => Ok None | Some a => b <- f a ;; Ok (Some b) end.

Definition valid_type (t : num) : bool :=
  num_eqb t (ofZ 1) || num_eqb t (ofZ 2) || num_eqb t (ofZ 3) || num_eqb t (ofZ 4).

(** ext2int.py:99-103 *)
Definition drop_empty_areas (a : option table) : option table :=
  match a with Some [] => None | _ => a end.

(** status masks, ext2int.py:116-132 *)
Definition bus_mask (bt : list num) : list bool := map (fun t => negb (num_eqb t (ofZ 4))) bt.

Definition bus_on_at (bs : list bool) (nums : list Z) (k : Z) : result bool :=
  i <- n2i_get nums k ;; get bs i.

Definition gen_on (bs : list bool) (nums : list Z) (g : row) : result bool :=
  st <- get g GEN_STATUS ;;
  bx <- get g GEN_BUS ;; b <- to_int bx ;;
  on <- bus_on_at bs nums b ;;
  Ok (num_gt0 st && on).

Definition br_on (bs : list bool) (nums : list Z) (r : row) : result bool :=
  sx <- get r BR_STATUS ;; st <- to_int sx ;;
  fx <- get r F_BUS ;; f <- to_int fx ;;
  tx <- get r T_BUS ;; t <- to_int tx ;;
  fon <- bus_on_at bs nums f ;;
  ton <- bus_on_at bs nums t ;;
  Ok (Z.odd st && fon && ton).   (* int & bool & bool keeps bit 0 *)

Definition area_on (bs : list bool) (nums : list Z) (r : row) : result bool :=
  bx <- get r PRICE_REF_BUS ;; b <- to_int bx ;; bus_on_at bs nums b.

(** [t[:, c] = e2i[t[:, c].astype(int)]], ext2int.py:155-166 *)
Definition renum_row (i2e : list Z) (c : nat) (r : row) : result row :=
  bx <- get r c ;; b <- to_int bx ;; i <- e2i_get i2e b ;; set_checked r c (ofN i).
Definition renum (i2e : list Z) (c : nat) (t : table) : result table :=
  mapM (renum_row i2e c) t.

Section WithArgsort.
(** numpy.argsort (default quicksort: not stable, so any sorting permutation is allowed) *)
Variable argsort : list Z -> list nat.

Definition ext2int_body (p : ppc) : result ppc :=
  let ng0 := length (p_gen p) in
  let nb0 := length (p_bus p) in
  (* lines 85-90 *)
  let dc := match p_A p, p_N p with
            | Some m, _ => u_cols m <? 2 * nb0 + 2 * ng0
            | None, Some m => u_cols m <? 2 * nb0 + 2 * ng0
            | None, None => false
            end in
  let areas0 := drop_empty_areas (p_areas p) in
  bt <- col BUS_TYPE (p_bus p) ;;
  (* line 109: '%d' % err raises for more than one invalid bus *)
  _ <- guard (length (find (map (fun t => negb (valid_type t)) bt)) <=? 1) TypeError ;;
  nums <- int_col BUS_I (p_bus p) ;;
  (* lines 113-114: max() of an empty array; scipy rejects negative coordinates *)
  _ <- guard (negb (nb0 =? 0)) ValueError ;;
  _ <- guard (forallb (fun n => (0 <=? n)%Z) nums) ValueError ;;
  let bs := bus_mask bt in
  gs <- mapM (gen_on bs nums) (p_gen p) ;;
  brs <- mapM (br_on bs nums) (p_branch p) ;;
  ars <- match areas0 with None => Ok [] | Some a => mapM (area_on bs nums) a end ;;
  let bon := find bs in
  let gon := find gs in
  let lon := find brs in
  let aon := find ars in
  (* lines 134-146 *)
  bus1 <- gather (p_bus p) bon ;;
  gen1 <- gather (p_gen p) gon ;;
  br1 <- gather (p_branch p) lon ;;
  areas1 <- opt_map (fun a => gather a aon) areas0 ;;
  (* lines 152-166 *)
  i2e <- col BUS_I bus1 ;;
  i2eZ <- mapM to_int i2e ;;
  _ <- guard (negb (length bus1 =? 0)) ValueError ;;
  bus2 <- renum i2eZ BUS_I bus1 ;;
  gen2 <- renum i2eZ GEN_BUS gen1 ;;
  br2 <- renum i2eZ F_BUS br1 ;;
  br3 <- renum i2eZ T_BUS br2 ;;
  areas2 <- opt_map (renum i2eZ PRICE_REF_BUS) areas1 ;;
  (* lines 169-172 *)
  keys <- int_col GEN_BUS gen2 ;;
  let ge2i := argsort keys in
  let gi2e := argsort (map Z.of_nat ge2i) in
  gen3 <- gather gen2 ge2i ;;
  let ext := {| x_bus := p_bus p; x_gen := p_gen p; x_branch := p_branch p;
                x_gencost := p_gencost p; x_areas := areas0;
                x_A := p_A p; x_N := p_N p |} in
  let o := {| o_state := StateI; o_ext := Some ext; o_int := None; o_i2e := i2e;
              o_bus_on := bon; o_bus_off := find (map negb bs);
              o_gen_e2i := ge2i; o_gen_i2e := gi2e;
              o_gen_on := gon; o_gen_off := find (map negb gs);
              o_br_on := lon; o_br_off := find (map negb brs);
              o_areas_on := aon; o_areas_off := find (map negb ars) |} in
  (* lines 180-184 *)
  gc <- opt_map (fun g =>
          let ords := if length g =? 2 * ng0 then [OGen; OGen] else [OGen] in
          e2i_multi o ext ords 0 g) (p_gencost p) ;;
  (* lines 185-193 *)
  let uords := if dc then [OBus; OGen] else [OBus; OBus; OGen; OGen] in
  A' <- opt_map (e2i_umat o ext uords) (p_A p) ;;
  N' <- opt_map (e2i_umat o ext uords) (p_N p) ;;
  Ok {| p_bus := bus2; p_gen := gen3; p_branch := br3; p_gencost := gc; p_areas := areas2;
        p_A := A'; p_N := N'; p_order := Some o |}.

(** ext2int.py:57-61: conversion only if there is no order yet or its state is 'e' *)
Definition ext2int (p : ppc) : result ppc :=
  match p_order p with
  | Some o => match o_state o with StateI => Ok p | StateE => ext2int_body p end
  | None => ext2int_body p
  end.
End WithArgsort.

(** ** int2ext *)

(** [t[on, :] = rows] (int2ext.py:77-85); broadcasting of a single row is not modelled *)
Definition put_rows (t : table) (on : list nat) (rows : table) : result table :=
  match t, rows with
  | r0 :: _, r1 :: _ =>
      if length r0 =? length r1 then scatter_checked t on rows else Err ValueError
  | _, _ => scatter_checked t on rows
  end.

(** [t[on, c] = i2e[t[on, c].astype(int)]] (int2ext.py:88-103) *)
Definition unrenum_row (i2e : list num) (c : nat) (r : row) : result row :=
  bx <- get r c ;; b <- to_int bx ;; v <- np_get i2e b ;; set_checked r c v.
Definition unrenum (i2e : list num) (c : nat) (t : table) (on : list nat) : result table :=
  rows <- gather t on ;;
  rows' <- mapM (unrenum_row i2e c) rows ;;
  scatter_checked t on rows'.

(** a field present in ppc is replaced by the saved external one, KeyError if it was not saved
    (int2ext.py:63-74) *)
Definition restore {A} (cur saved : option A) : result (option A) :=
  match cur with
  | None => Ok None
  | Some _ => s <- of_option KeyError saved ;; Ok (Some s)
  end.

Definition int2ext_body (p : ppc) (o : order) : result ppc :=
  ext <- of_option KeyError (o_ext o) ;;
  let int := {| x_bus := p_bus p; x_gen := p_gen p; x_branch := p_branch p;
                x_gencost := p_gencost p; x_areas := p_areas p; x_A := p_A p; x_N := p_N p |} in
  gc <- restore (p_gencost p) (x_gencost ext) ;;
  ar <- restore (p_areas p) (x_areas ext) ;;
  A' <- restore (p_A p) (x_A ext) ;;
  N' <- restore (p_N p) (x_N ext) ;;
  bus1 <- put_rows (x_bus ext) (o_bus_on o) (p_bus p) ;;
  br1 <- put_rows (x_branch ext) (o_br_on o) (p_branch p) ;;
  grows <- gather (p_gen p) (o_gen_i2e o) ;;
  gen1 <- put_rows (x_gen ext) (o_gen_on o) grows ;;
  ar1 <- opt_map (fun a => put_rows a (o_areas_on o)
            (match p_areas p with Some r => r | None => [] end)) ar ;;
  bus2 <- unrenum (o_i2e o) BUS_I bus1 (o_bus_on o) ;;
  br2 <- unrenum (o_i2e o) F_BUS br1 (o_br_on o) ;;
  br3 <- unrenum (o_i2e o) T_BUS br2 (o_br_on o) ;;
  gen2 <- unrenum (o_i2e o) GEN_BUS gen1 (o_gen_on o) ;;
  ar2 <- opt_map (fun a => unrenum (o_i2e o) PRICE_REF_BUS a (o_areas_on o)) ar1 ;;
  Ok {| p_bus := bus2; p_gen := gen2; p_branch := br3; p_gencost := gc; p_areas := ar2;
        p_A := A'; p_N := N';
        p_order := Some {| o_state := StateE; o_ext := None; o_int := Some int;
                           o_i2e := o_i2e o;
                           o_bus_on := o_bus_on o; o_bus_off := o_bus_off o;
                           o_gen_e2i := o_gen_e2i o; o_gen_i2e := o_gen_i2e o;
                           o_gen_on := o_gen_on o; o_gen_off := o_gen_off o;
                           o_br_on := o_br_on o; o_br_off := o_br_off o;
                           o_areas_on := o_areas_on o; o_areas_off := o_areas_off o |} |}.

(** int2ext.py:43-110 *)
Definition int2ext (p : ppc) : result ppc :=
  match p_order p with
  | None => Err KeyError
  | Some o => match o_state o with
              | StateI => int2ext_body p o
              | StateE => Ok p          (* message only *)
              end
  end.

(** e2i_data / i2e_data entry points (e2i_data.py:55-94, i2e_data.py:58-93) for a dense vector
    or the rows of a dense matrix.  [None] is Python's [None] (returned after a message when the
    order information is missing). *)
Definition e2i_data {A} (p : ppc) (v : list A) (ordering : okind + list okind)
  : result (option (list A)) :=
  match p_order p with
  | None => Ok None
  | Some o =>
      match o_state o with
      | StateE => Ok None
      | StateI =>
          match ordering with
          | inl k => r <- e2i_single o k v ;; Ok (Some r)
          | inr ks => x <- of_option KeyError (o_ext o) ;;
                      r <- e2i_multi o x ks 0 v ;; Ok (Some r)
          end
      end
  end.

Definition i2e_data {A} (p : ppc) (v oldv : list A) (ordering : okind + list okind)
  : result (option (list A)) :=
  match p_order p with
  | None => Ok None
  | Some o =>
      match o_state o with
      | StateE => Ok None
      | StateI =>
          match ordering with
          | inl k => r <- i2e_single o k v oldv ;; Ok (Some r)
          | inr ks => x <- of_option KeyError (o_ext o) ;;
                      r <- i2e_multi o x p ks 0 0 v oldv ;; Ok (Some r)
          end
      end
  end.

End Cells.
Arguments umat_of C : clear implicits.
Arguments tabs_of C : clear implicits.
Arguments order_of C : clear implicits.
Arguments ppc_of C : clear implicits.
Notation umat := (umat_of num).
Notation tabs := (tabs_of num).
Notation order := (order_of num).
Notation ppc := (ppc_of num).

(** an executable stable argsort (insertion), used to run the model *)
Fixpoint ins_sorted (k : Z * nat) (l : list (Z * nat)) : list (Z * nat) :=
  match l with
  | [] => [k]
  | h :: t => if (fst k <=? fst h)%Z then k :: l else h :: ins_sorted k t
  end.
Definition argsort_stable (keys : list Z) : list nat :=
  map snd (fold_right ins_sorted [] (combine keys (seq 0 (length keys)))).
