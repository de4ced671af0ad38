(** Interface flow limits: the callbacks of toggle_iflims.py. *)
From Verif Require Export Model.Network Model.OpfLin.
Local Open Scope nat_scope.

(** ** toggle_iflims.py:81-106.  The map is an integer array of rows (interface, branch); [nl0] rows of the external branch
    table, [on] the rows in service.  Results: order.ext.ifmap and if.map.  Both names denote the same array while its
    second column is overwritten (line 100), so the saved map is the converted one; only line 102 makes a copy. *)
Definition if_ext2int (nl0 : nat) (on : list nat) (ifmap : list (Z * Z)) : result (list (Z * Z) * list (Z * Z)) :=
  e2i <- scatter_checked (repeat 0%Z nl0) on (map Z.of_nat (seq 0 (length on))) ;;
  new <- mapM (fun r => v <- get e2i (Z.abs_nat (snd r)) ;; Ok (fst r, Z.sgn (snd r) * v)%Z) ifmap ;;
  Ok (new, filter (fun r => negb (snd r =? 0)%Z) new).

(** numpy.unique: sorted without repetitions *)
Fixpoint insert_z (a : Z) (l : list Z) : list Z :=
  match l with
  | [] => [a]
  | b :: l' => if (a <? b)%Z then a :: l else if (a =? b)%Z then l else b :: insert_z a l'
  end.
Definition unique_z (l : list Z) : list Z := fold_right insert_z [] l.

Section Iflims.
Context {K : Type} {F : Fld K}.

(** whether if.map holds integers; [Pfinj[br[i]]] raises IndexError for a float index *)
Variable int_map : bool.

Definition sgn_k (z : Z) : K := fofZ (Z.sgn z).
Definition lim_pu (base shift : K) (a : ext K) : result (ext K) :=
  match a with
  | EFin a => if feqb base 0%K then Err NonFinite else Ok (EFin (a / base - shift)%K)
  | _ => if fltb 0%K base then Ok a else Err OutOfModel
  end.

(** lines 137-152: row [k] of the constraint *)
Definition if_row (Bf : smat K) (Pfinj : list K) (ifmap : list (Z * Z)) (k : nat) (num : Z) : result (list (entry K) * K) :=
  let br := map snd (filter (fun r => (fst r =? num)%Z) ifmap) in
  foldM (fun acc b =>
           _ <- guard int_map IndexError ;;
           p <- get Pfinj (Z.abs_nat b) ;;
           Ok (fst acc ++ map (fun e => Ent k (ecol e) (sgn_k b * ev e)%K) (filter (fun e => erow e =? Z.abs_nat b) (ents Bf)),
               (snd acc + sgn_k b * p)%K))
    br ([], 0%K).
(** lines 109-161; rows of if.lims: interface number, lower and upper limit *)
Definition if_formulation (base : K) (bus branch : list (list K)) (ifmap : list (Z * Z)) (lims : list (Z * (ext K * ext K)))
  : result (smat K * list (ext K) * list (ext K)) :=
  '(_, Bf, _, Pfinj) <- makeBdc bus branch ;;
  let ifidx := unique_z (map fst lims) in
  rows <- mapM (fun p =>
            '(es, bk) <- if_row Bf Pfinj ifmap (fst p) (snd p) ;;
            '(_, (lo, up)) <- get lims (fst p) ;;
            l <- lim_pu base bk lo ;;
            u <- lim_pu base bk up ;;
            Ok (es, (l, u))) (combine (seq 0 (length ifidx)) ifidx) ;;
  Ok (SM (length ifidx) (ncols Bf) (concat (map fst rows)), map (fun r => fst (snd r)) rows, map (fun r => snd (snd r)) rows).

(** lines 164-197: the map and the interface flows *)
Definition if_int2ext (saved ifmap : list (Z * Z)) (branch : list (list K)) (lims : list (Z * (ext K * ext K))) : result (list (Z * Z) * list K) :=
  P <- mapM (fun num =>
         vs <- mapM (fun b =>
                 _ <- guard int_map IndexError ;;
                 r <- get branch (Z.abs_nat b) ;; p <- get r PF ;; Ok (sgn_k b * p)%K)
               (map snd (filter (fun r => (fst r =? num)%Z) ifmap)) ;;
         Ok (lsum (fun v => v) vs)) (unique_z (map fst lims)) ;;
  Ok (saved, P).
End Iflims.
