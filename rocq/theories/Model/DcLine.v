(** DC lines: toggle_dcline.py (callbacks for ext2int, formulation and int2ext), idx_dcline.py. *)
From Verif Require Export Model.OpfLin Model.AcPf Model.Pips.
Local Open Scope nat_scope.

(** idx_dcline.py:50-74 *)
Definition L_F_BUS := 0.   Definition L_T_BUS := 1.   Definition L_STATUS := 2.
Definition L_PF := 3.      Definition L_PT := 4.      Definition L_QF := 5.     Definition L_QT := 6.
Definition L_VF := 7.      Definition L_VT := 8.
Definition L_PMIN := 9.    Definition L_PMAX := 10.
Definition L_QMINF := 11.  Definition L_QMAXF := 12.  Definition L_QMINT := 13. Definition L_QMAXT := 14.
Definition L_LOSS0 := 15.  Definition L_LOSS1 := 16.
Definition L_MU_PMIN := 17. Definition L_MU_PMAX := 18.
Definition L_MU_QMINF := 19. Definition L_MU_QMAXF := 20. Definition L_MU_QMINT := 21. Definition L_MU_QMAXT := 22.

Section DcLine.
Context {K : Type} {F : Fld K}.
(** whether arrays of floats are accepted as indices (truncated); NumPy since 1.12 raises IndexError *)
Variable float_index : bool.
(** generator tables with infinite limits *)
Notation xrow := (list (ext K)).

(** [t[rows, j] = v] for a constant; rows may repeat *)
Definition set_const (rows : list nat) (j : nat) (v : K) (t : list (list K)) : result (list (list K)) :=
  _ <- guard (forallb (fun i => i <? length t) rows) IndexError ;;
  _ <- guard (forallb (fun r => j <? length r) t) IndexError ;;
  Ok (map (fun p => if existsb (Nat.eqb (fst p)) rows then upd (snd p) j v else snd p) (combine (seq 0 (length t)) t)).

Definition setx (cols : list (nat * ext K)) (r : xrow) : xrow :=
  fold_left (fun r c => upd r (fst c) (snd c)) cols r.
(** isload of a row with possibly infinite limits *)
Definition isload_x (g : xrow) : bool :=
  match nth PMIN g EPos with ENeg => true | EFin a => fltb a 0%K | EPos => false end
  && match nth PMAX g EPos with EFin b => feqb b 0%K | _ => false end.
Definition fudge (g : xrow) : xrow := if isload_x g then upd g PMAX (EFin (- dec 1 6))%K else g.

(** a cell known to exist *)
Definition cl (r : list K) (j : nat) : K := nth j r 0%K.
Definition nonneg (a : K) : bool := negb (fltb a 0%K).
(** lines 143-188: the two generators of a line *)
Definition from_gen (w : nat) (d : list K) : xrow :=
  fudge (setx [(MBASE, EFin (fofZ 100)); (GEN_STATUS, EFin (cl d L_STATUS)); (PMIN, ENeg); (PMAX, EPos);
               (GEN_BUS, EFin (cl d L_F_BUS)); (PG, EFin (- cl d L_PF)%K); (QG, EFin (cl d L_QF)); (VG, EFin (cl d L_VF));
               (PMAX, if nonneg (cl d L_PMIN) then EFin (- cl d L_PMIN)%K else EPos);
               (PMIN, if nonneg (cl d L_PMAX) then EFin (- cl d L_PMAX)%K else ENeg);
               (QMIN, EFin (cl d L_QMINF)); (QMAX, EFin (cl d L_QMAXF))]
         (repeat (EFin 0%K) w)).
Definition to_gen (w : nat) (d : list K) : xrow :=
  fudge (setx [(MBASE, EFin (fofZ 100)); (GEN_STATUS, EFin (cl d L_STATUS)); (PMIN, ENeg); (PMAX, EPos);
               (GEN_BUS, EFin (cl d L_T_BUS)); (PG, EFin (cl d L_PT)); (QG, EFin (cl d L_QT)); (VG, EFin (cl d L_VT));
               (PMIN, if nonneg (cl d L_PMIN) then ENeg else EFin (cl d L_PMIN));
               (PMAX, if nonneg (cl d L_PMAX) then EPos else EFin (cl d L_PMAX));
               (QMIN, EFin (cl d L_QMINT)); (QMAX, EFin (cl d L_QMAXT))]
         (repeat (EFin 0%K) w)).

(** shape[1] of a nonempty table *)
Definition width {A} (t : list (list A)) : result nat :=
  match t with [] => Err OutOfModel | r :: _ => Ok (length r) end.
Definition line_on (d : list K) : bool := fltb 0%K (cl d L_STATUS).

(** ** toggle_dcline.py:94-245.  [e2i] gives internal bus positions; [cost] says whether 'dclinecost' is present: then
    [NCOST + range(..)] raises TypeError for the first line.  Results: dcline, bus, gen, gencost. *)
Definition dc_ext2int (dcline : list (list K)) (cost : bool) (e2i : list nat) (bus gen gencost : list (list K))
  : result (list (list K) * list (list K) * list xrow * list (list K)) :=
  _ <- guard (forallb (fun d => L_LOSS1 <? length d) dcline) IndexError ;;
  let on := filter line_on dcline in
  let ndc := length on in
  _ <- guard float_index IndexError ;;
  fb <- idxcol OutOfModel L_F_BUS on ;;
  fi <- gather e2i fb ;;
  tb <- idxcol OutOfModel L_T_BUS on ;;
  ti <- gather e2i tb ;;
  let dc := map (fun p => let '(d, (f, t)) := p in
                   upd (upd (upd d L_F_BUS (fofZ (Z.of_nat f))) L_T_BUS (fofZ (Z.of_nat t)))
                     L_PT (cl d L_PF - (cl d L_LOSS0 + cl d L_LOSS1 * cl d L_PF))%K)
              (combine on (combine fi ti)) in
  w <- width gen ;;
  _ <- guard (PMIN <? w) IndexError ;;
  bt <- col BUS_TYPE bus ;;
  let refbus := find (map (fun a => feqb a REF_BUS) bt) in
  bus1 <- set_const fi BUS_TYPE PV_BUS bus ;;
  bus2 <- set_const ti BUS_TYPE PV_BUS bus1 ;;
  bus3 <- set_const refbus BUS_TYPE REF_BUS bus2 ;;
  let gen' := map (map EFin) gen ++ map (from_gen w) dc ++ map (to_gen w) dc in
  gencost' <- (match gencost with
               | [] => Ok []
               | _ =>
                   ngcc <- width gencost ;;
                   if cost then Err (if ndc =? 0 then OutOfModel else TypeError)
                   else _ <- guard (4 <=? ngcc) ValueError ;;
                        Ok (gencost ++ repeat ([fofZ 2; 0; 0; fofZ 2]%K ++ repeat 0%K (ngcc - 4)) (ndc + ndc))
               end) ;;
  Ok (dc, bus3, gen', gencost').

(** ** toggle_dcline.py:249-296: rows and right-hand side of the constraint on Pg; [ngt] is the number of all rows of gen *)
Definition dc_formulation (B : K) (dc : list (list K)) (ngt : nat) : result (smat K * list K) :=
  let ndc := length dc in
  _ <- guard (ndc + ndc <=? ngt) ValueError ;;
  let ng := ngt - (ndc + ndc) in
  l0 <- col L_LOSS0 dc ;;
  rhs <- vdiv (map ropp l0) (repeat B ndc) ;;
  l1 <- col L_LOSS1 dc ;;
  D <- diagm (map (fun a => 1 - a)%K l1) ;;
  H <- hstackm (SM ndc ng []) D ;;
  A <- hstackm H (eyem ndc) ;;
  Ok (A, rhs).

(** ** toggle_dcline.py:300-362 *)
Definition fin (a : ext K) : result K := match a with EFin a => Ok a | _ => Err NonFinite end.
Definition xcol (j : nat) (t : list xrow) : result (list K) := mapM (fun r => a <- get r j ;; fin a) t.
(** [t[:, j] = v] of matching length *)
Definition putcol (j : nat) (v : result (list K)) (t : result (list (list K))) : result (list (list K)) :=
  t <- t ;; v <- v ;; setcol j v t.
Definition vadd2 (u v : result (list K)) : result (list K) := u <- u ;; v <- v ;; Ok (map2 radd u v).
(** [t[k, j:j+n] = s[:, j:j+n]] *)
Definition copy_cols (k js : list nat) (s t : list (list K)) : result (list (list K)) :=
  foldM (fun t j => v <- col j s ;; set_rows t k j v) js t.

Definition dc_int2ext (extl : list (list K)) (dcline : list (list K)) (gen : list xrow) (gencost : list (list K))
  : result (list (list K) * list xrow * list (list K)) :=
  st <- col L_STATUS extl ;;
  let k := find (map (fun a => negb (feqb a 0%K)) st) in
  let ndc := length k in
  _ <- guard (ndc + ndc <=? length gen) OutOfModel ;;
  let ng := length gen - (ndc + ndc) in
  let fg := firstn ndc (skipn ng gen) in
  let tg := firstn ndc (skipn (ng + ndc) gen) in
  _ <- guard (length dcline =? ndc) (if ndc =? 1 then OutOfModel else ValueError) ;;
  wg <- width gen ;;
  wl <- width extl ;;
  d1 <- putcol L_VT (xcol VG tg) (putcol L_VF (xcol VG fg) (putcol L_QT (xcol QG tg) (putcol L_QF (xcol QG fg)
          (putcol L_PT (xcol PG tg) (putcol L_PF (v <- xcol PG fg ;; Ok (map ropp v)) (Ok dcline)))))) ;;
  'dw <- (if MU_QMIN <=? wg then
            let d := Ok (map (fun r => r ++ repeat 0%K 6) d1) in
            d2 <- putcol L_MU_QMAXT (xcol MU_QMAX tg) (putcol L_MU_QMINT (xcol MU_QMIN tg)
                   (putcol L_MU_QMAXF (xcol MU_QMAX fg) (putcol L_MU_QMINF (xcol MU_QMIN fg)
                   (putcol L_MU_PMAX (vadd2 (xcol MU_PMIN fg) (xcol MU_PMAX tg))
                   (putcol L_MU_PMIN (vadd2 (xcol MU_PMAX fg) (xcol MU_PMIN tg)) d))))) ;;
            Ok (d2, wl + 6)
          else Ok (d1, wl)) ;;
  let '(d2, w2) := dw in
  e1 <- copy_cols k [L_PF; L_PT; L_QF; L_QT; L_VF; L_VT] d2 extl ;;
  e2 <- (if w2 =? S L_MU_QMAXT then
           _ <- guard (length e1 =? ndc) ValueError ;;
           copy_cols k [L_MU_PMIN; L_MU_PMAX; L_MU_QMINF; L_MU_QMAXF; L_MU_QMINT; L_MU_QMAXT] d2
             (map (fun r => r ++ repeat 0%K 6) e1)
         else Ok e1) ;;
  Ok (e2, firstn ng gen, firstn ng gencost).
End DcLine.
