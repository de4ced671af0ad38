(** Load totals and load scaling: total_load.py, scale_load.py.  Bus numbers are external numbers
    (any order, gaps allowed). *)
From Verif Require Export Model.OpfLin Model.AcPf.
Local Open Scope nat_scope.

Section Loads.
Context {K : Type} {F : Fld K}.
(** whether the sparse library negates a matrix of booleans as one of 0 and 1.  The SciPy pinned in
    requirements.txt (1.6.1) raises NotImplementedError; versions that stored booleans as int8 do not. *)
Variable bool_neg : bool.

(** first letter of which_type / opt['which']; an empty string is not modelled *)
Inductive kind := KFixed | KDisp | KBoth | KOther.
Definition is_fixed (w : kind) : bool := match w with KFixed => true | _ => false end.
Definition is_disp (w : kind) : bool := match w with KDisp => true | _ => false end.
(** load_zone of total_load: not given, the string 'all', or integers *)
Inductive zone_arg := ZNone | ZAll | ZList (l : list Z).

(** [find(load_zone == k)] *)
Definition zone_at (lz : list Z) (k : Z) : list nat := find (map (fun z => Z.eqb z k) lz).
Definition zone_at_k (lz : list K) (k : nat) : list nat := find (map (fun z => feqb z (fofZ (Z.of_nat k))) lz).

(** builtin [max] of integers *)
Definition maxz (l : list Z) : result Z :=
  match l with [] => Err ValueError | z :: t => Ok (fold_left Z.max t z) end.
Definition maxn (l : list nat) : result nat :=
  match l with [] => Err ValueError | z :: t => Ok (fold_left Nat.max t z) end.
Definition sum_at (v : list K) (idx : list nat) : result K := s <- gather v idx ;; Ok (lsum (fun a => a) s).

(** [isload(gen) & (gen[:, GEN_STATUS] > 0)] *)
Definition load_mask (gen : list (list K)) : result (list bool) :=
  ld <- mapM isload gen ;; st <- col GEN_STATUS gen ;; Ok (map2 (fun b s => b && pos_status s) ld st).
(** total_load.py:102-104, scale_load.py:108-110: positions by external number; negative numbers are not modelled *)
Definition make_e2i (bus : list (list K)) : result (list nat) :=
  i2e <- idxcol OutOfModel BUS_I bus ;;
  mx <- maxn i2e ;;
  Ok (fold_left (fun e p => upd e (fst p) (snd p)) (combine i2e (seq 0 (length bus))) (repeat 0 (S mx))).
(** total_load.py:106-107, scale_load.py:112-113; entries are the booleans as 0 and 1 *)
Definition make_Cld (bus gen : list (list K)) (is_ld : list bool) (e2i : list nat) : result (smat K) :=
  gbus <- idxcol OutOfModel GEN_BUS gen ;;
  rows <- gather e2i gbus ;;
  sparse (map (fun b : bool => if b then 1%K else 0%K) is_ld) rows (seq 0 (length gen)) (length bus) (length gen).
(** [-Cld * v] *)
Definition neg_mul (Cld : smat K) (v : list K) : result (list K) :=
  if bool_neg then mulv (mapm ropp Cld) v else Err NotImplementedError.

(** ** total_load.py:26-130.  [gen] is [] when not given. *)
Definition total_load (bus gen : list (list K)) (load_zone : zone_arg) (which_type : option kind)
  : result (list K * list K) :=
  let nb := length bus in
  let wt := if length gen =? 0 then KFixed else match which_type with None => KBoth | Some w => w end in
  let want_fixed := match wt with KBoth | KFixed => true | _ => false end in
  let want_disp := match wt with KBoth | KDisp => true | _ => false end in
  lz <- match load_zone with
        | ZAll => Ok (repeat 1%Z nb)
        | ZList (z :: l) => Ok (z :: l)
        | _ => a <- col BUS_AREA bus ;; Ok (map ftrunc a)
        end ;;
  nz <- maxz lz ;;
  Pdf <- (if want_fixed then col PD bus else Ok (repeat 0%K nb)) ;;
  Qdf <- (if want_fixed then col QD bus else Ok (repeat 0%K nb)) ;;
  'pq <- (if want_disp then
            is_ld <- load_mask gen ;;
            let ld := find is_ld in
            e2i <- make_e2i bus ;;
            Cld <- make_Cld bus gen is_ld e2i ;;
            pmin <- col PMIN gen ;;
            Pdd <- neg_mul Cld pmin ;;
            rows <- gather gen ld ;;
            qmin <- col QMIN rows ;;
            qmax <- col QMAX rows ;;
            let q := map2 (fun l h => (if feqb l 0%K then h else 0) + (if feqb h 0%K then l else 0))%K qmin qmax in
            Q <- scatter_checked (repeat 0%K (length gen)) ld q ;;
            Qdd <- neg_mul Cld Q ;;
            Ok (Pdd, Qdd)
          else Ok (repeat 0%K nb, repeat 0%K nb)) ;;
  if (nz <? 0)%Z then Err ValueError                                     (* zeros(nz) *)
  else
    r <- mapM (fun k => let idx := zone_at lz (Z.of_nat k) in
                 pf <- sum_at Pdf idx ;; pd <- sum_at (fst pq) idx ;;
                 qf <- sum_at Qdf idx ;; qd <- sum_at (snd pq) idx ;;
                 Ok (pf + pd, qf + qd)%K)
           (seq 1 (Z.to_nat nz)) ;;
    Ok (map fst r, map snd r).

(** ** scale_load.py:21-189 *)
Record lopt := LOpt {
  l_quantity : bool;          (** opt['scale'][0] == 'Q' *)
  l_pq : bool;                (** opt['pq'] == 'PQ' *)
  l_which : option kind       (** opt.get('which') *) }.

(** lines 118-126 *)
Definition scale_zones (load : list K) (bus gen : list (list K)) (load_zone : list K) (is_ld : list bool) (e2i : list nat)
  : result (list K) :=
  if length load_zone =? 0 then
    if length load =? 1 then
      pd <- col PD bus ;; qd <- col QD bus ;;
      let nz := fun a : K => negb (feqb a 0%K) in
      (* 'a or b' on arrays needs exactly one element *)
      m <- match pd, qd with [a], [b] => Ok (if nz a then true else nz b) | _, _ => Err ValueError end ;;
      let lz := [if m : bool then 1%K else 0%K] in
      if length gen =? 0 then Ok lz
      else
        rows <- gather gen (find is_ld) ;;
        gbus <- idxcol OutOfModel GEN_BUS rows ;;
        i <- gather e2i gbus ;;
        scatter_checked lz i (repeat 1%K (length i))
    else col BUS_AREA bus
  else Ok load_zone.

(** lines 141-166: the factor of one zone *)
Definition zone_scale (w : kind) (load fixed disp : K) : result K :=
  let total := (fixed + disp)%K in
  match w with
  | KBoth => if negb (feqb total 0%K) then Ok (load / total)%K else if feqb load total then Ok 1%K else Err ScalingError
  | KFixed => if negb (feqb fixed 0%K) then Ok ((load - disp) / fixed)%K else if feqb load disp then Ok 1%K else Err ScalingError
  | KDisp => if negb (feqb disp 0%K) then Ok ((load - fixed) / disp)%K else if feqb load fixed then Ok 1%K else Err ScalingError
  | KOther => Ok load
  end.

(** [t[rows, j] = t[rows, j] * a] for each of the columns [js] *)
Definition scale_cols (rows js : list nat) (a : K) (t : list (list K)) : result (list (list K)) :=
  foldM (fun t j => sub <- gather t rows ;; v <- col j sub ;; set_rows t rows j (map (fun b => b * a)%K v)) js t.

Definition scale_load (load : list K) (bus gen : list (list K)) (load_zone : list K) (opt : lopt)
  : result (list (list K) * list (list K)) :=
  let nb := length bus in
  let which := if length gen =? 0 then KFixed else match l_which opt with None => KBoth | Some w => w end in
  'ce <- (if length gen =? 0 then Ok ([], [], SM nb 0 [])
          else
            is_ld <- load_mask gen ;;
            e2i <- make_e2i bus ;;
            Cld <- make_Cld bus gen is_ld e2i ;;
            Ok (is_ld, e2i, Cld)) ;;
  let '(is_ld, e2i, Cld) := ce in
  let ld := find is_ld in
  lz <- scale_zones load bus gen load_zone is_ld e2i ;;
  _ <- guard (negb (length lz =? 0)) ValueError ;;                        (* max(load_zone) *)
  scale <- (if l_quantity opt then
              Pdd <- (if length gen =? 0 then Ok (repeat 0%K nb) else pmin <- col PMIN gen ;; neg_mul Cld pmin) ;;
              mapM (fun p => let '(k, want) := p in
                      let idx := zone_at_k lz (S k) in
                      rows <- gather bus idx ;; pd <- col PD rows ;;
                      disp <- sum_at Pdd idx ;;
                      zone_scale which want (lsum (fun a => a) pd) disp)
                   (combine (seq 0 (length load)) load)
            else Ok load) ;;
  let ks := combine (seq 0 (length scale)) scale in
  bus' <- (if is_disp which then Ok bus
           else foldM (fun t p => scale_cols (zone_at_k lz (S (fst p))) (if l_pq opt then [PD; QD] else [PD]) (snd p) t) ks bus) ;;
  gen' <- (if is_fixed which then Ok gen
           else foldM (fun t p =>
                  let idx := zone_at_k lz (S (fst p)) in
                  rows <- gather t ld ;;
                  gbus <- idxcol OutOfModel GEN_BUS rows ;;
                  b <- gather e2i gbus ;;
                  ig <- gather ld (find (map (fun i => existsb (Nat.eqb i) idx) b)) ;;
                  scale_cols ig (if l_pq opt then [PG; PMIN; QG; QMIN; QMAX] else [PG; PMIN]) (snd p) t) ks gen) ;;
  Ok (bus', gen').
End Loads.
