(** Bus types, DC network matrices, injections, DC power flow, PTDF and LODF:
    bustypes.py, makeBdc.py, makeSbus.py, dcpf.py, the DC branch of runpf.py, makePTDF.py,
    makeLODF.py.  Tables are lists of rows over any [Fld] (rationals or reals), in internal
    (consecutive) bus numbering.  Divisions by zero are [Err NonFinite]. *)
From Verif Require Export Lib.Sparse Model.Idx.

Section Network.
Context {K : Type} {F : Fld K}.
Local Open Scope fld_scope.
Local Open Scope nat_scope.

(** a float used as a position; negative values raise [e] *)
Definition to_idx (e : exn) (a : K) : result nat :=
  if (ftrunc a <? 0)%Z then Err e else Ok (Z.to_nat (ftrunc a)).
Definition idxcol (e : exn) (j : nat) (t : list (list K)) : result (list nat) :=
  c <- col j t ;; mapM (to_idx e) c.

(** u / v elementwise *)
Definition vdiv (u v : list K) : result (list K) :=
  if negb (length u =? length v) then Err ValueError
  else if existsb (fun b => feqb b 0%K) v then Err NonFinite
  else Ok (map2 fdiv u v).

Definition pos_status (a : K) : bool := fltb 0%K a.

(** ** bustypes.py:16-50 *)
Definition PQ_BUS : K := fofZ 1.   (* idx_bus.py: PQ, PV, REF *)
Definition PV_BUS : K := fofZ 2.
Definition REF_BUS : K := fofZ 3.

Definition bustypes (bus gen : list (list K))
  : result (list nat * list nat * list nat) :=
  let nb := length bus in let ng := length gen in
  st <- col GEN_STATUS gen ;;
  gb <- idxcol ValueError GEN_BUS gen ;;
  Cg <- sparse (map (fun s => if pos_status s then 1%Z else 0%Z) st) gb (seq 0 ng) nb ng ;;
  cnt <- mulv Cg (repeat 1%Z ng) ;;
  let on := map (fun n => negb (n =? 0)%Z) cnt in
  ty <- col BUS_TYPE bus ;;
  let ref := find (map2 (fun t g => feqb t REF_BUS && g) ty on) in
  let pv := find (map2 (fun t g => feqb t PV_BUS && g) ty on) in
  let pq := find (map2 (fun t g => feqb t PQ_BUS || negb g) ty on) in
  match ref with
  | [] => match pv with
          | [] => Err IndexError                 (* pv[0] *)
          | p :: pv' => Ok ([p], pv', pq)
          end
  | _ => Ok (ref, pv, pq)
  end.

(** ** makeBdc.py:17-77; baseMVA is unused there, non-consecutive numbers only warn *)
Definition deg2rad (a : K) : K := (- a * fpi / fofZ 180)%K.   (* line 73: -SHIFT * pi / 180 *)

Definition makeBdc (bus branch : list (list K))
  : result (smat K * smat K * list K * list K) :=
  let nb := length bus in let nl := length branch in
  _ <- col BUS_I bus ;;
  stat <- col BR_STATUS branch ;;
  x <- col BR_X branch ;;
  b0 <- vdiv stat x ;;
  taps <- col TAP branch ;;
  let tap := map (fun a => if feqb a 0%K then 1%K else a) taps in
  b <- vdiv b0 tap ;;
  f <- idxcol ValueError F_BUS branch ;;
  t <- idxcol ValueError T_BUS branch ;;
  let i := seq 0 nl ++ seq 0 nl in
  Cft <- sparse (repeat 1%K nl ++ repeat (ropp 1%K) nl) i (f ++ t) nl nb ;;
  Bf <- sparse (b ++ map ropp b) i (f ++ t) nl nb ;;
  Bbus <- mulm (transp Cft) Bf ;;
  shift <- col SHIFT branch ;;
  let Pfinj := map2 (fun b s => b * deg2rad s)%K b shift in
  Pbusinj <- mulv (transp Cft) Pfinj ;;
  Ok (Bbus, Bf, Pbusinj, Pfinj).

(** ** makeSbus.py:15-39 *)
Definition makeSbus (baseMVA : K) (bus gen : list (list K)) : result (list (cpx K)) :=
  st <- col GEN_STATUS gen ;;
  let on := find (map pos_status st) in
  gon <- gather gen on ;;
  gbus <- idxcol ValueError GEN_BUS gon ;;
  let nb := length bus in let ngon := length on in
  Cg <- sparse (repeat (Cx 1 0)%K ngon) gbus (seq 0 ngon) nb ngon ;;
  pg <- col PG gon ;; qg <- col QG gon ;;
  Sg <- mulv Cg (map2 Cx pg qg) ;;
  pd <- col PD bus ;; qd <- col QD bus ;;
  if feqb baseMVA 0%K then Err NonFinite
  else Ok (map2 (fun s l => Cx ((re s - re l) / baseMVA) ((im s - im l) / baseMVA))%K
             Sg (map2 Cx pd qd)).

(** ** dcpf.py:13-36; the sparse solver is an oracle *)
Section DCPF.
Variable solve : list (list K) -> list K -> result (list K).

Definition submat (M : smat K) (rows cols : list nat) : list (list K) :=
  map (fun i => map (at_ M i) cols) rows.
Definition dotk (u v : list K) : K := lsum (fun p => fst p * snd p)%K (combine u v).
Definition matvec_k (A : list (list K)) (x : list K) : list K := map (fun r => dotk r x) A.

Definition dcpf (B : smat K) (Pbus Va0 : list K) (ref pv pq : list nat) : result (list K) :=
  let pvpq := pv ++ pq in
  P <- gather Pbus pvpq ;;
  Vr <- gather Va0 ref ;;
  rhs <- ewise rsub P (matvec_k (submat B pvpq ref) Vr) ;;
  x <- solve (submat B pvpq pvpq) rhs ;;
  scatter_checked Va0 pvpq x.

(** ** runpf.py:98-144, DC formulation, on internal tables *)

(** t[:, j] = vals *)
Definition setcol (j : nat) (vals : list K) (t : list (list K)) : result (list (list K)) :=
  if negb (length vals =? length t) then Err ValueError
  else mapM (fun p => set_checked (snd p) j (fst p)) (combine vals t).

(** first in-service generator at a bus: on[find(gbus == r)[0]] *)
Definition first_gen (on gbus : list nat) (r : nat) : result nat :=
  k <- of_option IndexError (nth_error (find (map (fun b => b =? r) gbus)) 0) ;; get on k.

Definition runpf_dc (baseMVA : K) (bus gen branch : list (list K))
  : result (list (list K) * list (list K) * list (list K)) :=
  '(ref, pv, pq) <- bustypes bus gen ;;
  st <- col GEN_STATUS gen ;;
  let on := find (map pos_status st) in
  gon <- gather gen on ;;
  gbus <- idxcol OutOfModel GEN_BUS gon ;;
  va <- col VA bus ;;
  let Va0 := map (fun a => a * (fpi / fofZ 180))%K va in
  '(B, Bf, Pbusinj, Pfinj) <- makeBdc bus branch ;;
  S <- makeSbus baseMVA bus gen ;;
  gs <- col GS bus ;;
  gsb <- vdiv gs (repeat baseMVA (length bus)) ;;
  d <- ewise rsub (map re S) Pbusinj ;;
  Pbus <- ewise rsub d gsb ;;
  Va <- dcpf B Pbus Va0 ref pv pq ;;
  br1 <- setcol QF (repeat 0%K (length branch)) branch ;;
  br2 <- setcol QT (repeat 0%K (length branch)) br1 ;;
  bv <- mulv Bf Va ;;
  fl <- ewise radd bv Pfinj ;;
  let pf := map (fun a => a * baseMVA)%K fl in
  br3 <- setcol PF pf br2 ;;
  br4 <- setcol PT (map ropp pf) br3 ;;
  bus1 <- setcol VM (repeat 1%K (length bus)) bus ;;
  bus2 <- setcol VA (map (fun a => a * (fofZ 180 / fpi))%K Va) bus1 ;;
  refgen <- mapM (first_gen on gbus) ref ;;
  bva <- mulv B Va ;;
  inj <- gather bva ref ;;
  old <- gather Pbus ref ;;
  gr <- gather gen refgen ;;
  pgr <- col PG gr ;;
  delta <- ewise rsub inj old ;;
  newpg <- ewise radd pgr (map (fun a => a * baseMVA)%K delta) ;;
  rows <- setcol PG newpg gr ;;
  gen' <- scatter_checked gen refgen rows ;;
  Ok (bus2, gen', br4).
End DCPF.

(** ** makePTDF.py:18-77; numpy's dense solver is an oracle (one right-hand side at a time) *)
Inductive slack_arg : Type :=
| NoSlack                            (* slack=None: first reference bus *)
| SlackBus (k : nat)                 (* scalar *)
| SlackWeights (w : list K)          (* vector of weights *)
| SlackMatrix (w : list (list K)).   (* nb x nb *)

Section PTDF.
Variable solve : list (list K) -> list K -> result (list K).

Definition columns (M : smat K) (rows cols : list nat) : list (list K) :=
  map (fun j => map (fun i => at_ M i j) rows) cols.

(** M * w for dense M (rows) and dense w given by rows; [nc] columns *)
Definition densemul (nc : nat) (M w : list (list K)) : list (list K) :=
  map (fun r => map (fun j => dotk r (map (fun v => nth j v 0%K) w)) (seq 0 nc)) M.

Definition makePTDF (bus branch : list (list K)) (slack : slack_arg)
  : result (list (list K)) :=
  let nb := length bus in let nbr := length branch in
  slack' <- match slack with
            | NoSlack =>
                ty <- col BUS_TYPE bus ;;
                k <- of_option IndexError (nth_error (find (map (fun t => feqb t REF_BUS) ty)) 0) ;;
                Ok (SlackBus k)
            | _ => Ok slack
            end ;;
  let slack_bus := match slack' with SlackBus k => k | _ => 0 end in
  let noref := seq 1 (nb - 1) in
  let noslack := find (map (fun i => negb (i =? slack_bus)) (seq 0 nb)) in
  '(Bbus, Bf, _, _) <- makeBdc bus branch ;;
  (* row l of H on the columns noslack: solve(Bbus[noslack, noref].T, Bf[l, noref]) *)
  hs <- mapM (fun l => solve (columns Bbus noslack noref) (map (at_ Bf l) noref)) (seq 0 nbr) ;;
  H <- mapM (fun h => scatter_checked (repeat 0%K nb) noslack h) hs ;;
  match slack' with
  | SlackWeights w =>
      let s := lsum (fun a => a) w in
      if negb (length w =? nb) then Err ValueError
      else if feqb s 0%K then Err NonFinite
      else let w' := map (fun a => a / s)%K w in
           Ok (map (fun r => map (fun a => a - dotk r w')%K r) H)
  | SlackMatrix w =>
      if (length w =? nb) && forallb (fun r => length r =? nb) w
      then Ok (densemul nb H w) else Err ValueError
  | _ => Ok H
  end.
End PTDF.

(** ** makeLODF.py:14-39.  A column whose denominator 1 - h[j] is zero is inf/nan in numpy; its
    entries are [None] here. *)
Definition makeLODF (branch PTDF : list (list K)) (nb : nat) : result (list (list (option K))) :=
  let nl := length PTDF in
  if negb (forallb (fun r => length r =? nb) PTDF) then Err ValueError else
  f <- idxcol ValueError F_BUS branch ;;
  t <- idxcol ValueError T_BUS branch ;;
  Cft <- sparse (repeat 1%K nl ++ repeat (ropp 1%K) nl) (f ++ t) (seq 0 nl ++ seq 0 nl) nb nl ;;
  let H := map (fun r => map (mulrow (transp Cft) r) (seq 0 nl)) PTDF in
  let h := map (fun i => nth i (nth i H []) 0%K) (seq 0 nl) in
  let L := map (fun r => map2 (fun a d => if feqb (1 - d)%K 0%K then None
                                          else Some (a / (1 - d))%K) r h) H in
  (* LODF - diag(diag(LODF)) - eye *)
  Ok (map (fun i => map (fun j =>
         match nth j (nth i L []) None with
         | None => None
         | Some a => Some (a - (if i =? j then a else 0) - (if i =? j then 1 else 0))%K
         end) (seq 0 nl)) (seq 0 nl)).
End Network.
