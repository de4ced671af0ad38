(** DC power flow on tables that numpy holds as integers.  A table of a case file in which every number is written without
    a decimal point is an integer array (case9.py:41-45: the generators), and storing into it drops the fraction.  The other
    models of runpf take every table as one of floats; here each assignment to the bus and generator table goes through
    [store].  The branch table is one of floats: runpf.py:88-91 appends columns of floats. *)
From Verif Require Export Model.RunPf.

Section IntTables.
Context {K : Type} {F : Fld K}.
Variable argsort : list Z -> list nat.
Variable solve : list (list K) -> list K -> result (list K).
Local Open Scope nat_scope.

(** the value kept by a cell of an integer array or of an array of floats *)
Definition store (int : bool) (x : K) : K := if int then fofZ (ftrunc x) else x.

(** are the buses and the generators in integer arrays? *)
Variables int_bus int_gen : bool.

(** runpf.py:95-144 *)
Definition runpf_dc_typed (baseMVA : K) (bus gen branch : list (list K))
  : result (list (list K) * list (list K) * list (list K)) :=
  '(ref, pv, pq) <- bustypes bus gen ;;
  st <- col GEN_STATUS gen ;;
  let on := find (map pos_status st) in
  gon <- gather gen on ;;
  gbus <- idxcol OutOfModel GEN_BUS gon ;;
  va <- col VA bus ;;
  let Va0 := map (fun a => a * (fpi / fofZ 180))%K va in
  '(B, Bf, Pbusinj, Pfinj) <- makeBdc bus branch ;;
  S <- makeSbus baseMVA bus gen ;;
  gs <- col Idx.GS bus ;;
  gsb <- vdiv gs (repeat baseMVA (length bus)) ;;
  d <- ewise rsub (map re S) Pbusinj ;;
  Pbus <- ewise rsub d gsb ;;
  Va <- dcpf solve B Pbus Va0 ref pv pq ;;
  br1 <- setcol QF (repeat 0%K (length branch)) branch ;;
  br2 <- setcol QT (repeat 0%K (length branch)) br1 ;;
  bv <- mulv Bf Va ;;
  fl <- ewise radd bv Pfinj ;;
  let pf := map (fun a => a * baseMVA)%K fl in
  br3 <- setcol PF pf br2 ;;
  br4 <- setcol PT (map ropp pf) br3 ;;
  bus1 <- setcol VM (map (store int_bus) (repeat 1%K (length bus))) bus ;;
  bus2 <- setcol VA (map (store int_bus) (map (fun a => a * (fofZ 180 / fpi))%K Va)) bus1 ;;
  refgen <- mapM (first_gen on gbus) ref ;;
  bva <- mulv B Va ;;
  inj <- gather bva ref ;;
  old <- gather Pbus ref ;;
  gr <- gather gen refgen ;;
  pgr <- col PG gr ;;
  delta <- ewise rsub inj old ;;
  newpg <- ewise radd pgr (map (fun a => a * baseMVA)%K delta) ;;
  rows <- setcol PG (map (store int_gen) newpg) gr ;;
  gen' <- scatter_checked gen refgen rows ;;
  Ok (bus2, gen', br4).

(** runpf.py:87-303.  The conversions move whole rows and write bus numbers, which are integers. *)
Definition runpf_typed (baseMVA : K) (p : ppc_of K) : result (ppc_of K * bool) :=
  q <- ext2int argsort (with_tables p (p_bus p) (p_gen p) (add_flow_cols (p_branch p))) ;;
  '(bus, gen, branch) <- runpf_dc_typed baseMVA (p_bus q) (p_gen q) (p_branch q) ;;
  r <- int2ext (with_tables q bus gen branch) ;;
  o <- of_option KeyError (p_order r) ;;
  gen' <- zero_out (p_gen r) (o_gen_off o) [PG; QG] ;;
  branch' <- zero_out (p_branch r) (o_br_off o) [PF; QF; PT; QT] ;;
  Ok (with_tables r (p_bus r) gen' branch', true).
End IntTables.
