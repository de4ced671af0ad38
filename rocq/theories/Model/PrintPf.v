(** printpf.py: the numbers written to the report, and what the call leaves in the caller's tables.
    numpy's exp(1j * a) and abs of a complex number are the parameters [cis], [cabs].  Left out: the text
    itself (rounding, headings), elapsed time, the extreme values (lines 206-236), the choice of calling
    form (lines 61-88) and the userfcn callbacks (lines 685-689).  Bus numbers below zero are outside the model. *)
From Verif Require Export Model.Network Model.OpfLin Model.Ext2int.
From Verif Require Import Model.AcNet.

(** the entries of ppopt that are used *)
Record print_options (K : Type) := {
  PF_DC : bool; OUT_ALL : Z; OUT_SYS_SUM : bool; OUT_AREA_SUM : bool; OUT_BUS : bool; OUT_BRANCH : bool; OUT_GEN : bool;
  OUT_ALL_LIM : Z; OUT_V_LIM : Z; OUT_LINE_LIM : Z; OUT_PG_LIM : Z; OUT_QG_LIM : Z;
  OPF_VIOLATION : K; OPF_FLOW_LIM : Z }.
Arguments PF_DC {K} _. Arguments OUT_ALL {K} _. Arguments OUT_SYS_SUM {K} _. Arguments OUT_AREA_SUM {K} _.
Arguments OUT_BUS {K} _. Arguments OUT_BRANCH {K} _. Arguments OUT_GEN {K} _. Arguments OUT_ALL_LIM {K} _.
Arguments OUT_V_LIM {K} _. Arguments OUT_LINE_LIM {K} _. Arguments OUT_PG_LIM {K} _. Arguments OUT_QG_LIM {K} _.
Arguments OPF_VIOLATION {K} _. Arguments OPF_FLOW_LIM {K} _.

(** lines 127-173: what the later parts use *)
Record print_data (K : Type) := {
  q_bus : list (list K); q_gen : list (list K); q_branch : list (list K);
  q_fr : list nat; q_to : list nat;              (* e2i[branch[:, F_BUS]], e2i[branch[:, T_BUS]] *)
  q_ties : list nat; q_xfmr : list nat; q_nzld : list nat; q_areas : list K; q_nzsh : list nat;
  q_allg : list nat; q_ong : list nat; q_onld : list nat;
  q_V : list (cpx K); q_loss : list (cpx K); q_fchg : list K; q_tchg : list K }.
Arguments q_bus {K} _. Arguments q_gen {K} _. Arguments q_branch {K} _. Arguments q_fr {K} _. Arguments q_to {K} _.
Arguments q_ties {K} _. Arguments q_xfmr {K} _. Arguments q_nzld {K} _. Arguments q_areas {K} _. Arguments q_nzsh {K} _.
Arguments q_allg {K} _. Arguments q_ong {K} _. Arguments q_onld {K} _. Arguments q_V {K} _. Arguments q_loss {K} _.
Arguments q_fchg {K} _. Arguments q_tchg {K} _.

(** a power: active and reactive part; a capacity: active power and the range of reactive power *)
Record power (K : Type) := PQ { p_part : K; q_part : K }.
Arguments PQ {K} _ _. Arguments p_part {K} _. Arguments q_part {K} _.
Record capacity (K : Type) := Cap { c_p : K; c_qmin : K; c_qmax : K }.
Arguments Cap {K} _ _ _. Arguments c_p {K} _. Arguments c_qmin {K} _. Arguments c_qmax {K} _.

(** the system summary *)
Record sys_sum (K : Type) := {
  y_buses : nat; y_cap : capacity K; y_gens : nat; y_on_cap : capacity K; y_committed : nat; y_actual : power K;
  y_loads : nat; y_load : power K; y_fixed : nat; y_fixed_load : power K; y_disp : nat; y_disp_load : power K;
  y_disp_cap : K; y_shunts : nat; y_shunt : power K; y_branches : nat; y_loss : power K; y_xfmrs : nat; y_chg : K;
  y_ties : nat; y_tie_flow : power K; y_areas : nat }.
Arguments y_buses {K} _. Arguments y_cap {K} _. Arguments y_gens {K} _. Arguments y_on_cap {K} _. Arguments y_committed {K} _.
Arguments y_actual {K} _. Arguments y_loads {K} _. Arguments y_load {K} _. Arguments y_fixed {K} _. Arguments y_fixed_load {K} _.
Arguments y_disp {K} _. Arguments y_disp_load {K} _. Arguments y_disp_cap {K} _. Arguments y_shunts {K} _. Arguments y_shunt {K} _.
Arguments y_branches {K} _. Arguments y_loss {K} _. Arguments y_xfmrs {K} _. Arguments y_chg {K} _. Arguments y_ties {K} _.
Arguments y_tie_flow {K} _. Arguments y_areas {K} _.

(** the row of an area in the four tables of the area summary *)
Record area_row (K : Type) := {
  a_num : K;
  a_buses : nat; a_gens : nat; a_committed : nat; a_loads : nat; a_fixed : nat; a_disp : nat; a_shunts : nat;
  a_branches : nat; a_xfmrs : nat; a_ties : nat;
  a_cap : capacity K; a_on_cap : capacity K; a_actual : power K;
  a_disp_cap : power K; a_disp_load : power K; a_fixed_load : power K; a_load : power K;
  a_shunt : power K; a_chg : K; a_loss : power K; a_export : power K }.
Arguments a_num {K} _. Arguments a_buses {K} _. Arguments a_gens {K} _. Arguments a_committed {K} _. Arguments a_loads {K} _.
Arguments a_fixed {K} _. Arguments a_disp {K} _. Arguments a_shunts {K} _. Arguments a_branches {K} _. Arguments a_xfmrs {K} _.
Arguments a_ties {K} _. Arguments a_cap {K} _. Arguments a_on_cap {K} _. Arguments a_actual {K} _. Arguments a_disp_cap {K} _.
Arguments a_disp_load {K} _. Arguments a_fixed_load {K} _. Arguments a_load {K} _. Arguments a_shunt {K} _. Arguments a_chg {K} _.
Arguments a_loss {K} _. Arguments a_export {K} _.

(** generator, bus and branch rows *)
Record gen_line (K : Type) := { g_idx : nat; g_bus : K; g_out : option (power K); g_lam : option (K * K) }.
Arguments g_idx {K} _. Arguments g_bus {K} _. Arguments g_out {K} _. Arguments g_lam {K} _.
Record bus_line (K : Type) := {
  l_num : K; l_vm : K; l_va : K; l_ref : bool; l_gen : option (power K);
  l_load : option (power K * bool);              (* true: a dispatchable load is part of it *)
  l_lam : option (K * option K) }.
Arguments l_num {K} _. Arguments l_vm {K} _. Arguments l_va {K} _. Arguments l_ref {K} _. Arguments l_gen {K} _.
Arguments l_load {K} _. Arguments l_lam {K} _.
Record br_line (K : Type) := { b_idx : nat; b_from : K; b_to : K; b_sf : power K; b_st : power K; b_loss : power K }.
Arguments b_idx {K} _. Arguments b_from {K} _. Arguments b_to {K} _. Arguments b_sf {K} _. Arguments b_st {K} _.
Arguments b_loss {K} _.
(** what decides whether a limit is shown: multipliers, ends and value; for a branch the flows at both ends *)
Record lim_cells (K : Type) := { x_idx : nat; x_bus : K; x_mu_lo : K; x_lo : K; x_val : K; x_hi : K; x_mu_hi : K }.
Arguments x_idx {K} _. Arguments x_bus {K} _. Arguments x_mu_lo {K} _. Arguments x_lo {K} _. Arguments x_val {K} _.
Arguments x_hi {K} _. Arguments x_mu_hi {K} _.
Record flow_cell (K : Type) := { z_idx : nat; z_from : K; z_to : K; z_ff : K; z_ft : K; z_rate : K; z_mf : K; z_mt : K }.
Arguments z_idx {K} _. Arguments z_from {K} _. Arguments z_to {K} _. Arguments z_ff {K} _. Arguments z_ft {K} _.
Arguments z_rate {K} _. Arguments z_mf {K} _. Arguments z_mt {K} _.
(** a limit: where (row and bus), the multipliers if shown, lower end, value, upper end *)
Record lim_line (K : Type) := { m_idx : nat; m_bus : K; m_mu_lo : option K; m_lo : K; m_val : K; m_hi : K; m_mu_hi : option K }.
Arguments m_idx {K} _. Arguments m_bus {K} _. Arguments m_mu_lo {K} _. Arguments m_lo {K} _. Arguments m_val {K} _.
Arguments m_hi {K} _. Arguments m_mu_hi {K} _.
Record flow_line (K : Type) := { w_idx : nat; w_from : K; w_mu_f : option K; w_ff : K; w_max : K; w_ft : K; w_mu_t : option K; w_to : K }.
Arguments w_idx {K} _. Arguments w_from {K} _. Arguments w_mu_f {K} _. Arguments w_ff {K} _. Arguments w_max {K} _.
Arguments w_ft {K} _. Arguments w_mu_t {K} _. Arguments w_to {K} _.
(** the constraint part; [None]: the table is not printed *)
Record lim_tables (K : Type) := {
  t_volt : option (list (lim_line K)); t_pg : option (list (lim_line K)); t_qg : option (list (lim_line K));
  t_flow : option (list (flow_line K)) }.
Arguments t_volt {K} _. Arguments t_pg {K} _. Arguments t_qg {K} _. Arguments t_flow {K} _.

Record report (K : Type) := {
  r_sys : option (sys_sum K); r_areas : option (list (area_row K));
  r_gens : option (list (gen_line K) * power K * list (gen_line K) * power K); r_buses : option (list (bus_line K) * power K * power K);
  r_branches : option (list (br_line K) * power K); r_limits : option (lim_tables K) }.
Arguments r_sys {K} _. Arguments r_areas {K} _. Arguments r_gens {K} _. Arguments r_buses {K} _. Arguments r_branches {K} _. Arguments r_limits {K} _.

Section PrintPf.
Context {K : Type} {F : Fld K}.
Variables (cis : K -> cpx K) (cabs : cpx K -> K).
Local Open Scope nat_scope.

(** sum(v[idx]), sum(t[idx, j]) *)
Definition vsum (v : list K) (idx : list nat) : result K := c <- gather v idx ;; Ok (lsum (fun x => x) c).
Definition colsum (t : list (list K)) (idx : list nat) (j : nat) : result K := c <- col j t ;; vsum c idx.
Definition nz (a : K) : bool := negb (feqb a 0%K).
Definition sq (a : K) : K := (a * a)%K.

(** ** lines 127-173 *)
(** lines 127-130: position of a bus number *)
Definition rows_of (i2e : list Z) (c : list K) : result (list nat) := mapM (fun a => e2i_get i2e (ftrunc a)) c.

Fixpoint insert (a : K) (l : list K) : list K :=
  match l with [] => [a] | b :: t => if fltb b a then b :: insert a t else a :: l end.
Definition sort (l : list K) : list K := fold_right insert [] l.
(** lines 152-154: sorted_areas[r_[1, find(diff(sorted_areas)) + 1]] *)
Definition area_list (c : list K) : result (list K) :=
  let s := sort c in
  gather s (1 :: map S (find (map2 (fun a b => nz (b - a)%K) s (tl s)))).

(** lines 137-141 *)
Definition zero_cols (t : list (list K)) (js : list nat) : result (list (list K)) :=
  foldM (fun t j => setcol j (repeat 0%K (length t)) t) js t.

(** lines 147-150 *)
Definition print_tap (tap shift : K) : cpx K :=
  cmul (ofK (if nz tap then tap else 1%K)) (cis (- (fpi / fofZ 180 * shift))%K).
(** line 159 *)
Definition print_volt (vm va : K) : cpx K := cmul (ofK vm) (cis (- (fpi / fofZ 180 * va))%K).

(** lines 160-173 for one branch: loss and charging; zero when out of service *)
Definition branch_loss (dc : bool) (baseMVA : K) (vf vt tap : cpx K) (r x b st : K)
  : result (cpx K * K * K) :=
  if feqb st 0%K then Ok (Cx 0 0, 0, 0)%K
  else if feqb (nrm2 tap) 0%K then Err NonFinite
  else
    let vi := cdiv vf tap in
    let fchg := (sq (cabs vi) * b * baseMVA / fofZ 2)%K in
    let tchg := (sq (cabs vt) * b * baseMVA / fofZ 2)%K in
    if dc then Ok (Cx 0 0, fchg, tchg)%K
    else let z := Cx r (- x)%K in
         if feqb (nrm2 z) 0%K then Err NonFinite
         else Ok (cdiv (ofK (baseMVA * sq (cabs (csub vi vt)))%K) z, fchg, tchg).

Definition branch_losses (dc : bool) (baseMVA : K) (V : list (cpx K)) (fr to : list nat) (branch : list (list K))
  : result (list (cpx K * K * K)) :=
  mapM (fun p => let '(i, j, l) := p in
     vf <- get V i ;; vt <- get V j ;;
     tap <- get l TAP ;; sh <- get l SHIFT ;; r <- get l BR_R ;; x <- get l BR_X ;; b <- get l BR_B ;; st <- get l BR_STATUS ;;
     branch_loss dc baseMVA vf vt (print_tap tap sh) r x b st)
    (combine (combine fr to) branch).

(** lines 127-173 *)
Definition prepare (dc : bool) (baseMVA : K) (bus0 gen0 branch0 : list (list K)) : result (print_data K) :=
  n <- col BUS_I bus0 ;;
  let i2e := map ftrunc n in
  _ <- guard (negb (length bus0 =? 0)) ValueError ;;                            (* max of nothing *)
  _ <- guard (forallb (fun z => 0 <=? z)%Z i2e) OutOfModel ;;
  bus <- (if dc then zero_cols bus0 [QD; BS] else Ok bus0) ;;
  gen <- (if dc then zero_cols gen0 [QG; QMAX; QMIN] else Ok gen0) ;;
  branch <- (if dc then zero_cols branch0 [BR_R; BR_B] else Ok branch0) ;;
  f <- col F_BUS branch ;; t <- col T_BUS branch ;;
  fr <- rows_of i2e f ;; to <- rows_of i2e t ;;
  ar <- col BUS_AREA bus ;;
  af <- gather ar fr ;; at_to <- gather ar to ;;
  let ties := find (map2 (fun a b => negb (feqb a b)) af at_to) in              (* lines 144-145 *)
  tap <- col TAP branch ;;
  let xfmr := find (map nz tap) in
  pd <- col PD bus ;; qd <- col QD bus ;;
  let nzld := find (map2 (fun a b => nz a || nz b) pd qd) in                    (* line 151 *)
  areas <- area_list ar ;;
  gs <- col GS bus ;; bs <- col BS bus ;;
  let nzsh := find (map2 (fun a b => nz a || nz b) gs bs) in
  ld <- mapM isload gen ;;
  let allg := find (map negb ld) in
  st <- col GEN_STATUS gen ;;
  let ong := find (map2 (fun s l => pos_status s && negb l) st ld) in
  let onld := find (map2 (fun s l => pos_status s && l) st ld) in
  vm <- col VM bus ;; va <- col VA bus ;;
  let V := map2 print_volt vm va in
  ls <- branch_losses dc baseMVA V fr to branch ;;
  Ok {| q_bus := bus; q_gen := gen; q_branch := branch; q_fr := fr; q_to := to; q_ties := ties; q_xfmr := xfmr;
        q_nzld := nzld; q_areas := areas; q_nzsh := nzsh; q_allg := allg; q_ong := ong; q_onld := onld; q_V := V;
        q_loss := map (fun p => fst (fst p)) ls; q_fchg := map (fun p => snd (fst p)) ls;
        q_tchg := map (fun p => snd p) ls |}.

(** ** the system summary, lines 187-204 *)
Definition cap_sum (gen : list (list K)) (idx : list nat) : result (capacity K) :=
  p <- colsum gen idx PMAX ;; a <- colsum gen idx QMIN ;; b <- colsum gen idx QMAX ;; Ok (Cap p a b).
Definition pow_sum (t : list (list K)) (idx : list nat) (jp jq : nat) : result (power K) :=
  p <- colsum t idx jp ;; q <- colsum t idx jq ;; Ok (PQ p q).
Definition neg_pow (s : power K) : power K := PQ (- p_part s)%K (- q_part s)%K.
Definition sub_pow (a b : power K) : power K := PQ (p_part a - p_part b)%K (q_part a - q_part b)%K.
Definition add_pow (a b : power K) : power K := PQ (p_part a + p_part b)%K (q_part a + q_part b)%K.
(** -sum(Vm^2 * Gs), sum(Vm^2 * Bs) *)
Definition shunt_sum (bus : list (list K)) (idx : list nat) : result (power K) :=
  vm <- col VM bus ;; gs <- col GS bus ;; bs <- col BS bus ;;
  p <- vsum (map2 (fun v g => sq v * g)%K vm gs) idx ;;
  q <- vsum (map2 (fun v b => sq v * b)%K vm bs) idx ;;
  Ok (PQ (- p)%K q).
Definition loss_sum (loss : list (cpx K)) (idx : list nat) : result (power K) :=
  p <- vsum (map re loss) idx ;; q <- vsum (map im loss) idx ;; Ok (PQ p q).
Definition all_of {A} (l : list A) : list nat := seq 0 (length l).
(** sum(abs(branch[ties, jf] - branch[ties, jt])) / 2 *)
Definition tie_flow (branch : list (list K)) (ties : list nat) (jf jt : nat) : result K :=
  f <- col jf branch ;; t <- col jt branch ;;
  s <- vsum (map2 (fun a b => fabs (a - b)%K) f t) ties ;; Ok (s / fofZ 2)%K.

Definition system_summary (d : print_data K) : result (sys_sum K) :=
  let bus := q_bus d in let gen := q_gen d in let branch := q_branch d in
  cap <- cap_sum gen (q_allg d) ;;
  on_cap <- cap_sum gen (q_ong d) ;;
  actual <- pow_sum gen (q_ong d) PG QG ;;
  fixed <- pow_sum bus (q_nzld d) PD QD ;;
  disp <- pow_sum gen (q_onld d) PG QG ;;
  dcap <- colsum gen (q_onld d) PMIN ;;
  sh <- shunt_sum bus (q_nzsh d) ;;
  loss <- loss_sum (q_loss d) (all_of (q_loss d)) ;;
  cf <- vsum (q_fchg d) (all_of (q_fchg d)) ;; ct <- vsum (q_tchg d) (all_of (q_tchg d)) ;;
  tp <- tie_flow branch (q_ties d) PF PT ;; tq <- tie_flow branch (q_ties d) QF QT ;;
  Ok {| y_buses := length bus; y_cap := cap; y_gens := length (q_allg d); y_on_cap := on_cap;
        y_committed := length (q_ong d); y_actual := actual;
        y_loads := length (q_nzld d) + length (q_onld d); y_load := sub_pow fixed disp;
        y_fixed := length (q_nzld d); y_fixed_load := fixed;
        y_disp := length (q_onld d); y_disp_load := neg_pow disp; y_disp_cap := (- dcap)%K;
        y_shunts := length (q_nzsh d); y_shunt := sh; y_branches := length branch; y_loss := loss;
        y_xfmrs := length (q_xfmr d); y_chg := (cf + ct)%K; y_ties := length (q_ties d); y_tie_flow := PQ tp tq;
        y_areas := length (q_areas d) |}.

(** ** the area summary, lines 238-336 *)
Definition mask2b (st : list K) (h : list bool) : list bool := map2 (fun s h => pos_status s && h) st h.
Definition mask2 {A B} (f : A -> B -> bool) (u : list A) (v : list B) : list nat := find (map2 f u v).
Definition halve (a : K) : K := (a / fofZ 2)%K.

Definition area_summary_row (d : print_data K) (a : K) : result (area_row K) :=
  let bus := q_bus d in let gen := q_gen d in let branch := q_branch d in
  ar <- col BUS_AREA bus ;;
  n <- col BUS_I bus ;;
  gb <- col GEN_BUS gen ;; gr <- rows_of (map ftrunc n) gb ;; ag <- gather ar gr ;;
  ld <- mapM isload gen ;; st <- col GEN_STATUS gen ;;
  af <- gather ar (q_fr d) ;; at_to <- gather ar (q_to d) ;;
  pd <- col PD bus ;; qd <- col QD bus ;; gs <- col GS bus ;; bs <- col BS bus ;;
  bst <- col BR_STATUS branch ;;
  let here := map (fun b => feqb b a) in
  let ib := find (here ar) in
  let ig := mask2 (fun h l => h && negb l) (here ag) ld in
  let igon := mask2 (fun h l => h && l) (here ag) (map2 (fun s l => pos_status s && negb l) st ld) in
  let ildon := mask2 (fun h l => h && l) (here ag) (map2 (fun s l => pos_status s && l) st ld) in
  let inzld := mask2 (fun h l => h && l) (here ar) (map2 (fun p q => nz p || nz q) pd qd) in
  let inzsh := mask2 (fun h l => h && l) (here ar) (map2 (fun p q => nz p || nz q) gs bs) in
  (* lines 253-255 *)
  let ibrch0 := mask2 (fun f t => f && t) (here af) (here at_to) in
  let in_tie0 := mask2 (fun f t => f && negb t) (here af) (here at_to) in
  let out_tie0 := mask2 (fun f t => negb f && t) (here af) (here at_to) in
  (* lines 256-259 *)
  tap <- col TAP branch ;;
  let nxfmr := length (mask2 (fun h x => h && x) (map2 andb (here af) (here at_to)) (map nz tap)) in
  cap <- cap_sum gen ig ;;
  on_cap <- cap_sum gen igon ;;
  actual <- pow_sum gen igon PG QG ;;
  (* line 291 *)
  qmin <- col QMIN gen ;; qmax <- col QMAX gen ;;
  let Qlim := map2 (fun lo hi => (if feqb lo 0%K then hi else 0) + (if feqb hi 0%K then lo else 0))%K qmin qmax in
  dp <- colsum gen ildon PMIN ;; dq <- vsum Qlim ildon ;;
  disp <- pow_sum gen ildon PG QG ;;
  fixed <- pow_sum bus inzld PD QD ;;
  sh <- shunt_sum bus inzsh ;;
  (* lines 319-321; here the ties are in service and in_tie ends in the area *)
  let live := map nz bst in
  let ibrch := mask2 andb (map2 andb (here af) (here at_to)) live in
  let in_tie := mask2 andb (map2 (fun f t => negb f && t) (here af) (here at_to)) live in
  let out_tie := mask2 andb (map2 (fun f t => f && negb t) (here af) (here at_to)) live in
  c1 <- vsum (q_fchg d) ibrch ;; c2 <- vsum (q_tchg d) ibrch ;; c3 <- vsum (q_fchg d) out_tie ;;
  c4 <- vsum (q_tchg d) in_tie ;;
  l1 <- loss_sum (q_loss d) ibrch ;;
  l2 <- loss_sum (q_loss d) (in_tie ++ out_tie) ;;
  let half := PQ (halve (p_part l2)) (halve (q_part l2)) in
  e1 <- pow_sum branch in_tie PT QT ;; e2 <- pow_sum branch out_tie PF QF ;;
  Ok {| a_num := a; a_buses := length ib; a_gens := length ig; a_committed := length igon;
        a_loads := length inzld + length ildon; a_fixed := length inzld; a_disp := length ildon;
        a_shunts := length inzsh; a_branches := length ibrch0; a_xfmrs := nxfmr;
        a_ties := length in_tie0 + length out_tie0;
        a_cap := cap; a_on_cap := on_cap; a_actual := actual;
        a_disp_cap := PQ (- dp)%K (- dq)%K; a_disp_load := neg_pow disp; a_fixed_load := fixed;
        a_load := add_pow (neg_pow disp) fixed;
        a_shunt := sh; a_chg := (c1 + c2 + c3 + c4)%K; a_loss := add_pow l1 half;
        a_export := sub_pow (add_pow e1 e2) half |}.
Definition area_summary (d : print_data K) : result (list (area_row K)) := mapM (area_summary_row d) (q_areas d).

(** ** bus data, lines 388-433; shadow prices up to [ptol] are not shown *)
Definition ptol : K := (1 / fofZ 10000)%K.
Definition bus_data_row (d : print_data K) (opf : bool) (b : list K) : result (bus_line K) :=
  let gen := q_gen d in
  n <- get b BUS_I ;; vm <- get b VM ;; va <- get b VA ;; ty <- get b BUS_TYPE ;;
  st <- col GEN_STATUS gen ;; gb <- col GEN_BUS gen ;; ld <- mapM isload gen ;;
  let at_bus := map (fun g => feqb g n) gb in
  let g := mask2 andb (mask2b st at_bus) (map negb ld) in
  let l := mask2 andb (mask2b st at_bus) ld in
  gp <- pow_sum gen g PG QG ;;
  lp <- pow_sum gen l PG QG ;;
  pd <- get b PD ;; qd <- get b QD ;;
  lam <- (if opf then
            p <- get b LAM_P ;; q <- get b LAM_Q ;;
            Ok (Some (p, if fltb ptol (fabs q) then Some q else None))
          else Ok None) ;;
  Ok {| l_num := n; l_vm := vm; l_va := va; l_ref := feqb ty (fofZ 3);
        l_gen := match g with [] => None | _ => Some gp end;
        l_load := match l with
                  | [] => if nz pd || nz qd then Some (PQ pd qd, false) else None
                  | _ => Some (PQ (pd - p_part lp)%K (qd - q_part lp)%K, true)
                  end;
        l_lam := lam |}.
Definition bus_data (d : print_data K) (opf : bool) : result (list (bus_line K) * power K * power K) :=
  rows <- mapM (bus_data_row d opf) (q_bus d) ;;
  g <- pow_sum (q_gen d) (q_ong d) PG QG ;;
  fixed <- pow_sum (q_bus d) (q_nzld d) PD QD ;;
  disp <- pow_sum (q_gen d) (q_onld d) PG QG ;;
  Ok (rows, g, sub_pow fixed disp).

(** ** generator data, lines 338-386: the rows of generators, of dispatchable loads (with the sign changed) and
    the totals; a unit without output shows no numbers *)
Definition gen_data_row (d : print_data K) (opf neg : bool) (i : nat) : result (gen_line K) :=
  g <- get (q_gen d) i ;;
  n <- col BUS_I (q_bus d) ;;
  b <- get g GEN_BUS ;; p <- get g PG ;; q <- get g QG ;;
  lam <- (if opf then
            k <- e2i_get (map ftrunc n) (ftrunc b) ;;
            r <- get (q_bus d) k ;; lp <- get r LAM_P ;; lq <- get r LAM_Q ;; Ok (Some (lp, lq))
          else Ok None) ;;
  let s := PQ p q in
  Ok {| g_idx := i; g_bus := b; g_out := if nz p || nz q then Some (if neg then neg_pow s else s) else None; g_lam := lam |}.
Definition gen_data (d : print_data K) (opf : bool)
  : result (list (gen_line K) * power K * list (gen_line K) * power K) :=
  _ <- (if opf then                                                             (* lines 341-342: all units *)
          n <- col BUS_I (q_bus d) ;; gb <- col GEN_BUS (q_gen d) ;; _ <- rows_of (map ftrunc n) gb ;; Ok tt
        else Ok tt) ;;
  a <- mapM (gen_data_row d opf false) (q_ong d) ;;
  sa <- pow_sum (q_gen d) (q_ong d) PG QG ;;
  b <- mapM (gen_data_row d opf true) (q_onld d) ;;
  sb <- pow_sum (q_gen d) (q_onld d) PG QG ;;
  Ok (a, sa, b, neg_pow sb).

(** ** branch data, lines 435-451 *)
Definition branch_data_row (p : nat * (cpx K * list K)) : result (br_line K) :=
  let '(i, (z, l)) := p in
  f <- get l F_BUS ;; t <- get l T_BUS ;;
  pf <- get l PF ;; qf <- get l QF ;; pt <- get l PT ;; qt <- get l QT ;;
  Ok {| b_idx := i; b_from := f; b_to := t; b_sf := PQ pf qf; b_st := PQ pt qt; b_loss := PQ (re z) (im z) |}.
Definition branch_data (d : print_data K) : result (list (br_line K) * power K) :=
  rows <- mapM branch_data_row (combine (all_of (q_branch d)) (combine (q_loss d) (q_branch d))) ;;
  s <- loss_sum (q_loss d) (all_of (q_loss d)) ;;
  Ok (rows, s).

(** ** constraint data, lines 453-683 *)
Section Limits.
Variable ctol : K.
Definition near_lo (m : lim_cells K) : bool := fltb (x_val m) (x_lo m + ctol)%K || fltb ptol (x_mu_lo m).
Definition near_hi (m : lim_cells K) : bool := fltb (x_hi m - ctol)%K (x_val m) || fltb ptol (x_mu_hi m).
Definition binding (m : lim_cells K) : bool := near_lo m || near_hi m.
Definition show_line (m : lim_cells K) : lim_line K :=
  {| m_idx := x_idx m; m_bus := x_bus m; m_mu_lo := if near_lo m then Some (x_mu_lo m) else None; m_lo := x_lo m;
     m_val := x_val m; m_hi := x_hi m; m_mu_hi := if near_hi m then Some (x_mu_hi m) else None |}.

(** the cells of row [i] of a table: number of the bus, lower end and its multiplier, value, upper end *)
Definition cells_at (jb jml jl jv jh jmh : nat) (t : list (list K)) (i : nat) : result (lim_cells K) :=
  r <- get t i ;;
  b <- get r jb ;; ml <- get r jml ;; lo <- get r jl ;; v <- get r jv ;; hi <- get r jh ;; mh <- get r jmh ;;
  Ok {| x_idx := i; x_bus := b; x_mu_lo := ml; x_lo := lo; x_val := v; x_hi := hi; x_mu_hi := mh |}.

Definition b2z (b : bool) : Z := if b then 1%Z else 0%Z.
(** lines 456-485.  Line 457 reads OUT_V_LIM == 2 | (OUT_V_LIM == 1 & x); Python's | and & bind tighter than == *)
Definition volt_limits (dc : bool) (lim : Z) (bus : list (list K)) : result (option (list (lim_line K))) :=
  ms <- mapM (cells_at BUS_I MU_VMIN VMIN VM VMAX MU_VMAX bus) (all_of bus) ;;
  let inner := (lim =? Z.land 1 (b2z (existsb binding ms)))%Z in
  Ok (if negb dc && (lim =? Z.lor 2 (b2z inner))%Z
      then Some (map show_line
             (filter (fun m => (lim =? 2)%Z || (lim =? Z.land 1 (b2z (binding m)))%Z) ms))
      else None).

(** lines 502-529 and 531-561: active and reactive limits of the units [idx] *)
Definition listed (lim : Z) (ms : list (lim_cells K)) : option (list (lim_cells K)) :=
  if (lim =? 2)%Z || ((lim =? 1)%Z && existsb binding ms)
  then Some (filter (fun m => (lim =? 2)%Z || ((lim =? 1)%Z && binding m)) ms) else None.
Definition p_cells (gen : list (list K)) (idx : list nat) : result (list (lim_cells K)) :=
  mapM (cells_at GEN_BUS MU_PMIN PMIN PG PMAX MU_PMAX gen) idx.
Definition q_cells (gen : list (list K)) (idx : list nat) : result (list (lim_cells K)) :=
  mapM (cells_at GEN_BUS MU_QMIN QMIN QG QMAX MU_QMAX gen) idx.
(** lines 576-605 and 607-638, dispatchable loads: every listed row fails, in the active table because
    an array is given where the format needs a tuple, in the reactive one because gen is called *)
Definition load_rows (l : option (list (lim_cells K))) : result unit :=
  match l with Some (_ :: _) => Err TypeError | _ => Ok tt end.

(** lines 641-652 *)
Definition end_flow (dc : bool) (lim : Z) (p q : K) (v : cpx K) : result K :=
  if (lim =? 1)%Z || dc then Ok p
  else if (lim =? 2)%Z then (if feqb (nrm2 v) 0%K then Err NonFinite else Ok (cabs (cdiv (Cx p q) v)))
  else Ok (cabs (Cx p q)).
Definition flow_cells (dc : bool) (flim : Z) (V : list (cpx K)) (fr to : list nat) (branch : list (list K))
  : result (list (flow_cell K)) :=
  mapM (fun p => let '(i, ((f, t), l)) := p in
     vf <- get V f ;; vt <- get V t ;;
     bf <- get l F_BUS ;; bt <- get l T_BUS ;;
     pf <- get l PF ;; qf <- get l QF ;; pt <- get l PT ;; qt <- get l QT ;;
     rate <- get l RATE_A ;; mf <- get l MU_SF ;; mt <- get l MU_ST ;;
     ff <- end_flow dc flim pf qf vf ;; ft <- end_flow dc flim pt qt vt ;;
     Ok {| z_idx := i; z_from := bf; z_to := bt; z_ff := ff; z_ft := ft; z_rate := rate; z_mf := mf; z_mt := mt |})
    (combine (all_of branch) (combine (combine fr to) branch)).
(** lines 654-658, 666-669 *)
Definition flow_binding (w : flow_cell K) : bool :=
  (nz (z_rate w) && fltb (z_rate w - ctol)%K (fabs (z_ff w))) || (nz (z_rate w) && fltb (z_rate w - ctol)%K (fabs (z_ft w)))
  || fltb ptol (z_mf w) || fltb ptol (z_mt w).
(** lines 670-682: here the flow is compared without its absolute value, and a zero rating is a rating *)
Definition show_flow (w : flow_cell K) : flow_line K :=
  let shown f m := if fltb (z_rate w - ctol)%K f || fltb ptol m then Some m else None in
  {| w_idx := z_idx w; w_from := z_from w; w_mu_f := shown (z_ff w) (z_mf w); w_ff := z_ff w; w_max := z_rate w;
     w_ft := z_ft w; w_mu_t := shown (z_ft w) (z_mt w); w_to := z_to w |}.
Definition flow_limits (lim : Z) (ws : list (flow_cell K)) : option (list (flow_line K)) :=
  if (lim =? 2)%Z || ((lim =? 1)%Z && existsb flow_binding ws)
  then Some (map show_flow (filter (fun w => (lim =? 2)%Z || ((lim =? 1)%Z && flow_binding w)) ws)) else None.

Definition limit_tables (dc : bool) (vlim plim qlim llim flim : Z) (d : print_data K) : result (lim_tables K) :=
  v <- volt_limits dc vlim (q_bus d) ;;
  pg <- p_cells (q_gen d) (q_ong d) ;; qg <- q_cells (q_gen d) (q_ong d) ;;
  pl <- p_cells (q_gen d) (q_onld d) ;; ql <- q_cells (q_gen d) (q_onld d) ;;
  _ <- load_rows (listed plim pl) ;;
  _ <- load_rows (if dc then None else listed qlim ql) ;;
  ws <- flow_cells dc flim (q_V d) (q_fr d) (q_to d) (q_branch d) ;;
  Ok {| t_volt := v; t_pg := option_map (map show_line) (listed plim pg);
        t_qg := if dc then None else option_map (map show_line) (listed qlim qg);
        t_flow := flow_limits llim ws |}.
End Limits.

(** ** lines 90-124: which parts are printed *)
Definition wants (o : print_options K) (part : bool) : bool :=
  (OUT_ALL o =? 1)%Z || ((OUT_ALL o =? -1)%Z && part).
Definition all_lim (o : print_options K) : Z :=
  if (OUT_ALL o =? -1)%Z then OUT_ALL_LIM o else if (OUT_ALL o =? 1)%Z then 2%Z else 0%Z.
Definition one_lim (o : print_options K) (l : Z) : Z := if (all_lim o =? -1)%Z then l else all_lim o.

Definition if_wanted {A} (b : bool) (r : result A) : result (option A) :=
  if b then x <- r ;; Ok (Some x) else Ok None.

(** the report, and bus, gen and branch as the caller finds them afterwards; [opf] says that an objective
    value was given *)
Definition printpf (o : print_options K) (opf : bool) (baseMVA : K) (bus gen branch : list (list K))
  : result (option (report K) * (list (list K) * list (list K) * list (list K))) :=
  if (OUT_ALL o =? 0)%Z then Ok (None, (bus, gen, branch))
  else
    d <- prepare (PF_DC o) baseMVA bus gen branch ;;
    s <- if_wanted (wants o (OUT_SYS_SUM o)) (system_summary d) ;;
    a <- if_wanted (wants o (OUT_AREA_SUM o)) (area_summary d) ;;
    g <- if_wanted (wants o (OUT_GEN o)) (gen_data d opf) ;;
    b <- if_wanted (wants o (OUT_BUS o)) (bus_data d opf) ;;
    l <- if_wanted (wants o (OUT_BRANCH o)) (branch_data d) ;;
    m <- if_wanted opf (limit_tables (OPF_VIOLATION o) (PF_DC o) (one_lim o (OUT_V_LIM o)) (one_lim o (OUT_PG_LIM o))
            (one_lim o (OUT_QG_LIM o)) (one_lim o (OUT_LINE_LIM o)) (OPF_FLOW_LIM o) d) ;;
    Ok (Some {| r_sys := s; r_areas := a; r_gens := g; r_buses := b; r_branches := l; r_limits := m |},
        (q_bus d, q_gen d, q_branch d)).
End PrintPf.
