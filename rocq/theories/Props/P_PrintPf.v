(** Printed reports: C88 - C98. *)
From Coq Require Import Permutation Reals Lra.
From Verif Require Import Lib.ListFacts Model.PrintPf Spec.PrintSpec Spec.PfSpec
  Proofs.SparseFacts Proofs.FldFacts Proofs.NetworkE Proofs.PrintA Proofs.PrintB Proofs.PrintC Proofs.PrintD Proofs.PrintE Proofs.PrintF
  Proofs.PrintG Proofs.PrintH Proofs.PrintI Proofs.TableEdit Props.P_AcPf Props.P_OpfLin.
From Verif Require Import Spec.PrintSpec Model.PrintPf Model.Idx.
Local Open Scope nat_scope.

Section Theorems.
Context {K : Type} {F : Fld K}.
Add Field KFpp : (@f_ok K F).
Variables (cis : K -> cpx K) (cabs : cpx K -> K).

(** what the statements below assume: a report of an AC run on tables with consistent bus numbers *)
Section Report.
Variables (o : print_options K) (opf : bool) (baseMVA : K) (bus gen branch : list (list K)).
Variables (rep : report K) (tabs : list (list K) * list (list K) * list (list K)).
Hypothesis AC : PF_DC o = false.
Hypothesis OK : printable bus gen branch.
Hypothesis RUN : printpf cis cabs o opf baseMVA bus gen branch = Ok (Some rep, tabs).

Lemma reported : exists d, prepared cis cabs baseMVA bus gen branch d /\
  (forall s, r_sys rep = Some s -> sys_ok cis cabs baseMVA bus gen branch d s) /\
  (forall a, r_areas rep = Some a -> Forall2 (area_ok cis cabs baseMVA bus gen branch) (q_areas d) a) /\
  (forall l, r_branches rep = Some l -> branch_data d = Ok l) /\
  (forall g, r_gens rep = Some g -> gen_data d opf = Ok g) /\
  (forall b, r_buses rep = Some b -> bus_data d opf = Ok b) /\
  (forall m, r_limits rep = Some m -> limit_tables cabs (OPF_VIOLATION o) false (one_lim o (OUT_V_LIM o)) (one_lim o (OUT_PG_LIM o))
            (one_lim o (OUT_QG_LIM o)) (one_lim o (OUT_LINE_LIM o)) (OPF_FLOW_LIM o) d = Ok m).
Proof.
  destruct (printpf_parts _ _ _ _ _ _ _ _ _ _ RUN) as (d & Hd & _ & Hs & Ha & Hb & Hg & Hu & _ & Hm). rewrite AC in Hd, Hm.
  pose proof (prepare_ok _ _ _ _ _ _ _ OK Hd) as PR. exists d. split; [exact PR|]. split.
  { intros s E. exact (system_ok _ _ _ _ _ _ _ OK PR s (Hs s E)). }
  split; [|auto]. intros a E. specialize (Ha a E). unfold area_summary in Ha. apply mapM_F2 in Ha.
  eapply Forall2_impl; [|exact Ha]. intros x r G. exact (area_row_ok _ _ _ _ _ _ _ OK PR x r G).
Qed.

(** ** C88: the branch table *)
Section Flows.
Hypothesis circ : circular cis.
Hypothesis cabs_ok : modulus cabs.

Theorem C88_rows rows tot : r_branches rep = Some (rows, tot) ->
  length rows = length branch /\
  (forall i l, nth_error branch i = Some l -> nth_error rows i =
     Some {| b_idx := i; b_from := cell l F_BUS; b_to := cell l T_BUS; b_sf := PQ (cell l PF) (cell l QF); b_st := PQ (cell l PT) (cell l QT);
             b_loss := PQ (re (heat cis baseMVA bus l)) (im (heat cis baseMVA bus l)) |}) /\
  tot = PQ (lsum (fun w => p_part (b_loss w)) rows) (lsum (fun w => q_part (b_loss w)) rows).
Proof.
  intros E. destruct reported as (d & PR & _ & _ & Hb & _). exact (branch_rows _ _ _ _ _ _ _ OK PR circ cabs_ok rows tot (Hb _ E)).
Qed.

(** the losses shown are what enters at the two ends and, for reactive power, what the charging produces *)
Theorem C88_losses rows tot : flows_solved cis baseMVA bus branch -> r_branches rep = Some (rows, tot) ->
  forall i l w, nth_error branch i = Some l -> nth_error rows i = Some w ->
  p_part (b_loss w) = (p_part (b_sf w) + p_part (b_st w))%K /\
  q_part (b_loss w) = (q_part (b_sf w) + q_part (b_st w) + charging cis baseMVA bus l)%K.
Proof.
  intros FS E i l w Hl Hw. destruct (C88_rows rows tot E) as (_ & R & _). rewrite (R i l Hl) in Hw. injection Hw as <-. cbn.
  destruct reported as (d & PR & _). pose proof (nth_error_In _ _ Hl) as I.
  destruct (row_heat cis cabs baseMVA bus gen branch d OK PR circ cabs_ok l I) as (H1 & H2).
  destruct (loss_flows cis cabs baseMVA bus gen branch d OK PR circ cabs_ok FS l I) as (G1 & G2).
  rewrite G1, G2, H1, H2. split; ring.
Qed.

(** ** C89: the system summary *)
Theorem C89_sums s : r_sys rep = Some s ->
  y_actual s = PQ (sum_if gen_running (fun g => cell g PG) gen) (sum_if gen_running (fun g => cell g QG) gen) /\
  y_load s = PQ (lsum (fun b => cell b PD) bus - sum_if load_running (fun g => cell g PG) gen)%K
                (lsum (fun b => cell b QD) bus - sum_if load_running (fun g => cell g QG) gen)%K /\
  y_shunt s = PQ (- lsum (fun b => cell b GS * (cell b VM * cell b VM)) bus)%K (lsum (fun b => cell b BS * (cell b VM * cell b VM)) bus)%K /\
  y_loss s = PQ (lsum (fun l => re (heat cis baseMVA bus l)) branch) (lsum (fun l => im (heat cis baseMVA bus l)) branch) /\
  y_chg s = lsum (charging cis baseMVA bus) branch.
Proof.
  intros E. destruct reported as (d & PR & Hs & _). specialize (Hs s E).
  pose proof (row_heat cis cabs baseMVA bus gen branch d OK PR circ cabs_ok) as RH.
  destruct (loads_all bus (fun _ => true)) as (L1 & L2), (shunts_all bus (fun _ => true)) as (S1 & S2). cbn [andb] in *.
  rewrite !sum_if_true in L1, L2, S1, S2.
  rewrite (so_actual _ _ _ _ _ _ _ _ Hs), (so_load _ _ _ _ _ _ _ _ Hs), (so_disp_load _ _ _ _ _ _ _ _ Hs), (so_fixed_load _ _ _ _ _ _ _ _ Hs),
    (so_shunt _ _ _ _ _ _ _ _ Hs), (so_loss _ _ _ _ _ _ _ _ Hs), (so_chg _ _ _ _ _ _ _ _ Hs).
  split; [reflexivity|]. split.
  { unfold add_pow. cbn [p_part q_part]. rewrite <- L1, <- L2. change (fun b : list K => nz_load b) with (@nz_load K F). apply f_equal2; ring. }
  split; [rewrite <- S1, <- S2; reflexivity|]. split.
  - f_equal; apply lsum_ext; intros l I; rewrite (proj1 (RH l I)); reflexivity.
  - rewrite <- lsum_add. apply lsum_ext. intros l I. exact (proj2 (RH l I)).
Qed.

Theorem C89_balance s : flows_solved cis baseMVA bus branch -> r_sys rep = Some s ->
  (p_part (y_actual s) - p_part (y_load s) + p_part (y_shunt s) - p_part (y_loss s))%K = lsum (surplus_p gen branch) bus /\
  (q_part (y_actual s) - q_part (y_load s) + q_part (y_shunt s) + y_chg s - q_part (y_loss s))%K = lsum (surplus_q gen branch) bus.
Proof.
  intros FS E. destruct reported as (d & PR & Hs & _).
  exact (system_balance cis cabs baseMVA bus gen branch d OK PR circ cabs_ok FS s (Hs s E)).
Qed.

(** ** C90: an area row, active power *)
Theorem C90_balance rows r : flows_solved cis baseMVA bus branch -> r_areas rep = Some rows -> In r rows ->
  (p_part (a_actual r) - p_part (a_load r) + p_part (a_shunt r) - p_part (a_loss r) - p_part (a_export r))%K
  = sum_if (in_area (a_num r)) (surplus_p gen branch) bus.
Proof.
  intros FS E I. destruct reported as (d & PR & _ & Ha & _). specialize (Ha rows E).
  apply In_nth_error in I as (k & Hk). destruct (Forall2_nth_error_r _ _ _ Ha k r Hk) as (a & _ & A).
  rewrite (ao_num _ _ _ _ _ _ _ _ A). exact (area_balance_p cis cabs baseMVA bus gen branch d OK PR circ cabs_ok FS a r A).
Qed.

(** ** C91: an area row, reactive power *)
Theorem C91_balance_partial rows r : flows_solved cis baseMVA bus branch -> r_areas rep = Some rows -> In r rows ->
  (q_part (a_actual r) - q_part (a_load r) + q_part (a_shunt r) + a_chg r - q_part (a_loss r) - q_part (a_export r))%K
  = (sum_if (in_area (a_num r)) (surplus_q gen branch) bus + tie_charge cis baseMVA bus branch (a_num r))%K.
Proof.
  intros FS E I. destruct reported as (d & PR & _ & Ha & _). specialize (Ha rows E).
  apply In_nth_error in I as (k & Hk). destruct (Forall2_nth_error_r _ _ _ Ha k r Hk) as (a & _ & A).
  rewrite (ao_num _ _ _ _ _ _ _ _ A). exact (area_balance_q cis cabs baseMVA bus gen branch d OK PR circ cabs_ok FS a r A).
Qed.

(** ** C97: branches whose flows were cleared although their status says in service *)
Theorem C97_cleared_partial (stale : list K -> bool) s :
  (forall l, In l branch -> if stale l then cell l PF = 0%K /\ cell l QF = 0%K /\ cell l PT = 0%K /\ cell l QT = 0%K else flow_of cis baseMVA bus l) ->
  r_sys rep = Some s ->
  (p_part (y_actual s) - p_part (y_load s) + p_part (y_shunt s) - p_part (y_loss s))%K
  = (lsum (surplus_p gen branch) bus - sum_if stale (fun l => re (heat cis baseMVA bus l)) branch)%K /\
  (q_part (y_actual s) - q_part (y_load s) + q_part (y_shunt s) + y_chg s - q_part (y_loss s))%K
  = (lsum (surplus_q gen branch) bus - sum_if stale (fun l => im (heat cis baseMVA bus l) - charging cis baseMVA bus l) branch)%K.
Proof.
  intros FL E. destruct reported as (d & PR & Hs & _).
  pose proof (row_heat cis cabs baseMVA bus gen branch d OK PR circ cabs_ok) as RH.
  destruct (system_gap cis cabs baseMVA bus gen branch d OK PR circ cabs_ok s (Hs s E)) as (-> & ->).
  assert (G : forall l, In l branch ->
    (cell l PF + cell l PT - re (heat cis baseMVA bus l))%K = (if stale l then - re (heat cis baseMVA bus l) else 0)%K /\
    (cell l QF + cell l QT + charging cis baseMVA bus l - im (heat cis baseMVA bus l))%K
    = (if stale l then - (im (heat cis baseMVA bus l) - charging cis baseMVA bus l) else 0)%K).
  { intros l I. specialize (FL l I). destruct (stale l).
    - destruct FL as (-> & -> & -> & ->). split; ring.
    - pose proof (qd_each _ _ _ _ _ _ _ PR l I) as HR. destruct (RH l I) as (H1 & H2). unfold lossl, fchgl, tchgl, PrintC.row in H1, H2.
      destruct (val loss_zero (loss_row cis cabs false baseMVA bus l)) as [[z fc] tc]. cbn in H1, H2.
      destruct (loss_flow cis cabs circ cabs_ok baseMVA bus branch l z fc tc (pr_once _ _ _ OK) I (pr_from _ _ _ OK l I) (pr_to _ _ _ OK l I) FL HR) as (E1 & E2).
      rewrite E1, E2, <- H1, <- H2. split; ring. }
  rewrite (lsum_ext _ _ branch (fun l I => proj1 (G l I))), (lsum_ext _ _ branch (fun l I => proj2 (G l I))).
  assert (N : forall f : list K -> K, lsum (fun l => if stale l then (- f l)%K else 0%K) branch = (- sum_if stale f branch)%K).
  { intros f. unfold sum_if. rewrite <- lsum_opp. apply lsum_ext. intros l _. destruct (stale l); ring. }
  rewrite (N (fun l => re (heat cis baseMVA bus l))), (N (fun l => im (heat cis baseMVA bus l) - charging cis baseMVA bus l)%K). split; ring.
Qed.
End Flows.

(** ** C98: the tables of generators, dispatchable loads and buses *)
Section Units.
Variables (gen_rows : list (gen_line K)) (tot : power K) (load_lines : list (gen_line K)) (load_tot : power K).
Hypothesis GENS : r_gens rep = Some (gen_rows, tot, load_lines, load_tot).

(** [shows w p q]: the row shows this output, or none if it is zero *)
Definition shows (w : gen_line K) (p q : K) : Prop :=
  (p = 0%K /\ q = 0%K /\ g_out w = None) \/ (~ (p = 0%K /\ q = 0%K) /\ g_out w = Some (PQ p q)).
Definition prices (w : gen_line K) (g : list K) : Prop :=
  g_lam w = if opf then Some (cell (the_bus bus GEN_BUS g) LAM_P, cell (the_bus bus GEN_BUS g) LAM_Q) else None.

Lemma row_shows neg i g : shows (gen_row_of bus opf neg i g) (if neg then - cell g PG else cell g PG)%K (if neg then - cell g QG else cell g QG)%K.
Proof.
  assert (Z0 : forall x : K, (- x)%K = 0%K <-> x = 0%K).
  { intros x. split; intros E; [transitivity (- - x)%K; [ring|rewrite E; ring]|rewrite E; ring]. }
  unfold shows, gen_row_of. cbn [g_out].
  destruct (feqb (cell g PG) 0%K) eqn:E1; [apply feqb_ok in E1|]; (destruct (feqb (cell g QG) 0%K) eqn:E2; [apply feqb_ok in E2|]); cbn [andb].
  - left. rewrite E1, E2. destruct neg; repeat split; ring.
  - right. split; [|destruct neg; reflexivity]. intros (_ & H). assert (cell g QG = 0%K) as X by (destruct neg; [apply Z0|]; exact H).
    apply feqb_ok in X. congruence.
  - right. split; [|destruct neg; reflexivity]. intros (H & _). assert (cell g PG = 0%K) as X by (destruct neg; [apply Z0|]; exact H).
    apply feqb_ok in X. congruence.
  - right. split; [|destruct neg; reflexivity]. intros (H & _). assert (cell g PG = 0%K) as X by (destruct neg; [apply Z0|]; exact H).
    apply feqb_ok in X. congruence.
Qed.

Theorem C98_generators :
  NoDup (map g_idx gen_rows) /\ (forall i, In i (map g_idx gen_rows) <-> exists g, nth_error gen i = Some g /\ gen_running g = true) /\
  (forall w, In w gen_rows -> exists g, nth_error gen (g_idx w) = Some g /\ g_bus w = cell g GEN_BUS /\ shows w (cell g PG) (cell g QG) /\ prices w g) /\
  tot = PQ (lsum (fun w => match g_out w with Some s => p_part s | None => 0%K end) gen_rows)
           (lsum (fun w => match g_out w with Some s => q_part s | None => 0%K end) gen_rows).
Proof.
  destruct reported as (d & PR & _ & _ & _ & Hg & _). specialize (Hg _ GENS). unfold gen_data in Hg.
  rewrite (qd_gen _ _ _ _ _ _ _ PR), (qd_ong _ _ _ _ _ _ _ PR), (qd_onld _ _ _ _ _ _ _ PR) in Hg.
  apply bind_ok in Hg as (u & _ & Hg). apply bind_ok in Hg as (a & HA & Hg). apply bind_ok in Hg as (sa & HSA & Hg). apply bind_ok in Hg as (b & HB & Hg).
  apply bind_ok in Hg as (sb & HSB & Hg). assert (a = gen_rows) as -> by congruence. assert (sa = tot) as -> by congruence. clear Hg.
  destruct (gen_rows_ok _ _ _ _ _ _ _ OK PR opf false _ _ HA) as (W & IDX). destruct (gen_rows_sum _ _ _ _ _ _ _ OK PR opf false _ _ HA) as (S1 & S2).
  split; [rewrite IDX; apply find_NoDup|]. split.
  { intros i. rewrite IDX, in_find, nth_error_map. destruct (nth_error gen i) as [g|]; cbn; split.
    - intros E. exists g. split; congruence.
    - intros (g' & E & R). congruence.
    - discriminate.
    - intros (g & E & _). discriminate. }
  split.
  - intros w I. apply W in I as (i & g & Hi & _ & ->). exists g. split; [exact Hi|]. split; [reflexivity|]. split; [exact (row_shows false i g)|reflexivity].
  - apply pow_sum_map in HSA. rewrite HSA. f_equal; symmetry; assumption.
Qed.
Theorem C98_loads :
  NoDup (map g_idx load_lines) /\ (forall i, In i (map g_idx load_lines) <-> exists g, nth_error gen i = Some g /\ load_running g = true) /\
  (forall w, In w load_lines -> exists g, nth_error gen (g_idx w) = Some g /\ g_bus w = cell g GEN_BUS /\
     shows w (- cell g PG)%K (- cell g QG)%K /\ prices w g) /\
  load_tot = PQ (lsum (fun w => match g_out w with Some s => p_part s | None => 0%K end) load_lines)
           (lsum (fun w => match g_out w with Some s => q_part s | None => 0%K end) load_lines).
Proof.
  destruct reported as (d & PR & _ & _ & _ & Hg & _). specialize (Hg _ GENS). unfold gen_data in Hg.
  rewrite (qd_gen _ _ _ _ _ _ _ PR), (qd_ong _ _ _ _ _ _ _ PR), (qd_onld _ _ _ _ _ _ _ PR) in Hg.
  apply bind_ok in Hg as (u & _ & Hg). apply bind_ok in Hg as (a & HA & Hg). apply bind_ok in Hg as (sa & HSA & Hg). apply bind_ok in Hg as (b & HB & Hg).
  apply bind_ok in Hg as (sb & HSB & Hg). assert (b = load_lines) as -> by congruence. assert (load_tot = neg_pow sb) as -> by congruence. clear Hg.
  destruct (gen_rows_ok _ _ _ _ _ _ _ OK PR opf true _ _ HB) as (W & IDX). destruct (gen_rows_sum _ _ _ _ _ _ _ OK PR opf true _ _ HB) as (S1 & S2).
  split; [rewrite IDX; apply find_NoDup|]. split.
  { intros i. rewrite IDX, in_find, nth_error_map. destruct (nth_error gen i) as [g|]; cbn; split.
    - intros E. exists g. split; congruence.
    - intros (g' & E & R). congruence.
    - discriminate.
    - intros (g & E & _). discriminate. }
  split.
  - intros w I. apply W in I as (i & g & Hi & _ & ->). exists g. split; [exact Hi|]. split; [reflexivity|]. split; [exact (row_shows true i g)|reflexivity].
  - apply pow_sum_map in HSB. rewrite HSB. unfold neg_pow. cbn [p_part q_part].
    assert (N : forall f : list K -> K, (- sum_if load_running f gen)%K = sum_if load_running (fun g => - f g)%K gen).
    { intros f. unfold sum_if. rewrite <- lsum_opp. apply lsum_ext. intros g _. destruct (load_running g); ring. }
    rewrite !N. f_equal; symmetry; assumption.
Qed.
End Units.

(** generation at a bus is that of the generators in service that name it, load the fixed one and that of the
    dispatchable loads *)
Definition gen_shown (w : bus_line K) : power K := match l_gen w with Some s => s | None => PQ 0%K 0%K end.
Definition load_shown (w : bus_line K) : power K := match l_load w with Some (s, _) => s | None => PQ 0%K 0%K end.
Theorem C98_buses rows g l : r_buses rep = Some (rows, g, l) ->
  length rows = length bus /\
  (forall i b, nth_error bus i = Some b -> exists w, nth_error rows i = Some w /\
     l_num w = cell b BUS_I /\ l_vm w = cell b VM /\ l_va w = cell b VA /\ l_ref w = feqb (cell b BUS_TYPE) (fofZ 3) /\
     gen_shown w = PQ (sum_if (fun u => at_bus b u && gen_running u) (fun u => cell u PG) gen) (sum_if (fun u => at_bus b u && gen_running u) (fun u => cell u QG) gen) /\
     load_shown w = PQ (cell b PD - sum_if (fun u => at_bus b u && load_running u) (fun u => cell u PG) gen)%K
                       (cell b QD - sum_if (fun u => at_bus b u && load_running u) (fun u => cell u QG) gen)%K /\
     l_lam w = if opf then Some (cell b LAM_P, if fltb (1 / fofZ 10000)%K (fabs (cell b LAM_Q)) then Some (cell b LAM_Q) else None) else None) /\
  (NoDup (map (fun b => cell b BUS_I) bus) -> (forall u, In u gen -> In (cell u GEN_BUS) (map (fun b => cell b BUS_I) bus)) ->
     g = PQ (lsum (fun w => p_part (gen_shown w)) rows) (lsum (fun w => q_part (gen_shown w)) rows) /\
     l = PQ (lsum (fun w => p_part (load_shown w)) rows) (lsum (fun w => q_part (load_shown w)) rows)).
Proof.
  intros E. destruct reported as (d & PR & _ & _ & _ & _ & Hu & _). destruct (bus_rows_ok _ _ _ _ _ _ _ PR opf rows g l (Hu _ E)) as (-> & -> & ->).
  assert (none : forall (p : list K -> bool) (f : list K -> K), existsb p gen = false -> sum_if p f gen = 0%K).
  { intros p f N. apply lsum_zero. intros u I. destruct (p u) eqn:P; auto. assert (existsb p gen = true) by (apply existsb_exists; eauto). congruence. }
  assert (G : forall b, gen_shown (bus_row_of gen opf b) = PQ (sum_if (fun u => at_bus b u && gen_running u) (fun u => cell u PG) gen) (sum_if (fun u => at_bus b u && gen_running u) (fun u => cell u QG) gen)).
  { intros b. unfold gen_shown, bus_row_of. cbn [l_gen]. destruct (existsb (fun u => at_bus b u && gen_running u) gen) eqn:X; [reflexivity|].
    rewrite !(none _ _ X). reflexivity. }
  assert (L : forall b, load_shown (bus_row_of gen opf b) = PQ (cell b PD - sum_if (fun u => at_bus b u && load_running u) (fun u => cell u PG) gen)%K
                       (cell b QD - sum_if (fun u => at_bus b u && load_running u) (fun u => cell u QG) gen)%K).
  { intros b. unfold load_shown, bus_row_of. cbn [l_load]. destruct (existsb (fun u => at_bus b u && load_running u) gen) eqn:X; [reflexivity|].
    rewrite !(none _ _ X). destruct (feqb (cell b PD) 0%K) eqn:E1; [apply feqb_ok in E1|]; (destruct (feqb (cell b QD) 0%K) eqn:E2; [apply feqb_ok in E2|]); cbn [andb];
      rewrite ?E1, ?E2; apply f_equal2; ring. }
  split; [apply map_length|]. split.
  - intros i b Hb. exists (bus_row_of gen opf b). rewrite nth_error_map, Hb. split; [reflexivity|]. repeat (split; [reflexivity|]). split; [apply G|]. split; [apply L|reflexivity].
  - intros ND N. rewrite !lsum_map.
    rewrite (lsum_ext (fun b => p_part (gen_shown (bus_row_of gen opf b))) _ bus (fun b _ => f_equal p_part (G b))).
    rewrite (lsum_ext (fun b => q_part (gen_shown (bus_row_of gen opf b))) _ bus (fun b _ => f_equal q_part (G b))).
    rewrite (lsum_ext (fun b => p_part (load_shown (bus_row_of gen opf b))) _ bus (fun b _ => f_equal p_part (L b))).
    rewrite (lsum_ext (fun b => q_part (load_shown (bus_row_of gen opf b))) _ bus (fun b _ => f_equal q_part (L b))).
    cbn [p_part q_part]. rewrite !lsum_sub, !(bus_units bus gen _ _ ND N). split; reflexivity.
Qed.

(** ** C92: the rows of the area summary against the system summary *)
Section Areas.
Variables (rows : list (area_row K)) (s : sys_sum K).
Hypothesis AREAS : r_areas rep = Some rows.
Hypothesis SYS : r_sys rep = Some s.
Let areas_of := map (fun b => cell b BUS_AREA) bus.

Theorem C92_totals_partial : low_twice areas_of ->
  (NoDup (map a_num rows) /\ forall a, In a (map a_num rows) <-> In a areas_of) /\
  list_sum (map a_buses rows) = y_buses s /\ list_sum (map a_gens rows) = y_gens s /\ list_sum (map a_committed rows) = y_committed s /\
  list_sum (map a_loads rows) = y_loads s /\ list_sum (map a_shunts rows) = y_shunts s /\
  list_sum (map a_branches rows) + y_ties s = y_branches s /\ list_sum (map a_ties rows) = 2 * y_ties s /\
  lsum (fun r => c_p (a_cap r)) rows = c_p (y_cap s) /\ lsum (fun r => c_p (a_on_cap r)) rows = c_p (y_on_cap s) /\
  lsum (fun r => p_part (a_actual r)) rows = p_part (y_actual s) /\ lsum (fun r => q_part (a_actual r)) rows = q_part (y_actual s) /\
  lsum (fun r => p_part (a_load r)) rows = p_part (y_load s) /\ lsum (fun r => q_part (a_load r)) rows = q_part (y_load s) /\
  lsum (fun r => p_part (a_shunt r)) rows = p_part (y_shunt s) /\ lsum (fun r => q_part (a_shunt r)) rows = q_part (y_shunt s) /\
  lsum (fun r => p_part (a_loss r)) rows = p_part (y_loss s) /\ lsum (fun r => q_part (a_loss r)) rows = q_part (y_loss s) /\
  lsum a_chg rows = y_chg s.
Proof.
  intros LOW. destruct reported as (d & PR & Hs & Ha & _). specialize (Hs s SYS). specialize (Ha rows AREAS).
  destruct (rows_counts cis cabs baseMVA bus gen branch d OK PR LOW _ eq_refl rows Ha s Hs) as (A1 & A2 & A3 & A4 & _ & _ & A5 & A6 & A7).
  destruct (rows_caps cis cabs baseMVA bus gen branch d OK PR LOW _ eq_refl rows Ha s Hs) as (B1 & _ & _ & B2 & _).
  destruct (rows_powers cis cabs baseMVA bus gen branch d OK PR LOW _ eq_refl rows Ha s Hs) as (C1 & C2 & _ & _ & _ & _ & C3 & C4 & C5 & C6).
  destruct (rows_losses cis cabs baseMVA bus gen branch d OK PR LOW _ eq_refl rows Ha s Hs) as (D1 & D2 & D3).
  assert (map a_num rows = q_areas d) as ->.
  { clear - Ha. induction Ha as [|a r la lr A _ IH]; [reflexivity|]. cbn. rewrite IH, (ao_num _ _ _ _ _ _ _ _ A). reflexivity. }
  split; [exact (area_list_full _ _ (qd_areas _ _ _ _ _ _ _ PR) LOW)|]. repeat (split; [assumption|]). assumption.
Qed.
(** the exports of all areas cancel *)
Theorem C92_exports_partial : circular cis -> modulus cabs -> flows_solved cis baseMVA bus branch -> low_twice areas_of ->
  lsum (fun r => p_part (a_export r)) rows = 0%K.
Proof.
  intros circ cabs_ok FS LOW. destruct reported as (d & PR & Hs & Ha & _). specialize (Hs s SYS). specialize (Ha rows AREAS).
  exact (rows_export cis cabs baseMVA bus gen branch d OK PR LOW _ eq_refl rows Ha circ cabs_ok FS).
Qed.
(** otherwise the area with the lowest number has no row, and the next one has two *)
Theorem C92_lost_partial a : In a areas_of -> (forall b, In b areas_of -> fltb b a = false) -> ~ low_twice areas_of ->
  ~ In a (map a_num rows) /\ exists r r' t, rows = r :: r' :: t /\ a_num r = a_num r'.
Proof.
  intros I M N. destruct reported as (d & PR & _ & Ha & _). specialize (Ha rows AREAS).
  destruct (area_list_lost _ _ a (qd_areas _ _ _ _ _ _ _ PR) I M N) as (X & b & t & E).
  assert (map a_num rows = q_areas d) as EQ.
  { clear - Ha. induction Ha as [|x r la lr A _ IH]; [reflexivity|]. cbn. rewrite IH, (ao_num _ _ _ _ _ _ _ _ A). reflexivity. }
  split; [rewrite EQ; exact X|]. rewrite E in EQ. destruct rows as [|r [|r' u]]; try discriminate. cbn in EQ. exists r, r', u.
  split; congruence.
Qed.
End Areas.

(** ** C93: which limits of generators and branches are listed; 1: those reached, 2: all *)
(** the setting of a listing: all with OUT_ALL = 1, by OUT_ALL_LIM or failing that its own option with OUT_ALL = -1,
    and otherwise none *)
Theorem C93_settings l :
  (OUT_ALL o = -1 -> OUT_ALL_LIM o = -1 -> one_lim o l = l)%Z /\
  (OUT_ALL o = -1 -> OUT_ALL_LIM o <> -1 -> one_lim o l = OUT_ALL_LIM o)%Z /\
  (OUT_ALL o = 1 -> one_lim o l = 2)%Z /\ (OUT_ALL o <> -1 -> OUT_ALL o <> 1 -> one_lim o l = 0)%Z.
Proof.
  unfold one_lim, all_lim. destruct (Z.eqb_spec (OUT_ALL o) (-1)) as [E|E].
  - destruct (Z.eqb_spec (OUT_ALL_LIM o) (-1)); repeat split; intros; lia.
  - destruct (Z.eqb_spec (OUT_ALL o) 1); cbn; repeat split; intros; lia.
Qed.
Section Limits.
Variable m : lim_tables K.
Hypothesis LIM : r_limits rep = Some m.
Let tol := OPF_VIOLATION o.

Lemma limits_of : exists d ws pg qg pl ql, prepared cis cabs baseMVA bus gen branch d /\
  volt_limits tol false (one_lim o (OUT_V_LIM o)) bus = Ok (t_volt m) /\
  p_cells gen (find (map gen_running gen)) = Ok pg /\ q_cells gen (find (map gen_running gen)) = Ok qg /\
  p_cells gen (find (map load_running gen)) = Ok pl /\ q_cells gen (find (map load_running gen)) = Ok ql /\
  load_rows (listed tol (one_lim o (OUT_PG_LIM o)) pl) = Ok tt /\ load_rows (listed tol (one_lim o (OUT_QG_LIM o)) ql) = Ok tt /\
  flow_cells cabs false (OPF_FLOW_LIM o) (q_V d) (q_fr d) (q_to d) (q_branch d) = Ok ws /\
  t_pg m = option_map (map (show_line tol)) (listed tol (one_lim o (OUT_PG_LIM o)) pg) /\
  t_qg m = option_map (map (show_line tol)) (listed tol (one_lim o (OUT_QG_LIM o)) qg) /\
  t_flow m = flow_limits tol (one_lim o (OUT_LINE_LIM o)) ws.
Proof.
  destruct reported as (d & PR & _ & _ & _ & _ & _ & Hm). specialize (Hm m LIM). unfold limit_tables in Hm.
  rewrite (qd_bus _ _ _ _ _ _ _ PR), (qd_gen _ _ _ _ _ _ _ PR), (qd_ong _ _ _ _ _ _ _ PR), (qd_onld _ _ _ _ _ _ _ PR) in Hm.
  apply bind_ok in Hm as (v & H1 & Hm). apply bind_ok in Hm as (pg & H2 & Hm). apply bind_ok in Hm as (qg & H3 & Hm).
  apply bind_ok in Hm as (pl & H4 & Hm). apply bind_ok in Hm as (ql & H5 & Hm). apply bind_ok in Hm as ([] & H6 & Hm).
  apply bind_ok in Hm as ([] & H7 & Hm). apply bind_ok in Hm as (ws & H8 & Hm).
  match type of Hm with Ok ?r = _ => assert (m = r) as -> by congruence end.
  exists d, ws, pg, qg, pl, ql. cbn [t_volt t_pg t_qg t_flow]. repeat (split; [assumption|]). repeat split; reflexivity.
Qed.

Theorem C93_active i : (one_lim o (OUT_PG_LIM o) = 1 \/ one_lim o (OUT_PG_LIM o) = 2)%Z ->
  In i (map m_idx (lines (t_pg m))) <-> exists g, nth_error gen i = Some g /\ gen_running g = true /\
    (one_lim o (OUT_PG_LIM o) = 2%Z \/ near_limit tol (cell g PMIN) (cell g PG) (cell g PMAX) (cell g MU_PMIN) (cell g MU_PMAX)).
Proof.
  intros L. destruct limits_of as (d & ws & pg & qg & pl & ql & _ & _ & HC & _ & _ & _ & _ & _ & _ & -> & _).
  rewrite in_map_iff. pose proof (cells_in _ _ _ _ _ _ _ _ _ HC) as CI. split.
  - intros (x & <- & I). apply (shown_in cis cabs tol _ _ _ L) in I as (c & -> & I & B). apply CI in I as (k & g & Hg & R & ->). exists g. cbn.
    split; [exact Hg|]. split; [exact R|]. destruct B as [B|B]; [left; exact B|right]. apply (binding_near cis cabs) in B. exact B.
  - intros (g & Hg & R & B). eexists. split; [|apply (shown_in cis cabs tol _ _ _ L); eexists; split; [reflexivity|]; split;
      [apply CI; exists i, g; split; [exact Hg|]; split; [exact R|]; reflexivity|]]; [reflexivity|].
    destruct B as [B|B]; [left; exact B|right]. apply (binding_near cis cabs). exact B.
Qed.
Theorem C93_reactive i : (one_lim o (OUT_QG_LIM o) = 1 \/ one_lim o (OUT_QG_LIM o) = 2)%Z ->
  In i (map m_idx (lines (t_qg m))) <-> exists g, nth_error gen i = Some g /\ gen_running g = true /\
    (one_lim o (OUT_QG_LIM o) = 2%Z \/ near_limit tol (cell g QMIN) (cell g QG) (cell g QMAX) (cell g MU_QMIN) (cell g MU_QMAX)).
Proof.
  intros L. destruct limits_of as (d & ws & pg & qg & pl & ql & _ & _ & _ & HC & _ & _ & _ & _ & _ & _ & -> & _).
  rewrite in_map_iff. pose proof (cells_in _ _ _ _ _ _ _ _ _ HC) as CI. split.
  - intros (x & <- & I). apply (shown_in cis cabs tol _ _ _ L) in I as (c & -> & I & B). apply CI in I as (k & g & Hg & R & ->). exists g. cbn.
    split; [exact Hg|]. split; [exact R|]. destruct B as [B|B]; [left; exact B|right]. apply (binding_near cis cabs) in B. exact B.
  - intros (g & Hg & R & B). eexists. split; [|apply (shown_in cis cabs tol _ _ _ L); eexists; split; [reflexivity|]; split;
      [apply CI; exists i, g; split; [exact Hg|]; split; [exact R|]; reflexivity|]]; [reflexivity|].
    destruct B as [B|B]; [left; exact B|right]. apply (binding_near cis cabs). exact B.
Qed.
Theorem C93_flows i : circular cis -> (one_lim o (OUT_LINE_LIM o) = 1 \/ one_lim o (OUT_LINE_LIM o) = 2)%Z ->
  In i (map w_idx (lines (t_flow m))) <-> exists l, nth_error branch i = Some l /\
    (one_lim o (OUT_LINE_LIM o) = 2%Z \/
     near_rating tol (loading cabs (OPF_FLOW_LIM o) (cell l PF) (cell l QF) (volt cis (the_bus bus F_BUS l)))
       (loading cabs (OPF_FLOW_LIM o) (cell l PT) (cell l QT) (volt cis (the_bus bus T_BUS l))) (cell l RATE_A) (cell l MU_SF) (cell l MU_ST)).
Proof.
  intros CC L. destruct limits_of as (d & ws & pg & qg & pl & ql & PR & _ & _ & _ & _ & _ & _ & _ & HW & _ & _ & ->).
  rewrite (flow_listed tol _ ws i L). pose proof (flow_cells_in _ _ _ _ _ _ _ _ _ CC OK PR HW) as FI. split.
  - intros (w & <- & I & B). apply FI in I as (k & l & Hl & ->). exists l. split; [exact Hl|].
    destruct B as [B|B]; [left; exact B|right]. apply (flow_binding_near cis cabs) in B. exact B.
  - intros (l & Hl & B). exists (cell_of cis cabs bus (OPF_FLOW_LIM o) i l). split; [reflexivity|]. split; [apply FI; exists i, l; auto|].
    destruct B as [B|B]; [left; exact B|right]. apply (flow_binding_near cis cabs). exact B.
Qed.

(** ** C94: voltage limits are listed with setting 2, never with setting 1 *)
Theorem C94_all_partial : one_lim o (OUT_V_LIM o) = 2%Z -> map m_idx (lines (t_volt m)) = seq 0 (length bus).
Proof.
  intros L. destruct limits_of as (d & ws & pg & qg & pl & ql & _ & HV & _). rewrite L in HV. unfold volt_limits in HV.
  apply bind_ok in HV as (ms & HM & HV). cbv zeta in HV. change (negb false) with true in HV. cbn [andb] in HV.
  assert ((2 =? Z.lor 2 (b2z (2 =? Z.land 1 (b2z (existsb (binding tol) ms)))))%Z = true) as E by (destruct (existsb (binding tol) ms); reflexivity).
  rewrite E in HV. assert (t_volt m = Some (map (show_line tol) (filter (fun _ => true) ms))) as -> by (cbn [Z.eqb Pos.eqb orb] in HV; congruence).
  cbn [lines]. assert (filter (fun _ : lim_cells K => true) ms = ms) as -> by (clear; induction ms; cbn; congruence).
  rewrite map_map. cbn. clear - HM. unfold all_of in HM. revert HM. generalize (seq 0 (length bus)) as idx. intros idx. revert ms.
  induction idx as [|i idx IH]; intros ms HM; cbn in HM; [injection HM as <-; reflexivity|].
  apply bind_ok in HM as (c & HC & HM). apply bind_ok in HM as (cs & HS & HM). assert (ms = c :: cs) as -> by congruence. cbn. rewrite (IH cs HS). f_equal.
  unfold cells_at in HC. repeat (apply bind_ok in HC as (? & _ & HC)). injection HC as <-. reflexivity.
Qed.
Theorem C94_never_partial : one_lim o (OUT_V_LIM o) = 1%Z -> t_volt m = None.
Proof.
  intros L. destruct limits_of as (d & ws & pg & qg & pl & ql & _ & HV & _). rewrite L in HV. exact (volt_never _ _ _ _ HV).
Qed.

(** ** C95: a report comes back only if no dispatchable load in service is at a limit that is to be listed *)
Theorem C95_loads_partial g : In g gen -> load_running g = true ->
  ((one_lim o (OUT_PG_LIM o) = 1 \/ one_lim o (OUT_PG_LIM o) = 2)%Z -> one_lim o (OUT_PG_LIM o) = 1%Z /\
     ~ near_limit tol (cell g PMIN) (cell g PG) (cell g PMAX) (cell g MU_PMIN) (cell g MU_PMAX)) /\
  ((one_lim o (OUT_QG_LIM o) = 1 \/ one_lim o (OUT_QG_LIM o) = 2)%Z -> one_lim o (OUT_QG_LIM o) = 1%Z /\
     ~ near_limit tol (cell g QMIN) (cell g QG) (cell g QMAX) (cell g MU_QMIN) (cell g MU_QMAX)).
Proof.
  intros I R. destruct limits_of as (d & ws & pg & qg & pl & ql & _ & _ & _ & _ & HP & HQ & LP & LQ & _).
  apply In_nth_error in I as (i & Hi). split; intros L.
  - pose proof (proj2 (cells_in _ _ _ _ _ _ _ _ _ HP _) (ex_intro _ i (ex_intro _ g (Logic.conj Hi (Logic.conj R eq_refl))))) as IN.
    destruct (load_rows_none cis cabs tol _ _ L LP _ IN) as (N & B). split; [tauto|]. intros NL.
    match type of B with binding tol ?c = false => assert (binding tol c = true) as B2 by (apply (binding_near cis cabs); exact NL) end. congruence.
  - pose proof (proj2 (cells_in _ _ _ _ _ _ _ _ _ HQ _) (ex_intro _ i (ex_intro _ g (Logic.conj Hi (Logic.conj R eq_refl))))) as IN.
    destruct (load_rows_none cis cabs tol _ _ L LQ _ IN) as (N & B). split; [tauto|]. intros NL.
    match type of B with binding tol ?c = false => assert (binding tol c = true) as B2 by (apply (binding_near cis cabs); exact NL) end. congruence.
Qed.
End Limits.
End Report.

(** ** C96: the tables after the call *)
Theorem C96_ac_partial o opf baseMVA bus gen branch rep tabs : PF_DC o = false ->
  printpf cis cabs o opf baseMVA bus gen branch = Ok (rep, tabs) -> tabs = (bus, gen, branch).
Proof.
  intros AC RUN. destruct rep as [rep|]; [|exact (printed_none _ _ _ _ _ _ _ _ _ RUN)].
  destruct (printpf_parts _ _ _ _ _ _ _ _ _ _ RUN) as (d & Hd & -> & _). rewrite AC in Hd.
  destruct (prepare_tabs _ _ _ _ _ _ _ Hd) as (-> & -> & ->). reflexivity.
Qed.
Theorem C96_dc_partial o opf baseMVA bus gen branch rep bus' gen' branch' : PF_DC o = true ->
  printpf cis cabs o opf baseMVA bus gen branch = Ok (Some rep, (bus', gen', branch')) ->
  blanked [QD; BS] bus bus' /\ blanked [QG; QMAX; QMIN] gen gen' /\ blanked [BR_R; BR_B] branch branch'.
Proof.
  intros DC RUN. destruct (printpf_parts _ _ _ _ _ _ _ _ _ _ RUN) as (d & Hd & E & _). rewrite DC in Hd.
  assert (bus' = q_bus d /\ gen' = q_gen d /\ branch' = q_branch d) as (-> & -> & ->) by (repeat split; congruence).
  destruct (prepare_dc_tabs _ _ _ _ _ _ _ Hd) as (H1 & H2 & H3).
  assert (B : forall cs t t', edit t t' (fun _ k => if existsb (Nat.eqb k) cs then Some 0%K else None) -> blanked cs t t').
  { intros cs t t' (L & H). split; [exact L|]. intros i r Hr. destruct (H i r Hr) as (r' & A1 & A2 & A3). exists r'. split; [exact A1|]. split; [exact A2|].
    intros j. rewrite A3. destruct (existsb (Nat.eqb j) cs); reflexivity. }
  auto.
Qed.
End Theorems.

(** ** Examples *)

(** angles that are zero, positive or negative *)
Section Angles.
Context {K : Type} {F : Fld K}.
Add Field KFpq : (@f_ok K F).
Definition three_angles (c s a : K) : cpx K :=
  if feqb a 0%K then Cx 1%K 0%K else if fltb 0%K a then Cx c s else Cx c (- s)%K.
Lemma three_angles_ok (c s : K) : (c * c + s * s)%K = 1%K -> circular (three_angles c s).
Proof.
  intros U. split; intros a; unfold three_angles.
  - destruct (feqb a 0%K) eqn:E.
    + apply feqb_ok in E. subst a. assert (feqb (- 0)%K 0%K = true) as -> by (apply feqb_ok; ring). apply PrintB.cpx_eq; cbn; ring.
    + assert (feqb (- a)%K 0%K = false) as ->.
      { destruct (feqb (- a)%K 0%K) eqn:G; auto. apply feqb_ok in G. assert (a = 0%K) as E2 by (transitivity (- - a)%K; [ring|rewrite G; ring]).
        apply feqb_ok in E2. congruence. }
      destruct (fltb 0%K a) eqn:L.
      * assert (fltb 0%K (- a)%K = false) as ->; [|reflexivity]. destruct (fltb 0%K (- a)%K) eqn:L2; auto. exfalso.
        pose proof (f_lt_add _ _ a L2) as L3. replace (0 + a)%K with a in L3 by ring. replace (- a + a)%K with (0%K : K) in L3 by ring.
        pose proof (f_lt_trans _ _ _ L L3) as L4. rewrite f_lt_irrefl in L4. discriminate.
      * assert (fltb 0%K (- a)%K = true) as ->; [|apply PrintB.cpx_eq; cbn; ring].
        destruct (f_lt_total 0%K a) as [G|[G|G]]; [congruence| |].
        { subst a. assert (feqb 0%K 0%K = true) as X by (apply feqb_ok; reflexivity). congruence. }
        pose proof (f_lt_add _ _ (- a)%K G) as L3. replace (a + - a)%K with (0%K : K) in L3 by ring. replace (0 + - a)%K with (- a)%K in L3 by ring. exact L3.
  - destruct (feqb a 0%K); [|destruct (fltb 0%K a)]; unfold nrm2; cbn.
    + ring.
    + exact U.
    + rewrite <- U. ring.
Qed.
End Angles.

(** three buses in two areas.  Bus 30 also has a dispatchable load; the third branch is switched off *)
Definition cis_s : Qc -> cpx Qc := three_angles (qc 3 5) (qc 4 5).
(** the modulus of real numbers, the only ones in the examples *)
Definition abs_re (z : cpx Qc) : Qc := fabs (re z).

Definition px_bus_of (areas : list Z) : list (list Qc) :=
  map (fun p => let '(h, sh, a, vm, lims) := p in zs h ++ sh ++ zs [a]%Z ++ vm ++ zs [0; 230; 1]%Z ++ lims ++ zs [0; 0; 0; 0]%Z)
    (combine (combine (combine (combine
      [[10; 3; 10; 0; 0]; [20; 1; 216]; [30; 2; 0; 0; 0]]%Z
      [zs [0]%Z; qc 36981 100 :: zs [0; 100]%Z; zs [0]%Z]) areas)
      [[zc 1]; [qc 9 10]; [zc 1]])
      [[qc 11 10; qc 9 10]; [qc 11 10; qc 9 10]; [qc 11 10; qc 9 10]]).
Definition px_bus := px_bus_of [1; 1; 2]%Z.
Definition px_gen_of (load_min : Z) : list (list Qc) :=
  map (fun h => zs h ++ zs [0; 0; 0; 0; 0; 0; 0; 0; 0; 0; 0; 0; 0; 0; 0]%Z)
    [[10; 130; 160; 300; -300; 1; 100; 1; 130; 0]; [30; 140; 164; 300; 164; 1; 100; 1; 200; 0]; [30; -20; -5; 0; -8; 1; 100; 1; 0; load_min]]%Z.
Definition px_gen := px_gen_of (-30)%Z.
Definition px_branch : list (list Qc) :=
  map (fun p => let '(h, b, st, fl) := p in zs h ++ [qc 3 100; qc 4 100; b] ++ zs [120; 0; 0; 0; 0; st; -360; 360]%Z ++ fl ++ zs [0; 0]%Z)
    (combine (combine (combine [[10; 20]; [20; 30]; [10; 30]]%Z [zc 0; qc 1 50; zc 0]) [1; 1; 0]%Z)
      [zs [120; 160; -108; -144]%Z; [zc (-108); qc (-14481) 100; zc 120; zc 159]; zs [0; 0; 0; 0]%Z]).
Definition px_opt (dc : bool) (vlim : Z) : print_options Qc :=
  {| PF_DC := dc; OUT_ALL := -1; OUT_SYS_SUM := true; OUT_AREA_SUM := true; OUT_BUS := true; OUT_BRANCH := true; OUT_GEN := true;
     OUT_ALL_LIM := -1; OUT_V_LIM := vlim; OUT_LINE_LIM := 1; OUT_PG_LIM := 1; OUT_QG_LIM := 1;
     OPF_VIOLATION := qc 1 1000; OPF_FLOW_LIM := 1 |}.

Example cis_s_circular : circular cis_s.
Proof. apply (three_angles_ok (qc 3 5) (qc 4 5)). apply qc_eqb_eq. vm_compute. reflexivity. Qed.
(** over the reals the usual functions will do *)
Example cisR_circular : circular cisR.
Proof.
  split; intros a.
  - change (cisR (- a)%R = conj (cisR a)). unfold cisR, conj. cbn. rewrite cos_neg, sin_neg. reflexivity.
  - unfold cisR, nrm2. cbn. pose proof (sin2_cos2 a) as E. unfold Rsqr in E. change (cos a * cos a + sin a * sin a = 1)%R. lra.
Qed.

Example px_printable : printable px_bus px_gen px_branch.
Proof. apply print_test_ok. vm_compute. reflexivity. Qed.
Lemma tested_flows bus branch : NoDup (map bus_num bus) -> forallb (flow_test cis_s (zc 100) bus) branch = true -> flows_solved cis_s (zc 100) bus branch.
Proof. intros ND H l I. rewrite forallb_forall in H. apply flow_test_ok; auto. Qed.
Example px_flows : flows_solved cis_s (zc 100) px_bus px_branch.
Proof. apply tested_flows; [exact (pr_once _ _ _ px_printable)|]. vm_compute. reflexivity. Qed.
Lemma tested_surplus (bus gen branch : list (list Qc)) : forallb (zero_surplus gen branch) bus = true ->
  forall b, In b bus -> surplus_p gen branch b = zc 0 /\ surplus_q gen branch b = zc 0.
Proof. intros H b I. rewrite forallb_forall in H. specialize (H b I). apply andb_prop in H as (H1 & H2). apply feqb_ok in H1, H2. auto. Qed.
Example px_surplus : forall b, In b px_bus -> surplus_p px_gen px_branch b = zc 0 /\ surplus_q px_gen px_branch b = zc 0.
Proof. apply tested_surplus. vm_compute. reflexivity. Qed.

Definition shown (s : power Qc) : Q * Q := (this (p_part s), this (q_part s)).
Definition of_run {A} (f : report Qc -> option A) (r : result (option (report Qc) * (list (list Qc) * list (list Qc) * list (list Qc)))) : option A :=
  match r with Ok (Some rep, _) => f rep | _ => None end.

Example C88_example :
  of_run (fun r => match r_branches r with Some (rows, tot) => Some (map (fun w => (b_idx w, shown (b_sf w), shown (b_st w), shown (b_loss w))) rows, shown tot) | None => None end)
    (printpf cis_s abs_re (px_opt false 1) true (zc 100) px_bus px_gen px_branch)
  = Some ([(0%nat, (120, 160), (-108, -144), (12, 16)); (1%nat, (-108, -14481 # 100), (120, 159), (12, 16)); (2%nat, (0, 0), (0, 0), (0, 0))], (24, 32))%Q.
Proof. vm_compute. reflexivity. Qed.

Example C89_example :
  of_run (fun r => option_map (fun s => (shown (y_actual s), shown (y_load s), shown (y_shunt s), shown (y_loss s), this (y_chg s))) (r_sys r))
    (printpf cis_s abs_re (px_opt false 1) true (zc 100) px_bus px_gen px_branch)
  = Some ((270, 324), (246, 37481 # 100), (0, 81), (24, 32), 181 # 100)%Q.
Proof. vm_compute. reflexivity. Qed.

Definition px_area_rows (r : report Qc) := option_map (map (fun a => (this (a_num a), shown (a_actual a), shown (a_load a), shown (a_shunt a), this (a_chg a), shown (a_loss a), shown (a_export a)))) (r_areas r).
Example C90_example :
  of_run px_area_rows (printpf cis_s abs_re (px_opt false 1) true (zc 100) px_bus px_gen px_branch)
  = Some [(1, (130, 160), (226, 36981 # 100), (0, 81), 81 # 100, (18, 24), (-114, -15281 # 100));
          (2, (140, 164), (20, 5), (0, 0), 1, (6, 8), (114, 151))]%Q.
Proof. vm_compute. reflexivity. Qed.

Lemma ran (P : report Qc -> bool) r : match r with Ok (Some rep, _) => P rep | _ => false end = true ->
  exists rep (tabs : list (list Qc) * list (list Qc) * list (list Qc)), r = Ok (Some rep, tabs) /\ P rep = true.
Proof. destruct r as [[[rep|] tabs]|]; try discriminate. intros H. exists rep, tabs. auto. Qed.

(** every bus is balanced and the flows are right, but the row of area 1 leaves 0.81 MVAr *)
Definition gap_q (r : area_row Qc) : Qc :=
  (q_part (a_actual r) - q_part (a_load r) + q_part (a_shunt r) + a_chg r - q_part (a_loss r) - q_part (a_export r))%K.
Theorem C91_reactive_refuted : exists o (bus gen branch : list (list Qc)) rep tabs rows r,
  circular cis_s /\ PF_DC o = false /\ printable bus gen branch /\ flows_solved cis_s (zc 100) bus branch /\
  (forall b, In b bus -> surplus_q gen branch b = zc 0) /\
  printpf cis_s abs_re o true (zc 100) bus gen branch = Ok (Some rep, tabs) /\
  r_areas rep = Some rows /\ In r rows /\
  (q_part (a_actual r) - q_part (a_load r) + q_part (a_shunt r) + a_chg r - q_part (a_loss r) - q_part (a_export r))%K <> zc 0.
Proof.
  destruct (ran (fun rep => match r_areas rep with Some (r :: _) => qc_eqb (gap_q r) (qc 81 100) | _ => false end)
    (printpf cis_s abs_re (px_opt false 1) true (zc 100) px_bus px_gen px_branch)) as (rep & tabs & E & P); [vm_compute; reflexivity|].
  exists (px_opt false 1), px_bus, px_gen, px_branch, rep, tabs. destruct (r_areas rep) as [[|r rows]|] eqn:A; try discriminate.
  exists (r :: rows), r. split; [exact cis_s_circular|]. split; [reflexivity|]. split; [exact px_printable|]. split; [exact px_flows|].
  split; [intros b I; exact (proj2 (px_surplus b I))|]. split; [exact E|]. split; [reflexivity|]. split; [left; reflexivity|].
  apply qc_eqb_eq in P. unfold gap_q in P. rewrite P. intros G. apply qc_eqb_eq in G. vm_compute in G. discriminate.
Qed.
Example C91_example : map (fun a => this (tie_charge cis_s (zc 100) px_bus px_branch (zc a))) [1; 2]%Z = [81 # 100; 1]%Q.
Proof. vm_compute. reflexivity. Qed.

(** ** C92 *)
Example C92_example_low : low_twice (map (fun b => cell b BUS_AREA) px_bus).
Proof.
  exists (zc 1), [zc 2]. split.
  - change (map (fun b => cell b BUS_AREA) px_bus) with (map (fun b : list Qc => cell b BUS_AREA) (px_bus_of [1; 1; 2]%Z)).
    replace (map (fun b : list Qc => cell b BUS_AREA) (px_bus_of [1; 1; 2]%Z)) with [zc 1; zc 1; zc 2] by reflexivity. apply Permutation_refl.
  - replace (map (fun b : list Qc => cell b BUS_AREA) px_bus) with [zc 1; zc 1; zc 2] by reflexivity.
    intros b [<-|[<-|[<-|[]]]]; vm_compute; reflexivity.
Qed.
Definition px_counts (r : report Qc) : option (list Q * list nat * nat) :=
  match r_areas r, r_sys r with Some rows, Some s => Some (map (fun a => this (a_num a)) rows, map a_buses rows, y_buses s) | _, _ => None end.
Example C92_example : of_run px_counts (printpf cis_s abs_re (px_opt false 1) true (zc 100) px_bus px_gen px_branch) = Some ([1; 2]%Q, [2; 1], 3).
Proof. vm_compute. reflexivity. Qed.
(** areas 1, 2, 2: the first has no row, the second two *)
Theorem C92_area_refuted : exists o (bus gen branch : list (list Qc)) rep tabs rows s,
  PF_DC o = false /\ printable bus gen branch /\
  printpf cis_s abs_re o true (zc 100) bus gen branch = Ok (Some rep, tabs) /\ r_areas rep = Some rows /\ r_sys rep = Some s /\
  (exists b, In b bus /\ forall r, In r rows -> a_num r <> cell b BUS_AREA) /\ list_sum (map a_buses rows) <> y_buses s.
Proof.
  destruct (ran (fun rep => match r_areas rep, r_sys rep with
     | Some rows, Some s => forallb (fun r => negb (qc_eqb (a_num r) (zc 1))) rows && (list_sum (map a_buses rows) =? 4) && (y_buses s =? 3)
     | _, _ => false end)
    (printpf cis_s abs_re (px_opt false 1) true (zc 100) (px_bus_of [1; 2; 2]%Z) px_gen px_branch)) as (rep & tabs & E & P); [vm_compute; reflexivity|].
  exists (px_opt false 1), (px_bus_of [1; 2; 2]%Z), px_gen, px_branch, rep, tabs.
  destruct (r_areas rep) as [rows|] eqn:A; try discriminate. destruct (r_sys rep) as [s|] eqn:S; try discriminate.
  apply andb_prop in P as (P & P3). apply andb_prop in P as (P1 & P2). apply Nat.eqb_eq in P2, P3.
  exists rows, s. split; [reflexivity|]. split; [apply print_test_ok; vm_compute; reflexivity|]. split; [exact E|]. split; [reflexivity|]. split; [reflexivity|].
  split.
  - exists (nth 0 (px_bus_of [1; 2; 2]%Z) []). split; [left; reflexivity|]. intros r I G. rewrite forallb_forall in P1. specialize (P1 r I).
    apply negb_true_iff in P1. assert (a_num r = zc 1) as G2 by (rewrite G; reflexivity). apply qc_eqb_eq in G2. congruence.
  - rewrite P2, P3. discriminate.
Qed.
(** a system of one bus has no report *)
Example C92_one_bus : match printpf cis_s abs_re (px_opt false 1) false (zc 100) (firstn 1 px_bus) (firstn 1 px_gen) [] with Err IndexError => true | _ => false end = true.
Proof. vm_compute. reflexivity. Qed.

(** ** C98 *)
Example C98_example :
  of_run (fun r => match r_gens r, r_buses r with
     | Some (gs, t, ls, u), Some (bs, g, l) => Some (map (fun w => (g_idx w, option_map shown (g_out w))) gs, shown t, map (fun w => (g_idx w, option_map shown (g_out w))) ls, shown u,
         (map (fun w => (l_ref w, option_map shown (l_gen w), option_map (fun p => (shown (fst p), snd p)) (l_load w))) bs, shown g, shown l))
     | _, _ => None end)
    (printpf cis_s abs_re (px_opt false 1) false (zc 100) px_bus px_gen px_branch)
  = Some ([(0%nat, Some (130, 160)); (1%nat, Some (140, 164))], (270, 324), [(2%nat, Some (20, 5))], (20, 5),
      ([(true, Some (130, 160), Some ((10, 0), false)); (false, None, Some ((216, 36981 # 100), false)); (false, Some (140, 164), Some ((20, 5), true))],
       (270, 324), (246, 37481 # 100)))%Q.
Proof. vm_compute. reflexivity. Qed.

(** ** C93 *)
Example C93_example :
  of_run (fun r => option_map (fun m => (t_volt m, map m_idx (lines (t_pg m)), map m_idx (lines (t_qg m)), map w_idx (lines (t_flow m)))) (r_limits r))
    (printpf cis_s abs_re (px_opt false 1) true (zc 100) px_bus px_gen px_branch)
  = Some (None, [0], [1], [0; 1]).
Proof. vm_compute. reflexivity. Qed.

(** ** C94: the voltage of bus 20 is at its lower limit *)
Theorem C94_voltage_refuted : exists o (bus gen branch : list (list Qc)) rep tabs m b,
  PF_DC o = false /\ printable bus gen branch /\ flows_solved cis_s (zc 100) bus branch /\ OUT_ALL_LIM o = (-1)%Z /\ OUT_V_LIM o = 1%Z /\
  In b bus /\ cell b VM = cell b VMIN /\
  printpf cis_s abs_re o true (zc 100) bus gen branch = Ok (Some rep, tabs) /\ r_limits rep = Some m /\ lines (t_volt m) = [].
Proof.
  destruct (ran (fun rep => match r_limits rep with Some m => match lines (t_volt m) with [] => true | _ => false end | _ => false end)
    (printpf cis_s abs_re (px_opt false 1) true (zc 100) px_bus px_gen px_branch)) as (rep & tabs & E & P); [vm_compute; reflexivity|].
  destruct (r_limits rep) as [m|] eqn:M; try discriminate. destruct (lines (t_volt m)) eqn:L; try discriminate.
  exists (px_opt false 1), px_bus, px_gen, px_branch, rep, tabs, m, (nth 1 px_bus []). split; [reflexivity|]. split; [exact px_printable|].
  split; [exact px_flows|]. split; [reflexivity|]. split; [reflexivity|]. split; [right; left; reflexivity|]. split; [reflexivity|].
  split; [exact E|]. split; [exact M|exact L].
Qed.
Example C94_example :
  of_run (fun r => option_map (fun m => map (fun x => (m_idx x, option_map this (m_mu_lo x))) (lines (t_volt m))) (r_limits r))
    (printpf cis_s abs_re (px_opt false 2) true (zc 100) px_bus px_gen px_branch)
  = Some [(0, None); (1, Some 0%Q); (2, None)].
Proof. vm_compute. reflexivity. Qed.

(** ** C95: the dispatchable load takes all it may *)
Theorem C95_load_refuted : exists o (bus gen branch : list (list Qc)) g,
  PF_DC o = false /\ printable bus gen branch /\ flows_solved cis_s (zc 100) bus branch /\ OUT_ALL_LIM o = (-1)%Z /\ OUT_PG_LIM o = 1%Z /\
  In g gen /\ load_running g = true /\ cell g PG = cell g PMIN /\
  printpf cis_s abs_re o true (zc 100) bus gen branch = Err TypeError.
Proof.
  exists (px_opt false 1), px_bus, (px_gen_of (-20)), px_branch, (nth 2 (px_gen_of (-20)) []). split; [reflexivity|].
  split; [apply print_test_ok; vm_compute; reflexivity|]. split; [exact px_flows|]. split; [reflexivity|]. split; [reflexivity|].
  split; [right; right; left; reflexivity|]. split; [reflexivity|]. split; [reflexivity|].
  assert (match printpf cis_s abs_re (px_opt false 1) true (zc 100) px_bus (px_gen_of (-20)) px_branch with Err TypeError => true | _ => false end = true) as C
    by (vm_compute; reflexivity).
  destruct (printpf cis_s abs_re (px_opt false 1) true (zc 100) px_bus (px_gen_of (-20)) px_branch) as [|[]]; try discriminate. reflexivity.
Qed.
(** with -30 as the limit it does not, and the report comes back *)
Example C95_example : exists rep tabs m, printpf cis_s abs_re (px_opt false 1) true (zc 100) px_bus px_gen px_branch = Ok (Some rep, tabs) /\ r_limits rep = Some m.
Proof.
  destruct (ran (fun rep => match r_limits rep with Some m => true | _ => false end)
    (printpf cis_s abs_re (px_opt false 1) true (zc 100) px_bus px_gen px_branch)) as (rep & tabs & E & P); [vm_compute; reflexivity|].
  destruct (r_limits rep) as [m|] eqn:M; try discriminate. exists rep, tabs, m. auto.
Qed.

(** ** C96 *)
Theorem C96_dc_refuted : exists o (bus gen branch : list (list Qc)) rep bus' gen' branch',
  PF_DC o = true /\ printable bus gen branch /\
  printpf cis_s abs_re o false (zc 100) bus gen branch = Ok (Some rep, (bus', gen', branch')) /\ bus' <> bus /\ gen' <> gen /\ branch' <> branch.
Proof.
  exists (px_opt true 1), px_bus, px_gen, px_branch.
  assert (match printpf cis_s abs_re (px_opt true 1) false (zc 100) px_bus px_gen px_branch with
    | Ok (Some _, (b, g, l)) => negb (qc_eqb (cell (nth 1 b []) QD) (cell (nth 1 px_bus []) QD)) && negb (qc_eqb (cell (nth 1 g []) QG) (cell (nth 1 px_gen []) QG))
                                && negb (qc_eqb (cell (nth 1 l []) BR_R) (cell (nth 1 px_branch []) BR_R)) | _ => false end = true) as C by (vm_compute; reflexivity).
  destruct (printpf cis_s abs_re (px_opt true 1) false (zc 100) px_bus px_gen px_branch) as [[[rep|] [[b g] l]]|]; try discriminate.
  exists rep, b, g, l. split; [reflexivity|]. split; [exact px_printable|]. split; [reflexivity|].
  apply andb_prop in C as (C & C3). apply andb_prop in C as (C1 & C2). apply negb_true_iff in C1, C2, C3.
  repeat split; intros ->; rewrite (proj2 (qc_eqb_eq _ _) eq_refl) in *; discriminate.
Qed.
Example C96_example : match printpf cis_s abs_re (px_opt true 1) false (zc 100) px_bus px_gen px_branch with
    | Ok (Some _, (b, g, _)) => Some (map this (firstn 5 (nth 0 g [])), map this (firstn 6 (nth 1 b []))) | _ => None end
  = Some ([10; 130; 0; 0; 0], [20; 1; 216; 0; 0; 0])%Q.
Proof. vm_compute. reflexivity. Qed.

(** ** C97: an isolated bus (type 4) with a load of 7 MW and an old voltage; the branch to it has status 1 and flows
    of zero, as the power flow leaves them *)
Definition iso_bus : list (list Qc) := px_bus ++ [zs [40; 4; 7; 0; 0; 0; 1]%Z ++ [qc 11 10] ++ zs [0; 230; 1]%Z ++ [qc 11 10; qc 9 10] ++ zs [0; 0; 0; 0]%Z].
Definition iso_branch : list (list Qc) :=
  px_branch ++ [zs [10; 40]%Z ++ [qc 3 100; qc 4 100; zc 0] ++ zs [120; 0; 0; 0; 0; 1; -360; 360]%Z ++ zs [0; 0; 0; 0]%Z ++ zs [0; 0]%Z].
Definition isolated (b : list Qc) : bool := qc_eqb (cell b BUS_TYPE) (zc 4).
Definition touches (bus : list (list Qc)) (l : list Qc) : bool := isolated (the_bus bus F_BUS l) || isolated (the_bus bus T_BUS l).
Theorem C97_isolated_refuted : exists o (bus gen branch : list (list Qc)) rep tabs s,
  PF_DC o = false /\ printable bus gen branch /\
  (forall l, In l branch -> if touches bus l then cell l PF = zc 0 /\ cell l QF = zc 0 /\ cell l PT = zc 0 /\ cell l QT = zc 0 else flow_of cis_s (zc 100) bus l) /\
  (forall b, In b bus -> isolated b = false -> surplus_p gen branch b = zc 0 /\ surplus_q gen branch b = zc 0) /\
  printpf cis_s abs_re o false (zc 100) bus gen branch = Ok (Some rep, tabs) /\ r_sys rep = Some s /\
  (p_part (y_actual s) - p_part (y_load s) + p_part (y_shunt s) - p_part (y_loss s))%K = (- zc 7 - zc 12)%K.
Proof.
  destruct (ran (fun rep => match r_sys rep with
      Some s => qc_eqb (p_part (y_actual s) - p_part (y_load s) + p_part (y_shunt s) - p_part (y_loss s))%K (- zc 7 - zc 12)%K | _ => false end)
    (printpf cis_s abs_re (px_opt false 1) false (zc 100) iso_bus px_gen iso_branch)) as (rep & tabs & E & P); [vm_compute; reflexivity|].
  destruct (r_sys rep) as [s|] eqn:S; try discriminate.
  exists (px_opt false 1), iso_bus, px_gen, iso_branch, rep, tabs, s. split; [reflexivity|].
  assert (printable iso_bus px_gen iso_branch) as OK by (apply print_test_ok; vm_compute; reflexivity). split; [exact OK|].
  split.
  { assert (forallb (fun l => if touches iso_bus l then qc_eqb (cell l PF) (zc 0) && (qc_eqb (cell l QF) (zc 0) && (qc_eqb (cell l PT) (zc 0) && qc_eqb (cell l QT) (zc 0)))
       else flow_test cis_s (zc 100) iso_bus l) iso_branch = true) as T by (vm_compute; reflexivity).
    intros l I. rewrite forallb_forall in T. specialize (T l I). destruct (touches iso_bus l).
    - apply andb_prop in T as (T1 & T). apply andb_prop in T as (T2 & T). apply andb_prop in T as (T3 & T4). apply qc_eqb_eq in T1, T2, T3, T4. auto.
    - apply flow_test_ok; [exact (pr_once _ _ _ OK)|exact T]. }
  split.
  { assert (forallb (fun b => isolated b || zero_surplus px_gen iso_branch b) iso_bus = true) as T by (vm_compute; reflexivity).
    intros b I N. rewrite forallb_forall in T. specialize (T b I). rewrite N in T. cbn [orb] in T. apply andb_prop in T as (H1 & H2). apply feqb_ok in H1, H2. auto. }
  split; [exact E|]. split; [exact S|]. apply qc_eqb_eq in P. exact P.
Qed.
Example C97_example : map (fun l => shown (PQ (re (heat cis_s (zc 100) iso_bus l)) (im (heat cis_s (zc 100) iso_bus l)))) iso_branch
  = [(12, 16); (12, 16); (0, 0); (12, 16)]%Q.
Proof. vm_compute. reflexivity. Qed.

Print Assumptions C88_rows.
Print Assumptions C88_losses.
Print Assumptions C89_sums.
Print Assumptions C89_balance.
Print Assumptions C90_balance.
Print Assumptions C91_balance_partial.
Print Assumptions C91_reactive_refuted.
Print Assumptions C92_totals_partial.
Print Assumptions C92_exports_partial.
Print Assumptions C92_lost_partial.
Print Assumptions C92_area_refuted.
Print Assumptions C93_settings.
Print Assumptions C93_active.
Print Assumptions C93_reactive.
Print Assumptions C93_flows.
Print Assumptions C94_all_partial.
Print Assumptions C94_never_partial.
Print Assumptions C94_voltage_refuted.
Print Assumptions C95_loads_partial.
Print Assumptions C95_load_refuted.
Print Assumptions C96_ac_partial.
Print Assumptions C96_dc_partial.
Print Assumptions C96_dc_refuted.
Print Assumptions C97_cleared_partial.
Print Assumptions C97_isolated_refuted.
Print Assumptions C98_generators.
Print Assumptions C98_loads.
Print Assumptions C98_buses.
