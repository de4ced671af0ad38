(** C21: the convergence flag of the AC power flow methods; C22: pfsoln; C49: the reported results
    of a converged AC power flow balance at every bus; C50: voltage set-points are honoured. *)
From Coq Require Import Permutation Reals Lra.
From Verif Require Import Lib.ListFacts Lib.QcFacts Model.AcPf Spec.PfSpec Spec.AcSpec
  Proofs.LinAlgFacts Proofs.SparseFacts Proofs.FldFacts Proofs.NetworkA Proofs.NetworkB
  Proofs.NetworkC Proofs.NetworkD Proofs.NetworkE Proofs.YbusA Proofs.MatFacts Proofs.AcPfA
  Proofs.AcPfB Proofs.PfsolnA Proofs.PfsolnB Proofs.PfsolnC Proofs.AcPfC Props.P_Network
  Props.P_Ybus.
Local Open Scope nat_scope.

Section Theorems.
Context {K : Type} {F : Fld K}.
Variables (cis : K -> cpx K) (cabs cang : cpx K -> K).
Add Field KF : (@f_ok K F).
Add Ring CR : (@r_ok (cpx K) _).

(** ** C21 *)

(** Newton: the flag says exactly that the returned voltages solve the equations to within the
    tolerance, whatever the linear solver does; voltages off the PV and PQ lists, and magnitudes off
    the PQ list, are as given *)
Theorem C21_newton solve n Y S V0 pv pq tol max_it V c m :
  square n Y -> newtonpf cis cabs cang solve Y S V0 pv pq tol max_it = Ok (V, c, m) ->
  length V = n /\ m <= max_it /\ (c = false -> m = max_it) /\
  (c = true <-> solved_by (fun _ => tol) Y S V pv pq) /\
  (polar_ok cis cabs cang -> forall i, i < n ->
   (~ In i (pv ++ pq) -> nth i V 0%K = nth i V0 0%K) /\
   (~ In i pq -> cabs (nth i V 0%K) = cabs (nth i V0 0%K))).
Proof. intros SQ H. apply (newtonpf_ok _ _ _ _ _ _ _ _ _ _ SQ) in H. tauto. Qed.

(** Gauss-Seidel: the same, relative to the injections given on entry *)
Theorem C21_gauss n Y S V0 pv pq tol max_it V c m :
  square n Y -> NoDup (pv ++ pq) -> gausspf cabs Y S V0 pv pq tol max_it = Ok (V, c, m) ->
  length V = n /\ m <= max_it /\ (c = false -> m = max_it) /\
  (c = true <-> solved_by (fun _ => tol) Y S V pv pq) /\
  (forall i, ~ In i (pv ++ pq) -> nth i V 0%K = nth i V0 0%K) /\
  (polar_ok cis cabs cang -> forall i, ~ In i pq -> cabs (nth i V 0%K) = cabs (nth i V0 0%K)).
Proof. intros SQ ND H. apply (gausspf_ok cis cabs cang _ _ _ _ _ _ _ SQ ND) in H. tauto. Qed.

(** fast decoupled: the mismatch is measured per unit of voltage magnitude *)
Theorem C21_fast splu n Y S V0 Bp Bpp pv pq tol max_it V c m :
  square n Y -> polar_ok cis cabs cang ->
  fdpf cis cabs cang splu Y S V0 Bp Bpp pv pq tol max_it = Ok (V, c, m) ->
  length V = n /\ m <= max_it /\ (c = false -> m = max_it) /\
  (c = true <-> solved_by (fun i => tol * cabs (nth i V 0))%K Y S V pv pq) /\
  forall i, i < n ->
   (~ In i (pv ++ pq) -> nth i V 0%K = nth i V0 0%K) /\
   (~ In i pq -> cabs (nth i V 0%K) = cabs (nth i V0 0%K)).
Proof. intros SQ PO H. apply (fdpf_ok _ _ _ _ _ _ _ _ _ SQ PO) in H. tauto. Qed.

(** with nothing to solve for, Newton and Gauss-Seidel cannot report anything: they raise *)
Theorem C21_no_unknowns solve Y S V0 tol max_it r :
  newtonpf cis cabs cang solve Y S V0 [] [] tol max_it = r \/ gausspf cabs Y S V0 [] [] tol max_it = r ->
  exists e, r = Err e.
Proof.
  unfold newtonpf, gausspf. destruct (mismatch Y S V0) as [mis|e] eqn:E.
  - intros [<-|<-]; [|destruct max_it; cbn [gauss_loop]; rewrite E]; cbn; eauto.
    destruct max_it; cbn; eauto.
  - intros [<-|<-]; [|destruct max_it; cbn [gauss_loop]; rewrite E]; cbn; eauto.
Qed.

(** ** C22 *)
Section Pfsoln.
Variables (baseMVA : K) (bus gen branch : list (list K)) (Y Yf Yt : smat (cpx K)).
Variables (V : list (cpx K)) (ref : list nat) (bus' gen' branch' : list (list K)).
Hypothesis run : pfsoln cabs cang baseMVA bus gen branch Y Yf Yt V ref = Ok (bus', gen', branch').
Hypothesis fitY : square (length bus) Y.
Hypothesis fitF : fits (length branch) (length bus) Yf.
Hypothesis fitT : fits (length branch) (length bus) Yt.
Hypothesis once : NoDup ref.

(** bus table: voltage columns only *)
Theorem C22_buses :
  length bus' = length bus /\ length V = length bus /\
  forall i b, nth_error bus i = Some b -> exists b', nth_error bus' i = Some b' /\
    length b' = length b /\ cell b' VM = cabs (nth i V 0%K) /\
    cell b' VA = (cang (nth i V 0%K) * fofZ 180 / fpi)%K /\
    forall j, j <> VM -> j <> VA -> cell b' j = cell b j.
Proof.
  destruct (pfsoln_ok _ _ _ _ _ _ _ _ _ _ _ _ _ _ run fitY fitF fitT once) as (LV & LB & B & _).
  split; auto. split; auto. intros i b Hb. destruct (B _ _ Hb) as (W1 & W2 & E).
  eexists. split; [exact E|]. split; [rewrite !upd_length; auto|]. split.
  { rewrite upd_cell_other by (unfold VM, VA; lia). apply nth_upd_same; auto. }
  split. { apply nth_upd_same. rewrite upd_length; auto. }
  intros j N1 N2. rewrite !upd_cell_other; auto.
Qed.

(** at every bus with an in-service generator the reactive outputs add up to what the bus needs,
    except for the tiny amount by which the code enlarges the range it divides by *)
Theorem C22_reactive i : has_gen gen i ->
  let need := required_q baseMVA Y V bus i in
  let lo := gen_total (fun g => cell g QMIN) gen i in
  let hi := gen_total (fun g => cell g QMAX) gen i in
  gen_total (fun g => cell g QG) gen' i
  = if (gens_on gen <=? 1) || feqb lo hi then need
    else (need - (need - lo) * EPS / (hi - lo + EPS))%K.
Proof.
  intros HG. destruct (pfsoln_ok _ _ _ _ _ _ _ _ _ _ _ _ _ _ run fitY fitF fitT once)
    as (_ & _ & _ & _ & LG & (q & gen3 & QS & GU & EC & R & _) & _).
  cbv zeta. rewrite <- (gens_total_q _ _ _ _ _ _ _ _ QS GU HG).
  apply gen_total_rows.
  { destruct GU as (L3 & _). congruence. }
  intros k g Hk. destruct (R _ _ Hk) as (g' & Hg' & D). exists g'. split; auto. split.
  - apply (f_equal (fun l => nth_error l k)) in EC. rewrite !nth_error_map, Hg', Hk in EC.
    injection EC as E1 E2. unfold conn. congruence.
  - intros _. destruct D as [->|(r & v & _ & _ & _ & ->)]; auto.
    apply upd_cell_other. unfold PG, QG; lia.
Qed.

(** the shares: equal when the limits leave no range, otherwise the same fraction of each range *)
Theorem C22_shares k g : nth_error gen k = Some g -> in_service g = true -> 1 < gens_on gen ->
  let b := bus_no g GEN_BUS in
  let need := required_q baseMVA Y V bus b in
  let lo := gen_total (fun g => cell g QMIN) gen b in
  let hi := gen_total (fun g => cell g QMAX) gen b in
  exists g', nth_error gen' k = Some g' /\
  cell g' QG = if feqb lo hi then (need / fofZ (Z.of_nat (gens_at gen b)))%K
    else (cell g QMIN + (need - lo) / (hi - lo + EPS) * (cell g QMAX - cell g QMIN))%K.
Proof.
  intros Hk S ON b need lo hi. destruct (pfsoln_ok _ _ _ _ _ _ _ _ _ _ _ _ _ _ run fitY fitF fitT once)
    as (_ & _ & _ & _ & LG & (q & gen3 & (Lq & QS) & (L3 & GU) & EC & R & _) & _).
  destruct QS as [(ON' & _)|(_ & QS)]; [lia|].
  destruct (onl_pos _ _ _ Hk S) as (p & Hp & Hgp). destruct (GU _ _ Hk) as (W & _ & U).
  destruct (R _ _ (U _ Hp)) as (g' & Hg' & D). exists g'. split; auto.
  assert (p < length (gbs gen)) as Lp.
  { unfold gbs. rewrite map_length. eapply nth_error_some_lt; eauto. }
  destruct (QS p Lp) as (_ & _ & Q). cbv zeta in Q. unfold gbs in Q.
  rewrite (nth_map_lt _ _ _ _ []) in Q by (unfold gbs in Lp; rewrite map_length in Lp; auto).
  rewrite (nth_error_nth _ _ _ Hgp) in Q. fold b in Q. fold lo hi need in Q. rewrite <- Q.
  destruct D as [->|(r & v & _ & _ & _ & ->)]; [|rewrite upd_cell_other by (unfold PG, QG; lia)];
    apply nth_upd_same; auto.
Qed.

(** at every reference bus the active outputs add up to what the bus needs *)
Theorem C22_active r : In r ref ->
  gen_total (fun g => cell g PG) gen' r = required_p baseMVA Y V bus r.
Proof.
  destruct (pfsoln_ok _ _ _ _ _ _ _ _ _ _ _ _ _ _ run fitY fitF fitT once)
    as (_ & _ & _ & _ & LG & (q & gen3 & QS & GU & EC & R & P & _) & _). apply P.
Qed.

(** generator table: only QG changes (to zero when out of service), and PG of the first in-service
    generator at each reference bus *)
Theorem C22_generators :
  length gen' = length gen /\
  forall k g, nth_error gen k = Some g -> exists g', nth_error gen' k = Some g' /\
    length g' = length g /\
    (in_service g = false -> cell g' QG = 0%K) /\
    (forall j, j <> QG -> j <> PG -> cell g' j = cell g j) /\
    (cell g' PG = cell g PG \/ exists r, In r ref /\ first_at gen r k).
Proof.
  destruct (pfsoln_ok _ _ _ _ _ _ _ _ _ _ _ _ _ _ run fitY fitF fitT once)
    as (_ & _ & _ & _ & LG & (q & gen3 & QS & GU & EC & R & _) & _).
  pose proof (gen_upd_conn _ _ _ GU) as EC3. destruct GU as (L3 & GU).
  split; auto. intros k g Hk. destruct (GU _ _ Hk) as (W & OFF & ON).
  assert (exists v, nth_error gen3 k = Some (upd g QG v) /\ (in_service g = false -> v = 0%K)) as (v & Hv & V0).
  { destruct (in_service g) eqn:S; [|eauto]. destruct (onl_pos _ _ _ Hk S) as (p & Hp & _).
    exists (nth p q 0%K). split; auto. discriminate. }
  destruct (R _ _ Hv) as (g' & Hg' & D). exists g'. split; auto.
  destruct D as [->|(r & x & Ir & FA & Wp & ->)].
  - split; [apply upd_length|]. split. { intros S. rewrite <- (V0 S). apply nth_upd_same; auto. }
    split. { intros j N1 N2. apply upd_cell_other; auto. }
    left. apply upd_cell_other. unfold PG, QG; lia.
  - split; [rewrite !upd_length; auto|]. split.
    { intros S. rewrite upd_cell_other by (unfold PG, QG; lia). rewrite <- (V0 S). apply nth_upd_same; auto. }
    split. { intros j N1 N2. rewrite !upd_cell_other; auto. }
    right. exists r. split; auto. apply (first_at_conn _ _ _ _ EC3). auto.
Qed.

(** branch table: out-of-service rows are zeroed, the others get the complex power entering at each
    end; nothing else changes *)
Theorem C22_branches :
  length branch' = length branch /\
  forall l r, nth_error branch l = Some r -> exists r', nth_error branch' l = Some r' /\
    length r' = length r /\
    (forall j, j <> PF -> j <> QF -> j <> PT -> j <> QT -> cell r' j = cell r j) /\
    (cell r BR_STATUS = 0%K ->
       cell r' PF = 0%K /\ cell r' QF = 0%K /\ cell r' PT = 0%K /\ cell r' QT = 0%K) /\
    (cell r BR_STATUS <> 0%K ->
       Cx (cell r' PF) (cell r' QF) = branch_power baseMVA Yf V (bus_no r F_BUS) l /\
       Cx (cell r' PT) (cell r' QT) = branch_power baseMVA Yt V (bus_no r T_BUS) l).
Proof.
  destruct (pfsoln_ok _ _ _ _ _ _ _ _ _ _ _ _ _ _ run fitY fitF fitT once)
    as (_ & _ & _ & _ & _ & _ & LB & B).
  split; auto. intros l r Hr. destruct (B _ _ Hr) as (W & E).
  destruct (feqb (cell r BR_STATUS) 0%K) eqn:S.
  - apply feqb_ok in S. eexists. split; [exact E|].
    destruct (upd4_cells r 0%K 0%K 0%K 0%K W) as (-> & -> & -> & -> & L & O).
    split; auto. split; auto. split; auto. intros; contradiction.
  - eexists. split; [exact E|]. cbv zeta.
    match goal with |- context [upd4 r ?a ?b ?c ?d] =>
      destruct (upd4_cells r a b c d W) as (-> & -> & -> & -> & L & O) end.
    split; auto. split; auto. split.
    + intros C. apply feqb_ok in C. congruence.
    + intros _. split; apply cpx_eq; reflexivity.
Qed.
End Pfsoln.

(** ** C49 and C50 *)
Section Run.
Variables (solve : list (list K) -> list K -> result (list K))
          (splu : list (list K) -> result (list K -> result (list K))).
Variables (alg : pf_alg) (tol : K) (max_it : nat) (baseMVA : K).
Variables (bus gen branch bus' gen' branch' : list (list K)) (c : bool).
Hypothesis run : runpf_ac cis cabs cang solve splu alg tol max_it baseMVA bus gen branch
  = Ok (bus', gen', branch', c).
Hypothesis polar : polar_ok cis cabs cang.
Hypothesis types : types_ok bus.

(** what the reported tables say about bus [i]: power generated less load, shunt and branch flows *)
Definition surplus_p i (b : list K) : K :=
  (gen_total (fun g => cell g PG) gen' i - cell b PD - cell b GS * (cell b VM * cell b VM)
   - drawn (fun r => cell r PF) (fun r => cell r PT) branch' i)%K.
Definition surplus_q i (b : list K) : K :=
  (gen_total (fun g => cell g QG) gen' i - cell b QD + cell b BS * (cell b VM * cell b VM)
   - drawn (fun r => cell r QF) (fun r => cell r QT) branch' i)%K.
(** the fast decoupled methods measure the mismatch per unit of voltage *)
Definition run_tol (b : list K) : K :=
  match alg with FDXB | FDBX => (tol * cell b VM)%K | _ => tol end.

Lemma fabs_opp (a : K) : fabs (- a)%K = fabs a.
Proof.
  unfold fabs. destruct (fltb (- a)%K 0%K) eqn:A; destruct (fltb a 0%K) eqn:B; try ring.
  - exfalso. pose proof (f_lt_add (- a)%K 0%K a A) as C.
    replace (- a + a)%K with (0%K : K) in C by ring. replace (0 + a)%K with a in C by ring.
    pose proof (f_lt_irrefl (0%K : K)). pose proof (f_lt_trans _ _ _ C B). congruence.
  - assert (a = 0%K) as ->; [|ring]. destruct (f_lt_total a 0%K) as [C|[C|C]]; auto; [congruence|].
    pose proof (f_lt_add 0%K a (- a)%K C) as D.
    replace (a + - a)%K with (0%K : K) in D by ring. replace (0 + - a)%K with (- a)%K in D by ring.
    congruence.
Qed.

Lemma within_scaled t a : fltb 0%K baseMVA = true -> within t a -> within (t * baseMVA)%K (- a * baseMVA)%K.
Proof.
  intros P W. unfold within in *. rewrite fabs_mul, fabs_opp.
  assert (fabs baseMVA = baseMVA) as ->.
  { unfold fabs. destruct (fltb baseMVA 0%K) eqn:E; auto.
    pose proof (f_lt_irrefl (0%K : K)).
    assert (fltb (0%K : K) 0%K = true) by (eapply f_lt_trans; eauto). congruence. }
  rewrite flt_mul_pos; auto.
Qed.

Lemma reported i b : nth_error bus' i = Some b -> modulus cabs ->
  exists ref pv pq Y Yf Yt S V, bustypes bus gen = Ok (ref, pv, pq) /\
    ybus_spec cis baseMVA bus branch Y Yf Yt /\ makeSbus baseMVA bus gen = Ok S /\
    (c = true <-> solved_by (pf_tol alg cabs tol V) Y S V pv pq) /\
    pfsoln cabs cang baseMVA bus gen branch Y Yf Yt V ref = Ok (bus', gen', branch') /\
    Permutation (ref ++ pv ++ pq) (seq 0 (length bus)) /\ i < length bus /\
    pf_tol alg cabs tol V i = run_tol b /\
    surplus_p i b = (gen_total (fun g => cell g PG) gen' i - required_p baseMVA Y V bus i)%K /\
    surplus_q i b = (gen_total (fun g => cell g QG) gen' i - required_q baseMVA Y V bus i)%K.
Proof.
  intros Hb MO. destruct (runpf_ac_ok _ _ _ _ _ _ _ _ _ _ _ _ _ _ _ _ run polar types)
    as (ref & pv & pq & V0 & Y & Yf & Yt & S & V & HB & _ & YS & HS & C & _ & _ & HP).
  pose proof (bustypes_partition _ _ _ _ _ HB types) as PE.
  exists ref, pv, pq, Y, Yf, Yt, S, V. split; auto. split; auto. split; auto. split; auto.
  split; auto. split; auto.
  assert (square (length bus) Y) as SQ by (apply wf_fits; destruct YS; auto).
  assert (fits (length branch) (length bus) Yf) as SF by (apply wf_fits; destruct YS; auto).
  assert (fits (length branch) (length bus) Yt) as ST by (apply wf_fits; destruct YS; auto).
  assert (NoDup ref) as NR.
  { apply (NoDup_app_l _ (pv ++ pq)). eapply Permutation_NoDup; [apply Permutation_sym; exact PE|apply seq_NoDup]. }
  destruct (pfsoln_ok _ _ _ _ _ _ _ _ _ _ _ _ _ _ HP SQ SF ST NR)
    as (_ & LB & _ & _ & _ & _ & LBR & BR).
  destruct (C22_buses _ _ _ _ _ _ _ _ _ _ _ _ HP SQ SF ST NR) as (_ & _ & BU).
  assert (i < length bus) as Li by (rewrite <- LB; eapply nth_error_some_lt; eauto).
  destruct (nth_error_lt bus i Li) as (b0 & Hb0). destruct (BU _ _ Hb0) as (b' & Hb' & _ & EM & _ & EO).
  rewrite Hb in Hb'. injection Hb' as <-. split; auto.
  split. { unfold pf_tol, run_tol. rewrite EM. reflexivity. }
  destruct (reported_drawn _ _ _ _ _ _ _ _ _ i YS LBR BR) as (DP & DQ).
  unfold surplus_p, surplus_q. rewrite DP, DQ, (cdrawn_ok _ _ _ _ _ _ _ _ _ YS Li).
  assert (baseMVA <> 0%K) as NB.
  { destruct YS as [_ _ _ _ _ NB _ _ _ _ _ _]. apply NB. intros E. rewrite E in Li. simpl in Li. lia. }
  rewrite EM, MO. rewrite !EO by (unfold VM, VA, PD, QD, GS, BS; lia).
  unfold required_p, required_q. rewrite (nth_error_nth _ _ _ Hb0).
  set (v := nth i V 0%K). set (sp := bus_power Y V i). unfold nrm2, shunt.
  split; cbn; field; auto.
Qed.

(** after a converged run, active power balances at every bus to within the tolerance (times the MVA
    base), and exactly at the reference buses *)
Theorem C49_active_balance i b : c = true -> fltb 0%K baseMVA = true -> modulus cabs ->
  nth_error bus' i = Some b ->
  (forall ref pv pq, bustypes bus gen = Ok (ref, pv, pq) -> In i ref -> surplus_p i b = 0%K) /\
  (surplus_p i b = 0%K \/ within (run_tol b * baseMVA)%K (surplus_p i b)).
Proof.
  intros C P MO Hb. destruct (reported i b Hb MO)
    as (ref & pv & pq & Y & Yf & Yt & S & V & HB & YS & HS & FL & HP & PE & Li & ET & EP & _).
  assert (square (length bus) Y) as SQ by (apply wf_fits; destruct YS; auto).
  assert (fits (length branch) (length bus) Yf) as SF by (apply wf_fits; destruct YS; auto).
  assert (fits (length branch) (length bus) Yt) as ST by (apply wf_fits; destruct YS; auto).
  assert (NoDup (ref ++ pv ++ pq)) as ND.
  { eapply Permutation_NoDup; [apply Permutation_sym; exact PE|apply seq_NoDup]. }
  assert (In i ref -> surplus_p i b = 0%K) as A.
  { intros I. rewrite EP, (C22_active _ _ _ _ _ _ _ _ _ _ _ _ HP SQ SF ST (NoDup_app_l _ _ ND) i I). ring. }
  split. { intros ref' pv' pq' HB' I. rewrite HB in HB'. injection HB' as <- <- <-. auto. }
  assert (In i (ref ++ pv ++ pq)) as I.
  { apply (Permutation_in i (Permutation_sym PE)). apply in_seq. lia. }
  apply in_app_or in I as [I|I]; [auto|]. right.
  apply FL in C as (C & _). specialize (C i I). rewrite ET in C.
  replace (surplus_p i b) with (- re (excess Y S V i) * baseMVA)%K; [apply within_scaled; auto|].
  rewrite EP. destruct (pfsoln_ok _ _ _ _ _ _ _ _ _ _ _ _ _ _ HP SQ SF ST (NoDup_app_l _ _ ND))
    as (_ & _ & _ & _ & LG & (q & gen3 & QS & GU & EC & R & _ & O) & _).
  rewrite O.
  2: { intros I'. clear - ND I I'. induction ref as [|a ref IH]; [contradiction|].
       inversion ND; subst. destruct I' as [->|I']; [|auto]. apply H1. apply in_or_app. auto. }
  assert (gen_total (fun x => cell x PG) gen3 i = gen_total (fun x => cell x PG) gen i) as ->.
  { apply gen_total_rows; [apply GU|]. intros k g Hk. destruct GU as (_ & GU).
    destruct (GU _ _ Hk) as (W & OFF & ON).
    assert (exists v, nth_error gen3 k = Some (upd g QG v)) as (v & Hv).
    { destruct (in_service g) eqn:SV; [|eauto]. destruct (onl_pos _ _ _ Hk SV) as (p & Hp & _). eauto. }
    exists (upd g QG v). split; auto. split.
    - apply conn_upd; unfold QG, GEN_STATUS, GEN_BUS; lia.
    - intros _. apply upd_cell_other. unfold PG, QG; lia. }
  apply makeSbus_ok in HS as (NB & _ & _ & ES). unfold excess, required_p. rewrite ES.
  rewrite (nth_map_lt _ _ _ _ 0) by (rewrite seq_length; auto). rewrite seq_nth by auto. cbn [Nat.add].
  set (sp := bus_power Y V i). cbn. field. auto.
Qed.

(** reactive power: exact (up to the code's enlarged range) where generators are in service, within
    tolerance elsewhere *)
Theorem C49_reactive_balance i b : c = true -> fltb 0%K baseMVA = true -> modulus cabs ->
  nth_error bus' i = Some b ->
  (has_gen gen i ->
   let lo := gen_total (fun g => cell g QMIN) gen i in
   let hi := gen_total (fun g => cell g QMAX) gen i in
   surplus_q i b = 0%K \/
   exists need, surplus_q i b = (- ((need - lo) * EPS / (hi - lo + EPS)))%K /\
                gen_total (fun g => cell g QG) gen' i = (need + surplus_q i b)%K) /\
  (~ has_gen gen i -> within (run_tol b * baseMVA)%K (surplus_q i b)).
Proof.
  intros C P MO Hb. destruct (reported i b Hb MO)
    as (ref & pv & pq & Y & Yf & Yt & S & V & HB & YS & HS & FL & HP & PE & Li & ET & _ & EQ).
  assert (square (length bus) Y) as SQ by (apply wf_fits; destruct YS; auto).
  assert (fits (length branch) (length bus) Yf) as SF by (apply wf_fits; destruct YS; auto).
  assert (fits (length branch) (length bus) Yt) as ST by (apply wf_fits; destruct YS; auto).
  assert (NoDup (ref ++ pv ++ pq)) as ND.
  { eapply Permutation_NoDup; [apply Permutation_sym; exact PE|apply seq_NoDup]. }
  split.
  - intros HG lo hi.
    pose proof (C22_reactive _ _ _ _ _ _ _ _ _ _ _ _ HP SQ SF ST (NoDup_app_l _ _ ND) i HG) as E.
    cbv zeta in E. fold lo hi in E. destruct (_ || _) in E.
    + left. rewrite EQ, E. ring.
    + right. exists (required_q baseMVA Y V bus i). split.
      * rewrite EQ, E. ring.
      * rewrite EQ. ring.
  - intros NG. destruct (C15_no_generator _ _ _ _ _ i HB Li NG) as (IP & _ & _).
    apply FL in C as (_ & C). specialize (C i IP). rewrite ET in C.
    replace (surplus_q i b) with (- im (excess Y S V i) * baseMVA)%K; [apply within_scaled; auto|].
    assert (forall g, gen_total (fun x => cell x QG) g i = 0%K \/ has_gen g i) as GZ.
    { clear. intros g. unfold has_gen, gen_total. induction g as [|a g IH]; [left; reflexivity|].
      cbn [lsum]. destruct (in_service a && (bus_no a GEN_BUS =? i)) eqn:E.
      - right. apply andb_true_iff in E as (E1 & E2). apply Nat.eqb_eq in E2. exists a. simpl; auto.
      - destruct IH as [->|(h & I & X)]; [left; ring|right; exists h; simpl; tauto]. }
    assert (has_gen gen' i -> has_gen gen i) as HH.
    { intros (h & I & SV & Bh). apply In_nth_error in I as (k & Hk).
      destruct (C22_generators _ _ _ _ _ _ _ _ _ _ _ _ HP SQ SF ST (NoDup_app_l _ _ ND)) as (LG & R).
      destruct (nth_error_lt gen k) as (g & Hg). { rewrite <- LG. eapply nth_error_some_lt; eauto. }
      destruct (R _ _ Hg) as (g' & Hg' & _ & _ & O & _). rewrite Hk in Hg'. injection Hg' as <-.
      exists g. split; [eapply nth_error_In; eauto|]. unfold in_service, bus_no in *.
      rewrite <- !O by (unfold QG, PG, GEN_STATUS, GEN_BUS; lia). auto. }
    apply makeSbus_ok in HS as (NB & _ & _ & ES). rewrite EQ. unfold excess, required_q. rewrite ES.
    rewrite (nth_map_lt _ _ _ _ 0) by (rewrite seq_length; auto). rewrite seq_nth by auto. cbn [Nat.add].
    destruct (GZ gen') as [->|G']; [|tauto]. destruct (GZ gen) as [G|G]; [|contradiction].
    set (sp := bus_power Y V i). cbn. rewrite G. field. auto.
Qed.

(** ** C50: converged or not, at a PV or reference bus the reported magnitude is the set-point of the
    last in-service generator listed there *)
Theorem C50_magnitude ref pv pq i :
  bustypes bus gen = Ok (ref, pv, pq) -> In i (ref ++ pv) ->
  exists k g b, last_at gen i k g /\ nth_error bus' i = Some b /\ cell b VM = fabs (cell g VG).
Proof.
  intros HB0 I. destruct (runpf_ac_ok _ _ _ _ _ _ _ _ _ _ _ _ _ _ _ _ run polar types)
    as (ref' & pv' & pq' & V0 & Y & Yf & Yt & S & V & HB & HV & YS & HS & C & _ & FR & HP).
  rewrite HB0 in HB. injection HB as <- <- <-.
  pose proof (bustypes_partition _ _ _ _ _ HB0 types) as PE.
  assert (NoDup (ref ++ pv ++ pq)) as ND.
  { eapply Permutation_NoDup; [apply Permutation_sym; exact PE|apply seq_NoDup]. }
  assert (i < length bus) as Li.
  { assert (In i (seq 0 (length bus))) as J.
    { apply (Permutation_in i PE). rewrite app_assoc. apply in_or_app. auto. }
    apply in_seq in J. lia. }
  assert (~ In i pq) as NQ.
  { intros J. rewrite app_assoc in ND. clear - ND I J. induction (ref ++ pv) as [|a l IH]; [contradiction|].
    inversion ND; subst. destruct I as [->|I]; [|auto]. apply H1. apply in_or_app. auto. }
  assert (has_gen gen i) as HG.
  { apply in_app_or in I. destruct I; eapply bustypes_gen; eauto. }
  destruct (nth_error_lt bus i Li) as (b0 & Hb0).
  destruct (start_voltage_ok _ _ _ _ _ _ HV) as (L0 & SV).
  destruct (SV _ _ Hb0) as (_ & B). destruct (B NQ HG) as (k & g & LA & NZ & E0).
  assert (square (length bus) Y) as SQ by (apply wf_fits; destruct YS; auto).
  assert (fits (length branch) (length bus) Yf) as SF by (apply wf_fits; destruct YS; auto).
  assert (fits (length branch) (length bus) Yt) as ST by (apply wf_fits; destruct YS; auto).
  destruct (C22_buses _ _ _ _ _ _ _ _ _ _ _ _ HP SQ SF ST (NoDup_app_l _ _ ND)) as (_ & _ & BU).
  destruct (BU _ _ Hb0) as (b' & Hb' & _ & EM & _). exists k, g, b'. split; auto. split; auto.
  rewrite EM, (FR _ Li NQ), E0. set (z := start_at cis b0) in *. destruct polar as (P1 & P2).
  rewrite <- (P2 z) at 2. set (m := cabs z) in *.
  replace (ofK (cell g VG / m) * (ofK m * cis (cang z)))%K with (ofK (cell g VG) * cis (cang z))%K; [apply P1|].
  transitivity ((ofK (cell g VG / m) * ofK m) * cis (cang z))%K; [|ring]. f_equal.
  apply cpx_eq; cbn; field; auto.
Qed.

(** ... and at a reference bus the reported voltage has the angle given in the bus table *)
Theorem C50_reference_angle ref pv pq i b :
  bustypes bus gen = Ok (ref, pv, pq) -> In i ref -> nth_error bus i = Some b ->
  fltb 0%K (cell b VM) = true ->
  exists k g b', last_at gen i k g /\ nth_error bus' i = Some b' /\
    (ofK (cell b' VM) * cis (fpi / fofZ 180 * cell b' VA))%K
    = (ofK (cell g VG) * cis (fpi / fofZ 180 * cell b VA))%K.
Proof.
  intros HB0 I Hb0 PM. destruct (runpf_ac_ok _ _ _ _ _ _ _ _ _ _ _ _ _ _ _ _ run polar types)
    as (ref' & pv' & pq' & V0 & Y & Yf & Yt & S & V & HB & HV & YS & HS & C & FR & _ & HP).
  rewrite HB0 in HB. injection HB as <- <- <-.
  pose proof (bustypes_partition _ _ _ _ _ HB0 types) as PE.
  assert (NoDup (ref ++ pv ++ pq)) as ND.
  { eapply Permutation_NoDup; [apply Permutation_sym; exact PE|apply seq_NoDup]. }
  assert (i < length bus) as Li by (eapply nth_error_some_lt; eauto).
  assert (~ In i (pv ++ pq)) as NQ.
  { intros J. clear - ND I J. induction ref as [|a l IH]; [contradiction|].
    inversion ND; subst. destruct I as [->|I]; [|auto]. apply H1. apply in_or_app. auto. }
  assert (has_gen gen i) as HG by (eapply bustypes_gen; eauto).
  destruct (start_voltage_ok _ _ _ _ _ _ HV) as (L0 & SV).
  destruct (SV _ _ Hb0) as (_ & B).
  destruct (B (fun J => NQ (in_or_app _ _ _ (or_intror J))) HG) as (k & g & LA & NZ & E0).
  assert (square (length bus) Y) as SQ by (apply wf_fits; destruct YS; auto).
  assert (fits (length branch) (length bus) Yf) as SF by (apply wf_fits; destruct YS; auto).
  assert (fits (length branch) (length bus) Yt) as ST by (apply wf_fits; destruct YS; auto).
  destruct (C22_buses _ _ _ _ _ _ _ _ _ _ _ _ HP SQ SF ST (NoDup_app_l _ _ ND)) as (_ & _ & BU).
  destruct (BU _ _ Hb0) as (b' & Hb' & _ & EM & EA & _). exists k, g, b'. split; auto. split; auto.
  rewrite EM, EA. destruct polar as (P1 & P2).
  replace (fpi / fofZ 180 * (cang (nth i V 0) * fofZ 180 / fpi))%K with (cang (nth i V 0%K)).
  2: { field. split; [apply fpi_nz|apply fofZ_nz; discriminate]. }
  rewrite P2, (FR _ Li NQ), E0. unfold start_at in *.
  assert (cabs (ofK (cell b VM) * cis (fpi / fofZ 180 * cell b VA)%K)%K = cell b VM) as EC.
  { rewrite P1. unfold fabs. destruct (fltb (cell b VM) 0%K) eqn:E; auto.
    pose proof (f_lt_irrefl (0%K : K)).
    assert (fltb (0%K : K) 0%K = true) by (eapply f_lt_trans; eauto). congruence. }
  rewrite EC in *. set (z := cis _).
  transitivity ((ofK (cell g VG / cell b VM) * ofK (cell b VM)) * z)%K; [ring|]. f_equal.
  apply cpx_eq; cbn; field; auto.
Qed.
End Run.
End Theorems.

(** ** Examples *)

(** polar coordinates over the reals *)
Definition cisR (a : R) : cpx R := Cx (cos a) (sin a).
Definition cabsR (z : cpx R) : R := sqrt (nrm2 z).
Definition cangR (z : cpx R) : R :=
  if Req_EM_T (cabsR z) 0 then 0%R
  else if Rlt_dec (im z) 0 then (- acos (re z / cabsR z))%R else acos (re z / cabsR z).

Lemma nrm2_nonneg (z : cpx R) : (0 <= nrm2 z)%R.
Proof.
  unfold nrm2. change (0 <= re z * re z + im z * im z)%R.
  pose proof (Rle_0_sqr (re z)). pose proof (Rle_0_sqr (im z)). unfold Rsqr in *. lra.
Qed.

Example modulus_R : modulus cabsR.
Proof. intros z. apply sqrt_sqrt. apply nrm2_nonneg. Qed.

Example polar_R : polar_ok cisR cabsR cangR.
Proof.
  split.
  - intros m a. unfold cabsR.
    replace (nrm2 (ofK m * cisR a)%K) with (Rsqr m).
    2: { unfold nrm2, cisR. cbn. pose proof (sin2_cos2 a) as E. unfold Rsqr in *.
         transitivity (m * m * (sin a * sin a + cos a * cos a))%R; [rewrite E; ring|ring]. }
    rewrite sqrt_Rsqr_abs. unfold fabs, Rabs. cbn. unfold r_ltb.
    destruct (Rcase_abs m), (Rlt_dec m 0); try lra; auto.
  - intros z. unfold cangR. destruct (Req_EM_T (cabsR z) 0) as [E|N].
    + rewrite E. unfold cabsR in E. apply sqrt_eq_0 in E; [|apply nrm2_nonneg].
      assert (re z = 0 /\ im z = 0)%R as (E1 & E2).
      { unfold nrm2 in E. change (re z * re z + im z * im z = 0)%R in E.
        pose proof (Rle_0_sqr (re z)). pose proof (Rle_0_sqr (im z)). unfold Rsqr in *.
        split; apply Rsqr_0_uniq; unfold Rsqr; lra. }
      apply cpx_eq; cbn; rewrite ?E1, ?E2; ring.
    + set (m := cabsR z) in *.
      assert (0 < m)%R as PM by (pose proof (sqrt_pos (nrm2 z)); unfold m, cabsR in *; lra).
      assert (re z * re z + im z * im z = m * m)%R as EM.
      { unfold m, cabsR. rewrite sqrt_sqrt by apply nrm2_nonneg. reflexivity. }
      set (x := (re z / m)%R). set (y := (im z / m)%R).
      assert (re z = m * x)%R as EX by (unfold x; field; lra).
      assert (im z = m * y)%R as EY by (unfold y; field; lra).
      assert (x * x + y * y = 1)%R as E1.
      { rewrite EX, EY in EM. apply Rmult_eq_reg_l with (m * m)%R; [lra|].
        apply Rmult_integral_contrapositive. lra. }
      assert (-1 <= x <= 1)%R as BX.
      { pose proof (Rle_0_sqr y) as S. unfold Rsqr in S.
        split; apply Rnot_lt_le; intros C; nra. }
      assert (sin (acos x) = Rabs y) as SA.
      { rewrite sin_acos by auto. replace (1 - Rsqr x)%R with (Rsqr y) by (unfold Rsqr; lra).
        apply sqrt_Rsqr_abs. }
      destruct (Rlt_dec (im z) 0) as [NI|NI].
      * assert (y < 0)%R as NY.
        { unfold y. apply Rmult_lt_reg_l with m; auto. field_simplify; lra. }
        apply cpx_eq; unfold cisR; cbn; rewrite ?cos_neg, ?sin_neg, ?cos_acos, ?SA by auto.
        -- rewrite EX. fold x. ring.
        -- rewrite EY. rewrite Rabs_left by auto. ring.
      * assert (0 <= y)%R as NY.
        { unfold y. apply Rmult_le_reg_l with m; auto. field_simplify; lra. }
        apply cpx_eq; unfold cisR; cbn; rewrite ?cos_acos, ?SA by auto.
        -- rewrite EX. fold x. ring.
        -- rewrite EY. rewrite Rabs_pos_eq by auto. ring.
Qed.

(** two buses joined by a resistance of 1/10, 100 MW at the second, two generators (one wider
    reactive range) and an idle one at the first *)
Definition pf_bus : list (list Qc) :=
  [[zc 0; zc 3; zc 0; zc 20; zc 0; zc 0; zc 1; zc 1; zc 0; zc 1; zc 1; zc 1; zc 1];
   [zc 1; zc 1; zc 100; zc 0; zc 0; zc 0; zc 1; zc 1; zc 0; zc 1; zc 1; zc 1; zc 1]].
Definition pf_gen : list (list Qc) :=
  [[zc 0; zc 0; zc 0; zc 10; zc (-10); zc 1; zc 100; zc 1; zc 500; zc 0];
   [zc 0; zc 7; zc 9; zc 5; zc (-5); zc 1; zc 100; zc 0; zc 500; zc 0];
   [zc 0; zc 30; zc 0; zc 40; zc 0; zc 1; zc 100; zc 1; zc 500; zc 0]].
Definition pf_branch : list (list Qc) :=
  [[zc 0; zc 1; qc 1 10; zc 0; zc 0; zc 0; zc 0; zc 0; zc 0; zc 0; zc 1; zc 0; zc 0; zc 0; zc 0; zc 0; zc 0];
   [zc 0; zc 1; qc 1 10; zc 0; zc 0; zc 0; zc 0; zc 0; zc 0; zc 0; zc 0; zc 0; zc 0; zc 5; zc 5; zc 5; zc 5]].
(** on positive reals the modulus is the real part and the angle zero *)
Definition pf_run alg tol := runpf_ac cis_q (fun z => re z) (fun _ => zc 0) (checked cramer2)
  (fun A => Ok (checked cramer2 A)) alg tol 10 (zc 100) pf_bus pf_gen pf_branch.

Definition pf_check (r : result (list (list Qc) * list (list Qc) * list (list Qc) * bool)) (want : bool) : bool :=
  match r with
  | Ok (b, g, br, c) =>
      Bool.eqb c want && qc_ltb (cell (nth 1 b []) VM) (zc 1)
      && qc_eqb (gen_total (fun g => cell g PG) g 0) (cell (nth 0 br []) PF)
      && qc_eqb (cell (nth 1 g []) PG) (zc 7) && qc_eqb (cell (nth 1 g []) QG) (zc 0)
      && qc_eqb (cell (nth 2 g []) PG) (zc 30)
      && qc_eqb (cell (nth 1 br []) PF) (zc 0)
      && qc_ltb (cell (nth 0 g []) QG) (cell (nth 2 g []) QG)
  | Err _ => false
  end.
Example C49_example_newton : pf_check (pf_run NR (qc 1 100)) true = true.
Proof. vm_compute. reflexivity. Qed.
Example C49_example_gauss : pf_check (pf_run AcPf.GS (qc 1 5)) true = true.
Proof. vm_compute. reflexivity. Qed.

Definition pf_newton := newtonpf cis_q (fun z => re z) (fun _ => zc 0) (checked cramer2)
  (SM 2 2 [Ent 0 0 (Cx (zc 10) (zc 0)); Ent 0 1 (Cx (zc (-10)) (zc 0));
           Ent 1 0 (Cx (zc (-10)) (zc 0)); Ent 1 1 (Cx (zc 10) (zc 0))])
  [Cx (zc 0) (zc 0); Cx (zc (-1)) (zc 0)] [Cx (zc 1) (zc 0); Cx (zc 1) (zc 0)] [] [1].
(** converges in one step at a loose tolerance, in two at a tighter one, not in one *)
Example C21_example :
  match pf_newton (qc 1 5) 10, pf_newton (qc 1 100) 10, pf_newton (qc 1 100) 1 with
  | Ok (_, true, 1), Ok (_, true, 2), Ok (_, false, 1) => true
  | _, _, _ => false
  end = true.
Proof. vm_compute. reflexivity. Qed.

Print Assumptions C21_newton.
Print Assumptions C21_gauss.
Print Assumptions C21_fast.
Print Assumptions C21_no_unknowns.
Print Assumptions C22_buses.
Print Assumptions C22_reactive.
Print Assumptions C22_shares.
Print Assumptions C22_active.
Print Assumptions C22_generators.
Print Assumptions C22_branches.
Print Assumptions C49_active_balance.
Print Assumptions C49_reactive_balance.
Print Assumptions C50_magnitude.
Print Assumptions C50_reference_angle.
