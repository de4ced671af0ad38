(** C76: the tables a continuation power flow returns. *)
From Coq Require Import Permutation.
From Verif Require Import Lib.ListFacts Lib.QcFacts Model.Cpf Spec.PfSpec Spec.AcSpec Spec.CpfSpec Proofs.LinAlgFacts
  Proofs.SparseFacts Proofs.FldFacts Proofs.NetworkA Proofs.NetworkB Proofs.NetworkC Proofs.NetworkD Proofs.NetworkE Proofs.YbusA Proofs.MatFacts
  Proofs.AcPfA Proofs.PfsolnA Proofs.PfsolnB Proofs.PfsolnC Proofs.AcPfC Proofs.NewtonA Proofs.CpfA Proofs.CpfB Proofs.CpfC
  Proofs.CpfD Props.P_Network Props.P_Ybus Props.P_AcPf Props.P_Cpf.
Local Open Scope nat_scope.

Section Tables.
Context {K : Type} {F : Fld K}.
Variables (cis : K -> cpx K) (cabs cang : cpx K -> K).
Variable norm2 : list K -> K.
Variable solve : list (list K) -> list K -> result (list K).
Add Field KF : (@f_ok K F).

(** between the base and the target value *)
Definition between (lam b t : K) : K := (b + lam * (t - b))%K.

Lemma blend_ok lam j base target t' : blend lam j base target = Ok t' ->
  length base = length target /\ length t' = length target /\ Forall (fun r => j < length r) target /\
  forall i b t, nth_error base i = Some b -> nth_error target i = Some t ->
    nth_error t' i = Some (upd t j (between lam (cell b j) (cell t j))).
Proof.
  unfold blend. intros H. apply bind_ok in H as (b & Hb & H). apply bind_ok in H as (t & Ht & H).
  apply bind_ok in H as (d & Hd & H). apply bind_ok in H as (v & Hv & H).
  apply col_ok in Hb as (_ & ->). apply col_ok in Ht as (_ & ->).
  apply ewise_ok in Hd as (L1 & ->). apply ewise_ok in Hv as (_ & ->). rewrite !map_length in L1.
  apply setcol_ok in H as (L & W & ->). split; auto.
  assert (length (map2 (fun v r => upd r j v) (map2 (fun b d => b + lam * d)%K (map (fun r => nth j r 0%K) base)
    (map2 rsub (map (fun r => nth j r 0%K) target) (map (fun r => nth j r 0%K) base))) target) = length target) as LL.
  { unfold map2. repeat (rewrite ?map_length, ?combine_length). lia. }
  split; auto. split; auto. intros i b t Hb Ht.
  assert (i < length target) as Li by (eapply nth_error_some_lt; eauto).
  rewrite (nth_error_nth' _ []) by (rewrite LL; auto). f_equal.
  rewrite nth_setcol by auto. rewrite (nth_error_nth _ _ _ Ht). f_equal.
  assert (length (map2 rsub (map (fun r => nth j r 0%K) target) (map (fun r => nth j r 0%K) base)) = length target) as L2.
  { unfold map2. rewrite map_length, combine_length, !map_length. lia. }
  rewrite (nth_map2_d _ _ _ _ 0%K 0%K) by (rewrite ?map_length, ?L2; lia).
  rewrite (nth_map2_d _ _ _ _ 0%K 0%K) by (rewrite ?map_length; lia).
  rewrite !(nth_map_lt _ _ _ _ []) by lia. rewrite (nth_error_nth _ _ _ Ht), (nth_error_nth _ _ _ Hb). reflexivity.
Qed.

Lemma gen_total_blend lam j (genb gent gen1 : list (list K)) i : j <> GEN_STATUS -> j <> GEN_BUS ->
  blend lam j genb gent = Ok gen1 -> map conn gent = map conn genb ->
  gen_total (fun g => cell g j) gen1 i
  = between lam (gen_total (fun g => cell g j) genb i) (gen_total (fun g => cell g j) gent i).
Proof.
  intros N1 N2 H EC. apply blend_ok in H as (L1 & L2 & W & R). unfold gen_total, between.
  rewrite (lsum_nth _ gen1 []), (lsum_nth _ genb []), (lsum_nth _ gent []), L2, L1.
  rewrite <- lsum_sub, <- lsum_scal, <- lsum_add. apply lsum_ext. intros k I. apply in_seq in I.
  destruct (nth_error_lt genb k) as (b & Hb); [lia|]. destruct (nth_error_lt gent k) as (t & Ht); [lia|].
  pose proof (R _ _ _ Hb Ht) as E. rewrite (nth_error_nth _ _ _ E), (nth_error_nth _ _ _ Hb), (nth_error_nth _ _ _ Ht).
  apply (f_equal (fun l => nth_error l k)) in EC. rewrite !nth_error_map, Hb, Ht in EC. injection EC as E1 E2.
  pose proof (conn_upd t j (between lam (cell b j) (cell t j)) N1 N2) as E3. injection E3 as E3 E4.
  rewrite E3, E4, E1, E2. destruct (in_service b && (bus_no b GEN_BUS =? i)); [|ring].
  replace (cell (upd t j (between lam (cell b j) (cell t j))) j) with (between lam (cell b j) (cell t j)); [unfold between; ring|].
  symmetry. apply nth_upd_same. rewrite Forall_forall in W. apply W. eapply nth_error_In; eauto.
Qed.

Lemma blend_conn lam j (genb gent gen1 : list (list K)) : j <> GEN_STATUS -> j <> GEN_BUS ->
  blend lam j genb gent = Ok gen1 -> map conn gen1 = map conn gent.
Proof.
  intros N1 N2 H. apply blend_ok in H as (L1 & L2 & W & R). apply (nth_ext _ _ (conn []) (conn [])); [rewrite !map_length; auto|].
  intros k Hk. rewrite map_length in Hk. rewrite !map_nth.
  destruct (nth_error_lt genb k) as (b & Hb); [lia|]. destruct (nth_error_lt gent k) as (t & Ht); [lia|].
  rewrite (nth_error_nth _ _ _ (R _ _ _ Hb Ht)), (nth_error_nth _ _ _ Ht). apply conn_upd; auto.
Qed.

Section Run.
Variables (fuel : nat) (o : @cpf_opt K) (baseb baset : K) (busb genb branchb bust gent brancht : list (list K)).
Variable r : @cpf_result K.
Hypothesis run : runcpf cis cabs cang norm2 solve fuel o baseb busb genb branchb baset bust gent brancht = Ok (Some r).
Hypothesis polar : polar_ok cis cabs cang.
Hypothesis types : types_ok busb.
Hypothesis same_branches : brancht = branchb.

Lemma first_at_conn (g h : list (list K)) x k : map conn g = map conn h -> first_at g x k -> first_at h x k.
Proof.
  intros E ((a & Ha & S & B) & N).
  assert (forall k' c, nth_error h k' = Some c -> exists d, nth_error g k' = Some d /\ conn d = conn c) as T.
  { intros k' c Hc. apply (f_equal (fun l => nth_error l k')) in E. rewrite !nth_error_map, Hc in E.
    destruct (nth_error g k') as [d|]; [|discriminate]. cbn in E. exists d. split; auto. congruence. }
  split.
  - pose proof (f_equal (fun l => nth_error l k) E) as E1. cbn in E1. rewrite !nth_error_map, Ha in E1.
    destruct (nth_error h k) as [c|]; [|discriminate]. exists c. cbn in E1. split; auto.
    assert (conn a = conn c) as E2 by congruence. injection E2 as E2 E3. split; congruence.
  - intros k' c L Hc SV. destruct (T _ _ Hc) as (d & Hd & E2). injection E2 as E2 E3. rewrite <- E3. apply (N k' d); auto. congruence.
Qed.

(** rows of the returned tables: loads and active outputs are interpolated, everything else is the
    target's, except for the solution columns; generators balancing a reference bus have their own output *)
Theorem C76_tables :
  length (cr_bus r) = length busb /\ length (cr_gen r) = length genb /\
  (forall i b0 t, nth_error busb i = Some b0 -> nth_error bust i = Some t ->
   exists b, nth_error (cr_bus r) i = Some b /\
     cell b PD = between (cr_lam r) (cell b0 PD) (cell t PD) /\
     cell b QD = between (cr_lam r) (cell b0 QD) (cell t QD) /\
     forall j, j <> PD -> j <> QD -> j <> VM -> j <> VA -> cell b j = cell t j) /\
  (forall k g0 t, nth_error genb k = Some g0 -> nth_error gent k = Some t ->
   exists g, nth_error (cr_gen r) k = Some g /\
     (forall j, j <> PG -> j <> QG -> cell g j = cell t j) /\
     (cell g PG = between (cr_lam r) (cell g0 PG) (cell t PG) \/
      exists ref pv pq x, bustypes busb genb = Ok (ref, pv, pq) /\ In x ref /\ first_at gent x k)).
Proof.
  destruct (runcpf_ok _ _ _ _ _ _ _ _ _ _ _ _ _ _ _ _ run)
    as (ref & pv & pq & V0 & Y & Yf & Yt & Sb & St & V & ok & m & c & HB & HV & YS & SQ & S1 & S2 & LS & HN & HL & SM' &
        (bus1 & bus2 & gen1 & B1 & B2 & B3 & HP) & E1 & E2 & E3 & _).
  apply blend_ok in B1 as (L1 & L1' & W1 & R1). apply blend_ok in B2 as (L2 & L2' & W2 & R2).
  pose proof B3 as B3'. apply blend_ok in B3 as (L3 & L3' & W3 & R3).
  pose proof (makeYbus_ok _ _ _ _ _ _ _ YS) as YP.
  assert (length bus2 = length busb) as LB by congruence.
  assert (square (length bus2) Y) as SQ2 by (rewrite LB; auto).
  assert (fits (length brancht) (length bus2) Yf) as SF by (rewrite LB, same_branches; apply wf_fits; destruct YP; auto).
  assert (fits (length brancht) (length bus2) Yt) as ST by (rewrite LB, same_branches; apply wf_fits; destruct YP; auto).
  assert (NoDup ref) as NR.
  { apply (NoDup_app_l _ (pv ++ pq)). eapply Permutation_NoDup; [apply Permutation_sym; exact (bustypes_partition _ _ _ _ _ HB types)|apply seq_NoDup]. }
  destruct (C22_buses _ _ _ _ _ _ _ _ _ _ _ _ _ _ HP SQ2 SF ST NR) as (LBB & _ & BU).
  destruct (C22_generators _ _ _ _ _ _ _ _ _ _ _ _ _ _ HP SQ2 SF ST NR) as (LG & GE).
  split; [congruence|]. split; [congruence|]. rewrite E2. split.
  - intros i b0 t Hb Ht. pose proof (R1 _ _ _ Hb Ht) as H1. pose proof (R2 _ _ _ Hb H1) as H2.
    destruct (BU _ _ H2) as (b & Hb' & _ & _ & _ & O). exists b. split; auto.
    rewrite Forall_forall in W1, W2. pose proof (W1 _ (nth_error_In _ _ Ht)) as X1. pose proof (W2 _ (nth_error_In _ _ H1)) as X2.
    split. { rewrite O by (unfold PD, VM, VA; lia). rewrite upd_cell_other by (unfold PD, QD; lia). apply nth_upd_same; auto. }
    split. { rewrite O by (unfold QD, VM, VA; lia). unfold cell at 1. rewrite nth_upd_same by auto.
             rewrite upd_cell_other by (unfold PD, QD; lia). auto. }
    intros j N1 N2 N3 N4. rewrite O by auto. rewrite !upd_cell_other; auto.
  - intros k g0 t Hg Ht. pose proof (R3 _ _ _ Hg Ht) as H3. destruct (GE _ _ H3) as (g & Hg' & _ & _ & O & PE).
    exists g. split; auto. split. { intros j N1 N2. rewrite O by auto. apply upd_cell_other; auto. }
    rewrite Forall_forall in W3. pose proof (W3 _ (nth_error_In _ _ Ht)) as X3.
    destruct PE as [PE|(x & I & FA)].
    + left. rewrite PE. apply nth_upd_same; auto.
    + right. exists ref, pv, pq, x. split; auto. split; auto. eapply first_at_conn; [|exact FA].
      eapply blend_conn; [| |exact B3']; discriminate.
Qed.

(** target and base describe the same network: only powers differ *)
Hypothesis same_base : baset = baseb.
Hypothesis same_shunts : forall i b t, nth_error busb i = Some b -> nth_error bust i = Some t -> cell t GS = cell b GS /\ cell t BS = cell b BS.
Hypothesis same_units : map conn gent = map conn genb.
Variables (ref pv pq : list nat) (Sb St : list (cpx K)).
Hypothesis buses : bustypes busb genb = Ok (ref, pv, pq).
Hypothesis injb : makeSbus baseb busb genb = Ok Sb.
Hypothesis injt : makeSbus baset bust gent = Ok St.
Hypothesis differ : forallb czero (map2 csub St Sb) = false.
Hypothesis success : cr_success r = true.

(** the tables describe the last point of the curve *)
Lemma final i b : nth_error (cr_bus r) i = Some b -> modulus cabs ->
  exists Y Yf Yt V gen1, ybus_spec cis baseb busb branchb Y Yf Yt /\
    solved_by (fun _ => cp_tol o) Y (inj (cr_lam r) Sb (map2 csub St Sb)) V pv pq /\
    (exists pts p, cr_points r = pts ++ [p] /\ V_c p = V /\ lam_c p = cr_lam r) /\
    blend (cr_lam r) PG genb gent = Ok gen1 /\ i < length busb /\ length St = length Sb /\
    cell b VM = cabs (nth i V 0%K) /\ cell b VA = (cang (nth i V 0%K) * fofZ 180 / fpi)%K /\
    exists bus2, length bus2 = length busb /\
    pfsoln cabs cang baseb bus2 gen1 branchb Y Yf Yt V ref = Ok (cr_bus r, cr_gen r, cr_branch r) /\
    cell (nth i bus2 []) PD = between (cr_lam r) (cell (nth i busb []) PD) (cell (nth i bust []) PD) /\
    cell (nth i bus2 []) QD = between (cr_lam r) (cell (nth i busb []) QD) (cell (nth i bust []) QD) /\
    surplus_p (cr_gen r) (cr_branch r) i b = (gen_total (fun g => cell g PG) (cr_gen r) i - required_p baseb Y V bus2 i)%K /\
    surplus_q (cr_gen r) (cr_branch r) i b = (gen_total (fun g => cell g QG) (cr_gen r) i - required_q baseb Y V bus2 i)%K.
Proof.
  intros Hb MO.
  destruct (runcpf_ok _ _ _ _ _ _ _ _ _ _ _ _ _ _ _ _ run)
    as (ref' & pv' & pq' & V0 & Y & Yf & Yt & Sb' & St' & V & ok & m & c & HB & HV & YS & SQ & S1 & S2 & LS & HN & HL & SM' &
        (bus1 & bus2 & gen1 & B1 & B2 & B3 & HP) & E1 & E2 & E3 & _).
  rewrite buses in HB. injection HB as <- <- <-. rewrite injb in S1. injection S1 as <-. rewrite injt in S2. injection S2 as <-.
  rewrite differ in HL. pose proof success as SU. rewrite E1 in SU.
  pose proof (newtonpf_ok _ _ _ _ _ _ _ _ _ _ SQ _ _ _ _ _ HN) as (_ & LV & _).
  assert (linv cabs cang (length busb) Y Sb (map2 csub St Sb) pv pq o (start o V false ok)) as W0.
  { split; auto. split; [cbn; auto|]. split.
    - exists [], (Pt V 0%K V 0%K). auto.
    - intros a x A. apply adj_one in A. contradiction. }
  destruct (loop_ok _ _ _ _ _ _ _ _ _ _ _ o SQ polar _ _ _ W0 HL) as [(C & _)|(_ & _ & R)]; [discriminate|].
  destruct (R SU) as ((_ & _ & _ & CH) & ext & q & p & EC & AD & EV & EL & _).
  destruct (CH _ _ AD) as (_ & SO & _). rewrite EV, EL, <- E2 in SO.
  apply blend_ok in B1 as (L1 & L1' & W1 & R1). apply blend_ok in B2 as (L2 & L2' & W2 & R2).
  pose proof B3 as B3'. apply blend_ok in B3 as (L3 & L3' & W3 & R3).
  pose proof (makeYbus_ok _ _ _ _ _ _ _ YS) as YP.
  rewrite same_base, same_branches in HP.
  assert (length bus2 = length busb) as LB by congruence.
  assert (square (length bus2) Y) as SQ2 by (rewrite LB; auto).
  assert (fits (length branchb) (length bus2) Yf) as SF by (rewrite LB; apply wf_fits; destruct YP; auto).
  assert (fits (length branchb) (length bus2) Yt) as ST by (rewrite LB; apply wf_fits; destruct YP; auto).
  assert (NoDup ref) as NR.
  { apply (NoDup_app_l _ (pv ++ pq)). eapply Permutation_NoDup; [apply Permutation_sym; exact (bustypes_partition _ _ _ _ _ buses types)|apply seq_NoDup]. }
  destruct (C22_buses _ _ _ _ _ _ _ _ _ _ _ _ _ _ HP SQ2 SF ST NR) as (LBB & _ & BU).
  destruct (pfsoln_ok _ _ _ _ _ _ _ _ _ _ _ _ _ _ HP SQ2 SF ST NR) as (_ & _ & _ & _ & _ & _ & LBR & BR).
  assert (i < length busb) as Li by (rewrite <- LB, <- LBB; eapply nth_error_some_lt; eauto).
  exists Y, Yf, Yt, (cs_V c), gen1. split; auto. split; auto.
  split. { destruct (E3 SU) as (EP & _). rewrite EP, EC. eexists _, p. split; [reflexivity|]. rewrite E2. auto. }
  rewrite E2. split; auto. split; auto. split; auto.
  destruct (nth_error_lt busb i Li) as (b0 & Hb0). destruct (nth_error_lt bust i) as (t & Ht); [lia|].
  pose proof (R1 _ _ _ Hb0 Ht) as H1. pose proof (R2 _ _ _ Hb0 H1) as H2.
  destruct (BU _ _ H2) as (b' & Hb' & _ & EM & EA & O). rewrite Hb in Hb'. injection Hb' as <-.
  split; auto. split; auto. exists bus2. split; auto. split; auto.
  rewrite (nth_error_nth _ _ _ H2), (nth_error_nth _ _ _ Hb0), (nth_error_nth _ _ _ Ht).
  rewrite Forall_forall in W1, W2. pose proof (W1 _ (nth_error_In _ _ Ht)) as X1. pose proof (W2 _ (nth_error_In _ _ H1)) as X2.
  split. { rewrite upd_cell_other by (unfold PD, QD; lia). apply nth_upd_same; auto. }
  split. { unfold cell at 1. rewrite nth_upd_same by auto. rewrite upd_cell_other by (unfold PD, QD; lia). auto. }
  destruct (reported_drawn _ _ _ _ _ _ _ _ _ i YP LBR BR) as (DP & DQ).
  unfold surplus_p, surplus_q. rewrite DP, DQ, (cdrawn_ok _ _ _ _ _ _ _ _ _ YP Li).
  assert (baseb <> 0%K) as NB.
  { destruct YP as [_ _ _ _ _ NB _ _ _ _ _ _]. apply NB. intros E. rewrite E in Li. simpl in Li. lia. }
  rewrite EM, MO. rewrite !O by (unfold VM, VA, PD, QD, GS, BS; lia).
  unfold required_p, required_q. rewrite (nth_error_nth _ _ _ H2), (nth_error_nth _ _ _ Hb0).
  destruct (same_shunts _ _ _ Hb0 Ht) as (G1 & G2).
  set (v := nth i (cs_V c) 0%K). set (sp := bus_power Y (cs_V c) i). unfold nrm2, shunt.
  rewrite !(upd_cell_other _ _ _ GS), !(upd_cell_other _ _ _ BS), G1, G2 by (unfold PD, QD, GS, BS; lia).
  split; cbn; field; auto.
Qed.

Lemma gz (g : list (list K)) i : gen_total (fun x => cell x QG) g i = 0%K \/ has_gen g i.
Proof.
  unfold has_gen, gen_total. induction g as [|a g IH]; [left; reflexivity|].
  cbn [lsum]. destruct (in_service a && (bus_no a GEN_BUS =? i)) eqn:E.
  - right. apply andb_true_iff in E as (E1 & E2). apply Nat.eqb_eq in E2. exists a. simpl; auto.
  - destruct IH as [->|(h & I & X)]; [left; ring|right; exists h; simpl; tauto].
Qed.
Lemma has_gen_conn (g h : list (list K)) i : map conn g = map conn h -> has_gen g i -> has_gen h i.
Proof.
  intros E (a & I & S & B). assert (In (conn a) (map conn h)) as J by (rewrite <- E; apply in_map; auto).
  apply in_map_iff in J as (c & E1 & J). injection E1 as E1 E2. exists c. split; auto. split; congruence.
Qed.

(** the power injected at bus [i] at the last point *)
Lemma inj_nth lam i : i < length busb -> length St = length Sb -> length bust = length busb ->
  nth i (inj lam Sb (map2 csub St Sb)) 0%K =
  Cx ((between lam (gen_total (fun g => cell g PG) genb i) (gen_total (fun g => cell g PG) gent i)
       - between lam (cell (nth i busb []) PD) (cell (nth i bust []) PD)) / baseb)%K
     ((between lam (gen_total (fun g => cell g QG) genb i) (gen_total (fun g => cell g QG) gent i)
       - between lam (cell (nth i busb []) QD) (cell (nth i bust []) QD)) / baseb)%K.
Proof.
  intros Li LS LB. pose proof injb as Hb. pose proof injt as Ht. apply makeSbus_ok in Hb as (NB & _ & _ & EB).
  apply makeSbus_ok in Ht as (_ & _ & _ & ET). rewrite same_base in ET.
  assert (length Sb = length busb) as LB' by (rewrite EB, map_length, seq_length; auto).
  unfold inj. rewrite (nth_map2_d _ _ _ _ 0%K 0%K) by (unfold map2; rewrite ?map_length, ?combine_length; lia).
  rewrite (nth_map2_d _ _ _ _ 0%K 0%K) by lia. rewrite EB, ET, LB.
  rewrite !(nth_map_lt _ _ _ _ 0) by (rewrite seq_length; auto). rewrite seq_nth by auto. cbn [Nat.add].
  unfold between. apply cpx_eq; cbn; field; auto.
Qed.

(** active power balances in the returned tables: exactly at the reference buses, within tolerance
    elsewhere *)
Theorem C76_active_balance i b : fltb 0%K baseb = true -> modulus cabs -> nth_error (cr_bus r) i = Some b ->
  (In i ref -> surplus_p (cr_gen r) (cr_branch r) i b = 0%K) /\
  (surplus_p (cr_gen r) (cr_branch r) i b = 0%K \/ within (cp_tol o * baseb)%K (surplus_p (cr_gen r) (cr_branch r) i b)).
Proof.
  intros P MO Hb. destruct (final i b Hb MO)
    as (Y & Yf & Yt & V & gen1 & YS & SO & _ & B3 & Li & LS & _ & _ & bus2 & LB & HP & ED & _ & EP & _).
  assert (square (length bus2) Y) as SQ by (rewrite LB; apply wf_fits; destruct YS; auto).
  assert (fits (length branchb) (length bus2) Yf) as SF by (rewrite LB; apply wf_fits; destruct YS; auto).
  assert (fits (length branchb) (length bus2) Yt) as ST by (rewrite LB; apply wf_fits; destruct YS; auto).
  pose proof (bustypes_partition _ _ _ _ _ buses types) as PE.
  assert (NoDup (ref ++ pv ++ pq)) as ND.
  { eapply Permutation_NoDup; [apply Permutation_sym; exact PE|apply seq_NoDup]. }
  assert (In i ref -> surplus_p (cr_gen r) (cr_branch r) i b = 0%K) as A.
  { intros I. rewrite EP, (C22_active _ _ _ _ _ _ _ _ _ _ _ _ _ _ HP SQ SF ST (NoDup_app_l _ _ ND) i I). ring. }
  split; auto.
  assert (In i (ref ++ pv ++ pq)) as I.
  { apply (Permutation_in i (Permutation_sym PE)). apply in_seq. lia. }
  apply in_app_or in I as [I|I]; [auto|]. right.
  destruct SO as (C & _). specialize (C i I).
  replace (surplus_p (cr_gen r) (cr_branch r) i b) with (- re (excess Y (inj (cr_lam r) Sb (map2 csub St Sb)) V i) * baseb)%K; [apply within_scaled; auto|].
  rewrite EP. destruct (pfsoln_ok _ _ _ _ _ _ _ _ _ _ _ _ _ _ HP SQ SF ST (NoDup_app_l _ _ ND))
    as (_ & _ & _ & _ & LG & (q & gen3 & QS & GU & EC & R & _ & O) & _).
  rewrite O.
  2: { intros I'. clear - ND I I'. induction ref as [|a l IH]; [contradiction|].
       inversion ND; subst. destruct I' as [->|I']; [|auto]. apply H1. apply in_or_app. auto. }
  assert (gen_total (fun x => cell x PG) gen3 i = gen_total (fun x => cell x PG) gen1 i) as ->.
  { apply gen_total_rows; [apply GU|]. intros k g Hk. destruct GU as (_ & GU).
    destruct (GU _ _ Hk) as (W & OFF & ON).
    assert (exists v, nth_error gen3 k = Some (upd g QG v)) as (v & Hv).
    { destruct (in_service g) eqn:SV; [|eauto]. destruct (onl_pos _ _ _ Hk SV) as (p & Hp & _). eauto. }
    exists (upd g QG v). split; auto. split.
    - apply conn_upd; unfold QG, GEN_STATUS, GEN_BUS; lia.
    - intros _. apply upd_cell_other. unfold PG, QG; lia. }
  pose proof injb as HS. apply makeSbus_ok in HS as (NB & _ & _ & ES).
  assert (length bust = length busb) as LT.
  { pose proof injt as HT. apply makeSbus_ok in HT as (_ & _ & _ & ET). apply (f_equal (@length _)) in ES, ET.
    rewrite map_length, seq_length in ES, ET. lia. }
  rewrite (gen_total_blend _ PG _ _ _ i ltac:(discriminate) ltac:(discriminate) B3 same_units).
  unfold excess, required_p. rewrite ED, (inj_nth _ _ Li LS LT).
  set (sp := bus_power Y V i). cbn. field. auto.
Qed.

(** reactive power: exact (up to the code's enlarged range) where generators are in service, within
    tolerance elsewhere *)
Theorem C76_reactive_balance i b : fltb 0%K baseb = true -> modulus cabs -> nth_error (cr_bus r) i = Some b ->
  (has_gen genb i -> surplus_q (cr_gen r) (cr_branch r) i b = 0%K \/
   exists need lo hi, surplus_q (cr_gen r) (cr_branch r) i b = (- ((need - lo) * EPS / (hi - lo + EPS)))%K /\
     lo = gen_total (fun g => cell g QMIN) gent i /\ hi = gen_total (fun g => cell g QMAX) gent i /\
     gen_total (fun g => cell g QG) (cr_gen r) i = (need + surplus_q (cr_gen r) (cr_branch r) i b)%K) /\
  (~ has_gen genb i -> within (cp_tol o * baseb)%K (surplus_q (cr_gen r) (cr_branch r) i b)).
Proof.
  intros P MO Hb. destruct (final i b Hb MO)
    as (Y & Yf & Yt & V & gen1 & YS & SO & _ & B3 & Li & LS & _ & _ & bus2 & LB & HP & _ & ED & _ & EQ).
  assert (square (length bus2) Y) as SQ by (rewrite LB; apply wf_fits; destruct YS; auto).
  assert (fits (length branchb) (length bus2) Yf) as SF by (rewrite LB; apply wf_fits; destruct YS; auto).
  assert (fits (length branchb) (length bus2) Yt) as ST by (rewrite LB; apply wf_fits; destruct YS; auto).
  pose proof (bustypes_partition _ _ _ _ _ buses types) as PE.
  assert (NoDup (ref ++ pv ++ pq)) as ND.
  { eapply Permutation_NoDup; [apply Permutation_sym; exact PE|apply seq_NoDup]. }
  assert (map conn gen1 = map conn gent) as EC1 by (eapply blend_conn; [| |exact B3]; discriminate).
  assert (forall j, j <> PG -> gen_total (fun g => cell g j) gen1 i = gen_total (fun g => cell g j) gent i) as GT.
  { intros j Nj. apply blend_ok in B3 as (L1 & L2 & W & R). apply gen_total_rows; auto. intros k t Ht.
    destruct (nth_error_lt genb k) as (g & Hg). { rewrite L1. eapply nth_error_some_lt; eauto. }
    eexists. split; [apply (R _ _ _ Hg Ht)|]. split; [apply conn_upd; discriminate|]. intros _. apply upd_cell_other; auto. }
  split.
  - intros HG. apply (has_gen_conn _ gen1) in HG; [|congruence].
    pose proof (C22_reactive _ _ _ _ _ _ _ _ _ _ _ _ _ _ HP SQ SF ST (NoDup_app_l _ _ ND) i HG) as E.
    cbv zeta in E. destruct (_ || _) in E.
    + left. rewrite EQ, E. ring.
    + right. exists (required_q baseb Y V bus2 i), (gen_total (fun g => cell g QMIN) gen1 i), (gen_total (fun g => cell g QMAX) gen1 i).
      split; [rewrite EQ, E; ring|]. rewrite !GT by discriminate. split; auto. split; auto. rewrite EQ. ring.
  - intros NG. destruct (C15_no_generator _ _ _ _ _ i buses Li NG) as (IP & _ & _).
    destruct SO as (_ & C). specialize (C i IP).
    replace (surplus_q (cr_gen r) (cr_branch r) i b) with (- im (excess Y (inj (cr_lam r) Sb (map2 csub St Sb)) V i) * baseb)%K; [apply within_scaled; auto|].
    assert (has_gen (cr_gen r) i -> has_gen gen1 i) as HH.
    { intros (h & I & SV & Bh). apply In_nth_error in I as (k & Hk).
      destruct (C22_generators _ _ _ _ _ _ _ _ _ _ _ _ _ _ HP SQ SF ST (NoDup_app_l _ _ ND)) as (LG & R).
      destruct (nth_error_lt gen1 k) as (g & Hg). { rewrite <- LG. eapply nth_error_some_lt; eauto. }
      destruct (R _ _ Hg) as (g' & Hg' & _ & _ & O & _). rewrite Hk in Hg'. injection Hg' as <-.
      exists g. split; [eapply nth_error_In; eauto|]. unfold in_service, bus_no in *.
      rewrite <- !O by (unfold QG, PG, GEN_STATUS, GEN_BUS; lia). auto. }
    assert (forall g, map conn g = map conn genb -> gen_total (fun x => cell x QG) g i = 0%K) as Z.
    { intros g E. destruct (gz g i) as [|G]; auto. exfalso. apply NG. eapply has_gen_conn; eauto. }
    pose proof injb as HS. apply makeSbus_ok in HS as (NB & _ & _ & ES).
    assert (length bust = length busb) as LT.
    { pose proof injt as HT. apply makeSbus_ok in HT as (_ & _ & _ & ET). apply (f_equal (@length _)) in ES, ET.
      rewrite map_length, seq_length in ES, ET. lia. }
    rewrite EQ. unfold excess, required_q. rewrite ED, (inj_nth _ _ Li LS LT).
    destruct (gz (cr_gen r) i) as [->|G'].
    2: { exfalso. apply NG. apply (has_gen_conn gen1); [congruence|auto]. }
    rewrite (Z genb eq_refl), (Z gent same_units). set (sp := bus_power Y V i). unfold between. cbn. field. auto.
Qed.

(** the voltages in the bus table are those of the last point, which has the reported lambda *)
Theorem C76_voltages i b : modulus cabs -> nth_error (cr_bus r) i = Some b ->
  exists pts p, cr_points r = pts ++ [p] /\ lam_c p = cr_lam r /\
    cell b VM = cabs (nth i (V_c p) 0%K) /\ cell b VA = (cang (nth i (V_c p) 0%K) * fofZ 180 / fpi)%K.
Proof.
  intros MO Hb. destruct (final i b Hb MO)
    as (Y & Yf & Yt & V & gen1 & _ & _ & (pts & p & EP & <- & EL) & _ & _ & _ & EM & EA & _). eauto 8.
Qed.
End Run.
End Tables.

(** half way between the two cases of [cpf_ex]: a load of 150 MW and what the reported flows deliver *)
Example C76_ex : match cpf_ex 30 10 (qc 1 1000) 1 (qc 1 4) (At (qc 1 2)) with
  | Ok (Some r) =>
      let b := nth 1 (cr_bus r) [] in
      cr_success r && Qeq_bool (this (cr_lam r)) (1 # 2) && Qeq_bool (this (cell b PD)) 150
      && Qeq_bool (this (surplus_p (cr_gen r) (cr_branch r) 0 (nth 0 (cr_bus r) []))) 0
      && negb (Qle_bool (1 # 10) (Qabs.Qabs (this (surplus_p (cr_gen r) (cr_branch r) 1 b))))
      && negb (Qle_bool (this (cell b VM)) (8 # 10)) && negb (Qle_bool (9 # 10) (this (cell b VM)))
  | _ => false
  end = true.
Proof. vm_compute. reflexivity. Qed.

Print Assumptions C76_tables.
Print Assumptions C76_active_balance.
Print Assumptions C76_reactive_balance.
Print Assumptions C76_voltages.
