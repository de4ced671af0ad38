(** C85: a whole AC optimal power flow run, from the loaded case to the reported case; C86: multipliers of generator
    limits and capability curves; C87: capability curves that cut only one side. *)
From Coq Require Import Sorted.
From Verif Require Import Proofs.Ext2intA Lib.ListFacts Lib.QcFacts Lib.GaussQ Model.RunAcOpf Spec.RunAcOpfSpec Spec.PipsRun
  Proofs.SparseFacts Proofs.FldFacts Proofs.OrdFacts Proofs.PfsolnA Proofs.TableEdit Proofs.OpfLinA Proofs.OpfLinB Proofs.DcOpfA
  Proofs.DcOpfC Proofs.DcOpfE Proofs.Ext2intB Proofs.RunPfA Proofs.RunPfB Proofs.RunOpfA Proofs.RunOpfB Proofs.RunOpfC
  Proofs.AcCostC Proofs.AcOptA Proofs.AcOptB Proofs.RunAcOpfA Proofs.RunAcOpfB Proofs.RunAcOpfC Props.P_DcOpf Props.P_OpfFcn
  Props.P_AcOpf Proofs.Ext2intC Proofs.Ext2intD.
Local Open Scope nat_scope.

Section Theorems.
Context {K : Type} {F : Fld K}.
Add Field KF : (@f_ok K F).
Variable argsort : list Z -> list nat.
Hypothesis Has : argsort_spec argsort.
Variables (cis : K -> cpx K) (cabs : cpx K -> K) (sin_ cos_ : K -> K) (atan2 norm2 : K -> K -> K).
Variable solve : smat K -> list K -> result (option (list K)).
Variable ln : K -> K.
Variables (ign : bool) (opts : dcopt (K := K)) (lim : flow_lim) (B : K) (p r : ppc_of K) (f : K) (ok : bool).
Hypothesis W : wf_case p.
Hypothesis E : in_ext_state p.
Hypothesis RUN : ac_opf argsort cis cabs sin_ cos_ atan2 norm2 solve ln ign opts lim B p = Ok (r, f, ok).
(** one cost row for every generator *)
Variable gencost : list (list K).
Hypothesis GCO : p_gencost p = Some gencost.
Hypothesis GCL : length gencost = length (p_gen p).

Definition gcut := [PG; QG; MU_PMAX; MU_PMIN].

(** the internal case, the problem set up for it and the result of the solver *)
Definition ac_stages (q : ppc_of K) (gc : list (list K)) (o : acom) (y : acres) : Prop :=
  ext2int argsort (opf_columns p) = Ok q /\ p_gencost q = Some gc /\
  ac_setup sin_ cos_ atan2 norm2 ign B (p_bus q) (p_gen q) (p_branch q) gc no_user = Ok o /\
  pipsopf cis cabs solve ln opts lim B (p_bus q) (p_gen q) (p_branch q) o (no_user_gcosts (c_nx o)) = Ok y.

Lemma AW : wf_case (opf_columns p).
Proof. apply wf_wide. auto. Qed.

Lemma no_U_wf : forall M : smat K, u_A (no_user (K := K)) = Some M -> shaped (nrows M) (ncols M) M.
Proof. discriminate. Qed.

(** the cells of a generator row after the solver, in terms of the one before it *)
Definition gen_after (q : ppc_of K) (o : acom (K := K)) (y : acres (K := K)) (ih il : list nat) (k : nat) (a g : list K) : Prop :=
  let x := y_x y in let m := y_lmbda y in let nb := length (p_bus q) in let ng := length (p_gen q) in
  cell g PG = (B * ac_output nb x k)%K /\ cell g QG = (B * ac_output nb x (ng + k))%K /\
  cell g VG = nth (nb + bus_no a GEN_BUS) x 0%K /\ length g = length a /\
  (forall c, ~ In c ac_gc -> cell g c = cell a c) /\
  (ok = false \/ (ih = [] /\ il = []) ->
     (B * cell g MU_PMIN)%K = nth (nb + nb + k) (m_lower m) 0%K /\
     (B * cell g MU_PMAX)%K = nth (nb + nb + k) (m_upper m) 0%K /\
     (B * cell g MU_QMIN)%K = nth (nb + nb + (ng + k)) (m_lower m) 0%K /\
     (B * cell g MU_QMAX)%K = nth (nb + nb + (ng + k)) (m_upper m) 0%K) /\
  (ok = true -> ih <> [] \/ il <> [] -> forall j c d, (j = k /\ c = MU_PMAX /\ d = MU_PMIN) \/ (j = ng + k /\ c = MU_QMAX /\ d = MU_QMIN) ->
     net_price B (cell g c) (cell g d)
       (nth (nb + nb + j) (m_upper m) 0 - nth (nb + nb + j) (m_lower m) 0
        + row_prices (c_nx o) (c_A o) (length ih + length il) (m_mu_l m) (m_mu_u m) (nb + nb + j))%K).

Lemma ac_parts : exists q gc o y sb sg sl sa gen' branch' ih il ivl iang,
  ac_stages q gc o y /\ f = y_f y /\ ok = y_success y /\
  internal_form (opf_columns p) q sb sg sl sa /\ length gc = length (p_gen q) /\
  reports_in ac_bc ac_gc gcut ac_lc ac_lc p r /\
  carried (opf_columns p) q (y_bus y) gen' branch' r sb sg sl /\
  (forall k i z c, nth_error sb k = Some i -> bus_at (opf_columns p) z i -> In c [PG; QG] ->
     total_at GEN_BUS (fun g => cell g c) (p_gen r) z
     = lsum (fun g => if bus_no g GEN_BUS =? k then cell g c else 0%K) gen') /\
  (forall k i z c d, nth_error sb k = Some i -> bus_at (opf_columns p) z i -> In c [PF; QF] -> In d [PT; QT] ->
     (total_at F_BUS (fun g => cell g c) (p_branch r) z + total_at T_BUS (fun g => cell g d) (p_branch r) z)%K
     = drawn (fun g => cell g c) (fun g => cell g d) branch' k) /\
  ac_spec sin_ cos_ atan2 norm2 ign B (p_bus q) (p_gen q) (p_branch q) gc no_user o ih il ivl iang /\
  (ok = true -> (ih = [] <-> il = [])) /\
  (forall k a g, nth_error (p_gen q) k = Some a -> nth_error gen' k = Some g -> gen_after q o y ih il k a g) /\
  (forall k a g, nth_error (p_branch q) k = Some a -> nth_error branch' k = Some g ->
     exists b, nth_error (y_branch y) k = Some b /\ kept_but [PF; QF; PT; QT; MU_SF; MU_ST] a b /\
       kept_but [MU_ANGMIN; MU_ANGMAX] b g /\
       (ok = false \/ ~ In k iang -> cell g MU_ANGMIN = cell b MU_ANGMIN /\ cell g MU_ANGMAX = cell b MU_ANGMAX) /\
       (ok = true -> forall n, nth_error iang n = Some k ->
          cell g MU_ANGMIN = degrees (nth (c_npqh o + c_npql o + c_nvl o + n) (m_mu_l (y_lmbda y)) 0%K) /\
          cell g MU_ANGMAX = degrees (nth (c_npqh o + c_npql o + c_nvl o + n) (m_mu_u (y_lmbda y)) 0%K))).
Proof.
  unfold ac_opf in RUN.
  pose proof RUN as H. apply bind_ok in H as (_u & _ & H). apply bind_ok in H as (q & Hq & H).
  apply bind_ok in H as (gc & Hgc & H). apply bind_ok in H as (o & Ho & H). apply bind_ok in H as (y & Hy & H).
  cbv zeta in H. apply bind_ok in H as (gen' & Hg & H). apply bind_ok in H as ((((Aa & la) & ua) & iang) & Han & H).
  apply bind_ok in H as (br & Hbr & H). apply bind_ok in H as (r0 & Hr & H).
  assert (r0 = r /\ y_f y = f /\ y_success y = ok) as (-> & <- & Eok) by (split; [|split]; congruence). clear H.
  unfold back_to_external in Hr. apply bind_ok in Hr as (r1 & H1 & Hr). apply bind_ok in Hr as (od & Hod & Hr).
  apply bind_ok in Hr as (g2 & Hg2 & Hr). apply bind_ok in Hr as (l2 & Hl2 & Hr).
  assert (r = with_tables r1 (p_bus r1) g2 l2) as -> by congruence. clear Hr.
  assert (p_gencost q = Some gc) as Hgc' by (destruct (p_gencost q); cbn in Hgc; congruence).
  assert (p_order r1 = Some od) as Hod' by (destruct (p_order r1); cbn in Hod; congruence).
  assert (length gc = length (p_gen q)) as ONE.
  { pose proof Hq as Hq'. rewrite ext2int_unfold in Hq' by auto.
    destruct (ext2int_conv argsort Has (opf_columns p) AW) as (q' & o0 & i2eZ & sb & gon & ge & sg & sl & sa & Hq2 & C).
    assert (q' = q) by congruence. subst q'. pose proof (cv_form _ _ _ _ _ _ _ _ _ _ _ C) as IF.
    pose proof (if_gencost _ _ _ _ _ _ IF) as G. change (p_gencost (opf_columns p)) with (p_gencost p) in G. rewrite GCO in G.
    destruct G as (g' & E1 & _ & _ & L). rewrite (if_gen_len _ _ _ _ _ _ IF). assert (g' = gc) by congruence. subst g'.
    apply L. rewrite GCL. unfold opf_columns. cbn [p_gen]. symmetry. apply map_length. }
  destruct (ac_setup_idx sin_ cos_ atan2 norm2 ign B (p_bus q) (p_gen q) (p_branch q) gc no_user o ONE ltac:(discriminate) Ho)
    as (ih & il & ivl & iang' & SS & (Ah & uh & AUl & HApq) & (A2 & l2' & u2' & Han')).
  assert (iang' = iang) by congruence. subst iang'. clear Han'.
  pose proof (C62_report cis cabs sin_ cos_ atan2 norm2 solve ln ign lim B (p_bus q) (p_gen q) (p_branch q) gc no_user o
    no_U_wf ONE Ho _ opts y Hy) as REP. cbv zeta in REP.
  destruct REP as (L1 & L2 & L3 & A8 & A9 & _ & il2 & _ & _ & A10).
  assert (NoDup iang) as ND by (destruct (makeAang_rows _ _ _ _ _ _ _ Han) as (_ & _ & _ & _ & _ & _ & N & _); exact N).
  destruct (ang_mults_gen iang _ ND (y_success y) _ _ _ _ Hbr) as (LB & AM).
  destruct (apq_data_def sin_ cos_ atan2 norm2 ign B (p_bus q) (p_gen q) (p_branch q) gc no_user o ih il ivl iang SS _ _ _ HApq)
    as (AD & ND1 & ND2).
  assert (NB : forall k a b, nth_error (p_gen q) k = Some a -> kept_but ac_gc a b -> bus_no b GEN_BUS = bus_no a GEN_BUS).
  { intros k a b _ (_ & KC). unfold bus_no. rewrite KC by (cbn; intuition discriminate). reflexivity. }
  assert (GEN : length gen' = length (p_gen q) /\ (ok = true -> (ih = [] <-> il = [])) /\
    forall k a, nth_error (p_gen q) k = Some a -> exists g, nth_error gen' k = Some g /\ gen_after q o y ih il k a g).
  { destruct (y_success y) eqn:YS.
    - rewrite AD, (as_npqh _ _ _ _ _ _ _ _ _ _ _ _ _ _ _ _ SS), (as_npql _ _ _ _ _ _ _ _ _ _ _ _ _ _ _ _ SS) in Hg.
      destruct (edge_mults_ok sin_ cos_ atan2 norm2 ign B (p_bus q) (p_gen q) (p_branch q) gc no_user o ih il ivl iang SS
                  _ _ (y_bus y) (y_gen y) gen' ND1 ND2 L2 Hg) as (G1 & G2 & G3).
      split; [congruence|]. split; [auto|]. intros k a Ha.
      destruct (A9 k a Ha) as (g1 & Hg1 & KB1 & P1 & P2 & P3 & P4 & P5 & P6 & P7).
      destruct (G3 k g1 Hg1) as (g' & Hg' & (KL2 & KC2) & (b & Hb & VB) & N0 & N1).
      exists g'. split; auto. pose proof KB1 as (KL1 & KC1). unfold gen_after. cbv zeta.
      rewrite (KC2 PG), (KC2 QG) by (cbn; intuition discriminate). split; auto. split; auto. split.
      { rewrite (NB k a g1 Ha KB1) in Hb. pose proof (nth_error_some_lt _ _ _ Hb) as Lb. rewrite L1 in Lb.
        destruct (nth_error_lt (p_bus q) (bus_no a GEN_BUS) Lb) as [b0 Hb0]. destruct (A8 _ _ Hb0) as (b' & Hb' & _ & V & _).
        assert (b' = b) by congruence. subst b'. rewrite VB. exact V. }
      split; [congruence|]. split.
      { intros c N. assert (~ In c [VG; MU_PMIN; MU_PMAX; MU_QMIN; MU_QMAX]) as N2 by (intros I; apply N; cbn in *; tauto).
        rewrite (KC2 c N2). apply KC1. exact N. }
      split.
      + intros [C|(C1 & C2)]; [congruence|]. specialize (N0 C1 C2).
        rewrite (N0 MU_PMIN), (N0 MU_PMAX), (N0 MU_QMIN), (N0 MU_QMAX) by (cbn; tauto). auto.
      + intros _ EX j c d [(-> & -> & ->)|(-> & -> & ->)]; destruct (N1 EX) as (NP & NQ).
        * rewrite <- P4, <- P5.
          assert ((B * cell g1 MU_PMAX - B * cell g1 MU_PMIN = B * (cell g1 MU_PMAX - cell g1 MU_PMIN))%K) as -> by ring. exact NP.
        * rewrite <- P6, <- P7.
          assert ((B * cell g1 MU_QMAX - B * cell g1 MU_QMIN = B * (cell g1 MU_QMAX - cell g1 MU_QMIN))%K) as -> by ring. exact NQ.
    - assert (y_gen y = gen') by congruence. subst gen'. split; auto. split; [congruence|]. intros k a Ha.
      destruct (A9 k a Ha) as (g1 & Hg1 & (KL1 & KC1) & P1 & P2 & P3 & P4 & P5 & P6 & P7). exists g1. split; auto.
      unfold gen_after. cbv zeta. do 5 (split; [auto|]). split; [auto|]. congruence. }
  destruct GEN as (GL & GIFF & GEN).
  assert (KB : keeps ac_bc (p_bus q) (y_bus y)).
  { split; auto. intros i a Ha. destruct (A8 i a Ha) as (b & Hb & (KL & KC) & _). exists b. auto. }
  assert (KG : keeps ac_gc (p_gen q) gen').
  { split; auto. intros i a Ha. destruct (GEN i a Ha) as (b & Hb & GA). unfold gen_after in GA. cbv zeta in GA.
    destruct GA as (_ & _ & _ & GLn & KC & _). exists b. auto. }
  assert (LROW : forall i a, nth_error (p_branch q) i = Some a -> exists y1 b, nth_error (y_branch y) i = Some y1 /\
     nth_error br i = Some b /\ length b = length a /\ (forall j, ~ In j ac_lc -> cell b j = cell a j)).
  { intros i a Ha. destruct (A10 i a Ha) as (y1 & Hy1 & (KL & KC) & _). destruct (AM i y1 Hy1) as (b & Hb & (KL2 & KC2) & _).
    exists y1, b. split; auto. split; auto. split; [congruence|]. intros j N. unfold ac_lc in N. cbn [In] in N.
    rewrite KC2, KC by (cbn [In]; tauto). reflexivity. }
  assert (KL : keeps ac_lc (p_branch q) br).
  { split; [congruence|]. intros i a Ha. destruct (LROW i a Ha) as (y1 & b & _ & Hb & L & C). exists b. auto. }
  assert (Q1 : ~ In BUS_I ac_bc) by (cbn; intuition discriminate).
  assert (Q2 : ~ In GEN_BUS ac_gc) by (cbn; intuition discriminate).
  assert (Q3 : ~ In F_BUS ac_lc /\ ~ In T_BUS ac_lc) by (split; cbn; intuition discriminate).
  assert (Q4 : ~ In GEN_BUS gcut) by (cbn; intuition discriminate).
  destruct (through argsort Has ac_bc ac_gc gcut ac_lc ac_lc Q1 Q2 Q3 Q4 Q3 (opf_columns p) q r1 od
              (y_bus y) gen' br g2 l2 AW E Hq KB KG KL H1 Hod' Hg2 Hl2)
    as (sb & sg & sl & sa & IF & RI & CAR & GT & LT).
  exists q, gc, o, y, sb, sg, sl, sa, gen', br, ih, il, ivl, iang.
  split; [split; auto|]. split; [auto|]. split; [auto|]. split; [exact IF|]. split; [exact ONE|].
  split; [apply reports_wide; auto|]. split; [exact CAR|].
  split. { intros k i z c Hk Bi Ic. apply (GT k i z c Hk Bi). cbn in *. tauto. }
  split. { intros k i z c d Hk Bi Ic Id. apply (LT k i z c d Hk Bi); cbn in *; tauto. }
  split; [exact SS|]. split; [exact GIFF|]. split.
  - intros k a g Ha Hg'. destruct (GEN k a Ha) as (g' & Hg2' & GA). assert (g' = g) by congruence. subst g'. exact GA.
  - intros k a g Ha Hg'. destruct (A10 k a Ha) as (b1 & Hb1 & KB1 & _). destruct (AM k b1 Hb1) as (b' & Hb' & KB2 & M1 & M2).
    assert (b' = g) by congruence. subst b'. rewrite Eok in *. exists b1. auto.
Qed.

(** whatever the outcome, only result columns change, and only for equipment in service; results of equipment out
    of service are zero, costs and areas as before *)
Theorem C85_tables : reports_in ac_bc ac_gc gcut ac_lc ac_lc p r.
Proof. destruct ac_parts as (q & gc & o & y & sb & sg & sl & sa & g' & br & ih & il & ivl & iang & _ & _ & _ & _ & _ & H & _). exact H. Qed.

(** reported prices and multipliers of voltages, flows and angles are those of the bounds and constraints of the
    problem that concern the same bus and branch; the balances of active and reactive power come first among the
    nonlinear equations, the flow limits in the order of the limited branches, first all from-ends *)
Theorem C85_multipliers : exists q gc o y sb sl lims,
  ac_stages q gc o y /\ ok = y_success y /\
  lists_exactly sb (bus_in_service p) /\ lists_exactly sl (branch_in_service p) /\ StronglySorted Peano.lt lims /\
  (forall k i b, nth_error sb k = Some i -> nth_error (p_bus r) i = Some b ->
     let m := y_lmbda y in let nb := length (p_bus q) in
     (B * cell b LAM_P)%K = nth k (m_eqnonlin m) 0%K /\ (B * cell b LAM_Q)%K = nth (nb + k) (m_eqnonlin m) 0%K /\
     cell b MU_VMIN = nth (nb + k) (m_lower m) 0%K /\ cell b MU_VMAX = nth (nb + k) (m_upper m) 0%K) /\
  (forall k j g, nth_error sl k = Some j -> nth_error (p_branch r) j = Some g -> exists a, nth_error (p_branch q) k = Some a /\
     (forall c, c <> F_BUS -> c <> T_BUS -> ~ In c ac_lc -> cell g c = cell a c) /\
     (In k lims <-> flow_limited g) /\
     (~ flow_limited g -> cell g MU_SF = 0%K /\ cell g MU_ST = 0%K) /\
     (forall n, nth_error lims n = Some k -> let m := m_ineqnonlin (y_lmbda y) in
        (B * B * cell g MU_SF)%K = (fofZ 2 * cell g RATE_A * nth n m 0)%K /\
        (B * B * cell g MU_ST)%K = (fofZ 2 * cell g RATE_A * nth (length lims + n) m 0)%K) /\
     (ok = true -> ign = false -> angle_limited g -> exists n,
        row_says (c_nx o) (c_A o) (c_l o) (c_u o) n
          (if feqb (cell g ANGMIN) 0%K then ENeg else EFin (degrees (cell g ANGMIN)))
          (if feqb (cell g ANGMAX) 0%K then EPos else EFin (degrees (cell g ANGMAX)))
          (fun x => angle_diff a (angles (length (p_bus q)) x)) /\
        cell g MU_ANGMIN = degrees (nth n (m_mu_l (y_lmbda y)) 0%K) /\
        cell g MU_ANGMAX = degrees (nth n (m_mu_u (y_lmbda y)) 0%K))).
Proof.
  destruct ac_parts as (q & gc & o & y & sb & sg & sl & sa & gen' & br & ih & il & ivl & iang
    & ST & Hf & Hok & IF & ONE & RI & CAR & GT & LT & SS & GIFF & TG & TL).
  pose proof ST as (S1 & S2 & S3 & S4).
  pose proof (C62_report cis cabs sin_ cos_ atan2 norm2 solve ln ign lim B (p_bus q) (p_gen q) (p_branch q) gc no_user o
    no_U_wf ONE S3 _ opts y S4) as REP. cbv zeta in REP.
  destruct REP as (L1 & L2 & L3 & A8 & A9 & _ & lims & SO & IL & A10).
  exists q, gc, o, y, sb, sl, lims. split; auto. split; auto.
  split. { destruct (if_sb _ _ _ _ _ _ IF) as ((N & I) & _). split; auto. intros i. rewrite I. apply bus_service_wide; auto. }
  split. { destruct (if_sl _ _ _ _ _ _ IF) as ((N & I) & _). split; auto. intros i. rewrite I. apply br_service_wide; auto. }
  split; auto. split.
  - intros k i b Hk Hb. cbv zeta.
    destruct (nth_error_lt (y_bus y) k) as [b' Hb']; [rewrite (ca_bus_len _ _ _ _ _ _ _ _ _ CAR); eapply nth_error_some_lt; eauto|].
    destruct (ca_bus _ _ _ _ _ _ _ _ _ CAR _ _ _ Hk Hb') as (x0 & a & b2 & Hx & Ha & Hb2 & E1 & E2).
    assert (b2 = b) by congruence. subst b2. destruct (A8 _ _ Ha) as (b3 & Hb3 & _ & _ & _ & P1 & P2 & P3 & P4).
    assert (b3 = b') by congruence. subst b3.
    rewrite (E2 LAM_P), (E2 LAM_Q), (E2 MU_VMIN), (E2 MU_VMAX) by discriminate. auto.
  - intros k j g Hk Hg.
    destruct (nth_error_lt br k) as [g' Hg']; [rewrite (ca_br_len _ _ _ _ _ _ _ _ _ CAR); eapply nth_error_some_lt; eauto|].
    destruct (ca_br _ _ _ _ _ _ _ _ _ CAR _ _ _ Hk Hg')
      as (x0 & a & g2 & zf & zt & nf & nt & Hx & Ha & Hg2 & Zf & Sf & Nf & Zt & Stt & Nt & Ef & Et & ON & E1 & E2).
    assert (g2 = g) by congruence. subst g2.
    destruct (TL _ _ _ Ha Hg') as (b & Hb & (KL1 & KC1) & (KL2 & KC2) & M1 & M2).
    destruct (A10 _ _ Ha) as (b3 & Hb3 & _ & F1 & F2). assert (b3 = b) by congruence. subst b3.
    assert (forall c, c <> F_BUS -> c <> T_BUS -> ~ In c ac_lc -> cell g c = cell a c) as KK.
    { intros c N1 N2 N3. rewrite (E2 c N1 N2). unfold ac_lc in N3. cbn [In] in N3. rewrite KC2, KC1 by (cbn [In]; tauto). reflexivity. }
    exists a. split; auto. split; auto.
    assert (flow_limited g <-> flow_limited a) as FL.
    { unfold flow_limited. rewrite (KK RATE_A) by (cbn; intuition discriminate). tauto. }
    split. { rewrite IL, FL. split; [intros (a' & Ha' & X); assert (a' = a) by congruence; subst; auto|eauto]. }
    rewrite (E2 MU_SF), (E2 MU_ST), (E2 MU_ANGMIN), (E2 MU_ANGMAX) by discriminate.
    rewrite (KC2 MU_SF), (KC2 MU_ST) by (cbn; intuition discriminate).
    split; [rewrite FL; auto|]. split. { intros n Hn. cbv zeta. rewrite (KK RATE_A) by (cbn; intuition discriminate). auto. }
    intros OK IG AL. unfold angle_limited in AL.
    rewrite (KK ANGMIN), (KK ANGMAX) in * by (cbn; intuition discriminate).
    assert (In k iang) as I by (apply (as_iang _ _ _ _ _ _ _ _ _ _ _ _ _ _ _ _ SS); eauto).
    apply In_nth_error in I as (n & Hn). exists (c_npqh o + c_npql o + c_nvl o + n).
    split; [exact (says_ang sin_ cos_ atan2 norm2 ign B _ _ _ _ _ o ih il ivl iang SS n k a Hn Ha)|]. auto.
Qed.

(** ** C86 *)

(** edges of the capability curve in terms of the reported row of the generator *)
Definition same_curve (a g : list K) : Prop :=
  (cuts_upper g <-> cuts_upper a) /\ (cuts_lower g <-> cuts_lower a) /\
  (forall pq, over_upper norm2 g pq = over_upper norm2 a pq) /\ (forall pq, under_lower norm2 g pq = under_lower norm2 a pq).
Lemma same_curve_ok a g : (forall c, c <> GEN_BUS -> ~ In c ac_gc -> cell g c = cell a c) -> same_curve a g.
Proof.
  intros E2. unfold same_curve, cuts_upper, cuts_lower, has_curve, over_upper, under_lower.
  rewrite (E2 PC1), (E2 PC2), (E2 QC1MAX), (E2 QC2MAX), (E2 QC1MIN), (E2 QC2MIN), (E2 QMAX), (E2 QMIN), (E2 PMAX)
    by (cbn; intuition discriminate). tauto.
Qed.

(** on success, the difference of the multipliers of the upper and the lower limit of an output is that of the bounds
    of the variable plus what the edges of capability curves contribute, and at most one of the two is not zero; if
    no generator in service has such an edge they are the multipliers of the bounds.  The edges are the first rows
    of the problem, one for each generator in service whose curve cuts a corner *)
Theorem C86_prices : ok = true -> exists q gc o y sg ih il,
  ac_stages q gc o y /\ lists_exactly sg (gen_in_service p) /\
  (forall n k, nth_error ih n = Some k -> exists j g, nth_error sg k = Some j /\ nth_error (p_gen r) j = Some g /\ cuts_upper g /\
     row_says (c_nx o) (c_A o) (c_l o) (c_u o) n ENeg (EFin 0%K)
       (fun x => over_upper norm2 g (B * ac_output (length (p_bus q)) x k, B * ac_output (length (p_bus q)) x (length sg + k)) / B)%K) /\
  (forall n k, nth_error il n = Some k -> exists j g, nth_error sg k = Some j /\ nth_error (p_gen r) j = Some g /\ cuts_lower g /\
     row_says (c_nx o) (c_A o) (c_l o) (c_u o) (length ih + n) ENeg (EFin 0%K)
       (fun x => under_lower norm2 g (B * ac_output (length (p_bus q)) x k, B * ac_output (length (p_bus q)) x (length sg + k)) / B)%K) /\
  forall k j g, nth_error sg k = Some j -> nth_error (p_gen r) j = Some g ->
    (cuts_upper g <-> In k ih) /\ (cuts_lower g <-> In k il) /\
    let m := y_lmbda y in let P := length (p_bus q) + length (p_bus q) + k in let Q := length sg + P in
    cell g PG = (B * nth P (y_x y) 0)%K /\ cell g QG = (B * nth Q (y_x y) 0)%K /\
    (ih = [] /\ il = [] ->
       (B * cell g MU_PMIN)%K = nth P (m_lower m) 0%K /\ (B * cell g MU_PMAX)%K = nth P (m_upper m) 0%K /\
       (B * cell g MU_QMIN)%K = nth Q (m_lower m) 0%K /\ (B * cell g MU_QMAX)%K = nth Q (m_upper m) 0%K) /\
    (ih <> [] \/ il <> [] ->
       let edges := row_prices (c_nx o) (c_A o) (length ih + length il) (m_mu_l m) (m_mu_u m) in
       net_price B (cell g MU_PMAX) (cell g MU_PMIN) (nth P (m_upper m) 0 - nth P (m_lower m) 0 + edges P)%K /\
       net_price B (cell g MU_QMAX) (cell g MU_QMIN) (nth Q (m_upper m) 0 - nth Q (m_lower m) 0 + edges Q)%K).
Proof.
  intros OKT.
  destruct ac_parts as (q & gc & o & y & sb & sg & sl & sa & gen' & br & ih & il & ivl & iang
    & ST & Hf & Hok & IF & ONE & RI & CAR & GT & LT & SS & GIFF & TG & TL).
  exists q, gc, o, y, sg, ih, il. split; auto.
  split. { destruct (if_sg _ _ _ _ _ _ IF) as (N & I). split; auto. intros i. rewrite I. apply gen_service_wide; auto. }
  assert (ROW : forall k j g, nth_error sg k = Some j -> nth_error (p_gen r) j = Some g -> exists a g',
     nth_error (p_gen q) k = Some a /\ nth_error gen' k = Some g' /\ same_curve a g /\
     (forall c, c <> GEN_BUS -> cell g c = cell g' c)).
  { intros k j g Hk Hg.
    destruct (nth_error_lt gen' k) as [g' Hg']; [rewrite (ca_gen_len _ _ _ _ _ _ _ _ _ CAR); eapply nth_error_some_lt; eauto|].
    destruct (ca_gen _ _ _ _ _ _ _ _ _ CAR _ _ _ Hk Hg') as (x0 & a & g2 & zz & n & Hx & Ha & Hg2 & _ & _ & _ & _ & _ & E1 & E2).
    assert (g2 = g) by congruence. subst g2. exists a, g'. do 2 (split; [auto|]). split; auto.
    apply same_curve_ok. intros c N1 N2. rewrite (E2 c N1). apply (TG _ _ _ Ha Hg'). exact N2. }
  assert (FULL : forall k, k < length (p_gen q) -> exists j g, nth_error sg k = Some j /\ nth_error (p_gen r) j = Some g).
  { intros k Hk. destruct (nth_error_lt sg k) as [j Hj]; [rewrite <- (if_gen_len _ _ _ _ _ _ IF); auto|].
    destruct (nth_error_lt gen' k) as [g' Hg']; [rewrite (ca_gen_len _ _ _ _ _ _ _ _ _ CAR); eapply nth_error_some_lt; eauto|].
    destruct (ca_gen _ _ _ _ _ _ _ _ _ CAR _ _ _ Hj Hg') as (x0 & a & g2 & zz & n & Hx & Ha & Hg2 & _). eauto. }
  pose proof (if_gen_len _ _ _ _ _ _ IF) as LEN.
  split; [|split].
  - intros n k Hn. pose proof (proj1 (as_ih _ _ _ _ _ _ _ _ _ _ _ _ _ _ _ _ SS k) (nth_error_In _ _ Hn)) as (a & Ha & CU).
    destruct (FULL k) as (j & g & Hj & Hg); [eapply nth_error_some_lt; eauto|]. exists j, g. split; auto. split; auto.
    destruct (ROW _ _ _ Hj Hg) as (a' & g' & Ha' & _ & (C1 & C2 & C3 & C4) & _). assert (a' = a) by congruence. subst a'.
    split; [apply C1; auto|]. rewrite <- LEN.
    destruct (says_h sin_ cos_ atan2 norm2 ign B _ _ _ _ _ o ih il ivl iang SS n k a Hn Ha) as (R1 & c & R2 & R3 & R4). split; auto.
    exists c. do 2 (split; [auto|]). intros x Lx. rewrite (R4 x Lx), C3. reflexivity.
  - intros n k Hn. pose proof (proj1 (as_il _ _ _ _ _ _ _ _ _ _ _ _ _ _ _ _ SS k) (nth_error_In _ _ Hn)) as (a & Ha & CU).
    destruct (FULL k) as (j & g & Hj & Hg); [eapply nth_error_some_lt; eauto|]. exists j, g. split; auto. split; auto.
    destruct (ROW _ _ _ Hj Hg) as (a' & g' & Ha' & _ & (C1 & C2 & C3 & C4) & _). assert (a' = a) by congruence. subst a'.
    split; [apply C2; auto|]. rewrite <- LEN.
    destruct (says_l sin_ cos_ atan2 norm2 ign B _ _ _ _ _ o ih il ivl iang SS n k a Hn Ha) as (R1 & c & R2 & R3 & R4). split; auto.
    exists c. do 2 (split; [auto|]). intros x Lx. rewrite (R4 x Lx), C4. reflexivity.
  - intros k j g Hk Hg. destruct (ROW _ _ _ Hk Hg) as (a & g' & Ha & Hg' & (C1 & C2 & C3 & C4) & E2).
    split. { rewrite C1, (as_ih _ _ _ _ _ _ _ _ _ _ _ _ _ _ _ _ SS). split; [eauto|].
             intros (a' & Ha' & X). assert (a' = a) by congruence. subst. auto. }
    split. { rewrite C2, (as_il _ _ _ _ _ _ _ _ _ _ _ _ _ _ _ _ SS). split; [eauto|].
             intros (a' & Ha' & X). assert (a' = a) by congruence. subst. auto. }
    pose proof (TG _ _ _ Ha Hg') as GA. unfold gen_after in GA. cbv zeta in *. destruct GA as (P1 & P2 & _ & _ & _ & N0 & N1).
    rewrite (E2 PG), (E2 QG), (E2 MU_PMIN), (E2 MU_PMAX), (E2 MU_QMIN), (E2 MU_QMAX) by discriminate.
    unfold ac_output in P1, P2. rewrite LEN in *.
    assert (length (p_bus q) + length (p_bus q) + (length sg + k) = length sg + (length (p_bus q) + length (p_bus q) + k)) as EQ by lia.
    rewrite EQ in P2, N0. split; auto. split; auto. split; [auto|]. intros EX.
    pose proof (N1 OKT EX k MU_PMAX MU_PMIN ltac:(left; auto)) as H1.
    pose proof (N1 OKT EX (length sg + k) MU_QMAX MU_QMIN ltac:(right; auto)) as H2. rewrite EQ in H2. auto.
Qed.

(** ** C87 *)

(** a successful run only comes with both kinds of edges or with none *)
Theorem C87_sides_partial : ok = true ->
  ((exists j g, gen_in_service p j /\ nth_error (p_gen r) j = Some g /\ cuts_upper g) <->
   (exists j g, gen_in_service p j /\ nth_error (p_gen r) j = Some g /\ cuts_lower g)).
Proof.
  intros OKT.
  destruct ac_parts as (q & gc & o & y & sb & sg & sl & sa & gen' & br & ih & il & ivl & iang
    & ST & Hf & Hok & IF & ONE & RI & CAR & GT & LT & SS & GIFF & TG & TL). specialize (GIFF OKT).
  assert (ROW : forall k j g, nth_error sg k = Some j -> nth_error (p_gen r) j = Some g -> exists a,
     nth_error (p_gen q) k = Some a /\ same_curve a g).
  { intros k j g Hk Hg.
    destruct (nth_error_lt gen' k) as [g' Hg']; [rewrite (ca_gen_len _ _ _ _ _ _ _ _ _ CAR); eapply nth_error_some_lt; eauto|].
    destruct (ca_gen _ _ _ _ _ _ _ _ _ CAR _ _ _ Hk Hg') as (x0 & a & g2 & zz & n & Hx & Ha & Hg2 & _ & _ & _ & _ & _ & E1 & E2).
    assert (g2 = g) by congruence. subst g2. exists a. split; auto.
    apply same_curve_ok. intros c N1 N2. rewrite (E2 c N1). apply (TG _ _ _ Ha Hg'). exact N2. }
  assert (FULL : forall k a, nth_error (p_gen q) k = Some a -> exists j g, nth_error sg k = Some j /\ gen_in_service p j /\
    nth_error (p_gen r) j = Some g /\ same_curve a g).
  { intros k a Ha. destruct (nth_error_lt sg k) as [j Hj].
    { rewrite <- (if_gen_len _ _ _ _ _ _ IF). eapply nth_error_some_lt; eauto. }
    destruct (nth_error_lt gen' k) as [g' Hg']; [rewrite (ca_gen_len _ _ _ _ _ _ _ _ _ CAR); eapply nth_error_some_lt; eauto|].
    destruct (ca_gen _ _ _ _ _ _ _ _ _ CAR _ _ _ Hj Hg') as (x0 & a2 & g2 & zz & n & Hx & Ha2 & Hg2 & _).
    destruct (ROW _ _ _ Hj Hg2) as (a3 & Ha3 & SC). assert (a3 = a) by congruence. subst a3.
    exists j, g2. split; auto. split; auto. apply gen_service_wide; auto. apply (if_sg _ _ _ _ _ _ IF). eapply nth_error_In; eauto. }
  assert (UP : (exists j g, gen_in_service p j /\ nth_error (p_gen r) j = Some g /\ cuts_upper g) <-> ih <> []).
  { split.
    - intros (j & g & Sj & Hg & CU) NIL. apply gen_service_wide in Sj; auto. apply (if_sg _ _ _ _ _ _ IF) in Sj.
      apply In_nth_error in Sj as (k & Hk). destruct (ROW _ _ _ Hk Hg) as (a & Ha & C1 & _).
      assert (In k ih) as I by (apply (as_ih _ _ _ _ _ _ _ _ _ _ _ _ _ _ _ _ SS); exists a; tauto). rewrite NIL in I. destruct I.
    - intros N. destruct ih as [|k ih'] eqn:EI; [congruence|].
      assert (In k (k :: ih')) as I by (left; auto). apply (as_ih _ _ _ _ _ _ _ _ _ _ _ _ _ _ _ _ SS) in I as (a & Ha & CU).
      destruct (FULL _ _ Ha) as (j & g & _ & Sj & Hg & C1 & _). exists j, g. tauto. }
  assert (LO : (exists j g, gen_in_service p j /\ nth_error (p_gen r) j = Some g /\ cuts_lower g) <-> il <> []).
  { split.
    - intros (j & g & Sj & Hg & CU) NIL. apply gen_service_wide in Sj; auto. apply (if_sg _ _ _ _ _ _ IF) in Sj.
      apply In_nth_error in Sj as (k & Hk). destruct (ROW _ _ _ Hk Hg) as (a & Ha & _ & C1 & _).
      assert (In k il) as I by (apply (as_il _ _ _ _ _ _ _ _ _ _ _ _ _ _ _ _ SS); exists a; tauto). rewrite NIL in I. destruct I.
    - intros N. destruct il as [|k il'] eqn:EI; [congruence|].
      assert (In k (k :: il')) as I by (left; auto). apply (as_il _ _ _ _ _ _ _ _ _ _ _ _ _ _ _ _ SS) in I as (a & Ha & CU).
      destruct (FULL _ _ Ha) as (j & g & _ & Sj & Hg & C1 & C2 & _). exists j, g. tauto. }
  rewrite UP, LO. destruct ih, il; intuition congruence.
Qed.

(** ** the reported operating point *)
Hypothesis HB : lt 0%K B.
(** points on the unit circle *)
Hypothesis UNIT : forall a, nrm2 (cis a) = 1%K.
(** limits do not contradict each other *)
Hypothesis VOLT : forall i b, bus_in_service p i -> nth_error (p_bus p) i = Some b -> le (cell b VMIN) (cell b VMAX).
Hypothesis OUT : forall j g, gen_in_service p j -> nth_error (p_gen p) j = Some g ->
  le (cell g PMIN) (cell g PMAX) /\ le (cell g QMIN) (cell g QMAX).
Hypothesis ANG : ign = false -> forall j g, branch_in_service p j -> nth_error (p_branch p) j = Some g ->
  cell g ANGMIN <> 0%K -> cell g ANGMAX <> 0%K -> le (degrees (cell g ANGMIN)) (degrees (cell g ANGMAX)).

Lemma le_div (a b : K) : le a b -> le (a / B)%K (b / B)%K.
Proof.
  intros LE. apply le_sub. apply le_sub in LE. assert (B <> 0%K) by (apply pos_nz; auto).
  assert ((b / B - a / B = (b - a) / B)%K) as -> by (field; auto). apply div_nn; auto.
Qed.
Lemma ac_ordered_in q sb sg sl sa : internal_form (opf_columns p) q sb sg sl sa ->
  ac_limits_ordered ign B (p_bus q) (p_gen q) (p_branch q) None [] [] [] [].
Proof.
  intros IF. split; [|split; [|split; [|split; [discriminate|]]]].
  - intros b I. apply In_nth_error in I as (k & Hk).
    destruct (nth_error_lt sb k) as [i Hi]; [rewrite <- (if_bus_len _ _ _ _ _ _ IF); eapply nth_error_some_lt; eauto|].
    assert (bus_in_service (opf_columns p) i) as Si by (apply (if_sb _ _ _ _ _ _ IF); eapply nth_error_In; eauto).
    pose proof Si as (x & Hx & _). pose proof (if_bus _ _ _ _ _ _ IF _ _ _ Hi Hx) as Hb.
    assert (b = upd x BUS_I (ofN k)) by congruence. subst b.
    assert (forall c, c <> BUS_I -> cell (upd x BUS_I (ofN k)) c = cell x c) as C.
    { intros c N. apply cell_nth_error, nth_error_upd_other. auto. }
    rewrite (C VMIN), (C VMAX) by discriminate. apply widen_inv in Hx as (x1 & Hx & ->). rewrite !wide_cell.
    apply (VOLT i x1); auto. apply bus_service_wide; auto.
  - intros g I. apply In_nth_error in I as (k & Hk).
    destruct (nth_error_lt sg k) as [j Hj]; [rewrite <- (if_gen_len _ _ _ _ _ _ IF); eapply nth_error_some_lt; eauto|].
    assert (gen_in_service (opf_columns p) j) as Sj by (apply (if_sg _ _ _ _ _ _ IF); eapply nth_error_In; eauto).
    destruct Sj as (x & s & Hx & Hs & Gs & z & i & Hz & Bz & Si).
    pose proof Si as Si'. apply (if_sb _ _ _ _ _ _ IF) in Si'. apply In_nth_error in Si' as (n & Hn).
    pose proof (if_gen _ _ _ _ _ _ IF _ _ _ _ _ Hj Hx Hz (ex_intro _ i (Logic.conj Hn Bz))) as Hg.
    assert (g = upd x GEN_BUS (ofN n)) by congruence. subst g.
    assert (forall c, c <> GEN_BUS -> cell (upd x GEN_BUS (ofN n)) c = cell x c) as C.
    { intros c N. apply cell_nth_error, nth_error_upd_other. auto. }
    rewrite (C PMIN), (C PMAX), (C QMIN), (C QMAX) by discriminate. apply widen_inv in Hx as (x1 & Hx & ->). rewrite !wide_cell.
    destruct (OUT j x1) as (LE1 & LE2); auto.
    { apply gen_service_wide; auto. apply (if_sg _ _ _ _ _ _ IF). eapply nth_error_In; eauto. }
    split; apply le_div; auto.
  - intros IG g I AL N1 N2. apply In_nth_error in I as (k & Hk).
    destruct (nth_error_lt sl k) as [j Hj]; [rewrite <- (if_br_len _ _ _ _ _ _ IF); eapply nth_error_some_lt; eauto|].
    assert (branch_in_service (opf_columns p) j) as Sj by (apply (if_sl _ _ _ _ _ _ IF); eapply nth_error_In; eauto).
    pose proof Sj as (x & Hx & Hs & (zf & jf & Hf & Bf & Sf) & (zt & jt & Ht & Bt & Stt)).
    apply (if_sb _ _ _ _ _ _ IF) in Sf. apply In_nth_error in Sf as (nf & Hnf).
    apply (if_sb _ _ _ _ _ _ IF) in Stt. apply In_nth_error in Stt as (nt & Hnt).
    pose proof (if_br _ _ _ _ _ _ IF _ _ _ _ _ _ _ Hj Hx Hf Ht (ex_intro _ jf (Logic.conj Hnf Bf)) (ex_intro _ jt (Logic.conj Hnt Bt))) as Hg.
    assert (g = upd (upd x F_BUS (ofN nf)) T_BUS (ofN nt)) by congruence. subst g.
    assert (forall c, c <> F_BUS -> c <> T_BUS -> cell (upd (upd x F_BUS (ofN nf)) T_BUS (ofN nt)) c = cell x c) as C.
    { intros c M1 M2. apply cell_nth_error. rewrite !nth_error_upd_other; auto. }
    rewrite (C ANGMIN), (C ANGMAX) in * by discriminate. apply widen_inv in Hx as (x1 & Hx & ->). rewrite !wide_cell in *.
    apply (ANG IG j x1); auto. apply br_service_wide; auto.
  - intros k Hk. cbn in Hk. lia.
Qed.

(** bounds the solver does not take for absent ones *)
Hypothesis MOD : forall q gc o y, ac_stages q gc o y -> Forall moderate (c_l o ++ c_u o ++ c_xmin o ++ c_xmax o).

(** on success: balance of active and reactive power at every bus, voltages, outputs, capability curves, power
    factors of loads, flows and angle differences within their limits, the branch equations, reference angles as
    given and generator set points, up to the tolerance of the solver: a multiple of its option feastol by one plus
    the largest variable or slack of its last iterate.  If the costs of generators in service are piecewise linear
    or polynomial, and two of them have no cost variable, the reported cost is that of the reported outputs *)
Theorem C85_solution : ok = true -> exists q gc o y st,
  ac_stages q gc o y /\
  ac_solved_by cis cabs solve ln lim B (p_bus q) (p_gen q) (p_branch q) o (no_user_gcosts (c_nx o)) opts y st /\
  forall xn zn, is_norm (y_x y) xn -> is_norm (t_z st) zn -> exists m, (m = xn \/ m = zn) /\
    let t := (o_feastol (ac_options opts) * (1 + m))%K in
    ac_report cis sin_ cos_ atan2 norm2 ign lim t B p r /\
    ((forall j, gen_in_service p j -> ac_costed (nth j gencost [])) ->
     (exists j1 j2, j1 <> j2 /\ gen_in_service p j1 /\ gen_in_service p j2 /\
        segmented (nth j1 gencost []) = false /\ segmented (nth j2 gencost []) = false) ->
     forall idx, lists_exactly idx (gen_in_service p) -> cost_of_report t gencost r idx f).
Proof.
  intros OKT.
  destruct ac_parts as (q & gc & o & y & sb & sg & sl & sa & gen' & br & ih & il & ivl & iang
    & ST & Hf & Hok & IF & ONE & RI & CAR & GT & LT & SS & GIFF & TG & TL).
  pose proof (MOD _ _ _ _ ST) as MO. pose proof (ac_ordered_in _ _ _ _ _ IF) as LO. pose proof ST as (S1 & S2 & S3 & S4).
  pose proof (C62_report cis cabs sin_ cos_ atan2 norm2 solve ln ign lim B (p_bus q) (p_gen q) (p_branch q) gc no_user o
    no_U_wf ONE S3 _ opts y S4) as REP. cbv zeta in REP. destruct REP as (L1 & L2 & L3 & A8 & _ & _ & _).
  destruct (C62_solution cis cabs sin_ cos_ atan2 norm2 solve ln ign lim B (p_bus q) (p_gen q) (p_branch q) gc no_user o
    no_U_wf ONE S3 _ opts y S4 LO MO ltac:(congruence)) as (st & SB & P7).
  exists q, gc, o, y, st. do 2 (split; [auto|]).
  intros xn zn X1 X2. destruct (P7 xn zn X1 X2) as (m & Hm & LIN & If & It & EC & FR & NET). exists m. split; auto. cbv zeta in *.
  set (t := (o_feastol (ac_options opts) * (1 + m))%K) in *. cbn [no_user u_A u_l u_u u_zl u_zu] in LIN.
  assert (HB' : forall k a b, nth_error (p_bus q) k = Some a -> nth_error (y_bus y) k = Some b ->
    cell b VM = nth (length (p_bus q) + k) (y_x y) 0%K /\ degrees (cell b VA) = nth k (y_x y) 0%K /\
    forall c, ~ In c ac_bc -> cell b c = cell a c).
  { intros k a b Ha Hb. destruct (A8 _ _ Ha) as (b' & Hb' & (_ & KC) & V & A & _). assert (b' = b) by congruence. subst b'. auto. }
  assert (HG' : forall k a g, nth_error (p_gen q) k = Some a -> nth_error gen' k = Some g ->
    cell g PG = (B * ac_output (length (p_bus q)) (y_x y) k)%K /\
    cell g QG = (B * ac_output (length (p_bus q)) (y_x y) (length (p_gen q) + k))%K /\
    cell g VG = nth (length (p_bus q) + bus_no a GEN_BUS) (y_x y) 0%K /\ forall c, ~ In c ac_gc -> cell g c = cell a c).
  { intros k a b Ha Hb. pose proof (TG _ _ _ Ha Hb) as GA. unfold gen_after in GA. cbv zeta in GA. tauto. }
  assert (HL' : forall k a g, nth_error (p_branch q) k = Some a -> nth_error br k = Some g ->
    Cx (cell g PF) (cell g QF) = (ofK B * (nth (bus_no a F_BUS) (ac_volt cis (length (p_bus q)) (y_x y)) 0 * conj (nth k If 0)))%K /\
    Cx (cell g PT) (cell g QT) = (ofK B * (nth (bus_no a T_BUS) (ac_volt cis (length (p_bus q)) (y_x y)) 0 * conj (nth k It 0)))%K /\
    forall c, ~ In c ac_lc -> cell g c = cell a c).
  { intros k a g Ha Hg. destruct (TL _ _ _ Ha Hg) as (b & Hb & (_ & KC1) & (_ & KC2) & _).
    destruct (FR _ _ Ha) as (b' & Hb' & F1 & F2). assert (b' = b) by congruence. subst b'.
    rewrite (KC2 PF), (KC2 QF), (KC2 PT), (KC2 QT) by (cbn; intuition discriminate). split; auto. split; auto.
    intros c N. unfold ac_lc in N. cbn [In] in N. rewrite KC2, KC1 by (cbn [In]; tauto). reflexivity. }
  split.
  - pose proof (ac_transfer cis sin_ cos_ atan2 norm2 (opf_columns p) q r sb sg sl sa (y_bus y) gen' br ign lim B t (y_x y) gc If It
      IF CAR GT LT HB' HG' HL' EC HB UNIT LIN NET) as R.
    assert (BO : forall (l : list K) c b, bus_of (opf_columns p) r l c b -> bus_of p r l c b).
    { intros l c b (z & i & Q1 & Q2 & Q3). exists z, i. rewrite bus_at_wide in Q2 by auto. auto. }
    destruct R as [D1 D2 D3 D4 D5 D6 D7 D8 D9]. constructor.
    + intros i b z Si Bi Hb. apply (D1 i b z); auto; [apply bus_service_wide|apply bus_at_wide]; auto.
    + intros i b z Si Bi Hb. apply (D2 i b z); auto; [apply bus_service_wide|apply bus_at_wide]; auto.
    + intros i b Si Hb. apply (D3 i b); auto. apply bus_service_wide; auto.
    + intros i b b' Si Hb Hb' TY. rewrite <- (wide_cell (MU_VMIN + 1) b VA).
      apply (D4 i (RunOpfB.wide (MU_VMIN + 1) b) b'); auto.
      * apply bus_service_wide; auto.
      * apply (widen_some (MU_VMIN + 1)). auto.
      * rewrite wide_cell. auto.
    + intros j g Sj Hg. apply (D5 j g); auto. apply gen_service_wide; auto.
    + intros j g Sj Hg. apply (D6 j g); auto. apply gen_service_wide; auto.
    + intros j g Sj Hg. apply (D7 j g); auto. apply gen_service_wide; auto.
    + intros j g Sj Hg. apply gen_service_wide in Sj; auto. destruct (D8 j g Sj Hg) as (b & Hb & V). exists b. auto.
    + intros j g Sj Hg. apply br_service_wide in Sj; auto.
      destruct (D9 j g Sj Hg) as (bf & bt & cf & ct & Q1 & Q2 & Q3). exists bf, bt, cf, ct. split; auto.
  - intros COV TWO idx (NDi & Ii).
    assert (HGP : forall k a g, nth_error (p_gen q) k = Some a -> nth_error gen' k = Some g ->
      cell g PG = (B * ac_output (length (p_bus q)) (y_x y) k)%K) by (intros k a g Ha Hg; apply (HG' _ _ _ Ha Hg)).
    assert (COV' : forall j, gen_in_service (opf_columns p) j -> ac_costed (nth j gencost [])).
    { intros j Sj. apply COV. apply gen_service_wide; auto. }
    pose proof (as_gc _ _ _ _ _ _ _ _ _ _ _ _ _ _ _ _ SS) as GCC.
    destruct (C62_cost cis cabs sin_ cos_ atan2 norm2 solve ln ign lim B (p_bus q) (p_gen q) (p_branch q) gc no_user o
      no_U_wf ONE S3 _ opts y S4 LO) as (LX & CO).
    pose proof (ac_nx_eq _ _ _ _ _ _ _ _ _ _ _ o ih il ivl iang SS) as NX.
    pose proof (as_ny _ _ _ _ _ _ _ _ _ _ _ _ _ _ _ _ SS) as NY.
    destruct (shape_in (opf_columns p) q sb sg sl sa B (y_x y) gencost gc (c_gencost o) IF GCO S2 GCC ONE COV'
      (p_bus q) (p_gen q) (p_branch q) (c_ny o) eq_refl eq_refl) as (CS & LP).
    { rewrite LX, NX, NY. cbn [no_user u_A ac_user_vars]. lia. }
    { destruct TWO as (j1 & j2 & N & T1 & T2 & U). exists j1, j2. split; auto. split; [|split]; auto; apply gen_service_wide; auto. }
    rewrite LX in CS, LP.
    apply (ac_transfer_cost sin_ cos_ atan2 norm2 (opf_columns p) q r sb sg sl sa (y_bus y) gen' br ign B t (y_x y) gencost gc (c_gencost o)
      IF CAR HGP LIN GCO S2 GCC ONE COV' f idx (g_H (no_user_gcosts (c_nx o))) [] [] [] [] [] (g_N (no_user_gcosts (c_nx o))) eq_refl).
    + rewrite Hf, (CO CS LP (or_introl eq_refl)). unfold cost_of. cbn [a_cp a_base a_bus a_gen a_ny a_gencost]. rewrite NY. reflexivity.
    + split; auto. intros i. rewrite Ii. symmetry. apply gen_service_wide; auto.
Qed.

(** such norms exist *)
Theorem C85_norms (v : list K) : exists n, is_norm v n.
Proof. apply norm_exists. Qed.
End Theorems.

(** ** Examples *)

(** buses 20 (reference), 5 (isolated), 7 with a load of 50 MW and 10 MVAr; generators at 7, at 20 and an idle one at
    20; a line with limits on flow and angle, one to the isolated bus; no columns for results yet *)
Definition ab n t pd qd : list Qc := zs [n; t; pd; qd; 0; 0; 1; 1; 0; 1; 1]%Z ++ [qq 11 10; qq 9 10].
Definition ag n st pmax (curve : list Z) : list Qc := zs ([n; 0; 0; 50; -50; 1; 100; st; pmax; 0] ++ curve ++ [0; 0; 0; 0; 0])%Z.
Definition al f t : list Qc := zs [f; t; 0]%Z ++ qq 1 2 :: zs [0; 80; 0; 0; 0; 0; 1; 0; 30]%Z.
Definition agc : list (list Qc) := [zs [2; 0; 0; 2; 80; 0; 0]%Z; zs [2; 0; 0; 3; 1; 10; 7]%Z; zs [2; 0; 0; 2; 5; 6; 0]%Z].
Definition ap_with (c1 c2 : list Z) : ppc_of Qc :=
  {| p_bus := [ab 20 3 0 0; ab 5 4 11 0; ab 7 1 50 10];
     p_gen := [ag 7 1 40 c1; ag 20 1 100 c2; ag 20 0 100 no_curve];
     p_branch := [al 7 5; al 20 7];
     p_gencost := Some agc; p_areas := None; p_A := None; p_N := None; p_order := None |}.
Definition ap := ap_with no_curve no_curve.
Definition ashow p :=
  match ac_opf argsort_stable acis acabs load_sin load_cos load_atan2 fifty solveQ un false y_p LimS (zc 100) p with
  | Ok (r, f, ok) => (ok, mil f, map (fun b => (mil (cell b VM), mil (cell b VA), mil (cell b LAM_P))) (p_bus r),
      map (fun g => (mil (cell g PG), mil (cell g QG), mil (cell g VG), mil (cell g MU_PMAX), mil (cell g MU_PMIN), mil (cell g MU_QMAX))) (p_gen r),
      map (fun b => (mil (cell b PF), mil (cell b PT), mil (cell b MU_ANGMAX))) (p_branch r))
  | Err _ => (false, 0%Z, [], [], [])
  end.
Lemma ashow_ok p x : ashow p = (true, fst (fst (fst x)), snd (fst (fst x)), snd (fst x), snd x) ->
  match ac_opf argsort_stable acis acabs load_sin load_cos load_atan2 fifty solveQ un false y_p LimS (zc 100) p with Ok (_, _, ok) => ok | Err _ => false end = true.
Proof. unfold ashow. destruct (ac_opf argsort_stable acis acabs load_sin load_cos load_atan2 fifty solveQ un false y_p LimS (zc 100) p) as [((r, f), ok)|]; congruence. Qed.
(** the two generators in service share the load at the reported cost of 80 P1 + P2^2 + 10 P2 + 7; results of the idle
    equipment are zero *)
Example C85_example : ashow ap =
  (true, 3172573, [(1006, 0, -29052); (1000, 0, 0); (993, -4366, 109525)],
   [(34762, 7575, 993, 194762, 165237, 157575); (15237, 2424, 1006, 115237, 184762, 152424); (0, 0, 1000, 0, 0, 0)],
   [(0, 0, 0); (15214, -15215, 270977)])%Z.
Proof. vm_compute. reflexivity. Qed.
(** with a capability curve at bus 7 at most one multiplier of each pair is left *)
Example C86_example : ashow (ap_with [0; 30; -40; 40; 0; 0]%Z no_curve) =
  (true, 2854582, [(1007, 0, 84078); (1000, 0, 0); (992, -12468, 342856)],
   [(6480, 6967, 992, 262856, 0, 18952); (43519, 3032, 1007, 0, 12960, 6064); (0, 0, 1000, 0, 0, 0)],
   [(0, 0, 0); (43007, -43008, 295658)])%Z.
Proof. vm_compute. reflexivity. Qed.

Ltac arow := repeat match goal with
  | H : nth_error ?l ?i = Some _ |- _ => is_var i; destruct i; cbn [nth_error ap ap_with p_bus p_gen p_branch] in H; try discriminate H
  end.
Ltac asub := repeat match goal with
  | H : Some ?x = Some ?r |- _ => is_var r; assert (r = x) by congruence; clear H; subst r end.
Lemma some_zq a b : Some (ofZ a : Qc) = Some (ofZ b) -> a = b.
Proof. intros H. apply (@ofZ_some Qc _) in H. exact H. Qed.
Lemma ap_wf c1 c2 : length c1 = 6 -> length c2 = 6 -> wf_case (ap_with c1 c2).
Proof.
  intros L1 L2. constructor; try discriminate.
  - exists 13; split; [lia|]. repeat constructor.
  - exists 21; split; [lia|]. cbn [ap_with p_gen]. repeat constructor; unfold ag, zs; rewrite map_length, !app_length; cbn [length]; lia.
  - exists 13; split; [lia|]. repeat constructor.
  - intros i r H. arow; asub; eexists; (split; [|reflexivity]); lia.
  - intros z i j (r & H & Hc) (r' & H' & Hc'). cbn [ap_with p_bus] in H, H'.
    arow; auto; exfalso; asub; unfold ab, BUS_I in Hc, Hc'; cbn [nth_error zs map app] in Hc, Hc';
      apply some_zq in Hc; apply some_zq in Hc'; lia.
  - intros i r H. arow; asub; eexists; (split; [|reflexivity]); lia.
  - exists 0. eexists. split; [reflexivity|]. intros C. cbn [nth_error zs map app ab BUS_TYPE] in C. apply some_zq in C; lia.
  - intros r Hr. repeat (destruct Hr as [<-|Hr]); [..|destruct Hr];
      (eexists; split; [reflexivity|]);
      first [exists 0; eexists; split; reflexivity|exists 1; eexists; split; reflexivity|exists 2; eexists; split; reflexivity].
  - intros r Hr. repeat (destruct Hr as [<-|Hr]); [..|destruct Hr]; split;
      (eexists; split; [reflexivity|]);
      first [exists 0; eexists; split; reflexivity|exists 1; eexists; split; reflexivity|exists 2; eexists; split; reflexivity].
  - intros r Hr. repeat (destruct Hr as [<-|Hr]); [..|destruct Hr]; (left; reflexivity) || (right; reflexivity).
  - intros g Hg. assert (g = agc) by (cbn in Hg; congruence). subst g. cbn. lia.
Qed.

Definition amodb (e : ext Qc) : bool := match e with EFin a => fltb (fabs a) huge | _ => true end.
Definition amod : bool :=
  match ext2int argsort_stable (opf_columns ap) with
  | Ok q => match p_gencost q with
            | Some gc => match ac_setup load_sin load_cos load_atan2 fifty false (zc 100) (p_bus q) (p_gen q) (p_branch q) gc no_user with
                         | Ok o => forallb amodb (c_l o ++ c_u o ++ c_xmin o ++ c_xmax o) | Err _ => true end
            | None => true end
  | Err _ => true end.
Lemma ap_moderate q gc o y :
  ac_stages argsort_stable acis acabs load_sin load_cos load_atan2 fifty solveQ un false y_p LimS (zc 100) ap q gc o y ->
  Forall moderate (c_l o ++ c_u o ++ c_xmin o ++ c_xmax o).
Proof.
  intros (H1 & H2 & H3 & _). assert (amod = true) as C by (vm_compute; reflexivity).
  unfold amod in C. rewrite H1, H2, H3 in C. rewrite forallb_forall in C. apply Forall_forall.
  intros [a| |] Ha; cbn; auto. exact (C _ Ha).
Qed.
Section Circle.
Context {K : Type} {F : Fld K}.
Add Field KC : (@f_ok K F).
Lemma circle_point (c a : K) : c = ((1 + 1) * (1 + 1))%K -> lt 0%K c ->
  nrm2 (Cx ((1 - a * a / c) / (1 + a * a / c))%K (a / (1 + a * a / c))%K) = 1%K.
Proof.
  intros E H. assert ((1 + a * a / c)%K <> 0%K) as N.
  { apply pos_nz, add_pos_nn; [apply lt_0_1|]. apply div_nn; auto. apply sq_nn. }
  pose proof (pos_nz _ H) as C. assert ((c + a * a)%K <> 0%K) as M.
  { intros Z. apply N. assert ((1 + a * a / c = (c + a * a) / c)%K) as -> by (field; auto). rewrite Z. field. auto. }
  unfold nrm2. cbn [re im].
  assert (((1 - a * a / c) / (1 + a * a / c) * ((1 - a * a / c) / (1 + a * a / c)) + a / (1 + a * a / c) * (a / (1 + a * a / c))
           = 1 + a * a * c * (c - (1 + 1) * (1 + 1)) / ((c + a * a) * (c + a * a)))%K) as -> by (field; auto).
  assert ((c - (1 + 1) * (1 + 1) = 0)%K) as -> by (rewrite E; ring). field. auto.
Qed.
End Circle.
Lemma acis_unit a : nrm2 (acis a) = 1%K.
Proof. exact (@circle_point Qc _ (zc 4) a ltac:(apply Qc_is_canon; reflexivity) eq_refl). Qed.

Lemma ap_on c1 c2 j : gen_in_service (ap_with c1 c2) j <-> j = 0 \/ j = 1.
Proof.
  split.
  - intros (x & s & Hx & Hs & Gs & _). arow; auto. cbn [ap_with p_gen nth_error] in Hx. asub. exfalso.
    cbn [nth_error ag zs map app GEN_STATUS] in Hs. assert (s = zc 0) by congruence. subst s. vm_compute in Gs. discriminate.
  - intros [-> | ->].
    + exists (ag 7 1 40 c1), (zc 1). split; [reflexivity|]. split; [reflexivity|]. split; [vm_compute; reflexivity|].
      exists 7%Z, 2. split; [reflexivity|]. split; [eexists; split; reflexivity|]. eexists. split; [reflexivity|].
      intros C. cbn [nth_error zs map app ab BUS_TYPE] in C. apply some_zq in C; lia.
    + exists (ag 20 1 100 c2), (zc 1). split; [reflexivity|]. split; [reflexivity|]. split; [vm_compute; reflexivity|].
      exists 20%Z, 0. split; [reflexivity|]. split; [eexists; split; reflexivity|]. eexists. split; [reflexivity|].
      intros C. cbn [nth_error zs map app ab BUS_TYPE] in C. apply some_zq in C; lia.
Qed.

(** all hypotheses hold for this case, so the report is as stated *)
Lemma ap_solution r f :
  ac_opf argsort_stable acis acabs load_sin load_cos load_atan2 fifty solveQ un false y_p LimS (zc 100) ap = Ok (r, f, true) ->
  exists t, ac_report acis load_sin load_cos load_atan2 fifty false LimS t (zc 100) ap r /\ cost_of_report t agc r [0; 1] f.
Proof.
  intros RUN.
  assert (H1 : in_ext_state ap) by exact I.
  assert (H2 : lt 0%K (zc 100)) by (vm_compute; reflexivity).
  assert (H3 : forall i b, bus_in_service ap i -> nth_error (p_bus ap) i = Some b -> le (cell b VMIN) (cell b VMAX)).
  { intros i b _ Hb. arow; asub; vm_compute; reflexivity. }
  assert (H4 : forall j g, gen_in_service ap j -> nth_error (p_gen ap) j = Some g ->
    le (cell g PMIN) (cell g PMAX) /\ le (cell g QMIN) (cell g QMAX)).
  { intros j g _ Hg. arow; asub; split; vm_compute; reflexivity. }
  assert (H5 : false = false -> forall j g, branch_in_service ap j -> nth_error (p_branch ap) j = Some g ->
    cell g ANGMIN <> 0%K -> cell g ANGMAX <> 0%K -> le (degrees (cell g ANGMIN)) (degrees (cell g ANGMAX))).
  { intros _ j g _ Hg N. exfalso. apply N. arow; asub; apply Qc_is_canon; reflexivity. }
  assert (HW : wf_case ap) by (apply ap_wf; reflexivity).
  pose proof (C85_solution argsort_stable argsort_stable_spec acis acabs load_sin load_cos load_atan2 fifty solveQ un false y_p LimS
    (zc 100) ap r f true HW H1 RUN agc eq_refl eq_refl H2 acis_unit H3 H4 H5 ap_moderate eq_refl) as X. clear RUN.
  destruct X as (q & gc & o & y & st & _ & _ & H).
  destruct (C85_norms (y_x y)) as (xn & X). destruct (C85_norms (t_z st)) as (zn & Zn).
  destruct (H xn zn X Zn) as (m & _ & G1 & G2). eexists. split; [exact G1|]. apply G2.
  - intros j Sj. apply ap_on in Sj. right.
    destruct Sj as [-> | ->]; (split; [vm_compute; reflexivity|]); [exists 2|exists 3];
      (split; [lia|split; [reflexivity|unfold agc; cbn; unfold COST; lia]]).
  - exists 0, 1. split; [discriminate|]. split; [apply ap_on; auto|]. split; [apply ap_on; auto|]. split; vm_compute; reflexivity.
  - split; [repeat constructor; cbn; intuition discriminate|]. intros j. unfold ap. rewrite ap_on. cbn. intuition.
Qed.
Example C85_example_solution : exists r f t,
  ac_opf argsort_stable acis acabs load_sin load_cos load_atan2 fifty solveQ un false y_p LimS (zc 100) ap = Ok (r, f, true) /\
  ac_report acis load_sin load_cos load_atan2 fifty false LimS t (zc 100) ap r /\ cost_of_report t agc r [0; 1] f.
Proof.
  pose proof (ashow_ok _ (_, _, _, _) C85_example) as C.
  destruct (ac_opf argsort_stable acis acabs load_sin load_cos load_atan2 fifty solveQ un false y_p LimS (zc 100) ap)
    as [((r, f), ok)|e] eqn:RUN; [|discriminate].
  subst ok. destruct (ap_solution r f RUN) as (t & H). exists r, f, t. split; [reflexivity|exact H].
Qed.

(** ** C87 *)

(** the solver converges, but the run raises an IndexError: the curve cuts only the upper corner *)
Definition one_sided : list Z := [0; 30; -50; 40; -50; 0]%Z.
Definition solver_ok (p : ppc_of Qc) : bool :=
  match ext2int argsort_stable (opf_columns p) with
  | Ok q => match p_gencost q with
            | Some gc => match ac_setup load_sin load_cos load_atan2 fifty false (zc 100) (p_bus q) (p_gen q) (p_branch q) gc no_user with
                         | Ok o => match pipsopf acis acabs solveQ un y_p LimS (zc 100) (p_bus q) (p_gen q) (p_branch q) o
                                           (no_user_gcosts (c_nx o)) with
                                   | Ok y => y_success y && match edge_mults (zc 100) (c_npqh o) (c_npql o) (m_mu_l (y_lmbda y)) (m_mu_u (y_lmbda y))
                                                                    (apq_data fifty (p_gen q)) (y_bus y) (y_gen y) with
                                                            | Err IndexError => true | _ => false end
                                   | Err _ => false end
                         | Err _ => false end
            | None => false end
  | Err _ => false end.
Theorem C87_one_sided_refuted : exists (p : ppc_of Qc) q gc o y,
  wf_case p /\ in_ext_state p /\ length agc = length (p_gen p) /\ p_gencost p = Some agc /\
  ac_stages argsort_stable acis acabs load_sin load_cos load_atan2 fifty solveQ un false y_p LimS (zc 100) p q gc o y /\
  y_success y = true /\
  ac_opf argsort_stable acis acabs load_sin load_cos load_atan2 fifty solveQ un false y_p LimS (zc 100) p = Err IndexError.
Proof.
  exists (ap_with one_sided no_curve). assert (solver_ok (ap_with one_sided no_curve) = true) as C by (vm_compute; reflexivity).
  assert (p_A (ap_with one_sided no_curve) = None /\ p_N (ap_with one_sided no_curve) = None) as (HA & HN) by auto.
  assert (wf_case (ap_with one_sided no_curve)) as HW by (apply ap_wf; reflexivity).
  assert (p_gencost (ap_with one_sided no_curve) = Some agc) as HG by reflexivity.
  assert (length agc = length (p_gen (ap_with one_sided no_curve))) as HL by reflexivity.
  assert (in_ext_state (ap_with one_sided no_curve)) as HE by exact I.
  generalize dependent (ap_with one_sided no_curve). intros p C HA HN HW HG HL HE. unfold solver_ok in C.
  destruct (ext2int argsort_stable (opf_columns p)) as [q|] eqn:E1; [|discriminate].
  destruct (p_gencost q) as [gc|] eqn:E2; [|discriminate].
  destruct (ac_setup _ _ _ _ _ _ _ _ _ _ _) as [o|] eqn:E3; [|discriminate].
  destruct (pipsopf _ _ _ _ _ _ _ _ _ _ _ _) as [y|] eqn:E4; [|discriminate].
  apply andb_prop in C as (C1 & C2). destruct (edge_mults _ _ _ _ _ _ _ _) as [|e] eqn:E5 in C2; [discriminate|].
  destruct e; try discriminate.
  exists q, gc, o, y. do 4 (split; [assumption|]). split; [split; [assumption|]; auto|]. split; [assumption|].
  unfold ac_opf. rewrite HA, HN. cbn [guard bind]. rewrite E1. cbn [bind]. rewrite E2. cbn [of_option bind].
  rewrite E3. cbn [bind]. rewrite E4. cbn [bind]. cbv zeta. rewrite C1, E5. reflexivity.
Qed.
(** with edges on both sides the run delivers *)
Example C87_example : match ac_opf argsort_stable acis acabs load_sin load_cos load_atan2 fifty solveQ un false y_p LimS (zc 100) (ap_with [0; 30; -40; 40; 0; 0]%Z no_curve) with Ok (_, _, ok) => ok | Err _ => false end = true.
Proof. exact (ashow_ok _ (_, _, _, _) C86_example). Qed.

Print Assumptions C85_tables.
Print Assumptions C85_multipliers.
Print Assumptions C85_solution.
Print Assumptions C85_norms.
Print Assumptions C86_prices.
Print Assumptions C87_sides_partial.
Print Assumptions C87_one_sided_refuted.
