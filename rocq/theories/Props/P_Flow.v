(** Property C109: a DC power flow run finds the solution of the power flow equations of the case, and there is no other. *)
From Coq Require Import Permutation Lia.
From Verif Require Import Lib.ListFacts Lib.QcFacts Model.RunPf Spec.RunSpec Spec.FlowSpec Proofs.SparseFacts Proofs.OrdFacts
  Proofs.PfsolnA Proofs.TableEdit Proofs.NetworkA Proofs.NetworkE Proofs.FldFacts Proofs.Ext2intA Proofs.Ext2intB Proofs.Ext2intC Proofs.Ext2intD Proofs.RunPfA Proofs.RunPfB Proofs.RunOpfA Proofs.FlowA Proofs.RunOpfB Proofs.NetworkD
  Lib.GaussQ Model.Cases Proofs.CasesA Proofs.CasesTrees Proofs.CasesB Props.P_Network Props.P_Ybus Props.P_AcPf Props.P_RunPf.
Local Open Scope nat_scope.

Section Theorems.
Context {K : Type} {F : Fld K}.
Add Field KF : (@f_ok K F).
Variable argsort : list Z -> list nat.
Variables (cis : K -> cpx K) (cabs cang : cpx K -> K).
Variables (solve : list (list K) -> list K -> result (list K))
          (splu : list (list K) -> result (list K -> result (list K))).
Hypothesis Has : argsort_spec argsort.
Variables (B : K) (p : ppc_of K) (gens brs : list nat).
Hypothesis W : wf_case p.
Hypothesis GENS : lists_exactly gens (gen_in_service p).
Hypothesis BRS : lists_exactly brs (branch_in_service p).

(** two sets of angles that solve the equations agree at every bus that is not isolated *)
Theorem C109_unique th th' : B <> 0%K -> reactive p -> all_fed p ->
  power_flow B p gens brs th -> power_flow B p gens brs th' ->
  forall i z, bus_in_service p i -> bus_at p z i -> th z = th' z.
Proof. intros HB POS FED. exact (unique B p gens brs W HB BRS POS FED th th'). Qed.

Section Run.
Hypothesis E : in_ext_state p.
Hypothesis SE : solver_exact solve.
Variables (r : ppc_of K) (ok : bool).
Hypothesis run : runpf argsort cis cabs cang solve splu DC B p = Ok (r, ok).
Hypothesis REF : references_served p.

(** [th] holds the reported angles *)
Definition reported (th : Z -> K) : Prop := forall i b z, bus_in_service p i -> bus_at p z i ->
  nth_error (p_bus r) i = Some b -> th z = degrees (cell b VA).

Notation p1 := (widened p).

Lemma run_parts : exists q sb sg sl sa bus' gen' branch',
  NetSpec.types_ok (p_bus q) /\ runpf_dc solve B (p_bus q) (p_gen q) (p_branch q) = Ok (bus', gen', branch') /\
  internal_form p1 q sb sg sl sa /\ carried p1 q bus' gen' branch' r sb sg sl.
Proof.
  pose proof run as R. unfold runpf in R. fold (widened p) in R.
  apply bind_ok in R as (q & Hq & R). apply bind_ok in R as ([[[bus' gen'] branch'] c0] & HS & R).
  apply bind_ok in R as (r1 & Hr & R). apply bind_ok in R as (o & Ho & R).
  apply bind_ok in R as (gen2 & HG & R). apply bind_ok in R as (br2 & HL & R). injection R as <- <-.
  assert (E' : in_ext_state p1) by exact E.
  assert (Ho' : p_order r1 = Some o) by (destruct (p_order r1); [cbn in Ho; congruence|discriminate]).
  assert (TY : NetSpec.types_ok (p_bus q)).
  { pose proof Hq as Hq'. rewrite ext2int_unfold in Hq' by auto.
    destruct (ext2int_conv argsort Has p1 (wf_widened _ W)) as (q' & o0 & i2eZ & sb & gon & ge & sg & sl & sa & Hq2 & C).
    assert (q' = q) by congruence. subst q'. exact (internal_types p W _ _ _ _ _ (cv_form _ _ _ _ _ _ _ _ _ _ _ C)). }
  cbn [solve_internal] in HS. apply bind_ok in HS as ([[b g] l] & HS & Eq). injection Eq as -> -> -> <-.
  destruct (dc_keeps _ _ _ _ _ _ _ _ SE TY HS) as (KB & KG & KL).
  destruct (through_conv argsort Has [VM; VA] [PG; QG] [PG; QG] [PF; QF; PT; QT] [PF; QF; PT; QT]) with (p := p1) (q := q) (r1 := r1) (o := o)
    (bus' := bus') (gen' := gen') (branch' := branch') (gen2 := gen2) (br2 := br2)
    as (sb & sg & sl & sa & _ & IF & _ & CAR & _); auto.
  all: try (split; [|]); try (intros I; cbn in I; repeat destruct I as [I|I]; try discriminate; contradiction).
  { apply wf_widened; auto. }
  exists q, sb, sg, sl, sa, bus', gen', branch'. auto.
Qed.

(** the reported angles solve the equations, and the reported flows are those of the angles *)
Theorem C109_solves th : reported th ->
  power_flow B p gens brs th /\
  forall j l a, branch_in_service p j -> nth_error (p_branch p) j = Some l -> nth_error (p_branch r) j = Some a ->
    cell a PF = line_flow B th l /\ cell a PT = (- line_flow B th l)%K.
Proof.
  intros RTH. destruct run_parts as (q & sb & sg & sl & sa & bus' & gen' & branch' & TY & HD & IF & CAR).
  destruct (runpf_dc_ok _ _ _ _ _ _ _ _ SE TY HD) as (Va0 & ref & pv & pq & rg & HB & _).
  destruct (C17_buses _ _ _ _ _ _ _ _ _ _ _ SE TY HD HB) as (LB & CB).
  destruct (C17_branches _ _ _ _ _ _ _ _ SE TY HD) as (LL & CL). cbv zeta in CL.
  set (Va := map (fun b => cell b VA * (fpi / fofZ 180))%K bus') in CL.
  destruct (C17_generators _ _ _ _ _ _ _ _ _ _ _ SE TY HD HB) as (LG & CG).
  destruct (if_sb _ _ _ _ _ _ IF) as ((Nsb & Isb) & _). destruct (if_sg _ _ _ _ _ _ IF) as (Nsg & Isg).
  destruct (if_sl _ _ _ _ _ _ IF) as ((Nsl & Isl) & _).
  assert (N180 : (fofZ 180 : K) <> 0%K) by (apply fofZ_nz; lia).
  (* angles *)
  assert (ANG : forall n z, stands_for p1 sb n z -> nth n Va 0%K = th z).
  { intros n z (i & Hn & Bi). assert (S : bus_in_service p i) by (apply Isb; eapply nth_error_In; eauto).
    destruct (nth_error_lt bus' n) as [b' Hb']; [rewrite (ca_bus_len _ _ _ _ _ _ _ _ _ CAR); eapply nth_error_some_lt; eauto|].
    destruct (ca_bus _ _ _ _ _ _ _ _ _ CAR _ _ _ Hn Hb') as (x & y & a & Hx & Hy & Ha & C1 & C2).
    rewrite (RTH i a z S Bi Ha), (C2 VA) by discriminate. unfold Va, degrees.
    erewrite nth_error_nth by (rewrite nth_error_map, Hb'; reflexivity). field. exact N180. }
  (* branches *)
  assert (FL : forall k j g, nth_error sl k = Some j -> nth_error branch' k = Some g -> exists l a, nth_error (p_branch p) j = Some l /\
     nth_error (p_branch r) j = Some a /\ cell g PF = line_flow B th l /\ cell g PT = (- line_flow B th l)%K /\
     cell a PF = cell g PF /\ cell a PT = cell g PT /\
     forall n i z, nth_error sb n = Some i -> bus_at p z i ->
       (names l F_BUS =? z)%Z = (bus_no g F_BUS =? n) /\ (names l T_BUS =? z)%Z = (bus_no g T_BUS =? n)).
  { intros k j g Hk Hg.
    destruct (ca_br _ _ _ _ _ _ _ _ _ CAR _ _ _ Hk Hg)
      as (x0 & y & a & zf & zt & nf & nt & Hx0 & Hy & Ha & Zf & Sf & Nf & Zt & Stt & Nt & Ef & Et & ON & E1 & E2).
    pose proof (cell_ofZ _ _ _ Zf) as Z1. pose proof (cell_ofZ _ _ _ Zt) as Z2. pose proof (nth_error_cell _ _ _ ON) as ON'.
    change (p_branch p1) with (map widen (p_branch p)) in Hx0. rewrite nth_error_map in Hx0.
    destruct (nth_error (p_branch p) j) as [l|] eqn:Hl; [|discriminate]. injection Hx0 as <-. rewrite widen_cell in Z1, Z2, ON'.
    destruct (CL _ _ _ Hy Hg) as (P1 & P2 & _ & _ & _ & CC).
    assert (P3 : cell g PF = line_flow B th l).
    { rewrite P1. unfold dc_flow, line_flow, across, degrees, tap_ratio, names.
      rewrite (ofN_no _ _ _ Nf), (ofN_no _ _ _ Nt), (ANG _ _ Sf), (ANG _ _ Stt), Z1, Z2.
      rewrite (E1 SHIFT), (E1 BR_X), (E1 TAP), (E1 BR_STATUS) by discriminate. rewrite !widen_cell, ON'.
      change (ofZ 1) with (fofZ 1 : K). rewrite fofZ_1.
      match goal with |- (1 * ?a / ?b * _)%K = _ => assert ((1 * a = a)%K) as -> by ring end.
      match goal with |- (?x * _)%K = (_ * ?y)%K => change y with x; ring end. }
    exists l, a. split; auto. split; auto. split; auto. split; [rewrite P2, P3; reflexivity|].
    split; [apply E2; discriminate|]. split; [apply E2; discriminate|].
    intros n i z Hn Bi. unfold names, bus_no. rewrite Z1, Z2, !CC by discriminate.
    change (Z.to_nat (ftrunc (cell y F_BUS))) with (bus_no y F_BUS). change (Z.to_nat (ftrunc (cell y T_BUS))) with (bus_no y T_BUS).
    rewrite (ofN_no _ _ _ Nf), (ofN_no _ _ _ Nt). split; eapply (ca_same _ _ _ _ _ _ _ _ _ CAR); eauto. }
  (* reference buses *)
  assert (RI : forall k i z, nth_error sb k = Some i -> bus_at p z i -> (In k ref <-> reference p z)).
  { assert (TYP : forall k i z, nth_error sb k = Some i -> bus_at p z i -> (has_type (p_bus q) k 3 <-> reference p z)).
    { intros k i z Hk Bi. destruct Bi as (b & Hb & Hz). assert (S : bus_in_service p i) by (apply Isb; eapply nth_error_In; eauto).
      pose proof (if_bus _ _ _ _ _ _ IF _ _ _ Hk Hb) as Hy. split.
      - intros (y & Hy' & T). rewrite Hy in Hy'. injection Hy' as <-. rewrite upd_cell_other in T by discriminate.
        exists i, b. split; auto. split; [exists b; auto|]. auto.
      - intros (i' & b' & S' & A' & Hb' & T). assert (i = i') by (eapply (wf_bus_distinct _ W); eauto; exists b; auto). subst i'.
        assert (b' = b) by congruence. subst b'. exists (upd b BUS_I (ofN k)). split; auto. rewrite upd_cell_other by discriminate. exact T. }
    assert (GEN : forall k i z, nth_error sb k = Some i -> bus_at p z i -> reference p z -> has_gen (p_gen q) k).
    { intros k i z Hk Bi R. destruct REF as (_ & RS). destruct (RS z R) as (g & j & Sj & Hg & Hz).
      destruct (In_nth_error sg j (proj2 (Isg j) Sj)) as (m & Hm).
      pose proof (if_gen _ _ _ _ _ _ IF m j g z k Hm Hg Hz ltac:(exists i; auto)) as Hy.
      destruct (nth_error_lt gen' m) as [g' Hg']; [rewrite (ca_gen_len _ _ _ _ _ _ _ _ _ CAR); eapply nth_error_some_lt; eauto|].
      destruct (ca_gen _ _ _ _ _ _ _ _ _ CAR _ _ _ Hm Hg') as (x2 & y2 & a2 & z2 & n2 & C1 & C2 & C3 & C4 & C5 & C6 & C7 & C8 & C9 & C10).
      assert (x2 = g) by (cbn in C1; congruence). subst x2. assert (y2 = upd g GEN_BUS (ofN k)) by congruence. subst y2.
      exists (upd g GEN_BUS (ofN k)). split; [eapply nth_error_In; eauto|]. split.
      - unfold in_service in *. rewrite (C9 GEN_STATUS) by discriminate. exact C8.
      - apply ofN_no. apply nth_upd_same. apply nth_error_some_lt in Hz. exact Hz. }
    destruct (C15_members _ _ _ _ _ HB) as (_ & [(_ & R1 & _)|(NO & _)]).
    - intros k i z Hk Bi. rewrite R1. rewrite (TYP k i z Hk Bi). split; [tauto|]. intros R. split; auto. eauto.
    - exfalso. apply NO. destruct REF as ((z & R) & _). pose proof R as (i & b & S & A & Hb & T).
      destruct (In_nth_error sb i (proj2 (Isb i) S)) as (k & Hk). exists k. split; [apply (TYP k i z); auto|eauto]. }
  split.
  - constructor.
    + intros i b z S A Hb NR. destruct (In_nth_error sb i (proj2 (Isb i) S)) as (k & Hk).
      destruct (nth_error_lt bus' k) as [b' Hb']; [rewrite (ca_bus_len _ _ _ _ _ _ _ _ _ CAR); eapply nth_error_some_lt; eauto|].
      destruct (ca_bus _ _ _ _ _ _ _ _ _ CAR _ _ _ Hk Hb') as (x & y & a & Hx & Hy & Ha & C1 & C2).
      assert (x = b) by (cbn in Hx; congruence). subst x.
      pose proof (C17_balance _ _ _ _ _ _ _ _ SE TY HD _ _ Hb') as BAL.
      destruct (CB _ _ _ Hy Hb') as (_ & _ & CB1 & _). rewrite (CB1 PD), (CB1 GS), (C1 PD), (C1 GS) in BAL by discriminate.
      assert (G : served p gens (fun g => cell g PG) z = gen_total (fun g => cell g PG) gen' k).
      { unfold served, gen_total. rewrite (lsum_perm _ _ sg).
        2: { destruct GENS as (NG & IG). apply NoDup_Permutation; auto. intros j. rewrite IG, Isg. reflexivity. }
        symmetry. apply lsum_pair; [apply (ca_gen_len _ _ _ _ _ _ _ _ _ CAR)|].
        intros m g' j Hg' Hm.
        destruct (ca_gen _ _ _ _ _ _ _ _ _ CAR _ _ _ Hm Hg') as (x2 & y2 & a2 & z2 & n2 & D1 & D2 & D3 & D4 & D5 & D6 & D7 & D8 & D9 & D10).
        cbn in D1. cbv zeta. rewrite (nth_error_nth _ _ _ D1), (cell_ofZ _ _ _ D4).
        rewrite (ca_same _ _ _ _ _ _ _ _ _ CAR k i z z2 n2 Hk A D5).
        destruct (CG _ _ _ D2 Hg') as ((pgv & UP) & CH).
        assert (SV : in_service y2 = true) by (unfold in_service in *; rewrite (D9 GEN_STATUS) by discriminate; exact D8).
        assert (in_service g' = true) as -> by (subst g'; unfold in_service in *; rewrite upd_cell_other by discriminate; exact SV).
        assert (bus_no g' GEN_BUS = n2) as ->.
        { subst g'. unfold bus_no. rewrite upd_cell_other by discriminate. apply (ofN_no y2), D6. }
        cbn [andb]. destruct (Nat.eqb_spec n2 k) as [->|]; [|reflexivity].
        destruct CH as [-> |(_ & IR & _)].
        - apply D9. discriminate.
        - exfalso. apply NR. rewrite (ofN_no _ _ _ D6) in IR. apply (RI k i z); auto. }
      assert (D : lsum (fun j => leaves B th z (nth j (p_branch p) [])) brs = drawn (fun g => cell g PF) (fun g => cell g PT) branch' k).
      { unfold drawn. rewrite (lsum_perm _ _ sl).
        2: { destruct BRS as (NG & IG). apply NoDup_Permutation; auto. intros j. rewrite IG, Isl. symmetry. apply branch_widened; auto. }
        symmetry. apply lsum_pair; [apply (ca_br_len _ _ _ _ _ _ _ _ _ CAR)|].
        intros m g j Hg Hm. destruct (FL _ _ _ Hm Hg) as (l & a' & Hl & _ & P1 & P2 & _ & _ & SAME).
        destruct (SAME k i z Hk A) as (S1 & S2). rewrite (nth_error_nth _ _ _ Hl). unfold leaves. rewrite S1, S2, P1, P2.
        destruct (bus_no g F_BUS =? k), (bus_no g T_BUS =? k); ring. }
      rewrite G, D, <- BAL. ring.
    + intros i b z S A Hb R. destruct (In_nth_error sb i (proj2 (Isb i) S)) as (k & Hk).
      destruct (nth_error_lt bus' k) as [b' Hb']; [rewrite (ca_bus_len _ _ _ _ _ _ _ _ _ CAR); eapply nth_error_some_lt; eauto|].
      destruct (ca_bus _ _ _ _ _ _ _ _ _ CAR _ _ _ Hk Hb') as (x & y & a & Hx & Hy & Ha & C1 & C2).
      assert (x = b) by (cbn in Hx; congruence). subst x.
      destruct (CB _ _ _ Hy Hb') as (_ & _ & _ & CR). specialize (CR (proj2 (RI k i z Hk A) R)).
      rewrite (RTH i a z S A Ha), (C2 VA), CR, upd_cell_other, (C1 VA) by discriminate. reflexivity.
  - intros j l a Sj Hl Ha. apply (branch_widened p j W) in Sj. destruct (In_nth_error sl j (proj2 (Isl j) Sj)) as (k & Hk).
    destruct (nth_error_lt branch' k) as [g Hg]; [rewrite (ca_br_len _ _ _ _ _ _ _ _ _ CAR); eapply nth_error_some_lt; eauto|].
    destruct (FL _ _ _ Hk Hg) as (l' & a' & Hl' & Ha' & P1 & P2 & P3 & P4 & _).
    assert (l' = l) by congruence. assert (a' = a) by congruence. subst. rewrite P3, P4. auto.
Qed.

Lemma reported_angles : exists th, reported th.
Proof.
  set (at_ := fun z => List.find (fun i => (names (nth i (p_bus p) []) BUS_I =? z)%Z) (seq 0 (length (p_bus p)))).
  set (th' := fun z => match at_ z with Some i => degrees (cell (nth i (p_bus r) []) VA) | None => 0%K end).
  exists th'.
  intros i b z S A Hb. assert (at_ z = Some i) as Q.
    { unfold at_. destruct A as (x & Hx & Hz).
      destruct (List.find _ _) as [i'|] eqn:Q.
      - apply find_some in Q as (I & Q). apply in_seq in I. destruct (nth_error_lt (p_bus p) i') as [x' Hx']; [lia|].
        rewrite (nth_error_nth _ _ _ Hx') in Q. apply Z.eqb_eq in Q. destruct (wf_bus_num _ W _ _ Hx') as (z' & _ & Hz').
        unfold names in Q. rewrite (cell_ofZ _ _ _ Hz') in Q. subst z'. f_equal.
        eapply (wf_bus_distinct _ W z); [exists x'|exists x]; auto.
      - pose proof (find_none _ _ Q i) as N. cbn beta in N. rewrite (nth_error_nth _ _ _ Hx) in N. unfold names in N.
        rewrite (cell_ofZ _ _ _ Hz), Z.eqb_refl in N. discriminate N. apply in_seq. apply nth_error_some_lt in Hx. lia. }
    unfold th'. rewrite Q, (nth_error_nth _ _ _ Hb). reflexivity.
Qed.

(** whatever angles solve the equations of a connected case, the run reports them, and their flows *)
Theorem C109_run th : B <> 0%K -> reactive p -> all_fed p -> power_flow B p gens brs th ->
  (forall i b z, bus_in_service p i -> bus_at p z i -> nth_error (p_bus r) i = Some b -> degrees (cell b VA) = th z) /\
  forall j l a, branch_in_service p j -> nth_error (p_branch p) j = Some l -> nth_error (p_branch r) j = Some a ->
    cell a PF = line_flow B th l /\ cell a PT = (- line_flow B th l)%K.
Proof.
  intros HB POS FED PF.
  destruct reported_angles as (th' & RTH).
  destruct (C109_solves th' RTH) as (PF' & FL).
  pose proof (C109_unique th' th HB POS FED PF' PF) as EQ.
  split.
  - intros i b z S A Hb. rewrite <- (RTH i b z S A Hb). eauto.
  - intros j l a Sj Hl Ha. destruct (FL j l a Sj Hl Ha) as (F1 & F2).
    assert (line_flow B th' l = line_flow B th l) as <-; [|auto].
    destruct (ends p j l Sj Hl _ (or_introl eq_refl)) as (i1 & S1 & A1). destruct (ends p j l Sj Hl _ (or_intror eq_refl)) as (i2 & S2 & A2).
    unfold line_flow, across. rewrite (EQ _ _ S1 A1), (EQ _ _ S2 A2). reflexivity.
Qed.
End Run.
End Theorems.

(** ** the bundled cases: all but case300, which has a branch with negative reactance *)
Definition firm : list bundle := removelast bundled.
Lemma firm_trees : map fst trees = firm.
Proof. reflexivity. Qed.
Lemma trees_ok : forallb (fun x => tables_ok (fst x) && flow_ok (fst x) (snd x)) trees = true.
Proof. vm_compute. reflexivity. Qed.

Theorem C109_bundled {K : Type} {F : Fld K} argsort cis cabs cang solve splu b gens brs r ok (th : Z -> K) :
  argsort_spec argsort -> solver_exact solve -> In b firm ->
  lists_exactly gens (gen_in_service (case_of b)) -> lists_exactly brs (branch_in_service (case_of b)) ->
  runpf argsort cis cabs cang solve splu DC (fofZ (b_base b)) (case_of b) = Ok (r, ok) ->
  power_flow (fofZ (b_base b)) (case_of b) gens brs th <->
  (forall i a z, bus_in_service (case_of b) i -> bus_at (case_of b) z i -> nth_error (p_bus r) i = Some a -> th z = degrees (cell a VA)).
Proof.
  intros Has SE I G L RUN. rewrite <- firm_trees in I. apply in_map_iff in I as ([b' t] & <- & I). cbn [fst] in *.
  pose proof (proj1 (forallb_forall _ _) trees_ok _ I) as Q. apply andb_true_iff in Q as (Q1 & Q2). cbn [fst snd] in Q1, Q2.
  pose proof (tables_wf b' Q1 : wf_case (case_of b' : ppc_of K)) as W.
  pose proof (flow_served b' t Q1 Q2 : references_served (case_of b' : ppc_of K)) as RS.
  assert (NZ : fofZ (b_base b') <> (0%K : K)).
  { apply fofZ_nz. assert (N : forallb (fun x => negb (b_base (fst x) =? 0)%Z) trees = true) by reflexivity.
    pose proof (proj1 (forallb_forall _ _) N _ I) as N'. apply negb_true_iff, Z.eqb_neq in N'. exact N'. }
  split.
  - intros PF i a z S A Ha. symmetry.
    refine (proj1 (C109_run argsort cis cabs cang solve splu Has (fofZ (b_base b')) (case_of b') gens brs W G L Logic.I SE r ok RUN RS th NZ _ _ PF) i a z S A Ha).
    + exact (flow_reactive b' t Q1 Q2).
    + exact (flow_fed b' t Q1 Q2).
  - intros R. exact (proj1 (C109_solves argsort cis cabs cang solve splu Has (fofZ (b_base b')) (case_of b') gens brs W G L Logic.I SE r ok RUN RS th R)).
Qed.

(** ** example: a bundled case with an exact solver *)
Definition gaussq (A : list (list Qc)) (b : list Qc) : list Qc :=
  map (fun r => nth (length A) r (Q2Qc 0)) (jordan (length A) 0 [] (map (fun p => fst p ++ [snd p]) (combine A b))).
Definition case4gs_dc := runpf argsort_stable cis_q (fun z => re z) (fun _ => zc 0) (checked gaussq)
  (fun A => Ok (checked gaussq A)) DC (zc 100) (case_of case4gs).
Example C109_example :
  match case4gs_dc with
  | Ok (r, true) => qc_eqb (total_at GEN_BUS (fun g => cell g PG) (p_gen r) 0) (zc 182)
      && negb (qc_eqb (cell (nth 1 (p_bus r) []) VA) (zc 0))
  | _ => false
  end = true.
Proof. vm_compute. reflexivity. Qed.

Ltac in_use i := exists i; split; [reflexivity|split; [eexists; split; reflexivity|]];
  eexists; split; [reflexivity|intros C; apply some_zc in C; vm_compute in C; discriminate C].
Example C109_lists : lists_exactly [0; 1] (gen_in_service (case_of case4gs : ppc_of Qc)) /\
  lists_exactly [0; 1; 2; 3] (branch_in_service (case_of case4gs : ppc_of Qc)).
Proof.
  split; (split; [repeat constructor; cbn; lia|]); intros i; split.
  - intros [<-|[<-|[]]].
    + eexists; exists (zc 1). split; [reflexivity|]. split; [reflexivity|]. split; [reflexivity|]. exists 3%Z. in_use 3.
    + eexists; exists (zc 1). split; [reflexivity|]. split; [reflexivity|]. split; [reflexivity|]. exists 0%Z. in_use 0.
  - intros (r & s & H & _). apply nth_error_some_lt in H. cbn in H. destruct i as [|[|i]]; cbn; try lia; auto.
  - intros [<-|[<-|[<-|[<-|[]]]]]; (eexists; split; [reflexivity|]; split; [reflexivity|]; split).
    all: first [exists 0%Z; in_use 0|exists 1%Z; in_use 1|exists 2%Z; in_use 2|exists 3%Z; in_use 3].
  - intros (r & H & _). apply nth_error_some_lt in H. cbn in H. destruct i as [|[|[|[|i]]]]; cbn; try lia; auto 6.
Qed.

Print Assumptions C109_unique.
Print Assumptions C109_solves.
Print Assumptions C109_run.
Print Assumptions C109_bundled.
