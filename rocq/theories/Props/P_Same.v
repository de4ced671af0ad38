(** Property C114: a DC power flow depends on the network in service only, not on how the case describes it. *)
From Coq Require Import Permutation Lia.
From Verif Require Import Lib.ListFacts Lib.QcFacts Model.RunPf Spec.RunSpec Spec.FlowSpec Spec.SameSpec Proofs.SparseFacts Proofs.OrdFacts
  Proofs.NetworkA Proofs.NetworkE Proofs.FldFacts Proofs.Ext2intA Proofs.Ext2intB Proofs.RunPfA Proofs.RunPfB Proofs.ReserveD Proofs.FlowA Proofs.SameA
  Lib.GaussQ Model.Cases Proofs.CasesA Proofs.CasesTrees Proofs.CasesB Props.P_Network Props.P_Ybus Props.P_AcPf Props.P_RunPf Props.P_Flow.
Local Open Scope nat_scope.

Section Theorems.
Context {K : Type} {F : Fld K}.
Add Field KF : (@f_ok K F).
Variables (cis : K -> cpx K) (cabs cang : cpx K -> K).
Variable splu : list (list K) -> result (list K -> result (list K)).
Variable B : K.
Hypothesis HB : B <> 0%K.

Lemma degrees_inj (a c : K) : degrees a = degrees c -> a = c.
Proof.
  intros H. unfold degrees in H. assert (N : (fofZ 180 : K) <> 0%K) by (apply fofZ_nz; lia). pose proof fpi_nz as NP.
  transitivity (a * fpi / fofZ 180 * (fofZ 180 / fpi))%K; [field; auto|]. rewrite H. field; auto.
Qed.

Section One.
Variables (argsort : list Z -> list nat) (solve : list (list K) -> list K -> result (list K)) (p r : ppc_of K) (ok : bool) (brs : list nat).
Hypothesis Has : argsort_spec argsort.
Hypothesis SE : solver_exact solve.
Hypothesis W : wf_case p.
Hypothesis E : in_ext_state p.
Hypothesis BRS : lists_exactly brs (branch_in_service p).
Hypothesis run : runpf argsort cis cabs cang solve splu DC B p = Ok (r, ok).
Variable th : Z -> K.
Hypothesis FL : forall j l a, branch_in_service p j -> nth_error (p_branch p) j = Some l -> nth_error (p_branch r) j = Some a ->
    cell a PF = line_flow B th l /\ cell a PT = (- line_flow B th l)%K.

(** generation at a bus from the angles *)
Lemma generation i b z : bus_in_service p i -> bus_at p z i -> nth_error (p_bus p) i = Some b ->
  total_at GEN_BUS (fun g => cell g PG) (p_gen r) z
  = (cell b PD + cell b GS + lsum (fun j => leaves B th z (nth j (p_branch p) [])) brs)%K.
Proof.
  intros I A Hb. destruct (C80_reported argsort cis cabs cang solve splu Has B p r ok W E SE run) as (_ & RP).
  destruct (rp_bus _ _ RP) as (_ & CB). destruct (CB _ _ Hb) as (b' & Hb' & _ & C).
  pose proof (C80_balance argsort cis cabs cang solve splu Has B p r ok W E SE run i b' z I A Hb') as Q.
  rewrite !C in Q by (cbn; intuition discriminate).
  assert (T : (total_at F_BUS (fun g => cell g PF) (p_branch r) z + total_at T_BUS (fun g => cell g PT) (p_branch r) z)%K
              = lsum (fun j => leaves B th z (nth j (p_branch p) [])) brs).
  { destruct (rp_branch _ _ RP) as (LL & CL). destruct BRS as (NB & IB). unfold total_at. rewrite <- lsum_add, (lsum_nth _ _ []).
    rewrite (lsum_support _ (seq 0 (length (p_branch r))) brs).
    - apply lsum_ext. intros j Hj. apply IB in Hj. pose proof Hj as (l & Hl & _). destruct (CL _ _ Hl) as (a & Ha & _ & C').
      destruct (FL j l a Hj Hl Ha) as (E1 & E2). rewrite (nth_error_nth _ _ _ Ha), (nth_error_nth _ _ _ Hl).
      rewrite (C' F_BUS), (C' T_BUS) by (cbn; intuition discriminate). rewrite E1, E2. unfold leaves, names.
      destruct (ftrunc (cell l F_BUS) =? z)%Z, (ftrunc (cell l T_BUS) =? z)%Z; ring.
    - apply seq_NoDup.
    - exact NB.
    - intros j Hj. apply IB in Hj. destruct Hj as (l & Hl & _). apply nth_error_some_lt in Hl. apply in_seq. lia.
    - intros j Hj N. apply in_seq in Hj. destruct (nth_error_lt (p_branch r) j) as [a Ha]; [lia|].
      destruct (rp_branch_off _ _ RP j a Ha) as (Z1 & _ & Z2 & _); [intros C'; apply N, IB, C'|].
      rewrite (nth_error_nth _ _ _ Ha), Z1, Z2. destruct (_ =? z)%Z, (_ =? z)%Z; ring. }
  rewrite T in Q. rewrite <- Q. ring.
Qed.
End One.

Variables (argsort argsort' : list Z -> list nat) (solve solve' : list (list K) -> list K -> result (list K)).
Hypothesis Has : argsort_spec argsort.
Hypothesis Has' : argsort_spec argsort'.
Hypothesis SE : solver_exact solve.
Hypothesis SE' : solver_exact solve'.
Variables (p p' r r' : ppc_of K) (ok ok' : bool) (gens brs gens' brs' : list nat).
Hypothesis W : wf_case p.
Hypothesis E : in_ext_state p.
Hypothesis W' : wf_case p'.
Hypothesis E' : in_ext_state p'.
Hypothesis GENS : lists_exactly gens (gen_in_service p).
Hypothesis BRS : lists_exactly brs (branch_in_service p).
Hypothesis GENS' : lists_exactly gens' (gen_in_service p').
Hypothesis BRS' : lists_exactly brs' (branch_in_service p').
Hypothesis run : runpf argsort cis cabs cang solve splu DC B p = Ok (r, ok).
Hypothesis run' : runpf argsort' cis cabs cang solve' splu DC B p' = Ok (r', ok').
Hypothesis POS : reactive p.
Hypothesis FED : all_fed p.
Hypothesis REF : references_served p.

(** runs on two descriptions of one network report the same angles, flows, and generation at each bus *)
Theorem C114_same_results rho sb sg sl : same_network rho sb sg sl p p' ->
  (forall i b b', bus_in_service p' i -> nth_error (p_bus r) (sb i) = Some b -> nth_error (p_bus r') i = Some b' ->
     cell b' VA = cell b VA) /\
  (forall j a a', branch_in_service p' j -> nth_error (p_branch r) (sl j) = Some a -> nth_error (p_branch r') j = Some a' ->
     cell a' PF = cell a PF /\ cell a' PT = cell a PT) /\
  (forall i z, bus_in_service p i -> bus_at p z i ->
     total_at GEN_BUS (fun g => cell g PG) (p_gen r') (rho z) = total_at GEN_BUS (fun g => cell g PG) (p_gen r) z).
Proof.
  intros S. pose proof (same_served rho sb sg sl p p' W W' S REF) as REF'.
  destruct (reported_angles p W r) as (th & RT). destruct (reported_angles p' W' r') as (th' & RT').
  destruct (C109_solves argsort cis cabs cang solve splu Has B p gens brs W GENS BRS E SE r ok run REF th RT) as (PF1 & FL).
  destruct (C109_solves argsort' cis cabs cang solve' splu Has' B p' gens' brs' W' GENS' BRS' E' SE' r' ok' run' REF' th' RT') as (PF1' & FL').
  pose proof (same_flow B rho sb sg sl p p' W W' S gens brs gens' brs' th' GENS BRS GENS' BRS' PF1') as PF2.
  pose proof (C109_unique B p gens brs W BRS th (fun z => th' (rho z)) HB POS FED PF1 PF2) as EQ. cbn beta in EQ.
  destruct (C80_reported argsort cis cabs cang solve splu Has B p r ok W E SE run) as (_ & RP).
  destruct (C80_reported argsort' cis cabs cang solve' splu Has' B p' r' ok' W' E' SE' run') as (_ & RP').
  assert (LF : forall j l, branch_in_service p j -> nth_error (p_branch p) j = Some l -> line_flow B (fun z => th' (rho z)) l = line_flow B th l).
  { intros j l J Hl. destruct (ends p j l J Hl _ (or_introl eq_refl)) as (i1 & I1 & A1). destruct (ends p j l J Hl _ (or_intror eq_refl)) as (i2 & I2 & A2).
    unfold line_flow, across. rewrite (EQ _ _ I1 A1), (EQ _ _ I2 A2). reflexivity. }
  split; [|split].
  - intros i b b' I' Hb Hb'. destruct (same_bus_back rho sb sg sl p p' W S i I') as (z & A & A').
    pose proof (mt_in _ _ _ (sn_buses _ _ _ _ _ _ S) _ I') as I. apply degrees_inj.
    rewrite <- (RT _ _ _ I A Hb), <- (RT' _ _ _ I' A' Hb'). symmetry. apply (EQ _ _ I A).
  - intros j a a' J' Ha Ha'. pose proof (mt_in _ _ _ (sn_branches _ _ _ _ _ _ S) _ J') as J. pose proof J as (l & Hl & _). pose proof J' as (l' & Hl' & _).
    destruct (FL _ _ _ J Hl Ha) as (-> & ->). destruct (FL' _ _ _ J' Hl' Ha') as (-> & ->).
    destruct (same_line B rho sb sg sl p p' S j l l' th' J' Hl Hl') as (_ & _ & ->). rewrite (LF _ _ J Hl). auto.
  - intros i z I A. pose proof A as (b & Hb & _). destruct (same_bus rho sb sg sl p p' S i z I A) as (i' & I' & <- & A'). pose proof A' as (b' & Hb' & _).
    rewrite (generation argsort solve p r ok brs Has SE W E BRS run th FL _ _ _ I A Hb).
    rewrite (generation argsort' solve' p' r' ok' brs' Has' SE' W' E' BRS' run' th' FL' _ _ _ I' A' Hb').
    destruct (sn_bus _ _ _ _ _ _ S i' b b' I' Hb Hb') as (_ & _ & -> & -> & _). f_equal. symmetry.
    apply (lsum_matched _ _ _ _ _ _ _ (sn_branches _ _ _ _ _ _ S) BRS BRS'). intros j J. cbn beta.
    pose proof (mt_in _ _ _ (sn_branches _ _ _ _ _ _ S) _ J) as J0. pose proof J0 as (l & Hl & _). pose proof J as (l' & Hl' & _).
    destruct (same_line B rho sb sg sl p p' S j l l' th' J Hl Hl') as (Nf & Nt & E1). rewrite (nth_error_nth _ _ _ Hl), (nth_error_nth _ _ _ Hl').
    destruct (ends p (sl j) l J0 Hl _ (or_introl eq_refl)) as (i1 & I1 & A1). destruct (ends p (sl j) l J0 Hl _ (or_intror eq_refl)) as (i2 & I2 & A2).
    unfold leaves. rewrite Nf, Nt, E1, (LF _ _ J0 Hl), (same_number rho sb sg sl p p' S _ z _ _ I A I1 A1), (same_number rho sb sg sl p p' S _ z _ _ I A I2 A2). reflexivity.
Qed.

(** rows in another order and other bus numbers: every bus keeps its angle and generation, every row of the branch table its flows *)
Theorem C114_rewritten rho : rewritten rho p p' ->
  (forall i i' z b b', bus_in_service p i -> bus_at p z i -> bus_at p' (rho z) i' ->
     nth_error (p_bus r) i = Some b -> nth_error (p_bus r') i' = Some b' -> cell b' VA = cell b VA) /\
  (forall i z, bus_in_service p i -> bus_at p z i ->
     total_at GEN_BUS (fun g => cell g PG) (p_gen r') (rho z) = total_at GEN_BUS (fun g => cell g PG) (p_gen r) z) /\
  exists sl, forall j, branch_in_service p' j -> exists l a a', branch_in_service p (sl j) /\
    nth_error (p_branch p) (sl j) = Some l /\ nth_error (p_branch p') j = Some (relabel rho T_BUS (relabel rho F_BUS l)) /\
    nth_error (p_branch r) (sl j) = Some a /\ nth_error (p_branch r') j = Some a' /\ cell a' PF = cell a PF /\ cell a' PT = cell a PT.
Proof.
  intros R. destruct (rewritten_same rho p p' W R) as (sb & sg & sl & S & HB' & HL').
  destruct (C114_same_results _ _ _ _ S) as (V & FLW & G).
  destruct (C80_reported argsort cis cabs cang solve splu Has B p r ok W E SE run) as (_ & RP).
  destruct (C80_reported argsort' cis cabs cang solve' splu Has' B p' r' ok' W' E' SE' run') as (_ & RP').
  split; [|split; [exact G|]].
  - intros i i' z b b' I A A' Hb Hb'. destruct (same_bus rho sb sg sl p p' S i z I A) as (k & Ik & <- & Ak).
    assert (k = i') by (eapply (wf_bus_distinct _ W'); eauto). subst k. eapply V; eauto.
  - exists sl. intros j J. pose proof (mt_in _ _ _ (sn_branches _ _ _ _ _ _ S) _ J) as J0.
    pose proof J0 as (l & Hl & _). pose proof J as (l' & Hl' & _).
    destruct (proj2 (rp_branch _ _ RP) _ _ Hl) as (a & Ha & _). destruct (proj2 (rp_branch _ _ RP') _ _ Hl') as (a' & Ha' & _).
    exists l, a, a'. split; auto. split; auto. split; [rewrite (HL' j), Hl by (eapply nth_error_some_lt; eauto); reflexivity|].
    split; auto. split; auto. eapply FLW; eauto.
Qed.
End Theorems.
Print Assumptions C114_same_results.
Print Assumptions C114_rewritten.

(** case4gs with the rows in reverse order and bus [z] called [10 z + 7] *)
Definition shifted (c : nat) (l : list dec) : list dec := upd l c (10 * fst (nth c l (0%Z, xH)) + 7, 1%positive)%Z.
Definition again : bundle := {| b_name := b_name case4gs; b_base := 100; b_bus := rev (map (shifted BUS_I) (b_bus case4gs));
  b_gen := rev (map (shifted GEN_BUS) (b_gen case4gs)); b_branch := rev (map (fun l => shifted T_BUS (shifted F_BUS l)) (b_branch case4gs));
  b_areas := None; b_gencost := None |}.
Definition again_tree : list (Z * Z) := match trees with (_, t) :: _ => t | [] => [] end.

Example C114_example_rewritten : rewritten (fun z => 10 * z + 7)%Z (case_of case4gs : ppc_of Qc) (case_of again).
Proof.
  assert (X : forall (f : list dec -> list dec) (g : list Qc -> list Qc) (l : list (list dec)),
             Forall (fun x => map value (f x) = g (map value x)) l -> Permutation (map g (values l)) (values (rev (map f l)))).
  { intros f g l H. unfold values. rewrite map_rev. eapply Permutation_trans; [|apply Permutation_rev]. rewrite !map_map.
    rewrite (map_ext_in (fun x => map value (f x)) (fun x => g (map value x))); [apply Permutation_refl|]. apply Forall_forall. exact H. }
  assert (Q : forall a b : list Qc, forallb (fun x => qc_eqb (fst x) (snd x)) (combine a b) = true -> length a = length b -> a = b).
  { induction a as [|x a IH]; intros [|y b] H L; try discriminate; auto. cbn [combine forallb fst snd] in H. apply andb_prop in H as (H1 & H2).
    f_equal; [apply qc_eqb_eq; exact H1|apply IH; auto]. }
  split.
  - apply X. repeat constructor; apply Q; vm_compute; reflexivity.
  - apply X. repeat constructor; apply Q; vm_compute; reflexivity.
  - apply X. repeat constructor; apply Q; vm_compute; reflexivity.
  - intros; lia.
Qed.
Example C114_example_ok : tables_ok again && flow_ok case4gs again_tree = true.
Proof. vm_compute. reflexivity. Qed.
Definition again_dc := runpf argsort_stable cis_q (fun z => re z) (fun _ => zc 0) (checked gaussq)
  (fun A => Ok (checked gaussq A)) DC (zc 100) (case_of again).
(** both runs finish, with the same angles in reverse order *)
Example C114_example :
  match case4gs_dc, again_dc with
  | Ok (r, true), Ok (r', true) =>
      forallb (fun x => qc_eqb (fst x) (snd x)) (combine (map (fun b => cell b VA) (p_bus r')) (rev (map (fun b => cell b VA) (p_bus r))))
      && forallb (fun x => qc_eqb (fst x) (snd x)) (combine (map (fun b => cell b PF) (p_branch r')) (rev (map (fun b => cell b PF) (p_branch r))))
      && negb (qc_eqb (cell (nth 0 (p_branch r) []) PF) (zc 0))
  | _, _ => false
  end = true.
Proof. vm_compute. reflexivity. Qed.
