(** Property C121: the generation reported by a DC power flow covers load and shunts, with no losses. *)
From Coq Require Import Lia.
From Verif Require Import Lib.ListFacts Lib.QcFacts Model.RunPf Spec.RunSpec Spec.FlowSpec Spec.BlendSpec Proofs.SparseFacts Proofs.OrdFacts
  Proofs.NetworkA Proofs.NetworkE Proofs.FldFacts Proofs.RunPfA Proofs.RunPfB Proofs.FlowA
  Lib.GaussQ Model.Cases Proofs.CasesA Proofs.CasesTrees Proofs.CasesB Props.P_Network Props.P_Ybus Props.P_AcPf Props.P_RunPf Props.P_Flow Props.P_Same.
Local Open Scope nat_scope.

Section Theorems.
Context {K : Type} {F : Fld K}.
Add Field KF : (@f_ok K F).

(** each row counted at its bus, if it counts *)
Lemma spread (j : nat) (q : list K -> K) t zs : NoDup zs ->
  (forall x, In x t -> q x = 0%K \/ In (ftrunc (cell x j)) zs) -> lsum (total_at j q t) zs = lsum q t.
Proof.
  intros N H. unfold total_at. rewrite lsum_swap. apply lsum_ext. intros x I. destruct (H x I) as [Z0|J].
  - rewrite Z0. apply lsum_zero. intros z _. destruct (_ =? z)%Z; reflexivity.
  - rewrite (lsum_z_single (fun _ => q x) zs _ N J). reflexivity.
Qed.

Variable argsort : list Z -> list nat.
Variables (cis : K -> cpx K) (cabs cang : cpx K -> K).
Variables (solve : list (list K) -> list K -> result (list K))
          (splu : list (list K) -> result (list K -> result (list K))).
Hypothesis Has : argsort_spec argsort.
Hypothesis SE : solver_exact solve.
Variables (B : K) (p r : ppc_of K) (ok : bool) (buses gens brs : list nat).
Hypothesis W : wf_case p.
Hypothesis E : in_ext_state p.
Hypothesis BUSES : lists_exactly buses (bus_in_service p).
Hypothesis GENS : lists_exactly gens (gen_in_service p).
Hypothesis BRS : lists_exactly brs (branch_in_service p).
Hypothesis REF : references_served p.
Hypothesis run : runpf argsort cis cabs cang solve splu DC B p = Ok (r, ok).

(** the sum of all generation is the sum of load and shunts over the buses that are not isolated *)
Theorem C121_lossless :
  lsum (fun g => cell g PG) (p_gen r) = lsum (fun i => let b := nth i (p_bus p) [] in (cell b PD + cell b Idx.GS)%K) buses.
Proof.
  destruct (C80_reported argsort cis cabs cang solve splu Has B p r ok W E SE run) as (_ & RP).
  destruct (reported_angles p W r) as (th & RT).
  destruct (C109_solves argsort cis cabs cang solve splu Has B p gens brs W GENS BRS E SE r ok run REF th RT) as (_ & FL).
  destruct BUSES as (NB & IB).
  assert (NUM : forall i, In i buses -> exists b, nth_error (p_bus p) i = Some b /\ bus_at p (names (nth i (p_bus p) []) BUS_I) i).
  { intros i I. apply IB in I as (b & Hb & _). exists b. split; auto. destruct (wf_bus_num _ W _ _ Hb) as (z & _ & Hz). exists b. split; auto.
    unfold names. rewrite (nth_error_nth _ _ _ Hb), (cell_ofZ _ _ _ Hz). exact Hz. }
  assert (AT : forall z i, bus_at p z i -> names (nth i (p_bus p) []) BUS_I = z).
  { intros z i (b & Hb & Hz). unfold names. rewrite (nth_error_nth _ _ _ Hb). exact (cell_ofZ _ _ _ Hz). }
  set (num := fun i => names (nth i (p_bus p) []) BUS_I). set (zs := map num buses).
  assert (NZ : NoDup zs).
  { unfold zs. clear - NB NUM W. induction buses as [|i l IH]; [constructor|]. inversion NB as [|? ? N1 N2]; subst. cbn [map]. constructor; [|apply IH; auto; intros; apply NUM; right; auto].
    intros C. apply in_map_iff in C as (k & Ek & Ik). destruct (NUM i (or_introl eq_refl)) as (_ & _ & A1). destruct (NUM k (or_intror Ik)) as (_ & _ & A2).
    assert (k = i). { eapply (wf_bus_distinct _ W); [exact A2|]. fold (num k). rewrite Ek. exact A1. } subst k. contradiction. }
  assert (INZ : forall z i, bus_at p z i -> bus_in_service p i -> In z zs).
  { intros z i A S. unfold zs. apply in_map_iff. exists i. split; [apply AT, A|apply IB, S]. }
  (* generators *)
  assert (G : lsum (total_at GEN_BUS (fun g => cell g PG) (p_gen r)) zs = lsum (fun g => cell g PG) (p_gen r)).
  { apply spread; auto. intros x I. apply In_nth_error in I as (k & Hk). destruct (rp_gen _ _ RP) as (LG & CG).
    destruct (nth_error_lt (p_gen p) k) as [g Hg]; [rewrite <- LG; eapply nth_error_some_lt; eauto|].
    destruct (CG _ _ Hg) as (x' & Hx' & _ & C). assert (x' = x) by congruence. subst x'.
    destruct (in_dec Nat.eq_dec k gens) as [J|J].
    - right. apply GENS in J as (g' & s & Hg' & _ & _ & (z & i & Hz & A & S)). assert (g' = g) by congruence. subst g'.
      rewrite (C GEN_BUS) by (cbn; intuition discriminate). rewrite (cell_ofZ _ _ _ Hz). eapply INZ; eauto.
    - left. apply (rp_gen_off _ _ RP k x Hk). intros S. apply J, GENS, S. }
  (* branches *)
  assert (BR : forall k x, nth_error (p_branch r) k = Some x -> cell x PT = (- cell x PF)%K /\ (cell x PF = 0%K \/ (In (ftrunc (cell x F_BUS)) zs /\ In (ftrunc (cell x T_BUS)) zs))).
  { intros k x Hk. destruct (rp_branch _ _ RP) as (LL & CL). destruct (nth_error_lt (p_branch p) k) as [l Hl]; [rewrite <- LL; eapply nth_error_some_lt; eauto|].
    destruct (CL _ _ Hl) as (x' & Hx' & _ & C). assert (x' = x) by congruence. subst x'. destruct (in_dec Nat.eq_dec k brs) as [J|J].
    - apply BRS in J. destruct (FL k l x J Hl Hk) as (-> & ->). split; [reflexivity|]. right.
      rewrite (C F_BUS), (C T_BUS) by (cbn; intuition discriminate).
      destruct (ends p k l J Hl _ (or_introl eq_refl)) as (i1 & I1 & A1). destruct (ends p k l J Hl _ (or_intror eq_refl)) as (i2 & I2 & A2). split; eapply INZ; eauto.
    - destruct (rp_branch_off _ _ RP k x Hk) as (-> & _ & -> & _); [intros S; apply J, BRS, S|]. split; [ring|auto]. }
  assert (L1 : lsum (total_at F_BUS (fun g => cell g PF) (p_branch r)) zs = lsum (fun g => cell g PF) (p_branch r)).
  { apply spread; auto. intros x I. apply In_nth_error in I as (k & Hk). destruct (BR k x Hk) as (_ & [?|(? & _)]); auto. }
  assert (L2 : lsum (total_at T_BUS (fun g => cell g PT) (p_branch r)) zs = lsum (fun g => (- cell g PF)%K) (p_branch r)).
  { rewrite spread; auto.
    - apply lsum_ext. intros x I. apply In_nth_error in I as (k & Hk). apply (BR k x Hk).
    - intros x I. apply In_nth_error in I as (k & Hk). destruct (BR k x Hk) as (Q & [Z0|(_ & ?)]); auto. left. rewrite Q, Z0. ring. }
  rewrite <- G. transitivity (lsum (fun z => total_at GEN_BUS (fun g => cell g PG) (p_gen r) z - (total_at F_BUS (fun g => cell g PF) (p_branch r) z + total_at T_BUS (fun g => cell g PT) (p_branch r) z))%K zs).
  { rewrite lsum_sub, lsum_add, L1, L2, lsum_opp. ring. }
  unfold zs. rewrite lsum_map. apply lsum_ext. intros i I. destruct (NUM i I) as (b & Hb & A). destruct (rp_bus _ _ RP) as (_ & CB). destruct (CB _ _ Hb) as (b' & Hb' & _ & C).
  pose proof (C80_balance argsort cis cabs cang solve splu Has B p r ok W E SE run i b' _ (proj1 (IB i) I) A Hb') as Q. fold (num i) in Q. cbv zeta.
  rewrite (nth_error_nth _ _ _ Hb). rewrite !C in Q by (cbn; intuition discriminate). rewrite <- Q. ring.
Qed.
End Theorems.
Print Assumptions C121_lossless.

(** ** example: load and shunts of case4gs *)
Example C121_example : match case4gs_dc with
  | Ok (r, true) => qc_eqb (lsum (fun g => cell g PG) (p_gen r)) (zc 500) && qc_eqb (lsum (fun b => cell b PD) (p_bus (case_of case4gs : ppc_of Qc))) (zc 500)
  | _ => false end = true.
Proof. vm_compute. reflexivity. Qed.
