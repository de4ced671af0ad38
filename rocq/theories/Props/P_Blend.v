(** Property C115: the results of a DC power flow are affine in loads, generation, shunts, phase shifts and reference angles. *)
From Coq Require Import Lia.
From Verif Require Import Lib.ListFacts Lib.QcFacts Model.RunPf Spec.RunSpec Spec.FlowSpec Spec.BlendSpec Proofs.SparseFacts Proofs.OrdFacts
  Proofs.NetworkA Proofs.NetworkE Proofs.FldFacts Proofs.RunPfA Proofs.RunPfB Proofs.FlowA Proofs.BlendA
  Lib.GaussQ Model.Cases Proofs.CasesA Proofs.CasesTrees Proofs.CasesB Props.P_Network Props.P_Ybus Props.P_AcPf Props.P_RunPf Props.P_Flow Props.P_Same.
Local Open Scope nat_scope.

Section Theorems.
Context {K : Type} {F : Fld K}.
Add Field KF : (@f_ok K F).
Variable argsort : list Z -> list nat.
Variables (cis : K -> cpx K) (cabs cang : cpx K -> K).
Variables (solve : list (list K) -> list K -> result (list K))
          (splu : list (list K) -> result (list K -> result (list K))).
Hypothesis Has : argsort_spec argsort.
Hypothesis SE : solver_exact solve.
Variables (B t : K) (p1 p2 p r1 r2 r : ppc_of K) (ok1 ok2 ok : bool) (gens brs : list nat).
Hypothesis HB : B <> 0%K.
Hypothesis BL : blended t p1 p2 p.
Hypothesis W1 : wf_case p1.
Hypothesis W2 : wf_case p2.
Hypothesis W : wf_case p.
Hypothesis E1 : in_ext_state p1.
Hypothesis E2 : in_ext_state p2.
Hypothesis E : in_ext_state p.
Hypothesis GENS : lists_exactly gens (gen_in_service p).
Hypothesis BRS : lists_exactly brs (branch_in_service p).
Hypothesis run1 : runpf argsort cis cabs cang solve splu DC B p1 = Ok (r1, ok1).
Hypothesis run2 : runpf argsort cis cabs cang solve splu DC B p2 = Ok (r2, ok2).
Hypothesis run : runpf argsort cis cabs cang solve splu DC B p = Ok (r, ok).
Hypothesis POS : reactive p.
Hypothesis FED : all_fed p.
Hypothesis REF : references_served p.

Lemma listed q : alike [BUS_I; BUS_TYPE] (p_bus p) (p_bus q) -> alike [GEN_BUS; GEN_STATUS] (p_gen p) (p_gen q) ->
  alike [F_BUS; T_BUS; BR_STATUS; BR_X; TAP] (p_branch p) (p_branch q) ->
  lists_exactly gens (gen_in_service q) /\ lists_exactly brs (branch_in_service q) /\ references_served q.
Proof.
  intros AB AG AL. pose proof (alike_sym _ _ _ AB) as AB'. pose proof (alike_sym _ _ _ AG) as AG'. pose proof (alike_sym _ _ _ AL) as AL'.
  destruct GENS as (N1 & I1). destruct BRS as (N2 & I2). split; [|split].
  - split; auto. intros j. rewrite I1. split; [apply (alike_gen p q); auto|apply (alike_gen q p); auto].
  - split; auto. intros j. rewrite I2. split; [apply (alike_branch p q); auto|apply (alike_branch q p); auto].
  - apply (alike_served p q); auto. intros z. apply alike_reference; auto.
Qed.

(** angles, flows, and generation at each bus of the blended case are the blends of those of the two cases *)
Theorem C115_affine :
  (forall i b1 b2 b, bus_in_service p i -> nth_error (p_bus r1) i = Some b1 -> nth_error (p_bus r2) i = Some b2 -> nth_error (p_bus r) i = Some b ->
     cell b VA = blend t (cell b1 VA) (cell b2 VA)) /\
  (forall j l1 l2 l, branch_in_service p j -> nth_error (p_branch r1) j = Some l1 -> nth_error (p_branch r2) j = Some l2 -> nth_error (p_branch r) j = Some l ->
     cell l PF = blend t (cell l1 PF) (cell l2 PF) /\ cell l PT = blend t (cell l1 PT) (cell l2 PT)) /\
  (forall i z, bus_in_service p i -> bus_at p z i ->
     total_at GEN_BUS (fun g => cell g PG) (p_gen r) z
     = blend t (total_at GEN_BUS (fun g => cell g PG) (p_gen r1) z) (total_at GEN_BUS (fun g => cell g PG) (p_gen r2) z)).
Proof.
  destruct (blended_alike t p1 p2 p BL) as ((AB1 & AB2) & (AG1 & AG2) & (AL1 & AL2)).
  destruct (listed p1 AB1 AG1 AL1) as (G1 & L1 & RF1). destruct (listed p2 AB2 AG2 AL2) as (G2 & L2 & RF2).
  destruct (reported_angles p1 W1 r1) as (th1 & RT1). destruct (reported_angles p2 W2 r2) as (th2 & RT2). destruct (reported_angles p W r) as (th & RT).
  destruct (C109_solves argsort cis cabs cang solve splu Has B p1 gens brs W1 G1 L1 E1 SE r1 ok1 run1 RF1 th1 RT1) as (PF1 & FL1).
  destruct (C109_solves argsort cis cabs cang solve splu Has B p2 gens brs W2 G2 L2 E2 SE r2 ok2 run2 RF2 th2 RT2) as (PF2 & FL2).
  destruct (C109_solves argsort cis cabs cang solve splu Has B p gens brs W GENS BRS E SE r ok run REF th RT) as (PF0 & FL).
  assert (NZ : forall j l, branch_in_service p j -> nth_error (p_branch p) j = Some l -> (cell l BR_X * tap_ratio l)%K <> 0%K).
  { intros j l J Hl Z0. pose proof (POS j l J Hl) as Q. rewrite Z0 in Q. exact (OrdFacts.lt_irrefl _ Q). }
  pose proof (blend_flow B t p1 p2 p BL gens brs th1 th2 W GENS BRS NZ PF1 PF2) as PFb.
  pose proof (C109_unique B p gens brs W BRS th _ HB POS FED PF0 PFb) as EQ. cbn beta in EQ.
  assert (LF : forall j l l1 l2, branch_in_service p j -> nth_error (p_branch p1) j = Some l1 -> nth_error (p_branch p2) j = Some l2 -> nth_error (p_branch p) j = Some l ->
            names l1 F_BUS = names l F_BUS /\ names l1 T_BUS = names l T_BUS /\ names l2 F_BUS = names l F_BUS /\ names l2 T_BUS = names l T_BUS /\
            line_flow B th l = blend t (line_flow B th1 l1) (line_flow B th2 l2)).
  { intros j l l1 l2 J H1 H2 Hl. destruct (blend_line B t p1 p2 p BL th1 th2 j l1 l2 l H1 H2 Hl (NZ _ _ J Hl)) as (N1 & N2 & N3 & N4 & Q).
    repeat split; auto. rewrite <- Q.
    destruct (ends p j l J Hl _ (or_introl eq_refl)) as (i1 & I1 & A1). destruct (ends p j l J Hl _ (or_intror eq_refl)) as (i2 & I2 & A2).
    unfold line_flow, across. rewrite (EQ _ _ I1 A1), (EQ _ _ I2 A2). reflexivity. }
  assert (N180 : (fofZ 180 : K) <> 0%K) by (apply fofZ_nz; lia).
  split; [|split].
  - intros i b1 b2 b I Hb1 Hb2 Hb. pose proof I as (b0 & Hb0 & _). destruct (wf_bus_num _ W _ _ Hb0) as (z & _ & Hz).
    assert (A : bus_at p z i) by (exists b0; auto). apply degrees_inj.
    rewrite <- (RT _ _ _ I A Hb), (EQ _ _ I A).
    rewrite (RT1 _ _ _ (alike_bus _ _ AB1 _ I) (alike_bus_at _ _ AB1 _ _ A) Hb1), (RT2 _ _ _ (alike_bus _ _ AB2 _ I) (alike_bus_at _ _ AB2 _ _ A) Hb2).
    unfold degrees, blend. field. exact N180.
  - intros j a1 a2 a J Ha1 Ha2 Ha. pose proof J as (l & Hl & _).
    destruct (alike_row _ _ _ _ _ AL1 Hl) as (l1 & Hl1 & _). destruct (alike_row _ _ _ _ _ AL2 Hl) as (l2 & Hl2 & _).
    destruct (FL _ _ _ J Hl Ha) as (-> & ->).
    destruct (FL1 _ _ _ (alike_branch _ _ AB1 AL1 _ J) Hl1 Ha1) as (-> & ->). destruct (FL2 _ _ _ (alike_branch _ _ AB2 AL2 _ J) Hl2 Ha2) as (-> & ->).
    destruct (LF _ _ _ _ J Hl1 Hl2 Hl) as (_ & _ & _ & _ & ->). split; [reflexivity|unfold blend; ring].
  - intros i z I A. pose proof A as (b & Hb & _).
    destruct (alike_row _ _ _ _ _ AB1 Hb) as (b1 & Hb1 & _). destruct (alike_row _ _ _ _ _ AB2 Hb) as (b2 & Hb2 & _).
    rewrite (generation cis cabs cang splu B argsort solve p r ok brs Has SE W E BRS run th FL _ _ _ I A Hb).
    rewrite (generation cis cabs cang splu B argsort solve p1 r1 ok1 brs Has SE W1 E1 L1 run1 th1 FL1 _ _ _ (alike_bus _ _ AB1 _ I) (alike_bus_at _ _ AB1 _ _ A) Hb1).
    rewrite (generation cis cabs cang splu B argsort solve p2 r2 ok2 brs Has SE W2 E2 L2 run2 th2 FL2 _ _ _ (alike_bus _ _ AB2 _ I) (alike_bus_at _ _ AB2 _ _ A) Hb2).
    destruct (bl_bus _ _ _ _ BL i b1 b2 b Hb1 Hb2 Hb) as (_ & -> & -> & _).
    rewrite (blend_sum t (fun j => leaves B th z (nth j (p_branch p) [])) (fun j => leaves B th1 z (nth j (p_branch p1) [])) (fun j => leaves B th2 z (nth j (p_branch p2) []))); [unfold blend; ring|].
    intros j Hj. apply BRS in Hj. pose proof Hj as (l & Hl & _).
    destruct (alike_row _ _ _ _ _ AL1 Hl) as (l1 & Hl1 & _). destruct (alike_row _ _ _ _ _ AL2 Hl) as (l2 & Hl2 & _).
    destruct (LF _ _ _ _ Hj Hl1 Hl2 Hl) as (N1 & N2 & N3 & N4 & Q). rewrite (nth_error_nth _ _ _ Hl), (nth_error_nth _ _ _ Hl1), (nth_error_nth _ _ _ Hl2).
    unfold leaves. rewrite N1, N2, N3, N4, Q. unfold blend. destruct (names l F_BUS =? z)%Z, (names l T_BUS =? z)%Z; ring.
Qed.
End Theorems.
Print Assumptions C115_affine.

(** ** example: case4gs with the load of a bus, the output of a generator and a phase shift changed *)
Definition set_at {A} (l : list (list A)) (i c : nat) (v : A) : list (list A) := upd l i (upd (nth i l []) c v).
Definition stressed (load gen shift : Z) : bundle := {| b_name := b_name case4gs; b_base := 100;
  b_bus := set_at (b_bus case4gs) 1 PD (load, 1%positive); b_gen := set_at (b_gen case4gs) 0 PG (gen, 1%positive);
  b_branch := set_at (b_branch case4gs) 2 SHIFT (shift, 1%positive); b_areas := None; b_gencost := None |}.
Definition third : Qc := qc 1 3.
Example C115_example_blended : blended third (case_of case4gs : ppc_of Qc) (case_of (stressed 200 288 6)) (case_of (stressed 180 308 2)).
Proof.
  split; [split; reflexivity|split; reflexivity|split; reflexivity|..].
  - intros i b1 b2 b H1 H2 H.
    do 4 (destruct i as [|i]; [injection H1 as <-; injection H2 as <-; injection H as <-;
      split; [intros k [<-|[<-|[]]]; split; reflexivity|]; split; [apply qc_eqb_eq; vm_compute; reflexivity|];
      split; [apply qc_eqb_eq; vm_compute; reflexivity|]; intros _; apply qc_eqb_eq; vm_compute; reflexivity|]).
    destruct i; discriminate H.
  - intros i b1 b2 b H1 H2 H.
    do 2 (destruct i as [|i]; [injection H1 as <-; injection H2 as <-; injection H as <-;
      split; [intros k [<-|[<-|[]]]; split; reflexivity|]; apply qc_eqb_eq; vm_compute; reflexivity|]).
    destruct i; discriminate H.
  - intros i b1 b2 b H1 H2 H.
    do 4 (destruct i as [|i]; [injection H1 as <-; injection H2 as <-; injection H as <-;
      split; [intros k [<-|[<-|[<-|[<-|[<-|[]]]]]]; split; reflexivity|]; apply qc_eqb_eq; vm_compute; reflexivity|]).
    destruct i; discriminate H.
Qed.
Example C115_example_ok : tables_ok (stressed 200 288 6) && tables_ok (stressed 180 308 2) && flow_ok (stressed 180 308 2) again_tree = true.
Proof. vm_compute. reflexivity. Qed.
Definition stressed_dc a b c := runpf argsort_stable cis_q (fun z => re z) (fun _ => zc 0) (checked gaussq)
  (fun A => Ok (checked gaussq A)) DC (zc 100) (case_of (stressed a b c)).
(** all three runs finish, with angles and flows that differ *)
Example C115_example :
  match case4gs_dc, stressed_dc 200 288 6, stressed_dc 180 308 2 with
  | Ok (r1, true), Ok (r2, true), Ok (r, true) =>
      let same c f := forallb (fun x => qc_eqb (cell (fst x) c) (blend third (cell (fst (snd x)) c) (cell (snd (snd x)) c))) (combine (f r) (combine (f r1) (f r2))) in
      same VA (@p_bus Qc) && same PF (@p_branch Qc) && negb (qc_eqb (cell (nth 0 (p_branch r) []) PF) (cell (nth 0 (p_branch r1) []) PF))
  | _, _, _ => false
  end = true.
Proof. vm_compute. reflexivity. Qed.
