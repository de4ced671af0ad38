(** Property C120: a DC power flow of its own results changes nothing. *)
From Coq Require Import Lia.
From Verif Require Import Lib.ListFacts Lib.QcFacts Model.RunPf Spec.RunSpec Spec.FlowSpec Spec.BlendSpec Proofs.SparseFacts Proofs.OrdFacts
  Proofs.NetworkA Proofs.NetworkE Proofs.FldFacts Proofs.RunPfA Proofs.RunPfB Proofs.FlowA Proofs.BlendA Proofs.ReserveD
  Lib.GaussQ Model.Cases Proofs.CasesA Proofs.CasesTrees Proofs.CasesB Props.P_Network Props.P_Ybus Props.P_AcPf Props.P_RunPf Props.P_Flow Props.P_Same.
Local Open Scope nat_scope.

Section Theorems.
Context {K : Type} {F : Fld K}.
Add Field KF : (@f_ok K F).
Variable argsort : list Z -> list nat.
Variables (cis : K -> cpx K) (cabs cang : cpx K -> K).
Variables (solve : list (list K) -> list K -> result (list K))
          (splu : list (list K) -> result (list K -> result (list K))).
Hypothesis Has : argsort_spec argsort.
Hypothesis SE : solver_exact solve.

Lemma only_alike cols ks (t t' : list (list K)) : only_changes cols t t' -> (forall k, In k ks -> ~ In k cols) ->
  (forall i r k, nth_error t i = Some r -> In k ks -> k < length r) -> alike ks t t'.
Proof.
  intros (L & H) D N. split; [exact L|]. intros i r r' Hr Hr' k Hk. destruct (H i r Hr) as (r1 & Hr1 & LE & C). assert (r1 = r') by congruence. subst r1.
  specialize (N i r k Hr Hk). specialize (C k (D k Hk)). unfold cell in C.
  rewrite (nth_error_nth' r 0%K N), (nth_error_nth' r' 0%K) by lia. congruence.
Qed.

Variables (B : K) (p r p' r' : ppc_of K) (ok ok' : bool) (gens brs : list nat).
Hypothesis HB : B <> 0%K.
Hypothesis W : wf_case p.
Hypothesis E : in_ext_state p.
Hypothesis GENS : lists_exactly gens (gen_in_service p).
Hypothesis BRS : lists_exactly brs (branch_in_service p).
Hypothesis POS : reactive p.
Hypothesis FED : all_fed p.
Hypothesis REF : references_served p.
Hypothesis run : runpf argsort cis cabs cang solve splu DC B p = Ok (r, ok).
(** the reported tables as a case *)
Hypothesis TB : p_bus p' = p_bus r.
Hypothesis TG : p_gen p' = p_gen r.
Hypothesis TL : p_branch p' = p_branch r.
Hypothesis W' : wf_case p'.
Hypothesis E' : in_ext_state p'.
Hypothesis run' : runpf argsort cis cabs cang solve splu DC B p' = Ok (r', ok').

Lemma again_alike : alike [BUS_I; BUS_TYPE] (p_bus p) (p_bus p') /\ alike [GEN_BUS; GEN_STATUS] (p_gen p) (p_gen p') /\
  alike [F_BUS; T_BUS; BR_STATUS; BR_X; TAP] (p_branch p) (p_branch p').
Proof.
  destruct (C80_reported argsort cis cabs cang solve splu Has B p r ok W E SE run) as (_ & RP).
  assert (WD : forall n t i (x : list K), rect n t -> nth_error t i = Some x -> n <= length x).
  { intros n t i x (w & Hw & FA) Hx. rewrite (proj1 (Forall_forall _ _) FA x (nth_error_In _ _ Hx)). exact Hw. }
  rewrite TB, TG, TL. split; [|split].
  - eapply only_alike; [apply (rp_bus _ _ RP)|intros k Hk C; cbn in Hk, C; intuition (subst; discriminate)|].
    intros i x k Hx Hk. pose proof (WD _ _ _ _ (wf_bus_rect _ W) Hx). cbn in Hk. unfold BUS_I, BUS_TYPE in Hk. lia.
  - eapply only_alike; [apply (rp_gen _ _ RP)|intros k Hk C; cbn in Hk, C; intuition (subst; discriminate)|].
    intros i x k Hx Hk. pose proof (WD _ _ _ _ (wf_gen_rect _ W) Hx). cbn in Hk. unfold GEN_BUS, GEN_STATUS in Hk. lia.
  - eapply only_alike; [apply (rp_branch _ _ RP)|intros k Hk C; cbn in Hk, C; intuition (subst; discriminate)|].
    intros i x k Hx Hk. pose proof (WD _ _ _ _ (wf_br_rect _ W) Hx). cbn in Hk. unfold F_BUS, T_BUS, BR_STATUS, BR_X, TAP in Hk. lia.
Qed.

Lemma again_served z : total_at GEN_BUS (fun g => cell g PG) (p_gen r) z = served p' gens (fun g => cell g PG) z.
Proof.
  destruct (C80_reported argsort cis cabs cang solve splu Has B p r ok W E SE run) as (_ & RP).
  destruct GENS as (NG & IG). destruct (rp_gen _ _ RP) as (LG & _). unfold total_at, served. rewrite TG, (lsum_nth _ _ []).
  rewrite (lsum_support _ (seq 0 (length (p_gen r))) gens); [reflexivity|apply seq_NoDup|exact NG| |].
  - intros j Hj. apply IG in Hj. destruct Hj as (g & s & Hg & _). apply nth_error_some_lt in Hg. apply in_seq. lia.
  - intros j Hj N. apply in_seq in Hj. destruct (nth_error_lt (p_gen r) j) as [a Ha]; [lia|].
    destruct (rp_gen_off _ _ RP j a Ha) as (Z1 & _); [intros C'; apply N, IG, C'|]. rewrite (nth_error_nth _ _ _ Ha), Z1. destruct (_ =? z)%Z; reflexivity.
Qed.

Theorem C120_again :
  (forall i b b', bus_in_service p i -> nth_error (p_bus r) i = Some b -> nth_error (p_bus r') i = Some b' -> cell b' VA = cell b VA) /\
  (forall j l l', branch_in_service p j -> nth_error (p_branch r) j = Some l -> nth_error (p_branch r') j = Some l' ->
     cell l' PF = cell l PF /\ cell l' PT = cell l PT) /\
  (forall i z, bus_in_service p i -> bus_at p z i ->
     total_at GEN_BUS (fun g => cell g PG) (p_gen r') z = total_at GEN_BUS (fun g => cell g PG) (p_gen r) z).
Proof.
  destruct (C80_reported argsort cis cabs cang solve splu Has B p r ok W E SE run) as (_ & RP).
  destruct again_alike as (AB & AG & AL). pose proof (alike_sym _ _ _ AB) as AB'. pose proof (alike_sym _ _ _ AG) as AG'. pose proof (alike_sym _ _ _ AL) as AL'.
  assert (GENS' : lists_exactly gens (gen_in_service p')).
  { destruct GENS as (N1 & I1). split; auto. intros j. rewrite I1. split; [apply (alike_gen p p'); auto|apply (alike_gen p' p); auto]. }
  assert (BRS' : lists_exactly brs (branch_in_service p')).
  { destruct BRS as (N1 & I1). split; auto. intros j. rewrite I1. split; [apply (alike_branch p p'); auto|apply (alike_branch p' p); auto]. }
  assert (REF' : references_served p') by (apply (alike_served p p'); auto; intros z; apply alike_reference; auto).
  destruct (reported_angles p W r) as (th & RT). destruct (reported_angles p' W' r') as (th' & RT').
  destruct (C109_solves argsort cis cabs cang solve splu Has B p gens brs W GENS BRS E SE r ok run REF th RT) as (PF0 & FL).
  destruct (C109_solves argsort cis cabs cang solve splu Has B p' gens brs W' GENS' BRS' E' SE r' ok' run' REF' th' RT') as (PF1 & FL').
  (* rows of branches *)
  assert (LF : forall t j l a, nth_error (p_branch p) j = Some l -> nth_error (p_branch p') j = Some a ->
            names a F_BUS = names l F_BUS /\ names a T_BUS = names l T_BUS /\ line_flow B t a = line_flow B t l).
  { intros t j l a Hl Ha. rewrite TL in Ha. destruct (rp_branch _ _ RP) as (_ & CL). destruct (CL _ _ Hl) as (a' & Ha' & _ & C). assert (a' = a) by congruence. subst a'.
    unfold line_flow, across, tap_ratio, names. rewrite (C F_BUS), (C T_BUS), (C SHIFT), (C BR_X), (C TAP) by (cbn; intuition discriminate). auto. }
  assert (LV : forall t z, lsum (fun j => leaves B t z (nth j (p_branch p') [])) brs = lsum (fun j => leaves B t z (nth j (p_branch p) [])) brs).
  { intros t z. apply lsum_ext. intros j Hj. apply BRS in Hj. destruct Hj as (l & Hl & _). destruct (alike_row _ _ _ _ _ AL Hl) as (a & Ha & _).
    destruct (LF t j l a Hl Ha) as (N1 & N2 & Q). rewrite (nth_error_nth _ _ _ Hl), (nth_error_nth _ _ _ Ha). unfold leaves. rewrite N1, N2, Q. reflexivity. }
  assert (BC : forall i b b', nth_error (p_bus p) i = Some b -> nth_error (p_bus p') i = Some b' -> cell b' PD = cell b PD /\ cell b' Idx.GS = cell b Idx.GS).
  { intros i b b' Hb Hb'. rewrite TB in Hb'. destruct (rp_bus _ _ RP) as (_ & CB). destruct (CB _ _ Hb) as (b1 & Hb1 & _ & C). assert (b1 = b') by congruence. subst b1.
    split; apply C; cbn; intuition discriminate. }
  pose proof (generation cis cabs cang splu B argsort solve p r ok brs Has SE W E BRS run th FL) as GEN.
  assert (PF2 : power_flow B p gens brs th').
  { split; intros i b z I A Hb R.
    - destruct (alike_row _ _ _ _ _ AB Hb) as (b' & Hb' & _). destruct (BC _ _ _ Hb Hb') as (D1 & D2).
      assert (R' : ~ reference p' z) by (intros Q; apply R; eapply alike_reference; [exact AB'|exact Q]).
      rewrite (fl_balance _ _ _ _ _ PF0 i b z I A Hb R), <- (GEN i b z I A Hb), again_served.
      rewrite (fl_balance _ _ _ _ _ PF1 i b' z (alike_bus _ _ AB _ I) (alike_bus_at _ _ AB _ _ A) Hb' R'), D1, D2, LV. reflexivity.
    - destruct (alike_row _ _ _ _ _ AB Hb) as (b' & Hb' & _).
      rewrite (fl_reference _ _ _ _ _ PF1 i b' z (alike_bus _ _ AB _ I) (alike_bus_at _ _ AB _ _ A) Hb' (alike_reference _ _ AB _ R)).
      rewrite TB in Hb'. rewrite <- (RT i b' z I A Hb'). exact (fl_reference _ _ _ _ _ PF0 i b z I A Hb R). }
  pose proof (C109_unique B p gens brs W BRS th th' HB POS FED PF0 PF2) as EQ.
  assert (LE : forall j l, branch_in_service p j -> nth_error (p_branch p) j = Some l -> line_flow B th' l = line_flow B th l).
  { intros j l J Hl. destruct (ends p j l J Hl _ (or_introl eq_refl)) as (i1 & I1 & A1). destruct (ends p j l J Hl _ (or_intror eq_refl)) as (i2 & I2 & A2).
    unfold line_flow, across. rewrite (EQ _ _ I1 A1), (EQ _ _ I2 A2). reflexivity. }
  split; [|split].
  - intros i b b' I Hb Hb'. pose proof I as (b0 & Hb0 & _). destruct (wf_bus_num _ W _ _ Hb0) as (z & _ & Hz).
    assert (A : bus_at p z i) by (exists b0; auto). apply degrees_inj.
    rewrite <- (RT _ _ _ I A Hb), (EQ _ _ I A). symmetry. exact (RT' _ _ _ (alike_bus _ _ AB _ I) (alike_bus_at _ _ AB _ _ A) Hb').
  - intros j l l' J Hl Hl'. pose proof J as (l0 & Hl0 & _). destruct (alike_row _ _ _ _ _ AL Hl0) as (a & Ha & _).
    destruct (FL _ _ _ J Hl0 Hl) as (-> & ->). destruct (FL' _ _ _ (alike_branch _ _ AB AL _ J) Ha Hl') as (-> & ->).
    destruct (LF th' j l0 a Hl0 Ha) as (_ & _ & ->). rewrite (LE _ _ J Hl0). auto.
  - intros i z I A. pose proof A as (b & Hb & _). destruct (alike_row _ _ _ _ _ AB Hb) as (b' & Hb' & _). destruct (BC _ _ _ Hb Hb') as (D1 & D2).
    rewrite (GEN i b z I A Hb).
    rewrite (generation cis cabs cang splu B argsort solve p' r' ok' brs Has SE W' E' BRS' run' th' FL' _ _ _ (alike_bus _ _ AB _ I) (alike_bus_at _ _ AB _ _ A) Hb').
    rewrite D1, D2, LV. f_equal. apply lsum_ext. intros j Hj. apply BRS in Hj. pose proof Hj as (l & Hl & _). rewrite (nth_error_nth _ _ _ Hl). unfold leaves. rewrite (LE _ _ Hj Hl). reflexivity.
Qed.
End Theorems.
Print Assumptions C120_again.

Section Rerun.
Context {K : Type} {F : Fld K}.
Variable argsort : list Z -> list nat.
Variables (cis : K -> cpx K) (cabs cang : cpx K -> K).
Variables (solve : list (list K) -> list K -> result (list K))
          (splu : list (list K) -> result (list K -> result (list K))).
Hypothesis Has : argsort_spec argsort.
Hypothesis SE : solver_exact solve.
Variables (B : K) (p r r' : ppc_of K) (ok ok' : bool) (gens brs : list nat).
Hypothesis W : wf_case p.
Hypothesis E : in_ext_state p.
Hypothesis run : runpf argsort cis cabs cang solve splu DC B p = Ok (r, ok).

Lemma rerun_state : in_ext_state r.
Proof.
  pose proof run as R. unfold runpf in R. apply bind_ok in R as (q & Hq & R). apply bind_ok in R as ([[[bus' gen'] branch'] c0] & HS & R).
  apply bind_ok in R as (r1 & Hr & R). apply bind_ok in R as (o & Ho & R). apply bind_ok in R as (gen2 & HG & R). apply bind_ok in R as (br2 & HL & R). injection R as <- <-.
  unfold in_ext_state. cbn [p_order with_tables]. unfold int2ext in Hr. destruct (p_order (with_tables q bus' gen' branch')) as [o1|] eqn:E1; [|discriminate].
  destruct (o_state o1) eqn:E2.
  - unfold int2ext_body in Hr. repeat (apply bind_ok in Hr as (? & ? & Hr)). injection Hr as <-. reflexivity.
  - injection Hr as <-. rewrite E1. exact E2.
Qed.

(** the reported tables are a well-formed case if their rows have equal lengths *)
Lemma rerun_wf : rect 2 (p_bus r) -> rect 8 (p_gen r) -> rect 11 (p_branch r) -> wf_case r.
Proof.
  intros R1 R2 R3. destruct (C80_reported argsort cis cabs cang solve splu Has B p r ok W E SE run) as (_ & RP).
  destruct (again_alike argsort cis cabs cang solve splu Has SE B p r r ok W E run eq_refl eq_refl eq_refl) as (AB & AG & AL).
  pose proof (alike_sym _ _ _ AB) as AB'. pose proof (alike_sym _ _ _ AG) as AG'. pose proof (alike_sym _ _ _ AL) as AL'.
  assert (NB : forall c x y z, nth_error y c = nth_error x c -> names_bus p c x z -> names_bus r c y z).
  { intros c x y z Ec (N1 & i & A). split; [congruence|]. exists i. apply (alike_bus_at p r AB). exact A. }
  assert (ROW : forall cols (t t' : list (list K)) y, alike cols t t' -> In y t' -> exists x, In x t /\ forall k, In k cols -> nth_error y k = nth_error x k).
  { intros cols t t' y A I. apply In_nth_error in I as (i & Hi). destruct (alike_row _ _ _ _ _ (alike_sym _ _ _ A) Hi) as (x & Hx & C). exists x. split; [eapply nth_error_In; eauto|]. intros k Hk. symmetry. apply C, Hk. }
  assert (LB : length (p_bus r) = length (p_bus p)) by apply AB. assert (LG : length (p_gen r) = length (p_gen p)) by apply AG.
  constructor; auto.
  - intros a Ha. rewrite (rp_areas _ _ RP) in Ha. apply (wf_areas_rect _ W). destruct (p_areas p) as [[|x l]|]; cbn in Ha; congruence.
  - intros i y Hy. destruct (alike_row _ _ _ _ _ AB' Hy) as (x & Hx & C). destruct (wf_bus_num _ W _ _ Hx) as (z & P & Z0). exists z. split; auto. rewrite <- Z0. symmetry. apply C. cbn; auto.
  - intros z i j A1 A2. eapply (wf_bus_distinct _ W); apply (alike_bus_at r p AB'); eauto.
  - intros i y Hy. destruct (alike_row _ _ _ _ _ AB' Hy) as (x & Hx & C). destruct (wf_bus_type _ W _ _ Hx) as (t & P & Z0). exists t. split; auto. rewrite <- Z0. symmetry. apply C. cbn; auto.
  - destruct (wf_some_bus _ W) as (i & x & Hx & N). destruct (alike_row _ _ _ _ _ AB Hx) as (y & Hy & C). exists i, y. split; auto. rewrite C by (cbn; auto). exact N.
  - intros y I. destruct (ROW _ _ _ _ AG I) as (x & Ix & C). destruct (wf_gen_bus _ W _ Ix) as (z & N). exists z. eapply NB; [|exact N]. apply C. cbn; auto.
  - intros y I. destruct (ROW _ _ _ _ AL I) as (x & Ix & C). destruct (wf_br_bus _ W _ Ix) as ((z1 & N1) & (z2 & N2)).
    split; [exists z1|exists z2]; (eapply NB; [|eassumption]); apply C; cbn; auto.
  - intros y I. destruct (ROW _ _ _ _ AL I) as (x & Ix & C). rewrite (C BR_STATUS) by (cbn; auto). apply (wf_br_status _ W _ Ix).
  - intros a y Ha I. rewrite (rp_areas _ _ RP) in Ha. assert (Ha' : p_areas p = Some a) by (destruct (p_areas p) as [[|x l]|]; cbn in Ha; congruence).
    destruct (wf_area_bus _ W a y Ha' I) as (z & N). exists z. eapply NB; [reflexivity|exact N].
  - intros g Hg. rewrite (rp_gencost _ _ RP) in Hg. rewrite LG. exact (wf_gencost _ W g Hg).
  - intros m Hm. rewrite (rp_A _ _ RP) in Hm. rewrite LB, LG. exact (wf_A _ W m Hm).
  - intros m Hm. rewrite (rp_N _ _ RP) in Hm. rewrite (rp_A _ _ RP), LB, LG. exact (wf_N _ W m Hm).
Qed.

Theorem C120_rerun : B <> 0%K -> lists_exactly gens (gen_in_service p) -> lists_exactly brs (branch_in_service p) ->
  reactive p -> all_fed p -> references_served p -> rect 2 (p_bus r) -> rect 8 (p_gen r) -> rect 11 (p_branch r) ->
  runpf argsort cis cabs cang solve splu DC B r = Ok (r', ok') ->
  (forall i b b', bus_in_service p i -> nth_error (p_bus r) i = Some b -> nth_error (p_bus r') i = Some b' -> cell b' VA = cell b VA) /\
  (forall j l l', branch_in_service p j -> nth_error (p_branch r) j = Some l -> nth_error (p_branch r') j = Some l' ->
     cell l' PF = cell l PF /\ cell l' PT = cell l PT) /\
  (forall i z, bus_in_service p i -> bus_at p z i ->
     total_at GEN_BUS (fun g => cell g PG) (p_gen r') z = total_at GEN_BUS (fun g => cell g PG) (p_gen r) z).
Proof.
  intros HB GENS BRS POS FED REF R1 R2 R3 run'.
  exact (C120_again argsort cis cabs cang solve splu Has SE B p r r r' ok ok' gens brs HB W E GENS BRS POS FED REF run eq_refl eq_refl eq_refl (rerun_wf R1 R2 R3) rerun_state run').
Qed.
End Rerun.
Print Assumptions C120_rerun.

(** ** example *)
Definition equal_rows {A} (n : nat) (t : list (list A)) : bool := match t with [] => true | x :: _ => (n <=? length x) && forallb (fun y => length y =? length x) t end.
Lemma equal_rows_ok {A} n (t : list (list A)) : equal_rows n t = true -> rect n t.
Proof.
  destruct t as [|x t]; [exists n; split; auto|]. unfold equal_rows. intros H. apply andb_prop in H as (H1 & H2). exists (length x). split; [apply Nat.leb_le; exact H1|].
  apply Forall_forall. intros y I. rewrite forallb_forall in H2. apply Nat.eqb_eq. apply H2. exact I.
Qed.
Definition run4 (p : ppc_of Qc) := runpf argsort_stable cis_q (fun z => re z) (fun _ => zc 0) (checked gaussq) (fun A => Ok (checked gaussq A)) DC (zc 100) p.
(** the tables reported for case4gs have rows of equal lengths, run again, and give the same angles, flows and generation *)
Example C120_example :
  match case4gs_dc with
  | Ok (r, true) => equal_rows 2 (p_bus r) && equal_rows 8 (p_gen r) && equal_rows 11 (p_branch r) &&
      match run4 r with
      | Ok (r', true) => let same c f := forallb (fun x => qc_eqb (cell (fst x) c) (cell (snd x) c)) (combine (f r) (f r')) in
          same VA (@p_bus Qc) && same PF (@p_branch Qc) && same PG (@p_gen Qc) && negb (qc_eqb (cell (nth 1 (p_bus r') []) VA) (zc 0))
      | _ => false
      end
  | _ => false
  end = true.
Proof. vm_compute. reflexivity. Qed.
