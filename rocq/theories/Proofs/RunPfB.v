(** A whole power flow run, in terms of the external tables, continued: the reported case. *)
From Coq Require Import Permutation.
From Verif Require Import Lib.ListFacts Model.RunPf Spec.RunSpec Proofs.SparseFacts Proofs.PfsolnA
  Proofs.Ext2intA Proofs.Ext2intB Proofs.Ext2intC Proofs.Ext2intD Proofs.RunPfA.
Local Open Scope nat_scope.

Section RunPfB.
Context {K : Type} {F : Fld K}.

(** a solver's table: the same rows, only the columns [cols] may differ *)
Definition keeps (cols : list nat) (t t' : list (list K)) : Prop :=
  length t' = length t /\
  forall i r, nth_error t i = Some r -> exists r', nth_error t' i = Some r' /\ length r' = length r /\
    forall j, ~ In j cols -> cell r' j = cell r j.

Lemma keeps_changes cols t t' : keeps cols t t' -> only_changes cols t t'.
Proof.
  intros (L & H). split; auto. intros i r Hr. destruct (H _ _ Hr) as (r' & A & B & C). exists r'.
  split; auto. split; auto. lia.
Qed.

Lemma keeps_shape cols bcols t t' : (forall c, In c bcols -> ~ In c cols) -> keeps cols t t' ->
  same_shape bcols t t'.
Proof.
  intros D (L & H). split; auto. intros k r r' Hr Hr'. destruct (H _ _ Hr) as (r1 & A & B & C).
  assert (r1 = r') by congruence. subst r1. split; auto. intros c I. specialize (C c (D c I)).
  destruct (Nat.lt_ge_cases c (length r)) as [Lc|Lc].
  - rewrite (nth_error_nth' r 0%K), (nth_error_nth' r' 0%K) by lia. unfold cell in C. congruence.
  - rewrite (proj2 (nth_error_None r c)), (proj2 (nth_error_None r' c)); auto; lia.
Qed.

(** ** the columns added for the flows *)
Definition widen (r : list K) : list K :=
  if length r <? QT then r ++ repeat 0%K (QT - length r + 1) else r.

Lemma widen_nth r c v : nth_error r c = Some v -> nth_error (widen r) c = Some v.
Proof.
  intros H. unfold widen. destruct (_ <? _); auto. rewrite nth_error_app1; auto.
  eapply nth_error_some_lt; eauto.
Qed.

Lemma widen_nth_lt r c : c < length r -> nth_error (widen r) c = nth_error r c.
Proof. intros H. destruct (nth_error_lt r c H) as [v Hv]. rewrite Hv. apply widen_nth; auto. Qed.

Lemma widen_cell r c : cell (widen r) c = cell r c.
Proof.
  unfold widen, cell. destruct (_ <? _); auto. destruct (Nat.lt_ge_cases c (length r)).
  - rewrite app_nth1; auto.
  - rewrite app_nth2 by auto. rewrite (nth_overflow r) by auto. apply nth_repeat.
Qed.

Lemma widen_length r : length r <= length (widen r).
Proof. unfold widen. destruct (_ <? _); auto. rewrite app_length. lia. Qed.

Definition widened (p : ppc_of K) : ppc_of K :=
  with_tables p (p_bus p) (p_gen p) (add_flow_cols (p_branch p)).

Lemma widen_changes cols (t : list (list K)) : only_changes cols t (add_flow_cols t).
Proof.
  split; [apply map_length|]. intros i r Hr. exists (widen r). split.
  { unfold add_flow_cols. rewrite nth_error_map, Hr. reflexivity. }
  split; [apply widen_length|]. intros j _. apply widen_cell.
Qed.

Lemma in_widened r (t : list (list K)) : In r (add_flow_cols t) -> exists r0, In r0 t /\ r = widen r0.
Proof. intros H. apply in_map_iff in H as (r0 & <- & I). exists r0. auto. Qed.

Lemma wf_widened p : wf_case p -> wf_case (widened p).
Proof.
  intros [H1 H2 H3 H4 H5 H6 H7 H8 H9 H10 H11 H12 H13 H14 H15]. constructor; auto.
  - destruct H3 as (w & L & Fw). exists (if w <? QT then w + (QT - w + 1) else w).
    split. { destruct (Nat.ltb_spec w QT); lia. }
    apply Forall_forall. intros r I. apply in_widened in I as (r0 & I & ->).
    rewrite Forall_forall in Fw. unfold widen. rewrite (Fw _ I). destruct (_ <? _).
    + rewrite app_length, repeat_length, (Fw _ I). reflexivity.
    + auto.
  - intros r I. apply in_widened in I as (r0 & I & ->).
    destruct (H10 _ I) as ((zf & Hf & Bf) & (zt & Ht & Bt)). split.
    + exists zf. split; [apply widen_nth|]; auto.
    + exists zt. split; [apply widen_nth|]; auto.
  - intros r I. apply in_widened in I as (r0 & I & ->).
    destruct (H11 _ I); [left|right]; apply widen_nth; auto.
Qed.

Lemma branch_widened p i : wf_case p -> branch_in_service (widened p) i <-> branch_in_service p i.
Proof.
  intros W. destruct (wf_br_rect _ W) as (w & Lw & Fw). rewrite Forall_forall in Fw. split.
  - intros (r & Hr & Hs & (zf & jf & Cf & Bf & Sf) & (zt & jt & Ct & Bt & St)).
    cbn [widened with_tables p_branch] in Hr. unfold add_flow_cols in Hr. rewrite nth_error_map in Hr.
    destruct (nth_error (p_branch p) i) as [r0|] eqn:E; [|discriminate]. change (Some (widen r0) = Some r) in Hr.
    assert (r = widen r0) by congruence. clear Hr. subst r. pose proof (Fw _ (nth_error_In _ _ E)) as L0.
    rewrite widen_nth_lt in Hs by (unfold BR_STATUS; lia).
    rewrite widen_nth_lt in Cf by (unfold F_BUS; lia). rewrite widen_nth_lt in Ct by (unfold T_BUS; lia).
    exists r0. split; auto. split; auto. split; [exists zf, jf|exists zt, jt]; auto.
  - intros (r & Hr & Hs & (zf & jf & Cf & Bf & Sf) & (zt & jt & Ct & Bt & St)).
    exists (widen r). split.
    { cbn [widened with_tables p_branch]. unfold add_flow_cols. rewrite nth_error_map, Hr. reflexivity. }
    split; [apply widen_nth; auto|]. split; [exists zf, jf|exists zt, jt]; auto using widen_nth.
Qed.

(** ** the run *)
Variable argsort : list Z -> list nat.
Variables (cis : K -> cpx K) (cabs cang : cpx K -> K).
Variables (solve : list (list K) -> list K -> result (list K))
          (splu : list (list K) -> result (list K -> result (list K))).
Variables (f : formulation (K := K)) (baseMVA : K) (p r : ppc_of K) (ok : bool).
Hypothesis Has : argsort_spec argsort.
Hypothesis W : wf_case p.
Hypothesis E : in_ext_state p.
Hypothesis run : runpf argsort cis cabs cang solve splu f baseMVA p = Ok (r, ok).
Hypothesis solver_keeps : forall bus gen branch bus' gen' branch' c, NetSpec.types_ok bus ->
  solve_internal cis cabs cang solve splu f baseMVA bus gen branch = Ok (bus', gen', branch', c) ->
  keeps [VM; VA] bus bus' /\ keeps [PG; QG] gen gen' /\ keeps [PF; QF; PT; QT] branch branch'.

Lemma ofZ_some (a b : Z) : Some (ofZ a : K) = Some (ofZ b) -> a = b.
Proof. intros H. assert (fofZ a = fofZ b :> K) as H' by (cbn in H; congruence). apply (f_equal ftrunc) in H'.
  rewrite !ftrunc_ofZ in H'. exact H'. Qed.

Lemma cell_ofZ (x : list K) c z : nth_error x c = Some (ofZ z) -> ftrunc (cell x c) = z.
Proof. intros H. rewrite (nth_error_cell _ _ _ H). apply ftrunc_ofZ. Qed.

Lemma internal_types q sb sg sl sa : internal_form (widened p) q sb sg sl sa -> NetSpec.types_ok (p_bus q).
Proof.
  intros IF. apply Forall_forall. intros b I. apply In_nth_error in I as (k & Hk).
  destruct (nth_error_lt sb k) as [i Hi].
  { rewrite <- (if_bus_len _ _ _ _ _ _ IF). eapply nth_error_some_lt; eauto. }
  destruct (if_sb _ _ _ _ _ _ IF) as ((_ & IS) & _).
  destruct (proj1 (IS i) (nth_error_In _ _ Hi)) as (b0 & H0 & HT).
  rewrite (if_bus _ _ _ _ _ _ IF _ _ _ Hi H0) in Hk.
  assert (b = upd b0 BUS_I (ofN k)) by congruence. clear Hk. subst b.
  destruct (wf_bus_type _ W _ _ H0) as (t & Ht & Hc).
  assert (cell (upd b0 BUS_I (ofN k)) BUS_TYPE = fofZ t) as ->.
  { apply nth_error_cell. rewrite nth_error_upd_other by discriminate. exact Hc. }
  assert (t <> 4)%Z by congruence.
  assert (t = 1 \/ t = 2 \/ t = 3)%Z as [->|[->| ->]] by lia; auto.
Qed.

Theorem run_report :
  exists q sb bus' gen' branch',
    ext2int argsort (widened p) = Ok q /\ NetSpec.types_ok (p_bus q) /\
    solve_internal cis cabs cang solve splu f baseMVA (p_bus q) (p_gen q) (p_branch q)
      = Ok (bus', gen', branch', ok) /\
    NoDup sb /\ (forall i, In i sb <-> bus_in_service p i) /\ length bus' = length sb /\
    reports p r /\
    (forall k i b, nth_error sb k = Some i -> nth_error bus' k = Some b ->
       exists b', nth_error (p_bus r) i = Some b' /\ forall c, c <> BUS_I -> cell b' c = cell b c) /\
    (forall k i z, nth_error sb k = Some i -> bus_at p z i ->
       (forall c, In c [PG; QG] ->
          total_at GEN_BUS (fun g => cell g c) (p_gen r) z = gen_total (fun g => cell g c) gen' k) /\
       (forall g, In g (p_gen q) -> in_service g = true -> bus_no g GEN_BUS = k ->
          exists g0, serves p z g0 /\ forall c, c <> GEN_BUS -> cell g c = cell g0 c) /\
       (forall g0, serves p z g0 -> has_gen (p_gen q) k) /\
       (forall idx c, lists_exactly idx (gen_in_service p) -> c <> GEN_BUS ->
          gen_total (fun g => cell g c) (p_gen q) k = served p idx (fun g => cell g c) z) /\
       (forall t, has_type (p_bus q) k t <-> exists b, nth_error (p_bus p) i = Some b /\ cell b BUS_TYPE = fofZ t) /\
       forall c d, In c [PF; QF; PT; QT] -> In d [PF; QF; PT; QT] ->
         (total_at F_BUS (fun g => cell g c) (p_branch r) z
          + total_at T_BUS (fun g => cell g d) (p_branch r) z)%K
         = drawn (fun g => cell g c) (fun g => cell g d) branch' k).
Proof.
  unfold runpf in run. fold (widened p) in run.
  assert (in_ext_state (widened p)) as E' by exact E.
  rewrite ext2int_unfold in run by auto.
  destruct (ext2int_conv argsort Has (widened p) (wf_widened _ W))
    as (q & o & i2eZ & sb & gon & ge & sg & sl & sa & Hq & C).
  rewrite Hq in run. cbn [bind] in run.
  pose proof (cv_form _ _ _ _ _ _ _ _ _ _ _ C) as IF. pose proof (internal_types _ _ _ _ _ IF) as TY.
  apply bind_ok in run as ([[[bus' gen'] branch'] c0] & HS & run).
  destruct (solver_keeps _ _ _ _ _ _ _ TY HS) as (KB & KG & KL).
  destruct (int2ext_back argsort Has (widened p) (wf_widened _ W) q o i2eZ sb gon ge sg sl sa C bus' gen' branch')
    as (r1 & Hr & B1 & B2 & B3 & Hgc & Har & HA & HN & o' & Ho' & _ & Hgo & Hlo).
  { eapply keeps_shape; [|exact KB]. intros c I J. destruct I as [<-|[]]. destruct J as [J|[J|[]]]; discriminate. }
  { eapply keeps_shape; [|exact KG]. intros c I J. destruct I as [<-|[]]. destruct J as [J|[J|[]]]; discriminate. }
  { eapply keeps_shape; [|exact KL]. intros c I J.
    destruct I as [<-|[<-|[]]]; destruct J as [J|[J|[J|[J|[]]]]]; discriminate. }
  change (with_results q bus' gen' branch') with (with_tables q bus' gen' branch') in Hr.
  rewrite Hr in run. cbn [bind] in run. rewrite Ho' in run. cbn [of_option bind] in run.
  rewrite Hgo, Hlo in run.
  apply bind_ok in run as (gen2 & HG2 & run). apply bind_ok in run as (br2 & HL2 & run). injection run as <- <-.
  destruct (if_sb _ _ _ _ _ _ IF) as ((Nsb & Isb) & _).
  destruct (if_sl _ _ _ _ _ _ IF) as ((Nsl & Isl) & _).
  destruct (if_sg _ _ _ _ _ _ IF) as (Nsg & Isg).
  destruct (cv_goff _ _ _ _ _ _ _ _ _ _ _ C) as (Ngo & Igo).
  destruct (cv_loff _ _ _ _ _ _ _ _ _ _ _ C) as (Nlo & Ilo).
  (* bus table *)
  assert (RB : forall i, In i sb -> i < length (p_bus p)).
  { intros i I. apply Isb in I as (x & Hx & _). eapply nth_error_some_lt; exact Hx. }
  assert (INB : forall k i x, nth_error sb k = Some i -> nth_error (p_bus p) i = Some x ->
    exists x1, nth_error (p_bus q) k = Some x1 /\ length x1 = length x /\
      forall j, ~ In j [BUS_I] -> cell x1 j = cell x j).
  { intros k i x Hk Hx. eexists. split; [apply (if_bus _ _ _ _ _ _ IF _ _ _ Hk Hx)|].
    split; [apply upd_length|]. intros j N. apply cell_nth_error. apply nth_error_upd_other.
    intros EQ. apply N. left. auto. }
  (* generator table *)
  assert (RG : forall i, In i sg -> i < length (p_gen p)).
  { intros i I. apply Isg in I as (x & s & Hx & _). eapply nth_error_some_lt; exact Hx. }
  assert (GR : forall k i x, nth_error sg k = Some i -> nth_error (p_gen p) i = Some x ->
    exists z b, nth_error x GEN_BUS = Some (ofZ z) /\ stands_for p sb b z /\ in_service x = true /\
      nth_error (p_gen q) k = Some (upd x GEN_BUS (ofN b))).
  { intros k i x Hk Hx. destruct (proj1 (Isg i) (nth_error_In _ _ Hk)) as (x' & s & Hx' & Hs & Gs & z & j & Hz & Bz & Sj).
    cbn [widened with_tables p_gen] in Hx'. assert (x' = x) by congruence. subst x'.
    apply Isb in Sj. apply In_nth_error in Sj as (b & Hb).
    exists z, b. split; auto. assert (stands_for p sb b z) as ST by (exists j; auto). split; auto.
    split. { unfold in_service. rewrite (nth_error_cell _ _ _ Hs). exact Gs. }
    apply (if_gen _ _ _ _ _ _ IF _ _ _ _ _ Hk Hx Hz ST). }
  assert (ING : forall k i x, nth_error sg k = Some i -> nth_error (p_gen p) i = Some x ->
    exists x1, nth_error (p_gen q) k = Some x1 /\ length x1 = length x /\
      forall j, ~ In j [GEN_BUS] -> cell x1 j = cell x j).
  { intros k i x Hk Hx. destruct (GR _ _ _ Hk Hx) as (z & b & _ & _ & _ & H). eexists. split; [exact H|].
    split; [apply upd_length|]. intros j N. apply cell_nth_error. apply nth_error_upd_other.
    intros EQ. apply N. left. auto. }
  assert (OG : forall i, In i (o_gen_off o) <-> i < length (p_gen p) /\ ~ In i sg).
  { intros i. rewrite Igo. cbn [widened with_tables p_gen]. rewrite Isg. tauto. }
  (* branch table *)
  set (br := add_flow_cols (p_branch p)) in *.
  assert (RL : forall i, In i sl -> i < length br).
  { intros i I. apply Isl in I as (x & Hx & _). eapply nth_error_some_lt; exact Hx. }
  assert (LR : forall k i x, nth_error sl k = Some i -> nth_error br i = Some x ->
    exists zf bf zt bt, nth_error x F_BUS = Some (ofZ zf) /\ stands_for p sb bf zf /\
      nth_error x T_BUS = Some (ofZ zt) /\ stands_for p sb bt zt /\
      nth_error (p_branch q) k = Some (upd (upd x F_BUS (ofN bf)) T_BUS (ofN bt))).
  { intros k i x Hk Hx. destruct (proj1 (Isl i) (nth_error_In _ _ Hk))
      as (x' & Hx' & _ & (zf & jf & Hf & Bf & Sf) & (zt & jt & Ht & Bt & Stt)).
    cbn [widened with_tables p_branch] in Hx'. fold br in Hx'. assert (x' = x) by congruence. subst x'.
    apply Isb in Sf. apply In_nth_error in Sf as (bf & Hbf).
    apply Isb in Stt. apply In_nth_error in Stt as (bt & Hbt).
    assert (stands_for p sb bf zf) as S1 by (exists jf; auto).
    assert (stands_for p sb bt zt) as S2 by (exists jt; auto).
    exists zf, bf, zt, bt. split; auto. split; auto. split; auto. split; auto.
    apply (if_br _ _ _ _ _ _ IF _ _ _ _ _ _ _ Hk Hx Hf Ht S1 S2). }
  assert (INL : forall k i x, nth_error sl k = Some i -> nth_error br i = Some x ->
    exists x1, nth_error (p_branch q) k = Some x1 /\ length x1 = length x /\
      forall j, ~ In j [F_BUS; T_BUS] -> cell x1 j = cell x j).
  { intros k i x Hk Hx. destruct (LR _ _ _ Hk Hx) as (zf & bf & zt & bt & _ & _ & _ & _ & H).
    eexists. split; [exact H|]. split; [rewrite !upd_length; auto|]. intros j N. apply cell_nth_error.
    assert (F_BUS <> j /\ T_BUS <> j) as [N1 N2] by (split; intros EQ; apply N; [left|right; left]; auto).
    rewrite !nth_error_upd_other; auto. }
  assert (OL : forall i, In i (o_br_off o) <-> i < length br /\ ~ In i sl).
  { intros i. rewrite Ilo. cbn [widened with_tables p_branch]. fold br. rewrite Isl. tauto. }
  (* same bus *)
  assert (SB : forall k i z z' b, nth_error sb k = Some i -> bus_at p z i -> stands_for p sb b z' ->
                 (z' =? z)%Z = (b =? k)).
  { intros k i z z' b Hk Bi (j & Hj & Bj). destruct (Nat.eqb_spec b k) as [->|N].
    - assert (j = i) by congruence. subst j. apply Z.eqb_eq.
      destruct Bi as (x & X1 & X2), Bj as (y & Y1 & Y2). assert (y = x) by congruence. subst y.
      apply ofZ_some. congruence.
    - apply Z.eqb_neq. intros ->. apply N. assert (j = i) by (eapply (wf_bus_distinct _ W); eauto). subst j.
      eapply (NoDup_nth_error_eq sb); eauto. }
  assert (NOF : forall b, bus_no [(ofN b : K)] 0 = b).
  { intros b. unfold bus_no, cell. cbn [nth]. change (ofN b : K) with (fofZ (Z.of_nat b) : K).
    rewrite ftrunc_ofZ. apply Nat2Z.id. }
  assert (NOC : forall (x : list K) c b, cell x c = ofN b -> bus_no x c = b).
  { intros x c b H. unfold bus_no. rewrite H. apply NOF. }
  assert (DG : forall c, In c [GEN_BUS] -> ~ In c [PG; QG]).
  { intros c I J. destruct I as [<-|[]]. destruct J as [J|[J|[]]]; discriminate. }
  assert (DL : forall c, In c [F_BUS; T_BUS] -> ~ In c [PF; QF; PT; QT]).
  { intros c I J. destruct I as [<-|[<-|[]]]; destruct J as [J|[J|[J|[J|[]]]]]; discriminate. }
  pose proof (keeps_changes _ _ _ KB) as CB. pose proof (keeps_changes _ _ _ KG) as CG.
  pose proof (keeps_changes _ _ _ KL) as CL.
  exists q, sb, bus', gen', branch'. rewrite ext2int_unfold by auto. split; auto. split; auto. split; auto.
  split; auto. split; auto.
  split. { destruct KB as (-> & _). apply (if_bus_len _ _ _ _ _ _ IF). }
  split; [|split].
  - constructor; cbn [with_tables p_bus p_gen p_branch p_gencost p_areas p_A p_N]; auto.
    + apply (back_changes [BUS_I] [VM; VA] sb (p_bus p) (p_bus q) bus' (p_bus r1)); auto.
      apply (if_bus_len _ _ _ _ _ _ IF).
    + intros i N. apply (back_other [BUS_I] sb (p_bus p) bus' (p_bus r1)); auto. rewrite Isb. auto.
    + apply (zero_changes [GEN_BUS] [PG; QG] sg (o_gen_off o) (p_gen p) (p_gen q) gen' (p_gen r1) gen2); auto.
      apply (if_gen_len _ _ _ _ _ _ IF).
    + intros i g Hg N. rewrite <- (Isg i : _ <-> gen_in_service p i) in N.
      split; eapply (zero_off [GEN_BUS] [PG; QG] sg (o_gen_off o) (p_gen p) (p_gen q) gen' (p_gen r1) gen2 (if_gen_len _ _ _ _ _ _ IF)); eauto; cbn; auto.
    + apply (only_changes_trans _ _ br); [apply widen_changes|].
      apply (zero_changes [F_BUS; T_BUS] [PF; QF; PT; QT] sl (o_br_off o) br (p_branch q) branch' (p_branch r1) br2); auto.
      apply (if_br_len _ _ _ _ _ _ IF).
    + intros i g Hg N. rewrite <- (branch_widened p i W), <- Isl in N.
      repeat split; eapply (zero_off [F_BUS; T_BUS] [PF; QF; PT; QT] sl (o_br_off o) br (p_branch q) branch' (p_branch r1) br2 (if_br_len _ _ _ _ _ _ IF)); eauto; cbn; auto.
  - cbn [with_tables p_bus]. intros k i b Hk Hb.
    destruct (nth_error_lt (p_bus p) i) as [x Hx]; [apply RB; eapply nth_error_In; eauto|].
    destruct (back_rows [BUS_I] [VM; VA] sb (p_bus p) (p_bus q) bus' (p_bus r1) (if_bus_len _ _ _ _ _ _ IF) INB CB B1 k i x b Hk Hx Hb)
      as (a & Ha & _ & _ & H & _).
    exists a. split; auto. intros c N. apply H. intros [I|[]]. congruence.
  - cbn [with_tables p_gen p_branch]. intros k i z Hk Bi. split.
    + intros c Ic. unfold total_at, gen_total. apply (lsum_report _ _ sg); auto.
      * destruct KG as (-> & _). apply (if_gen_len _ _ _ _ _ _ IF).
      * intros j I. destruct (zero_out_ok _ _ _ _ Ngo HG2) as (L2 & _). destruct B2 as (L1 & _).
        rewrite L2, L1. apply RG; auto.
      * intros j g Hg N.
        rewrite (zero_off [GEN_BUS] [PG; QG] sg (o_gen_off o) (p_gen p) (p_gen q) gen' (p_gen r1) gen2 (if_gen_len _ _ _ _ _ _ IF) B2 Ngo OG HG2 j g c Hg N Ic).
        destruct (_ =? z)%Z; auto.
      * intros m j a b Hm Ha Hb. destruct (nth_error_lt (p_gen p) j) as [x Hx]; [apply RG; eapply nth_error_In; eauto|].
        destruct (zero_on [GEN_BUS] [PG; QG] sg (o_gen_off o) (p_gen p) (p_gen q) gen' (p_gen r1) gen2
                    (if_gen_len _ _ _ _ _ _ IF) ING CG B2 Ngo OG HG2 m j x a b Hm Hx Ha Hb) as (Z1 & Z2).
        destruct (GR _ _ _ Hm Hx) as (z' & n & Hz' & STn & ON & Hq').
        destruct CG as (_ & HC). destruct (HC _ _ Hq') as (b' & Hb' & _ & Cb).
        assert (b' = b) by congruence. subst b'.
        rewrite Z1 by (left; auto). rewrite (cell_ofZ _ _ _ Hz'), (SB _ _ _ _ _ Hk Bi STn).
        assert (in_service b = true) as ->.
        { unfold in_service. rewrite Cb by (intros [J|[J|[]]]; discriminate).
          rewrite (cell_nth_error _ x); [exact ON|]. apply nth_error_upd_other. discriminate. }
        rewrite (NOC b GEN_BUS n).
        2:{ rewrite Cb by (apply DG; left; auto). apply nth_error_cell. apply nth_error_upd_same.
            eapply nth_error_some_lt; eauto. }
        cbn [andb]. destruct (n =? k); auto. apply Z2. intros [<-|[]]. destruct Ic as [J|[J|[]]]; discriminate.
    + assert (QR : forall m g, nth_error (p_gen q) m = Some g -> exists j x z' n,
        nth_error sg m = Some j /\ nth_error (p_gen p) j = Some x /\ nth_error x GEN_BUS = Some (ofZ z') /\
        stands_for p sb n z' /\ in_service x = true /\ in_service g = true /\ bus_no g GEN_BUS = n /\
        forall c, c <> GEN_BUS -> cell g c = cell x c).
      { intros m g Hm. destruct (nth_error_lt sg m) as [j Hj].
        { rewrite <- (if_gen_len _ _ _ _ _ _ IF). eapply nth_error_some_lt; eauto. }
        destruct (nth_error_lt (p_gen p) j) as [x Hx]; [apply RG; eapply nth_error_In; eauto|].
        destruct (GR _ _ _ Hj Hx) as (z' & n & Hz & ST & ON & Hq').
        assert (g = upd x GEN_BUS (ofN n)) by congruence. clear Hq'. subst g.
        exists j, x, z', n. split; auto. split; auto. split; auto. split; auto. split; auto.
        assert (forall c, c <> GEN_BUS -> cell (upd x GEN_BUS (ofN n)) c = cell x c) as OC.
        { intros c N. apply cell_nth_error. apply nth_error_upd_other. auto. }
        split. { unfold in_service. rewrite OC by discriminate. exact ON. }
        split; auto. apply NOC. apply nth_error_cell. apply nth_error_upd_same. eapply nth_error_some_lt; eauto. }
      split; [|split; [|split; [|split]]].
      * intros g Ig _ Bg. apply In_nth_error in Ig as (m & Hm).
        destruct (QR _ _ Hm) as (j & x & z' & n & Hj & Hx & Hz & ST & _ & _ & EB & OC).
        exists x. split; auto. exists j. split; [apply Isg; eapply nth_error_In; eauto|]. split; auto.
        assert ((n =? k) = true) as NK by (apply Nat.eqb_eq; congruence).
        pose proof (SB _ _ _ _ _ Hk Bi ST) as EQ. rewrite NK in EQ. apply Z.eqb_eq in EQ. congruence.
      * intros g0 (j & Sj & Hj & Hz). apply (Isg j : _ <-> gen_in_service p j) in Sj.
        apply In_nth_error in Sj as (m & Hm).
        destruct (nth_error_lt (p_gen q) m) as [g Hg].
        { rewrite (if_gen_len _ _ _ _ _ _ IF). eapply nth_error_some_lt; eauto. }
        destruct (QR _ _ Hg) as (j' & x & z' & n & Hj' & Hx & Hz' & ST & _ & ON & EB & _).
        assert (j' = j) by congruence. subst j'. assert (x = g0) by congruence. subst x.
        assert (z' = z) by (apply ofZ_some; congruence). subst z'.
        pose proof (SB _ _ _ _ _ Hk Bi ST) as EQ. rewrite Z.eqb_refl in EQ. symmetry in EQ. apply Nat.eqb_eq in EQ.
        exists g. split; [eapply nth_error_In; eauto|]. split; auto. congruence.
      * intros idx c (NDx & IX) Nc. unfold served. rewrite (lsum_perm _ idx sg).
        2:{ apply NoDup_Permutation; auto. intros j. rewrite IX. symmetry. apply (Isg j). }
        unfold gen_total. rewrite (lsum_nth _ (p_gen q) []), (lsum_nth _ sg 0), (if_gen_len _ _ _ _ _ _ IF).
        apply lsum_ext. intros m Im. apply in_seq in Im.
        destruct (nth_error_lt (p_gen q) m) as [g Hg]; [rewrite (if_gen_len _ _ _ _ _ _ IF); lia|].
        destruct (QR _ _ Hg) as (j & x & z' & n & Hj & Hx & Hz' & ST & _ & ON & EB & OC).
        rewrite (nth_error_nth _ _ _ Hg), (nth_error_nth _ _ _ Hj). cbv zeta.
        rewrite (nth_error_nth _ _ _ Hx), ON, EB, (cell_ofZ _ _ _ Hz'), (SB _ _ _ _ _ Hk Bi ST). cbn [andb].
        destruct (n =? k); auto.
      * intros t. destruct (nth_error_lt (p_bus p) i) as [x Hx]; [apply RB; eapply nth_error_In; eauto|].
        destruct (INB _ _ _ Hk Hx) as (x1 & H1 & _ & C1).
        assert (cell x1 BUS_TYPE = cell x BUS_TYPE) as CT by (apply C1; intros [J|[]]; discriminate).
        split; intros (b & Hb & Tb); eexists; (split; [eassumption|]); congruence.
      * intros c d Ic Id. unfold drawn. rewrite lsum_add. unfold total_at.
      assert (LL : length branch' = length sl).
      { destruct KL as (-> & _). apply (if_br_len _ _ _ _ _ _ IF). }
      assert (R2 : forall j, In j sl -> j < length br2).
      { intros j I. destruct (zero_out_ok _ _ _ _ Nlo HL2) as (L2 & _). destruct B3 as (L1 & _).
        rewrite L2, L1. apply RL; auto. }
      assert (Z0 : forall e, In e [PF; QF; PT; QT] -> forall j g, nth_error br2 j = Some g -> ~ In j sl -> cell g e = 0%K).
      { intros e Ie j g Hg N.
        exact (zero_off [F_BUS; T_BUS] [PF; QF; PT; QT] sl (o_br_off o) br (p_branch q) branch' (p_branch r1) br2 (if_br_len _ _ _ _ _ _ IF) B3 Nlo OL HL2 j g e Hg N Ie). }
      assert (ROW : forall m j a b, nth_error sl m = Some j -> nth_error br2 j = Some a ->
         nth_error branch' m = Some b -> exists zf bf zt bt,
           cell a F_BUS = ofZ zf /\ cell a T_BUS = ofZ zt /\ bus_no b F_BUS = bf /\ bus_no b T_BUS = bt /\
           stands_for p sb bf zf /\ stands_for p sb bt zt /\
           forall e, In e [PF; QF; PT; QT] -> cell a e = cell b e).
      { intros m j a b Hm Ha Hb. destruct (nth_error_lt br j) as [x Hx]; [apply RL; eapply nth_error_In; eauto|].
        destruct (zero_on [F_BUS; T_BUS] [PF; QF; PT; QT] sl (o_br_off o) br (p_branch q) branch' (p_branch r1) br2
                    (if_br_len _ _ _ _ _ _ IF) INL CL B3 Nlo OL HL2 m j x a b Hm Hx Ha Hb) as (Z1 & Z2).
        destruct (LR _ _ _ Hm Hx) as (zf & bf & zt & bt & Hf & Sf & Ht & Stt & Hq').
        destruct CL as (_ & HC). destruct (HC _ _ Hq') as (b' & Hb' & _ & Cb).
        assert (b' = b) by congruence. subst b'. exists zf, bf, zt, bt.
        split. { rewrite Z1 by (left; auto). apply nth_error_cell; auto. }
        split. { rewrite Z1 by (right; left; auto). apply nth_error_cell; auto. }
        split. { apply NOC. rewrite Cb by (apply DL; left; auto). apply nth_error_cell.
                 rewrite nth_error_upd_other by discriminate. apply nth_error_upd_same.
                 eapply nth_error_some_lt; eauto. }
        split. { apply NOC. rewrite Cb by (apply DL; right; left; auto). apply nth_error_cell.
                 apply nth_error_upd_same. rewrite upd_length. eapply nth_error_some_lt; eauto. }
        split; auto. split; auto. intros e Ie. apply Z2. intros J. exact (DL e J Ie). }
      f_equal.
      -- apply (lsum_report _ _ sl); auto.
        { intros j g Hg N. rewrite (Z0 c Ic j g Hg N). destruct (_ =? z)%Z; auto. }
        intros m j a b Hm Ha Hb. destruct (ROW _ _ _ _ Hm Ha Hb) as (zf & bf & zt & bt & -> & _ & -> & _ & S1 & _ & Z2).
        match goal with |- context [ofZ ?y] => change (ofZ y : K) with (fofZ y : K) end. rewrite ftrunc_ofZ, (SB _ _ _ _ _ Hk Bi S1), Z2; auto.
      -- apply (lsum_report _ _ sl); auto.
        { intros j g Hg N. rewrite (Z0 d Id j g Hg N). destruct (_ =? z)%Z; auto. }
        intros m j a b Hm Ha Hb. destruct (ROW _ _ _ _ Hm Ha Hb) as (zf & bf & zt & bt & _ & -> & _ & -> & _ & S2 & Z2).
        match goal with |- context [ofZ ?y] => change (ofZ y : K) with (fofZ y : K) end. rewrite ftrunc_ofZ, (SB _ _ _ _ _ Hk Bi S2), Z2; auto.
Qed.
End RunPfB.
