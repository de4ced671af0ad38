(** DC lines: terminal generators, bus types, the loss constraint. *)
From Verif Require Import Lib.ListFacts Model.DcLine Spec.DcLineSpec Proofs.DcOpfA
  Proofs.SparseFacts Proofs.FldFacts Proofs.OrdFacts Proofs.NetworkA Proofs.NetworkC Proofs.NetworkD Proofs.NetworkE Proofs.OpfLinA Proofs.OpfLinB
  Proofs.BlockFacts Proofs.PfsolnA Proofs.TableEdit Proofs.AcPfB Proofs.LoadsB Props.P_Uopf.
Local Open Scope nat_scope.

Section DcLineA.
Context {K : Type} {F : Fld K}.
Add Field KF : (@f_ok K F).

(** ** rows built column by column *)
Fixpoint lookup (cols : list (nat * ext K)) (j : nat) (a : ext K) : ext K :=
  match cols with [] => a | c :: cols => lookup cols j (if fst c =? j then snd c else a) end.
Lemma setx_length cols : forall r : list (ext K), length (setx cols r) = length r.
Proof. unfold setx. induction cols as [|c cols IH]; intros r; cbn [fold_left]; auto. rewrite IH. apply upd_length. Qed.
Lemma nth_setx cols j d : forall r : list (ext K), Forall (fun c => fst c < length r) cols ->
  nth j (setx cols r) d = lookup cols j (nth j r d).
Proof.
  unfold setx. induction cols as [|c cols IH]; intros r H; cbn [fold_left lookup]; auto. apply Forall_cons_iff in H as (H1 & H2).
  rewrite IH by (eapply Forall_impl; [|exact H2]; intros a; rewrite upd_length; auto).
  rewrite AcPfB.nth_upd_d by auto. reflexivity.
Qed.
Lemma lookup_other cols j a : ~ In j (map fst cols) -> lookup cols j a = a.
Proof.
  revert a. induction cols as [|c cols IH]; intros a H; cbn in *; auto. rewrite IH by tauto.
  destruct (Nat.eqb_spec (fst c) j); auto. tauto.
Qed.
Lemma nth_repeat_x (n j : nat) (a : ext K) : nth j (repeat a n) a = a.
Proof. revert j. induction n; destruct j; cbn; auto. Qed.
Lemma fudge_length (g : list (ext K)) : length (fudge g) = length g.
Proof. unfold fudge. destruct (isload_x g); auto. apply upd_length. Qed.
Lemma fudge_cell (g : list (ext K)) j : PMAX < length g -> j <> PMAX -> xcell (fudge g) j = xcell g j.
Proof.
  intros L N. unfold fudge. destruct (isload_x g); auto. unfold xcell. rewrite AcPfB.nth_upd_d by auto.
  destruct (Nat.eqb_spec PMAX j); congruence.
Qed.
Lemma fudge_pmax (g : list (ext K)) : PMAX < length g -> xcell (fudge g) PMAX = if isload_x g then EFin (- dec 1 6)%K else xcell g PMAX.
Proof.
  intros L. unfold fudge. destruct (isload_x g); auto. unfold xcell. rewrite AcPfB.nth_upd_d by auto. reflexivity.
Qed.
Lemma isload_x_cells (g : list (ext K)) : PMAX < length g -> PMIN < length g -> isload_x g =
  match xcell g PMIN with ENeg => true | EFin a => fltb a 0%K | EPos => false end && match xcell g PMAX with EFin b => feqb b 0%K | _ => false end.
Proof. intros L M. unfold isload_x, xcell. rewrite !(nth_indep g EPos (EFin 0%K)) by auto. reflexivity. Qed.

Ltac cols_lt Hw := repeat (apply Forall_cons; [cbn [fst]; rewrite repeat_length; unfold PMIN in Hw; cbv; lia|]); apply Forall_nil.
Ltac other_col N := rewrite lookup_other; [apply nth_repeat_x|]; intros I; apply N; revert I; cbn; tauto.

Lemma from_cells w (d : list K) : PMIN < w ->
  length (from_gen w d) = w /\
  xcell (from_gen w d) GEN_BUS = EFin (cell d L_F_BUS) /\ xcell (from_gen w d) PG = EFin (- cell d L_PF)%K /\
  xcell (from_gen w d) QG = EFin (cell d L_QF) /\ xcell (from_gen w d) VG = EFin (cell d L_VF) /\
  xcell (from_gen w d) QMIN = EFin (cell d L_QMINF) /\ xcell (from_gen w d) QMAX = EFin (cell d L_QMAXF) /\
  xcell (from_gen w d) GEN_STATUS = EFin (cell d L_STATUS) /\ xcell (from_gen w d) MBASE = EFin (fofZ 100) /\
  (forall j, ~ In j [GEN_BUS; PG; QG; VG; QMIN; QMAX; GEN_STATUS; MBASE; PMIN; PMAX] -> xcell (from_gen w d) j = EFin 0%K) /\
  xcell (from_gen w d) PMIN = (if fltb (cell d L_PMAX) 0%K then ENeg else EFin (- cell d L_PMAX)%K) /\
  xcell (from_gen w d) PMAX = (if fltb (cell d L_PMIN) 0%K then EPos else
     if feqb (cell d L_PMIN) 0%K && negb (feqb (cell d L_PMAX) 0%K) then EFin (- dec 1 6)%K else EFin (- cell d L_PMIN)%K).
Proof.
  intros Hw. unfold from_gen. set (cols := [_; _; _; _; _; _; _; _; _; _; _; _]).
  assert (FL : Forall (fun c : nat * ext K => fst c < length (repeat (EFin 0%K) w : list (ext K))) cols) by (unfold cols; cols_lt Hw).
  set (g := setx cols _). assert (LG : length g = w) by (unfold g; rewrite setx_length, repeat_length; auto).
  assert (C : forall j, xcell g j = lookup cols j (EFin 0%K)) by (intros j; unfold g, xcell; rewrite nth_setx by auto; rewrite nth_repeat_x; auto).
  assert (Hm : PMAX < length g) by (rewrite LG; unfold PMIN, PMAX in *; lia). assert (Hm' : PMIN < length g) by (rewrite LG; auto).
  assert (C' : forall j, j <> PMAX -> xcell (fudge g) j = lookup cols j (EFin 0%K)) by (intros j N; rewrite fudge_cell by auto; auto).
  split; [rewrite fudge_length; auto|].
  do 8 (split; [rewrite C' by discriminate; reflexivity|]).
  split. { intros j N. rewrite C' by (intros ->; apply N; cbn; tauto). apply lookup_other. intros I. apply N. revert I. unfold cols. cbn. tauto. }
  split. { rewrite C' by discriminate. unfold cols, nonneg, cl, cell. cbn [lookup fst snd Nat.eqb PMIN PMAX QMIN QMAX MBASE GEN_STATUS GEN_BUS PG QG VG].
    destruct (fltb _ _); reflexivity. }
  rewrite fudge_pmax, isload_x_cells, !C by auto. unfold cols, nonneg, cl, cell.
  cbn [lookup fst snd Nat.eqb PMIN PMAX QMIN QMAX MBASE GEN_STATUS GEN_BUS PG QG VG].
  set (lo := nth L_PMIN d 0%K). set (hi := nth L_PMAX d 0%K).
  assert (OPP : forall a : K, feqb (- a)%K 0%K = feqb a 0%K).
  { intros a. destruct (feqb a 0%K) eqn:E.
    - apply feqb_ok in E. subst a. apply feqb_ok. ring.
    - apply feqb_false in E. apply feqb_false. intros Q. apply E. replace a with (- - a)%K by ring. rewrite Q. ring. }
  destruct (fltb lo 0%K) eqn:E1; cbn [negb]; [rewrite andb_false_r; reflexivity|]. rewrite OPP.
  destruct (feqb lo 0%K) eqn:E2; [|rewrite andb_false_r; reflexivity]. cbn [andb]. rewrite andb_true_r.
  destruct (fltb hi 0%K) eqn:E3; cbn [negb].
  - destruct (feqb hi 0%K) eqn:E4; auto. apply feqb_ok in E4. subst hi. rewrite E4 in E3. rewrite f_lt_irrefl in E3. discriminate.
  - destruct (feqb hi 0%K) eqn:E4; cbn [negb].
    + apply feqb_ok in E4. rewrite E4. replace (- (0))%K with (0%K : K) by ring. rewrite f_lt_irrefl. reflexivity.
    + assert (lt 0%K hi) as P. { apply feqb_false in E4. apply le_cases in E3 as [E3|E3]; [congruence|exact E3]. }
      assert (fltb (- hi)%K 0%K = true) as ->; [|reflexivity]. apply lt_sub. replace (0 - - hi)%K with hi by ring. exact P.
Qed.
Lemma to_cells w (d : list K) : PMIN < w ->
  length (to_gen w d) = w /\
  xcell (to_gen w d) GEN_BUS = EFin (cell d L_T_BUS) /\ xcell (to_gen w d) PG = EFin (cell d L_PT) /\
  xcell (to_gen w d) QG = EFin (cell d L_QT) /\ xcell (to_gen w d) VG = EFin (cell d L_VT) /\
  xcell (to_gen w d) QMIN = EFin (cell d L_QMINT) /\ xcell (to_gen w d) QMAX = EFin (cell d L_QMAXT) /\
  xcell (to_gen w d) GEN_STATUS = EFin (cell d L_STATUS) /\ xcell (to_gen w d) MBASE = EFin (fofZ 100) /\
  (forall j, ~ In j [GEN_BUS; PG; QG; VG; QMIN; QMAX; GEN_STATUS; MBASE; PMIN; PMAX] -> xcell (to_gen w d) j = EFin 0%K) /\
  xcell (to_gen w d) PMIN = (if fltb (cell d L_PMIN) 0%K then EFin (cell d L_PMIN) else ENeg) /\
  xcell (to_gen w d) PMAX = (if fltb (cell d L_PMAX) 0%K then EFin (cell d L_PMAX) else EPos).
Proof.
  intros Hw. unfold to_gen. set (cols := [_; _; _; _; _; _; _; _; _; _; _; _]).
  assert (FL : Forall (fun c : nat * ext K => fst c < length (repeat (EFin 0%K) w : list (ext K))) cols) by (unfold cols; cols_lt Hw).
  set (g := setx cols _). assert (LG : length g = w) by (unfold g; rewrite setx_length, repeat_length; auto).
  assert (C : forall j, xcell g j = lookup cols j (EFin 0%K)) by (intros j; unfold g, xcell; rewrite nth_setx by auto; rewrite nth_repeat_x; auto).
  assert (Hm : PMAX < length g) by (rewrite LG; unfold PMIN, PMAX in *; lia). assert (Hm' : PMIN < length g) by (rewrite LG; auto).
  assert (C' : forall j, j <> PMAX -> xcell (fudge g) j = lookup cols j (EFin 0%K)) by (intros j N; rewrite fudge_cell by auto; auto).
  split; [rewrite fudge_length; auto|].
  do 8 (split; [rewrite C' by discriminate; reflexivity|]).
  split. { intros j N. rewrite C' by (intros ->; apply N; cbn; tauto). apply lookup_other. intros I. apply N. revert I. unfold cols. cbn. tauto. }
  split. { rewrite C' by discriminate. unfold cols, nonneg, cl, cell. cbn [lookup fst snd Nat.eqb PMIN PMAX QMIN QMAX MBASE GEN_STATUS GEN_BUS PG QG VG].
    destruct (fltb _ _); reflexivity. }
  rewrite fudge_pmax, isload_x_cells, !C by auto. unfold cols, nonneg, cl, cell.
  cbn [lookup fst snd Nat.eqb PMIN PMAX QMIN QMAX MBASE GEN_STATUS GEN_BUS PG QG VG].
  set (lo := nth L_PMIN d 0%K). set (hi := nth L_PMAX d 0%K).
  destruct (fltb hi 0%K) eqn:E3; cbn [negb]; [|rewrite andb_false_r; reflexivity].
  assert (feqb hi 0%K = false) as ->; [|rewrite andb_false_r; reflexivity]. apply feqb_false. intros Q. rewrite Q, f_lt_irrefl in E3. discriminate.
Qed.

Lemma dec6 : (dec 1 6 = 1 / fofZ 1000000)%K.
Proof. unfold dec. change (10 ^ Z.of_nat 6)%Z with 1000000%Z. rewrite fofZ_1. reflexivity. Qed.
(** outputs of the pair within limits exactly when the flows are *)
Lemma limits_ok w (d : list K) pf pt : PMIN < w ->
  output_ok (from_gen w d) (- pf)%K /\ output_ok (to_gen w d) pt <-> line_limits d pf pt.
Proof.
  intros Hw. destruct (from_cells w d Hw) as (_ & _ & _ & _ & _ & _ & _ & _ & _ & _ & F1 & F2).
  destruct (to_cells w d Hw) as (_ & _ & _ & _ & _ & _ & _ & _ & _ & _ & T1 & T2).
  unfold output_ok, line_limits, min_flow, above_lo, below_up. rewrite F1, F2, T1, T2. rewrite <- dec6.
  set (lo := cell d L_PMIN). set (hi := cell d L_PMAX).
  assert (N : forall a b : K, le (- a)%K (- b)%K <-> le b a).
  { intros a b. unfold le. assert (fltb (- b)%K (- a)%K = fltb a b) as ->; [|tauto].
    destruct (fltb a b) eqn:E.
    - apply (proj2 (lt_sub _ _)). replace (- a - - b)%K with (b - a)%K by ring. apply (proj1 (lt_sub _ _)). exact E.
    - destruct (fltb (- b)%K (- a)%K) eqn:E2; auto. pose proof (proj1 (lt_sub _ _) E2) as E3.
      replace (- a - - b)%K with (b - a)%K in E3 by ring. apply (proj2 (lt_sub _ _)) in E3. unfold lt in E3. congruence. }
  assert (A : lt lo 0%K <-> fltb lo 0%K = true) by reflexivity. assert (B : lt hi 0%K <-> fltb hi 0%K = true) by reflexivity.
  assert (A' : le 0%K lo <-> fltb lo 0%K = false) by reflexivity. assert (B' : le 0%K hi <-> fltb hi 0%K = false) by reflexivity.
  rewrite A, B, A', B'. clear A B A' B'.
  destruct (fltb lo 0%K); destruct (fltb hi 0%K); destruct (feqb lo 0%K && negb (feqb hi 0%K)); rewrite ?N; clear N; 
    repeat split; intros; repeat match goal with H : _ /\ _ |- _ => destruct H end; try discriminate; auto.
Qed.

(** ** bus types *)
Lemma set_const_ok rows j v (t t' : list (list K)) : set_const rows j v t = Ok t' ->
  Forall (fun i => i < length t) rows /\ edit t t' (fun i k => if (k =? j) && mem i rows then Some v else None).
Proof.
  unfold set_const. intros H. apply bind_ok in H as (u & H1 & H). apply bind_ok in H as (u' & H2 & H). injection H as <-.
  unfold guard in *. destruct (forallb (fun i => i <? length t) rows) eqn:E1; [|discriminate]. destruct (forallb (fun r => j <? length r) t) eqn:E2; [|discriminate].
  rewrite forallb_forall in E1, E2. split; [apply Forall_forall; intros i I; apply Nat.ltb_lt; auto|]. split.
  - rewrite map_length, combine_length, seq_length. lia.
  - intros i r Hr. pose proof (nth_error_some_lt _ _ _ Hr) as Li. pose proof (E2 r (nth_error_In _ _ Hr)) as W. apply Nat.ltb_lt in W.
    rewrite nth_error_map, nth_error_combine, Hr.
    rewrite (nth_error_nth' (seq _ _) 0) by (rewrite seq_length; lia). rewrite seq_nth by lia. cbn [option_map fst snd plus].
    eexists. split; [reflexivity|]. fold (mem i rows). destruct (mem i rows); [split; [apply upd_length|]|split; auto].
    + intros k. unfold cell. rewrite AcPfB.nth_upd_d by auto. rewrite Nat.eqb_sym, andb_true_r. destruct (k =? j); auto.
    + intros k. rewrite andb_false_r. auto.
Qed.

(** ** the loss constraint *)
Lemma formulation_row B dc ngt A rhs pg p d : dc_formulation B dc ngt = Ok (A, rhs) ->
  nth_error dc p = Some d -> length pg = ngt ->
  wf A /\ ncols A = ngt /\ nrows A = length dc /\ B <> 0%K /\ length rhs = length dc /\
  mulrow A pg p = ((1 - cell d L_LOSS1) * nth (ngt - (length dc + length dc) + p) pg 0 + nth (ngt - length dc + p) pg 0)%K /\
  nth p rhs 0%K = (- cell d L_LOSS0 / B)%K.
Proof.
  intros H Hd LP. unfold dc_formulation in H. cbv zeta in H. apply bind_ok in H as (u & HG & H).
  unfold guard in HG. destruct (Nat.leb_spec (length dc + length dc) ngt) as [LE|]; [|discriminate].
  set (ndc := length dc) in *. set (ng := ngt - (ndc + ndc)) in *.
  apply bind_ok in H as (l0 & H0 & H). apply bind_ok in H as (r & Hr & H). apply bind_ok in H as (l1 & H1 & H).
  apply bind_ok in H as (D & HD & H). apply bind_ok in H as (Hm & HH & H). apply bind_ok in H as (A' & HA & H). injection H as <- <-.
  apply col_ok in H0 as (_ & ->). apply col_ok in H1 as (_ & ->).
  pose proof (nth_error_some_lt _ _ _ Hd) as Lp. fold ndc in Lp.
  unfold vdiv in Hr. rewrite !map_length, repeat_length in Hr. fold ndc in Hr. rewrite Nat.eqb_refl in Hr. cbn [negb] in Hr.
  destruct (existsb _ _) eqn:EX; [discriminate|]. injection Hr as <-.
  assert (B <> 0%K) as NB.
  { intros ->. assert (existsb (fun b : K => feqb b 0%K) (repeat 0%K ndc) = true) as Q; [|congruence].
    apply existsb_exists. exists 0%K. split; [destruct ndc; [lia|left; auto]|apply feqb_ok; auto]. }
  unfold diagm in HD. rewrite map_map in HD. set (v := map _ dc) in HD. assert (LV : length v = ndc) by (unfold v; apply map_length).
  assert (D = SM ndc ndc (zip3 (seq 0 ndc) (seq 0 ndc) v)) as ->. { rewrite LV in HD. destruct v; [discriminate|]. injection HD as <-. reflexivity. }
  assert (WD : wf (SM ndc ndc (zip3 (seq 0 ndc) (seq 0 ndc) v))).
  { unfold wf. cbn [ents nrows ncols]. apply Forall_forall. intros e I. apply zip3_in in I as (I1 & I2). apply in_seq in I1, I2. lia. }
  assert (W0 : wf (SM ndc ng [] : smat K)) by apply Forall_nil.
  pose proof (wf_hstackm _ _ _ W0 WD HH) as WH.
  pose proof (hstackm_ok _ _ _ HH) as (E1 & E2 & E3). pose proof (hstackm_ok _ _ _ HA) as (E4 & E5 & E6).
  cbn [nrows ncols eyem] in *.
  split; [exact (wf_hstackm _ _ _ WH (wf_eyem ndc) HA)|].
  split; [lia|]. split; [lia|]. split; auto. split; [unfold map2; rewrite map_length, combine_length, !map_length, repeat_length; fold ndc; lia|].
  split.
  - assert (SP : pg = firstn (ng + ndc) pg ++ skipn (ng + ndc) pg) by (symmetry; apply firstn_skipn).
    rewrite SP at 1. assert (L1 : length (firstn (ng + ndc) pg) = ncols Hm) by (rewrite firstn_length_le; unfold ng in *; lia).
    rewrite (mulrow_hstackm _ _ _ _ _ _ WH L1 HA).
    assert (SQ : firstn (ng + ndc) pg = firstn ng pg ++ skipn ng (firstn (ng + ndc) pg)).
    { rewrite <- (firstn_skipn ng (firstn (ng + ndc) pg)) at 1. rewrite firstn_firstn. rewrite Nat.min_l by lia. reflexivity. }
    rewrite SQ. assert (L2 : length (firstn ng pg) = ng) by (rewrite firstn_length_le; unfold ng in *; lia).
    rewrite (mulrow_hstackm (SM ndc ng []) _ _ _ _ _ W0 L2 HH).
    rewrite mulrow_eyem by auto. rewrite (one_ent v (seq 0 ndc) ndc) by (rewrite ?seq_length; auto).
    rewrite seq_nth by auto. cbn [plus]. assert (nth p v 0 = 1 - cell d L_LOSS1)%K as -> by (unfold v; apply nth_error_nth; rewrite nth_error_map, Hd; reflexivity).
    assert (mulrow (SM ndc ng []) (firstn ng pg) p = 0%K) as -> by reflexivity.
    rewrite !DcOpfA.nth_skipn_d. rewrite DcOpfA.nth_firstn_lt by lia.
    replace (ngt - ndc + p) with (ng + ndc + p) by (unfold ng; lia). change (ngt - (ndc + ndc)) with ng. ring.
  - apply nth_error_nth. unfold map2. rewrite nth_error_map, nth_error_combine, !nth_error_map, Hd, nth_error_repeat by auto.
    reflexivity.
Qed.
End DcLineA.
