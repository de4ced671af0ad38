(** The tables reported by the DC optimal power flow. *)
From Verif Require Import Lib.ListFacts Model.DcOpf Spec.DcSpec Proofs.LinAlgFacts Proofs.SparseFacts
  Proofs.BlockFacts Proofs.FldFacts Proofs.OrdFacts Proofs.NetworkA Proofs.NetworkB Proofs.PipsF
  Proofs.NetworkE Proofs.OpfLinA Proofs.OpfLinB Proofs.DcOpfA Proofs.DcOpfB Proofs.DcOpfC Proofs.DcOpfD
  Proofs.TableEdit.
Local Open Scope nat_scope.

Section DcOpfE.
Context {K : Type} {F : Fld K}.
Add Field KF : (@f_ok K F).

Lemma nth_slice a b (l : list K) i : i < length (slice a b l) -> nth i (slice a b l) 0%K = nth (a + i) l 0%K.
Proof.
  unfold slice. intros H. rewrite firstn_length in H. rewrite nth_firstn_lt by lia. apply nth_skipn_d.
Qed.

Lemma desc_nth nx M l u (Rs : list row) k R : desc nx M l u Rs -> nth_error Rs k = Some R ->
  k < nrows M /\ lower l k = rlo R /\ upper u k = rup R /\ forall x, length x = nx -> row_val M x k = snd R x.
Proof.
  intros (W & N & C & -> & -> & V) Hr. pose proof (nth_error_some_lt _ _ _ Hr) as Lk.
  unfold lower, upper. rewrite !bound_nth. split; [lia|]. split; [|split].
  - apply nth_error_nth. rewrite nth_error_map, Hr. reflexivity.
  - apply nth_error_nth. rewrite nth_error_map, Hr. reflexivity.
  - intros x Lx. specialize (V x Lx). rewrite row_val_mulrow by auto. rewrite <- nth_rowsv by lia. rewrite V.
    rewrite (nth_map_lt _ Rs k _ R) by auto. rewrite (nth_error_nth _ _ _ Hr). reflexivity.
Qed.

Variables (ign : bool) (B : K) (bus gen branch gencost : list (list K)) (U : user (K := K)).
Notation nb := (length bus).
Notation ng := (length gen).
Notation ny := (length (multi_rows ng gencost)).
Variables (o : dcom (K := K)) (Bb : smat K) (Pbi : list K).
Hypothesis S : setup_spec ign B bus gen branch gencost U o Bb Pbi.

Lemma mis_row i r : nth_error bus i = Some r ->
  row_says (d_nx o) (d_A o) (d_l o) (d_u o) i (EFin 0%K) (EFin 0%K)
    (fun x => net_out (flow_at (angles nb x)) branch i + (cell r PD + cell r Idx.GS) / B - injected gen nb x i)%K.
Proof.
  intros Hr. pose proof (nth_error_some_lt _ _ _ Hr) as Li. pose proof (ss_B _ _ _ _ _ _ _ _ _ _ S) as NB.
  destruct (desc_nth _ _ _ _ _ i (EFin (mis_b B bus Pbi i), EFin (mis_b B bus Pbi i),
       fun x => (net_out (flow_at (angles nb x)) branch i - nth i Pbi 0 - injected gen nb x i)%K) (ss_desc _ _ _ _ _ _ _ _ _ _ S)) as (H1 & H2 & H3 & H4).
  { rewrite nth_error_app1 by (unfold mis_rows; rewrite map_length, seq_length; auto).
    unfold mis_rows. rewrite nth_error_map, seq_nth_error by auto. reflexivity. }
  split; auto. exists ((cell r PD + cell r Idx.GS) / B + nth i Pbi 0)%K. rewrite H2, H3. unfold rlo, rup. cbn [fst snd].
  unfold mis_b. rewrite (nth_error_nth _ _ _ Hr). split; [f_equal; field; auto|]. split; [f_equal; field; auto|].
  intros x Lx. rewrite H4 by auto. cbn [snd]. ring.
Qed.

Lemma flow_row p l r : nth_error (d_il o) p = Some l -> nth_error branch l = Some r ->
  row_says (d_nx o) (d_A o) (d_l o) (d_u o) (nb + p) ENeg (EFin (cell r RATE_A / B)%K) (fun x => dc_flow r (angles nb x)) /\
  row_says (d_nx o) (d_A o) (d_l o) (d_u o) (nb + d_nl2 o + p) ENeg (EFin (cell r RATE_A / B)%K) (fun x => - dc_flow r (angles nb x))%K.
Proof.
  intros Hp Hl. pose proof (nth_error_some_lt _ _ _ Hp) as Lp. rewrite (ss_nl2 _ _ _ _ _ _ _ _ _ _ S). split.
  - destruct (desc_nth _ _ _ _ _ (nb + p) (ENeg, EFin (cell r RATE_A / B - nth l (d_Pfinj o) 0)%K,
       fun x => (dc_flow r (angles nb x) - nth l (d_Pfinj o) 0)%K) (ss_desc _ _ _ _ _ _ _ _ _ _ S)) as (H1 & H2 & H3 & H4).
    { rewrite nth_error_app2 by (unfold mis_rows; rewrite map_length, seq_length; lia).
      unfold mis_rows at 1. rewrite map_length, seq_length. replace (nb + p - nb) with p by lia.
      rewrite nth_error_app1 by (unfold pf_rows; rewrite map_length; auto).
      unfold pf_rows. rewrite nth_error_map, Hp. cbn [option_map]. rewrite (nth_error_nth _ _ _ Hl). reflexivity. }
    split; auto. exists (nth l (d_Pfinj o) 0%K). rewrite H2, H3. unfold rlo, rup. cbn [fst snd]. split; auto.
  - destruct (desc_nth _ _ _ _ _ (nb + length (d_il o) + p) (ENeg, EFin (cell r RATE_A / B + nth l (d_Pfinj o) 0)%K,
       fun x => (- (dc_flow r (angles nb x) - nth l (d_Pfinj o) 0))%K) (ss_desc _ _ _ _ _ _ _ _ _ _ S)) as (H1 & H2 & H3 & H4).
    { rewrite nth_error_app2 by (unfold mis_rows; rewrite map_length, seq_length; lia).
      unfold mis_rows at 1. rewrite map_length, seq_length.
      rewrite nth_error_app2 by (unfold pf_rows; rewrite map_length; lia).
      unfold pf_rows at 1. rewrite map_length. replace (nb + length (d_il o) + p - nb - length (d_il o)) with p by lia.
      rewrite nth_error_app1 by (unfold pt_rows; rewrite map_length; auto).
      unfold pt_rows. rewrite nth_error_map, Hp. cbn [option_map]. rewrite (nth_error_nth _ _ _ Hl). reflexivity. }
    split; auto. exists (- nth l (d_Pfinj o) 0)%K. rewrite H2, H3. unfold rlo, rup. cbn [fst snd]. split; auto.
    pose proof (ss_B _ _ _ _ _ _ _ _ _ _ S). split; [f_equal; field; auto|]. intros x Lx. rewrite H4 by auto. cbn [snd]. ring.
Qed.

Definition rowsay := row_says (d_nx o) (d_A o) (d_l o) (d_u o).
Theorem dc_update_ok C0 s res : dc_update B bus gen branch o C0 s = Ok res ->
  let x := r_x s in let m := r_lmbda s in
  z_x res = x /\ z_f res = (r_f s + C0)%K /\ z_success res = r_eflag s /\ z_lmbda res = m /\
  length (z_bus res) = nb /\ length (z_gen res) = ng /\ length (z_branch res) = length branch /\
  (forall i r, nth_error bus i = Some r -> exists r', nth_error (z_bus res) i = Some r' /\
     kept_but [VA; LAM_P; LAM_Q; MU_VMIN; MU_VMAX] r r' /\
     degrees (cell r' VA) = nth i x 0%K /\
     (B * cell r' LAM_P = nth i (m_mu_u m) 0 - nth i (m_mu_l m) 0)%K /\
     cell r' LAM_Q = 0%K /\ cell r' MU_VMIN = 0%K /\ cell r' MU_VMAX = 0%K) /\
  (forall k g, nth_error gen k = Some g -> exists g', nth_error (z_gen res) k = Some g' /\
     kept_but [PG; MU_PMIN; MU_PMAX; MU_QMIN; MU_QMAX] g g' /\
     cell g' PG = (B * output nb x k)%K /\
     (B * cell g' MU_PMIN)%K = nth (nb + k) (m_lower m) 0%K /\ (B * cell g' MU_PMAX)%K = nth (nb + k) (m_upper m) 0%K /\
     cell g' MU_QMIN = 0%K /\ cell g' MU_QMAX = 0%K) /\
  (forall l r, nth_error branch l = Some r -> exists r', nth_error (z_branch res) l = Some r' /\
     kept_but [PF; PT; QF; QT; MU_SF; MU_ST] r r' /\
     cell r' PF = (B * dc_flow r (angles nb x))%K /\ cell r' PT = (- cell r' PF)%K /\ cell r' QF = 0%K /\ cell r' QT = 0%K /\
     (~ flow_limited r -> cell r' MU_SF = 0%K /\ cell r' MU_ST = 0%K) /\
     (flow_limited r -> exists p, nth_error (d_il o) p = Some l /\
        rowsay (nb + p) ENeg (EFin (cell r RATE_A / B)%K) (fun x => dc_flow r (angles nb x)) /\
        rowsay (nb + d_nl2 o + p) ENeg (EFin (cell r RATE_A / B)%K) (fun x => - dc_flow r (angles nb x))%K /\
        (B * cell r' MU_SF)%K = nth (nb + p) (m_mu_u m) 0%K /\ (B * cell r' MU_ST)%K = nth (nb + d_nl2 o + p) (m_mu_u m) 0%K)).
Proof.
  intros H x m. unfold dc_update in H. cbv zeta in H. fold x m in H.
  apply bind_ok in H as (bus1 & Hb1 & H). apply bind_ok in H as (gen1 & Hg1 & H). apply bind_ok in H as (br1 & Hr1 & H).
  apply bind_ok in H as (bv & Hbv & H). apply bind_ok in H as (fl & Hfl & H).
  apply bind_ok in H as (br2 & Hr2 & H). apply bind_ok in H as (br3 & Hr3 & H).
  apply bind_ok in H as (bus2 & Hb2 & H). apply bind_ok in H as (gen2 & Hg2 & H). apply bind_ok in H as (br4 & Hr4 & H).
  apply bind_ok in H as (lam & Hlam & H). apply bind_ok in H as (bus3 & Hb3 & H).
  apply bind_ok in H as (br5 & Hr5 & H). apply bind_ok in H as (br6 & Hr6 & H).
  apply bind_ok in H as (gen3 & Hg3 & H). apply bind_ok in H as (gen4 & Hg4 & H). injection H as <-.
  cbn [z_x z_f z_success z_lmbda z_bus z_gen z_branch].
  pose proof (ss_B _ _ _ _ _ _ _ _ _ _ S) as NB. pose proof (ss_il_nodup _ _ _ _ _ _ _ _ _ _ S) as ND.
  rewrite (ss_nb _ _ _ _ _ _ _ _ _ _ S), (ss_ng _ _ _ _ _ _ _ _ _ _ S) in *.
  apply edit_setcol in Hb1 as (Lb1 & Eb1). apply edit_zero in Hb2. apply edit_setcol in Hb3 as (Lb3 & Eb3).
  apply edit_setcol in Hg1 as (Lg1 & Eg1). apply edit_zero in Hg2. apply edit_setcol in Hg3 as (Lg3 & Eg3). apply edit_setcol in Hg4 as (Lg4 & Eg4).
  apply edit_zero in Hr1. apply edit_setcol in Hr2 as (Lr2 & Er2). apply edit_setcol in Hr3 as (Lr3 & Er3). apply edit_zero in Hr4.
  apply edit_set_rows in Hr5 as (Lr5 & Er5); [|auto]. apply edit_set_rows in Hr6 as (Lr6 & Er6); [|auto].
  pose proof (edit_trans _ _ _ _ _ (edit_trans _ _ _ _ _ Eb1 Hb2) Eb3) as (LB & EB).
  pose proof (edit_trans _ _ _ _ _ (edit_trans _ _ _ _ _ (edit_trans _ _ _ _ _ Eg1 Hg2) Eg3) Eg4) as (LG & EG).
  pose proof (edit_trans _ _ _ _ _ (edit_trans _ _ _ _ _ (edit_trans _ _ _ _ _ (edit_trans _ _ _ _ _ (edit_trans _ _ _ _ _ Hr1 Er2) Er3) Hr4) Er5) Er6) as (LR & ER).
  rewrite !map_length in *. pose proof (proj1 Eb1) as LB1. pose proof (proj1 Hb2) as LB2. pose proof (proj1 Eg1) as LG1.
  pose proof (proj1 Hg2) as LG2. pose proof (proj1 Eg3) as LG3.
  assert ((fofZ 180 : K) <> 0%K) as N180 by (apply fofZ_nz; lia). pose proof (fpi_nz : (fpi : K) <> 0%K) as NPI.
  do 7 (split; [auto|]). split; [|split].
  - intros i r Hr. pose proof (nth_error_some_lt _ _ _ Hr) as Li. destruct (EB i r Hr) as (r' & A1 & A2 & A3). exists r'. split; auto.
    assert (forall a c : K, a = (c * fofZ 180 / fpi)%K -> degrees a = c) as DG by (intros a c ->; unfold degrees; field; auto).
    split; [|split; [|split]].
    + split; auto. intros j Hj. rewrite A3. unfold over. cbn [existsb In] in *.
      repeat (match goal with |- context [j =? ?c] => destruct (Nat.eqb_spec j c); [exfalso; subst; tauto|] end). reflexivity.
    + apply DG. rewrite A3. cbn. rewrite (nth_map_lt _ _ _ _ 0%K) by lia. rewrite nth_slice by lia. reflexivity.
    + rewrite A3. unfold over. cbn [Nat.eqb LAM_P]. apply ewise_ok in Hlam as (Ll & ->).
      rewrite map2_length in Lb3 by auto.
      rewrite (nth_map_lt _ _ _ _ 0%K) by (rewrite map2_length by auto; lia).
      rewrite (nth_map2_d _ _ _ _ 0%K 0%K) by (auto; lia). rewrite !nth_slice by lia. cbn [Nat.add]. field. auto.
    + rewrite !A3. cbn. auto.
  - intros k g Hg. pose proof (nth_error_some_lt _ _ _ Hg) as Lk. destruct (EG k g Hg) as (g' & A1 & A2 & A3). exists g'. split; auto.
    split; [|split; [|split; [|split]]].
    + split; auto. intros j Hj. rewrite A3. unfold over. cbn [existsb In] in *.
      repeat (match goal with |- context [j =? ?c] => destruct (Nat.eqb_spec j c); [exfalso; subst; tauto|] end). reflexivity.
    + rewrite A3. cbn. rewrite (nth_map_lt _ _ _ _ 0%K) by lia. rewrite nth_slice by lia. unfold output. ring.
    + rewrite A3. cbn. rewrite (nth_map_lt _ _ _ _ 0%K) by lia. rewrite nth_slice by lia. field. auto.
    + rewrite A3. cbn. rewrite (nth_map_lt _ _ _ _ 0%K) by lia. rewrite nth_slice by lia. field. auto.
    + rewrite !A3. cbn. auto.
  - intros l r Hr. pose proof (nth_error_some_lt _ _ _ Hr) as Ll. destruct (ER l r Hr) as (r' & A1 & A2 & A3). exists r'. split; auto.
    pose proof (ss_bdc _ _ _ _ _ _ _ _ _ _ S) as HB.
    assert (nth l fl 0%K = dc_flow r (angles nb x)) as FL.
    { apply mulv_ok in Hbv as (_ & Lv & Vv). apply ewise_ok in Hfl as (Lf & ->).
      destruct (bs_Bf _ _ _ _ _ _ HB) as (WB & NBf & CB).
      rewrite (nth_map2_d _ _ _ _ 0%K 0%K) by (auto; lia).
      rewrite (nth_error_nth _ _ _ (Vv l ltac:(lia))).
      unfold slice. rewrite skipn_O, Nat.sub_0_r. rewrite (bf_row bus branch Bb (d_Bf o) Pbi (d_Pfinj o) HB _ l r Hr).
      unfold angles. ring. }
    assert (cell r' PF = (B * dc_flow r (angles nb x))%K) as EPF.
    { rewrite A3. cbn. rewrite (nth_map_lt _ _ _ _ 0%K) by (pose proof (proj1 Hr1); lia). rewrite FL. ring. }
    split; [|split; [exact EPF|split; [|split; [|split; [|split]]]]].
    + split; auto. intros j Hj. rewrite A3. unfold over. cbn [existsb In] in *.
      repeat (match goal with |- context [j =? ?c] => destruct (Nat.eqb_spec j c); [exfalso; subst; tauto|] end). reflexivity.
    + rewrite EPF, A3. cbn. rewrite map_map. rewrite (nth_map_lt _ _ _ _ 0%K) by (pose proof (proj1 Hr1); lia). rewrite FL. ring.
    + rewrite A3. cbn. auto.
    + rewrite A3. cbn. auto.
    + intros NL. assert (posn l (d_il o) = None) as EP.
      { apply posn_none. intros I. apply (ss_il _ _ _ _ _ _ _ _ _ _ S) in I as (r0 & Hr0 & HL). congruence. }
      rewrite !A3. unfold over. rewrite EP. cbn. auto.
    + intros HL. assert (In l (d_il o)) as I by (apply (ss_il _ _ _ _ _ _ _ _ _ _ S); eauto).
      apply In_nth_error in I as (p & Hp). pose proof (posn_nth _ _ _ ND Hp) as EP. pose proof (nth_error_some_lt _ _ _ Hp) as Lp.
      destruct (flow_row p l r Hp Hr) as (R1 & R2).
      exists p. split; [auto|]. split; [exact R1|]. split; [exact R2|].
      rewrite !A3. unfold over. rewrite EP. cbn. split.
      * rewrite (nth_map_lt _ _ _ _ 0%K) by lia. rewrite nth_slice by lia. field. auto.
      * rewrite (nth_map_lt _ _ _ _ 0%K) by lia. rewrite nth_slice by lia. field. auto.
Qed.
End DcOpfE.
