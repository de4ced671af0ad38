(** The tables reported by the AC optimal power flow. *)
From Verif Require Import Lib.ListFacts Model.AcOpf Spec.AcOptSpec Proofs.LinAlgFacts Proofs.SparseFacts
  Proofs.BlockFacts Proofs.FldFacts Proofs.OrdFacts Proofs.NetworkA Proofs.NetworkB Proofs.NetworkC Proofs.NetworkE Proofs.YbusA
  Proofs.PipsF Proofs.OpfLinA Proofs.OpfLinB Proofs.DcOpfA Proofs.DcOpfC Proofs.DcOpfE Proofs.AcPfA Proofs.AcCostB Proofs.AcCostC
  Proofs.AcConA Proofs.AcConB Proofs.TableEdit Props.P_Ybus.
Local Open Scope nat_scope.

Section AcOptC.
Context {K : Type} {F : Fld K}.
Variable cis : K -> cpx K.
Add Field KF : (@f_ok K F).
Variables (B : K) (bus gen branch : list (list K)) (Ybus Yf Yt : smat (cpx K)).
Hypothesis made : makeYbus cis B bus branch = Ok (Ybus, Yf, Yt).
Notation nb := (length bus).
Notation ng := (length gen).
Notation nl := (length branch).

(** branch currents by the matrices *)
Definition cur (Y : smat (cpx K)) (V : list (cpx K)) : list (cpx K) := map (mulrow Y V) (seq 0 nl).
Lemma nth_cur Y V l : l < nl -> nth l (cur Y V) 0%K = mulrow Y V l.
Proof. intros H. unfold cur. rewrite (nth_map_lt _ _ _ _ 0) by (rewrite seq_length; lia). rewrite seq_nth by lia. reflexivity. Qed.
Lemma cur_mulv Y V : length V = ncols Y -> nrows Y = nl -> mulv Y V = Ok (cur Y V).
Proof. intros H N. rewrite mulv_def, N by auto. reflexivity. Qed.
Lemma currents_ok V : length V = nb -> end_currents cis branch V (cur Yf V) (cur Yt V).
Proof.
  intros LV. pose proof (makeYbus_ok _ _ _ _ _ _ _ made) as YS.
  destruct (ys_Yf _ _ _ _ _ _ _ YS) as (_ & Rf & Cf). destruct (ys_Yt _ _ _ _ _ _ _ YS) as (_ & Rt & Ct).
  split; [unfold cur; rewrite map_length, seq_length; auto|]. split; [unfold cur; rewrite map_length, seq_length; auto|].
  intros l r Hr. split; intros ST.
  - apply (C20_branch_circuit cis B bus branch Ybus Yf Yt made V l r); auto; apply cur_mulv; congruence.
  - apply (C20_out_of_service cis B bus branch Ybus Yf Yt made V l r); auto; apply cur_mulv; congruence.
Qed.
Lemma drawn_ok V i : length V = nb -> i < nb ->
  bus_draw B bus branch V (cur Yf V) (cur Yt V) i = bus_power Ybus V i.
Proof.
  intros LV Hi. pose proof (makeYbus_ok _ _ _ _ _ _ _ made) as YS.
  destruct (ys_Yf _ _ _ _ _ _ _ YS) as (_ & Rf & Cf). destruct (ys_Yt _ _ _ _ _ _ _ YS) as (_ & Rt & Ct).
  destruct (ys_Ybus _ _ _ _ _ _ _ YS) as (Wy & Ry & Cy).
  destruct (nth_error_lt bus i Hi) as (b & Hb).
  assert (HY : mulv Ybus V = Ok (map (mulrow Ybus V) (seq 0 (nrows Ybus)))) by (apply mulv_def; congruence).
  pose proof (C20_bus_currents cis B bus branch Ybus Yf Yt made V i b _ _ _ Hb (cur_mulv Yf V ltac:(congruence) Rf) (cur_mulv Yt V ltac:(congruence) Rt) HY) as E.
  unfold bus_draw, bus_power. rewrite (nth_error_nth _ _ _ Hb), <- E.
  rewrite (nth_map_lt _ _ _ _ 0) by (rewrite seq_length; lia). rewrite seq_nth by lia. cbn [Nat.add]. rewrite mulrow_at by auto. reflexivity.
Qed.

(** the branches with a flow limit *)
Variable il : list nat.
Hypothesis HIL : forall p, In p il <-> exists r, nth_error branch p = Some r /\ flow_limited r.
Hypothesis ND : NoDup il.
Hypothesis NB : B <> 0%K.

Theorem ac_update_ok s res : ac_update cis B bus gen branch Yf Yt il s = Ok res ->
  let x := r_x s in let m := r_lmbda s in let V := ac_volt cis nb x in
  y_x res = x /\ y_f res = r_f s /\ y_success res = r_eflag s /\ y_lmbda res = m /\
  length (y_bus res) = nb /\ length (y_gen res) = ng /\ length (y_branch res) = nl /\
  (forall i r, nth_error bus i = Some r -> exists r', nth_error (y_bus res) i = Some r' /\
     kept_but [VM; VA; LAM_P; LAM_Q; MU_VMIN; MU_VMAX] r r' /\
     cell r' VM = nth (nb + i) x 0%K /\ degrees (cell r' VA) = nth i x 0%K /\
     (B * cell r' LAM_P)%K = nth i (m_eqnonlin m) 0%K /\ (B * cell r' LAM_Q)%K = nth (nb + i) (m_eqnonlin m) 0%K /\
     cell r' MU_VMIN = nth (nb + i) (m_lower m) 0%K /\ cell r' MU_VMAX = nth (nb + i) (m_upper m) 0%K) /\
  (forall k g, nth_error gen k = Some g -> exists g', nth_error (y_gen res) k = Some g' /\
     kept_but [PG; QG; VG; MU_PMIN; MU_PMAX; MU_QMIN; MU_QMAX] g g' /\
     cell g' PG = (B * ac_output nb x k)%K /\ cell g' QG = (B * ac_output nb x (ng + k))%K /\
     cell g' VG = nth (nb + bus_no g GEN_BUS) x 0%K /\
     (B * cell g' MU_PMIN)%K = nth (nb + nb + k) (m_lower m) 0%K /\
     (B * cell g' MU_PMAX)%K = nth (nb + nb + k) (m_upper m) 0%K /\
     (B * cell g' MU_QMIN)%K = nth (nb + nb + (ng + k)) (m_lower m) 0%K /\
     (B * cell g' MU_QMAX)%K = nth (nb + nb + (ng + k)) (m_upper m) 0%K) /\
  (forall l r, nth_error branch l = Some r -> exists r', nth_error (y_branch res) l = Some r' /\
     kept_but [PF; QF; PT; QT; MU_SF; MU_ST] r r' /\
     Cx (cell r' PF) (cell r' QF) = (ofK B * (nth (bus_no r F_BUS) V 0 * conj (nth l (cur Yf V) 0)))%K /\
     Cx (cell r' PT) (cell r' QT) = (ofK B * (nth (bus_no r T_BUS) V 0 * conj (nth l (cur Yt V) 0)))%K /\
     (~ flow_limited r -> cell r' MU_SF = 0%K /\ cell r' MU_ST = 0%K) /\
     (forall p, nth_error il p = Some l ->
        (B * B * cell r' MU_SF)%K = (fofZ 2 * cell r RATE_A * nth p (m_ineqnonlin m) 0)%K /\
        (B * B * cell r' MU_ST)%K = (fofZ 2 * cell r RATE_A * nth (length il + p) (m_ineqnonlin m) 0)%K)).
Proof.
  intros H x m V. unfold ac_update in H. cbv zeta in H. fold x m in H.
  apply bind_ok in H as (V' & HV & H).
  apply bind_ok in H as (bus1 & Hb1 & H). apply bind_ok in H as (bus2 & Hb2 & H).
  apply bind_ok in H as (gen1 & Hg1 & H). apply bind_ok in H as (gen2 & Hg2 & H).
  apply bind_ok in H as (gb & Hgb & H). apply bind_ok in H as (vg & Hvg & H). apply bind_ok in H as (gen3 & Hg3 & H).
  apply bind_ok in H as (f & Hf & H). apply bind_ok in H as (t & Ht & H).
  apply bind_ok in H as (Vf & HVf & H). apply bind_ok in H as (If & HIf & H). apply bind_ok in H as (Sf & HSf & H).
  apply bind_ok in H as (Vt & HVt & H). apply bind_ok in H as (It & HIt & H). apply bind_ok in H as (St_ & HSt & H).
  apply bind_ok in H as (br1 & Hr1 & H). apply bind_ok in H as (br2 & Hr2 & H). apply bind_ok in H as (br3 & Hr3 & H).
  apply bind_ok in H as (br4 & Hr4 & H). apply bind_ok in H as (rows & Hrows & H). apply bind_ok in H as (ra & Hra & H).
  apply bind_ok in H as (mf & Hmf & H). apply bind_ok in H as (mt & Hmt & H).
  apply bind_ok in H as (muSf & HmuSf & H). apply bind_ok in H as (muSt & HmuSt & H).
  apply bind_ok in H as (bus3 & Hb3 & H). apply bind_ok in H as (bus4 & Hb4 & H).
  apply bind_ok in H as (gen4 & Hg4 & H). apply bind_ok in H as (gen5 & Hg5 & H).
  apply bind_ok in H as (gen6 & Hg6 & H). apply bind_ok in H as (gen7 & Hg7 & H).
  apply bind_ok in H as (bus5 & Hb5 & H). apply bind_ok in H as (bus6 & Hb6 & H).
  apply bind_ok in H as (br5 & Hr5 & H). apply bind_ok in H as (br6 & Hr6 & H). injection H as <-.
  cbn [y_x y_f y_success y_lmbda y_bus y_gen y_branch].
  apply edit_setcol in Hb1 as (Lb1 & Eb1). apply edit_setcol in Hb2 as (Lb2 & Eb2). apply edit_setcol in Hb3 as (Lb3 & Eb3).
  apply edit_setcol in Hb4 as (Lb4 & Eb4). apply edit_setcol in Hb5 as (Lb5 & Eb5). apply edit_setcol in Hb6 as (Lb6 & Eb6).
  apply edit_setcol in Hg1 as (Lg1 & Eg1). apply edit_setcol in Hg2 as (Lg2 & Eg2). apply edit_setcol in Hg3 as (Lg3 & Eg3).
  apply edit_setcol in Hg4 as (Lg4 & Eg4). apply edit_setcol in Hg5 as (Lg5 & Eg5). apply edit_setcol in Hg6 as (Lg6 & Eg6).
  apply edit_setcol in Hg7 as (Lg7 & Eg7).
  apply edit_setcol in Hr1 as (Lr1 & Er1). apply edit_setcol in Hr2 as (Lr2 & Er2). apply edit_setcol in Hr3 as (Lr3 & Er3).
  apply edit_setcol in Hr4 as (Lr4 & Er4). apply edit_setcol in Hr5 as (Lr5 & Er5). apply edit_setcol in Hr6 as (Lr6 & Er6).
  pose proof (proj1 Eb1) as QB1. pose proof (proj1 Eb2) as QB2. pose proof (proj1 Eb3) as QB3. pose proof (proj1 Eb4) as QB4. pose proof (proj1 Eb5) as QB5.
  pose proof (proj1 Eg1) as QG1. pose proof (proj1 Eg2) as QG2. pose proof (proj1 Eg3) as QG3. pose proof (proj1 Eg4) as QG4.
  pose proof (proj1 Eg5) as QG5. pose proof (proj1 Eg6) as QG6.
  pose proof (proj1 Er1) as QR1. pose proof (proj1 Er2) as QR2. pose proof (proj1 Er3) as QR3. pose proof (proj1 Er4) as QR4. pose proof (proj1 Er5) as QR5.
  pose proof (edit_trans _ _ _ _ _ Eg1 Eg2) as EG2.
  pose proof (edit_trans _ _ _ _ _ (edit_trans _ _ _ _ _ (edit_trans _ _ _ _ _ Er1 Er2) Er3) Er4) as ER4.
  pose proof (edit_trans _ _ _ _ _ (edit_trans _ _ _ _ _ (edit_trans _ _ _ _ _ (edit_trans _ _ _ _ _ (edit_trans _ _ _ _ _ Eb1 Eb2) Eb3) Eb4) Eb5) Eb6) as (LB & EB).
  pose proof (edit_trans _ _ _ _ _ (edit_trans _ _ _ _ _ (edit_trans _ _ _ _ _ (edit_trans _ _ _ _ _ (edit_trans _ _ _ _ _ EG2 Eg3) Eg4) Eg5) Eg6) Eg7) as (LG & EG).
  pose proof (edit_trans _ _ _ _ _ (edit_trans _ _ _ _ _ ER4 Er5) Er6) as (LR & ER).
  rewrite !map_length in *.
  assert ((fofZ 180 : K) <> 0%K) as N180 by (apply fofZ_nz; lia). pose proof (fpi_nz : (fpi : K) <> 0%K) as NPI.
  do 7 (split; [auto|]). split; [|split].
  - intros i r Hr. pose proof (nth_error_some_lt _ _ _ Hr) as Li. destruct (EB i r Hr) as (r' & A1 & A2 & A3). exists r'. split; auto.
    assert (forall a c : K, a = (c * fofZ 180 / fpi)%K -> degrees a = c) as DG by (intros a c ->; unfold degrees; field; auto).
    split; [|split; [|split; [|split; [|split; [|split]]]]].
    + split; auto. intros j Hj. rewrite A3. unfold over. cbn [In] in *.
      repeat (match goal with |- context [j =? ?c] => destruct (Nat.eqb_spec j c); [exfalso; subst; tauto|] end). reflexivity.
    + rewrite A3. cbn. rewrite nth_slice by lia. reflexivity.
    + apply DG. rewrite A3. cbn. rewrite (nth_map_lt _ _ _ _ 0%K) by lia. rewrite nth_slice by lia. reflexivity.
    + rewrite A3. cbn. rewrite (nth_map_lt _ _ _ _ 0%K) by lia. rewrite nth_slice by lia. cbn [Nat.add]. field. auto.
    + rewrite A3. cbn. rewrite (nth_map_lt _ _ _ _ 0%K) by lia. rewrite nth_slice by lia. field. auto.
    + rewrite A3. cbn. rewrite nth_slice by lia. reflexivity.
    + rewrite A3. cbn. rewrite nth_slice by lia. reflexivity.
  - intros k g Hg. pose proof (nth_error_some_lt _ _ _ Hg) as Lk. destruct (EG k g Hg) as (g' & A1 & A2 & A3). exists g'. split; auto.
    split; [|split; [|split; [|split; [|split; [|split; [|split]]]]]].
    + split; auto. intros j Hj. rewrite A3. unfold over. cbn [In] in *.
      repeat (match goal with |- context [j =? ?c] => destruct (Nat.eqb_spec j c); [exfalso; subst; tauto|] end). reflexivity.
    + rewrite A3. cbn. rewrite (nth_map_lt _ _ _ _ 0%K) by lia. rewrite nth_slice by lia. unfold ac_output. ring.
    + rewrite A3. cbn. rewrite (nth_map_lt _ _ _ _ 0%K) by lia. rewrite nth_slice by lia. unfold ac_output. rewrite Nat.add_assoc. ring.
    + rewrite A3. cbn. destruct (proj2 EG2 k g Hg) as (g2 & B1 & B2 & B3).
      apply idxcol_ok in Hgb as (_ & _ & ->).
      assert (nth_error (map (fun r => bus_no r GEN_BUS) gen2) k = Some (bus_no g GEN_BUS)) as E.
      { rewrite nth_error_map, B1. cbn [option_map]. f_equal. unfold bus_no. rewrite B3. reflexivity. }
      pose proof (gather_nth _ _ _ _ _ Hvg E) as E'.
      destruct (nth_error vg k) as [v|] eqn:EV; [|exfalso; apply nth_error_None in EV; lia].
      rewrite (nth_error_nth _ _ _ EV). symmetry in E'. rewrite <- (nth_error_nth _ _ 0%K E'). apply nth_slice.
      eapply nth_error_some_lt; eauto.
    + rewrite A3. cbn. rewrite (nth_map_lt _ _ _ _ 0%K) by lia. rewrite nth_slice by lia. field. auto.
    + rewrite A3. cbn. rewrite (nth_map_lt _ _ _ _ 0%K) by lia. rewrite nth_slice by lia. field. auto.
    + rewrite A3. cbn. rewrite (nth_map_lt _ _ _ _ 0%K) by lia. rewrite nth_slice by lia. rewrite <- Nat.add_assoc. field. auto.
    + rewrite A3. cbn. rewrite (nth_map_lt _ _ _ _ 0%K) by lia. rewrite nth_slice by lia. rewrite <- Nat.add_assoc. field. auto.
  - intros l r Hr. pose proof (nth_error_some_lt _ _ _ Hr) as Ll. destruct (ER l r Hr) as (r' & A1 & A2 & A3). exists r'. split; auto.
    assert (V' = V) as ->.
    { unfold polar in HV. apply ewise_ok in HV as (_ & ->). unfold V, ac_volt.
      rewrite (map2_nth _ _ _ 0%K 0%K) by (rewrite Lb1; lia). rewrite Lb2, QB1. apply map_ext_in. intros k Hk. apply in_seq in Hk.
      rewrite !nth_slice by lia. reflexivity. }
    clear HV. apply idxcol_ok in Hf as (_ & _ & ->). apply idxcol_ok in Ht as (_ & _ & ->).
    assert (forall (c : nat) Y Vc I S, nrows Y = nl -> gather V (map (fun r => bus_no r c) branch) = Ok Vc -> mulv Y V = Ok I ->
       ewise (fun v i => cmul v (conj i)) Vc I = Ok S -> nth l S 0%K = (nth (bus_no r c) V 0 * conj (nth l (cur Y V) 0))%K) as FL.
    { intros c Y Vc I S NR HG HM HE. pose proof (mulv_ok _ _ _ HM) as (LM & _). rewrite cur_mulv in HM by auto. injection HM as <-.
      apply ewise_ok in HE as (LE & ->). pose proof (gather_length _ _ _ HG) as LG'. rewrite map_length in LG'.
      rewrite (nth_map2_d _ _ _ _ 0%K 0%K) by (auto; lia).
      assert (nth_error (map (fun r => bus_no r c) branch) l = Some (bus_no r c)) as E by (rewrite nth_error_map, Hr; reflexivity).
      pose proof (gather_nth _ _ _ _ _ HG E) as E'. destruct (nth_error Vc l) as [v|] eqn:EV; [|exfalso; apply nth_error_None in EV; lia].
      rewrite (nth_error_nth _ _ _ EV). symmetry in E'. rewrite (nth_error_nth _ _ 0%K E'). reflexivity. }
    pose proof (makeYbus_ok _ _ _ _ _ _ _ made) as YS.
    pose proof (ys_Yf _ _ _ _ _ _ _ YS) as (_ & Rf & Cf). pose proof (ys_Yt _ _ _ _ _ _ _ YS) as (_ & Rt & Ct).
    pose proof (FL _ _ _ _ _ Rf HVf HIf HSf) as FF. pose proof (FL _ _ _ _ _ Rt HVt HIt HSt) as FT.
    split; [|split; [|split; [|split]]].
    + split; auto. intros j Hj. rewrite A3. unfold over. cbn [In] in *.
      repeat (match goal with |- context [j =? ?c] => destruct (Nat.eqb_spec j c); [exfalso; subst; tauto|] end). reflexivity.
    + rewrite <- FF, !A3. cbn. rewrite !(nth_map_lt _ _ _ _ 0%K) by lia. apply cpx_eq; cbn; ring.
    + rewrite <- FT, !A3. cbn. rewrite !(nth_map_lt _ _ _ _ 0%K) by lia. apply cpx_eq; cbn; ring.
    + intros NL. assert (~ In l il) as NI by (intros I; apply HIL in I as (r0 & Hr0 & HL); congruence).
      rewrite !A3. cbn. rewrite !(nth_map_lt _ _ _ _ 0%K) by lia.
      apply scatter_checked_ok in HmuSf as (_ & _ & ->). apply scatter_checked_ok in HmuSt as (_ & _ & ->).
      assert (forall v : list K, nth l (scatter (repeat 0%K nl) il v) 0%K = 0%K) as Z.
      { intros v. pose proof (scatter_other il (repeat 0%K nl) v l NI) as Q.
        rewrite nth_error_repeat in Q by auto. apply nth_error_nth. exact Q. }
      rewrite !Z. split; field; auto.
    + intros p Hp. pose proof (nth_error_some_lt _ _ _ Hp) as Lp.
      assert (RA : nth p ra 0%K = cell r RATE_A).
      { destruct (proj2 ER4 l r Hr) as (r4 & C1 & C2 & C3). apply col_ok in Hra as (_ & ->).
        pose proof (gather_nth _ _ _ _ _ Hrows Hp) as Q. rewrite C1 in Q.
        rewrite (nth_map_lt _ _ _ _ []) by (rewrite (gather_length _ _ _ Hrows); auto). rewrite (nth_error_nth _ _ _ Q).
        change (cell r4 RATE_A = cell r RATE_A). rewrite C3. reflexivity. }
      assert (LRA : length ra = length il).
      { apply col_ok in Hra as (_ & ->). rewrite map_length. apply (gather_length _ _ _ Hrows). }
      assert (forall (mu : list K) mm ms, ewise (fun a r => fofZ 2 * a * r / B)%K mu ra = Ok mm -> scatter_checked (repeat 0%K nl) il mm = Ok ms ->
         length mu = length il /\ nth l ms 0%K = (fofZ 2 * nth p mu 0 * cell r RATE_A / B)%K) as MU.
      { intros mu mm ms H1 H2. apply ewise_ok in H1 as (L1 & ->). apply scatter_checked_ok in H2 as (L2 & _ & ->).
        rewrite map2_length in L2. split; [lia|].
        apply nth_error_nth. rewrite <- RA. apply (scatter_at il (repeat 0%K nl) _ p l); auto.
        - rewrite (nth_error_nth' _ 0%K) by (rewrite map2_length; lia). f_equal. rewrite (nth_map2_d _ _ _ _ 0%K 0%K) by lia. reflexivity.
        - rewrite repeat_length. auto. }
      destruct (MU _ _ _ Hmf HmuSf) as (M1 & M2). destruct (MU _ _ _ Hmt HmuSt) as (M3 & M4).
      rewrite nth_slice in M2 by lia. rewrite nth_slice in M4 by lia. cbn [Nat.add] in M2.
      rewrite !A3. cbn. rewrite !(nth_map_lt _ _ _ _ 0%K) by lia. rewrite M2, M4. split; field; auto.
Qed.
End AcOptC.
