(** The objective handed to the solver. *)
From Verif Require Import Lib.ListFacts Model.DcOpf Spec.DcSpec Proofs.LinAlgFacts Proofs.SparseFacts
  Proofs.BlockFacts Proofs.FldFacts Proofs.OrdFacts Proofs.NetworkA Proofs.NetworkB Proofs.PipsF
  Proofs.NetworkE Proofs.OpfLinA Proofs.OpfLinB Proofs.DcOpfA Proofs.DcOpfB Proofs.DcOpfC Proofs.DcOpfD Proofs.DcOpfF Proofs.PipsD.
Local Open Scope nat_scope.

Section DcOpfG.
Context {K : Type} {F : Fld K}.
Add Field KF : (@f_ok K F).

Lemma rowsv_sub (M : smat K) a b : length a = length b -> rowsv M (map2 rsub a b) = map2 rsub (rowsv M a) (rowsv M b).
Proof.
  intros L. unfold rowsv. rewrite map2_map. apply map_ext. intros i. unfold mulrow. rewrite <- lsum_sub. apply lsum_ext.
  intros e _. destruct (erow e =? i); [|ring].
  destruct (lt_dec (ecol e) (length a)) as [H|H].
  - rewrite (nth_map2_d _ _ _ _ 0%K 0%K) by lia. ring.
  - rewrite !nth_overflow by (rewrite ?map2_length; lia). ring.
Qed.
Lemma inner_sym (H : smat K) n u v : wf H -> nrows H = n -> ncols H = n -> sym_mat H -> length u = n -> length v = n ->
  inner u (rowsv H v) = inner v (rowsv H u).
Proof.
  intros W N1 N2 SY Lu Lv. rewrite inner_comm, adjoint by (auto; congruence). f_equal. unfold rowsv. cbn [nrows transp].
  rewrite N1, N2. apply map_ext_in. intros i Hi. rewrite mulrow_at by (apply wf_transp; auto).
  rewrite mulrow_at by auto. cbn [ncols transp]. rewrite N1, N2. apply lsum_ext. intros j _. f_equal.
  rewrite <- SY. unfold at_. cbn [ents transp]. rewrite lsum_map. apply lsum_ext. intros e _. cbn [erow ecol ev].
  rewrite andb_comm. reflexivity.
Qed.

Definition half : K := (1 / fofZ 2)%K.
Lemma two_nz : (fofZ 2 : K) <> 0%K.
Proof. apply fofZ_nz. lia. Qed.
Lemma half_dec : dec 5 1 = half.
Proof.
  unfold dec, half. change (10 ^ Z.of_nat 1)%Z with (2 * 5)%Z. 
  assert ((fofZ (2 * 5) : K) = fofZ 2 * fofZ 5)%K as ->.
  { assert (forall a : K, (a + a = fofZ 2 * a)%K) as D.
    { intros a. change 2%Z with (1 + 1)%Z. rewrite fofZ_add, fofZ_1. ring. }
    rewrite <- D, <- fofZ_add. reflexivity. }
  assert ((fofZ 5 : K) <> 0%K) by (apply fofZ_nz; lia). pose proof two_nz. field. auto.
Qed.

Lemma map2_app {A C D} (f : A -> C -> D) a b c d : length a = length c ->
  map2 f (a ++ b) (c ++ d) = map2 f a c ++ map2 f b d.
Proof.
  revert c. induction a as [|x a IH]; intros [|y c] L; try discriminate; auto. unfold map2 in *. simpl. rewrite IH by auto. reflexivity.
Qed.
Lemma map2_repeat_l {A C D} (f : A -> C -> D) a n c : length c = n -> map2 f (repeat a n) c = map (f a) c.
Proof. intros <-. unfold map2. induction c; simpl; auto. f_equal. auto. Qed.
Lemma map2_repeat_r {A C D} (f : A -> C -> D) a n c : length c = n -> map2 f c (repeat a n) = map (fun x => f x a) c.
Proof. intros <-. unfold map2. induction c; simpl; auto. f_equal. auto. Qed.

Variables (ign : bool) (B : K) (bus gen branch gencost : list (list K)) (U : user (K := K)).
Notation nb := (length bus).
Notation ng := (length gen).
Notation ny := (length (multi_rows ng gencost)).
Variables (o : dcom (K := K)) (Bb : smat K) (Pbi : list K).
Hypothesis S : setup_spec ign B bus gen branch gencost U o Bb Pbi.

Definition supported : Prop := forall i, i < ng -> cost_is 1 (nth i gencost []) = true \/ lin_or_quad (nth i gencost []).

Lemma gc_row i : i < ng -> pwl1_row (nth i gencost []) = Ok (nth i (d_gencost o) []).
Proof.
  intros Hi. pose proof (ss_gc _ _ _ _ _ _ _ _ _ _ S) as H. pose proof (ss_gclen _ _ _ _ _ _ _ _ _ _ S) as LG.
  pose proof (mapM_length _ _ _ H) as L.
  destruct (nth_error_lt (firstn ng gencost) i) as (r & Hr); [lia|].
  destruct (mapM_nth _ _ _ _ _ H Hr) as (y & Hy & Hn). rewrite (nth_error_nth _ _ _ Hn).
  rewrite <- (nth_firstn_lt ng) by auto. rewrite (nth_error_nth _ _ _ Hr). auto.
Qed.

(** the rows treated as polynomials, and their coefficients *)
Lemma poly_part m rows cf x :
  col MODEL (d_gencost o) = Ok m ->
  let ipol := find (map is_poly m) in
  gather (d_gencost o) ipol = Ok rows -> mapM (polycf B) rows = Ok cf ->
  length cf = length ipol /\ Forall (fun i => i < ng) ipol /\
  let z := map (fun i => nth (nb + i) x 0%K) ipol in
  (half * inner z (map2 rmul (map (fun t => fofZ 2 * fst (fst t))%K cf) z) + inner (map (fun t => snd (fst t)) cf) z
    + lsum (fun t => snd t) cf
   = lsum (fun i => let r := nth i gencost [] in
       if segmented r then 0 else low_order_cost r (B * output nb x i)) (seq 0 ng))%K.
Proof.
  intros Hm ipol Hg Hcf.
  pose proof (ss_gclen _ _ _ _ _ _ _ _ _ _ S) as LG.
  assert (ipol = filter (fun i => cost_is 2 (nth i (d_gencost o) [])) (seq 0 ng)) as EI.
  { unfold ipol. apply col_ok in Hm as (_ & ->). rewrite (find_filter _ 0%K), map_length, LG.
    apply filter_ext_in. intros i Hi. apply in_seq in Hi. rewrite (nth_map_lt _ (d_gencost o) i _ []) by lia. reflexivity. }
  pose proof (gather_length _ _ _ Hg) as L1. pose proof (mapM_length _ _ _ Hcf) as L2.
  split; [congruence|]. split.
  { rewrite EI. apply Forall_forall. intros i Hi. apply filter_In in Hi as (Hi & _). apply in_seq in Hi. lia. }
  intros z. set (n := length ipol).
  assert (length z = n) as Lz by (unfold z; rewrite map_length; auto).
  rewrite !inner_nth by (rewrite ?map2_length, ?map_length; rewrite ?map_length; unfold n in *; lia).
  rewrite (lsum_nth _ cf (0%K, 0%K, 0%K)).
  rewrite map_length, Lz. replace (length cf) with n by (unfold n; congruence).
  rewrite <- lsum_scal, <- !lsum_add.
  transitivity (lsum (fun i => low_order_cost (nth i gencost []) (B * output nb x i))%K ipol).
  - rewrite (lsum_nth _ ipol O). fold n. apply lsum_ext. intros k Hk. apply in_seq in Hk.
    destruct (nth_error_lt ipol k) as (i & Hi); [unfold n in *; lia|].
    pose proof (gather_nth _ _ _ _ _ Hg Hi) as Hr.
    destruct (nth_error_lt rows k) as (r & Hrk); [unfold n in *; lia|]. rewrite Hrk in Hr. symmetry in Hr.
    destruct (mapM_nth _ _ _ _ _ Hcf Hrk) as (t & Ht & Hn).
    rewrite (nth_map2_d _ _ _ _ 0%K 0%K) by (rewrite ?map_length; unfold n in *; lia).
    rewrite !(nth_map_lt _ cf k _ (0%K, 0%K, 0%K)) by (unfold n in *; lia). rewrite (nth_error_nth _ _ _ Hn).
    unfold z. rewrite (nth_map_lt _ ipol k _ O) by (unfold n in *; lia). rewrite (nth_error_nth _ _ _ Hi).
    assert (In i ipol) as Ii by (eapply nth_error_In; eauto). rewrite EI in Ii. apply filter_In in Ii as (Ii & C2). apply in_seq in Ii.
    pose proof (gc_row i ltac:(lia)) as GR. rewrite (nth_error_nth _ _ _ Hr) in GR, C2.
    destruct (counted B _ _ (output nb x i) GR) as (_ & _ & Q). destruct (Q C2) as (_ & Q'). rewrite <- (Q' t Ht).
    unfold output, half. pose proof two_nz. field. auto.
  - rewrite EI, lsum_filter. apply lsum_ext. intros i Hi. apply in_seq in Hi.
    destruct (counted B _ _ (output nb x i) (gc_row i ltac:(lia))) as (Q1 & Q2 & Q3). cbv zeta.
    destruct (segmented (nth i gencost [])).
    + rewrite Q1 by auto. reflexivity.
    + destruct (cost_is 2 _); auto. symmetry. apply Q2; auto.
Qed.
Lemma supported_cost x : supported -> gen_cost_by low_order_cost B nb ng gencost x = gen_cost B nb ng gencost x.
Proof.
  intros SU. unfold gen_cost, gen_cost_by. f_equal. apply lsum_ext. intros i Hi. apply in_seq in Hi. cbv zeta.
  destruct (segmented _); auto. unfold low_order_cost. destruct (SU i ltac:(lia)) as [-> | (C2 & N)]; auto.
  rewrite C2. replace (feqb _ _ || feqb _ _) with true; [rewrite orb_true_r; auto|].
  symmetry. apply orb_true_iff. rewrite !feqb_ok. exact N.
Qed.

Lemma inner_map2_0 (a b : list K) n : length a = n -> inner b (map2 rmul a (repeat 0%K n)) = 0%K.
Proof.
  intros L. rewrite map2_repeat_r by auto. clear L. revert b. induction a as [|x a IH]; intros [|y b]; auto.
  unfold inner in *. simpl. rewrite IH. ring.
Qed.
Lemma inner_0_r n (v : list K) : inner v (repeat 0%K n) = 0%K.
Proof. rewrite inner_comm. apply inner_0. Qed.

Lemma inner_diag_sym (a u v : list K) : length u = length a -> length v = length a ->
  inner u (map2 rmul a v) = inner v (map2 rmul a u).
Proof.
  revert u v. induction a as [|x a IH]; intros [|y u] [|w v] L1 L2; try discriminate; auto.
  unfold inner, map2 in *. simpl. rewrite (IH u v) by auto. ring.
Qed.
Lemma at_out (M : smat K) i j : wf M -> (nrows M <= i \/ ncols M <= j) -> at_ M i j = 0%K.
Proof.
  intros W H. unfold at_. apply lsum_zero. intros e He. unfold wf in W. rewrite Forall_forall in W. specialize (W e He).
  destruct (Nat.eqb_spec (erow e) i), (Nat.eqb_spec (ecol e) j); simpl; auto. lia.
Qed.
Lemma map_repeat' {A C} (f : A -> C) a n : map f (repeat a n) = repeat (f a) n.
Proof. induction n; simpl; congruence. Qed.
Lemma inner_unit n i (v : list K) : i < n -> length v = n -> inner (unit n i) v = nth i v 0%K.
Proof.
  intros Hi L. assert (length (unit (K := K) n i) = n) as LU by (unfold unit; rewrite map_length, seq_length; auto).
  rewrite inner_nth by congruence. rewrite LU.
  rewrite (lsum_ext _ (fun k => if i =? k then nth k v 0%K else 0%K)).
  - apply (lsum_seq_single' (fun k => nth k v 0%K)). auto.
  - intros k Hk. apply in_seq in Hk. unfold unit. rewrite (nth_map_lt _ (seq 0 n) k _ O) by (rewrite seq_length; lia).
    rewrite seq_nth by lia. cbn [Nat.add]. rewrite Nat.eqb_sym. destruct (i =? k); ring.
Qed.

Theorem objective_ok cp HH CC C0 :
  shaped (nrows (k_N cp)) (d_nx o) (k_N cp) -> shaped (nrows (k_N cp)) (nrows (k_N cp)) (k_H cp) -> sym_mat (k_H cp) ->
  dc_objective B o cp = Ok (HH, CC, C0) ->
  length (k_Cw cp) = nrows (k_N cp) /\ length (k_rh cp) = nrows (k_N cp) /\ length (k_mm cp) = nrows (k_N cp) /\
  wf HH /\ nrows HH = d_nx o /\ ncols HH = d_nx o /\ length CC = d_nx o /\ sym_mat HH /\
  forall x, length x = d_nx o ->
    (qform (d_nx o) HH CC x + C0
     = gen_cost_by low_order_cost B nb ng gencost x + user_cost (k_N cp) (k_H cp) (k_Cw cp) (k_rh cp) (k_mm cp) x
       + inner (k_Cw cp) (map2 rmul (k_mm cp) (k_rh cp)))%K.
Proof.
  intros (_ & CN & WN) (NH1 & NH2 & WH) SY H. unfold dc_objective in H. cbv zeta in H.
  set (N := k_N cp) in *. set (Hu0 := k_H cp) in *. set (nw := nrows N) in *. set (nx := d_nx o) in *.
  assert (wf Hu0) as WH0. { unfold wf. eapply Forall_impl; [|exact WH]. intros e He. rewrite NH1, NH2. exact He. }
  assert (wf N) as WN0. { unfold wf. eapply Forall_impl; [|exact WN]. intros e He. rewrite CN. exact He. }
  apply bind_ok in H as (m & Hm & H). apply bind_ok in H as (Npwl & HNpwl & H).
  apply bind_ok in H as (rows & Hrows & H). apply bind_ok in H as (cf & Hcf & H).
  pose proof (poly_part m rows cf [] Hm Hrows Hcf) as PP0. cbv zeta in PP0. destruct PP0 as (Lcf & IPL & _).
  pose proof (fun x => proj2 (proj2 (poly_part m rows cf x Hm Hrows Hcf))) as PP. cbv zeta in PP.
  set (ipol := find (map is_poly m)) in *. set (npol := length ipol) in *.
  rewrite (ss_ny _ _ _ _ _ _ _ _ _ _ S), (ss_nb _ _ _ _ _ _ _ _ _ _ S), (ss_ng _ _ _ _ _ _ _ _ _ _ S) in *.
  apply bind_ok in H as (Npol & HNpol & H). apply bind_ok in H as (Hpol & HHpol & H).
  apply bind_ok in H as (NN & HNN & H). apply bind_ok in H as (Hp1 & HHp1 & H). apply bind_ok in H as (Hp2 & HHp2 & H).
  apply bind_ok in H as (Hu & HHu & H). apply bind_ok in H as (HHw & HHHw & H).
  apply bind_ok in H as (M & HM & H). apply bind_ok in H as (MR & HMR0 & H). apply bind_ok in H as (HMR & HHMR & H).
  apply bind_ok in H as (MN & HMN & H). apply bind_ok in H as (T & HT & H). apply bind_ok in H as (HH' & HHH & H).
  apply bind_ok in H as (d & Hd & H). apply bind_ok in H as (CC' & HCC & H). injection H as <- <- <-.
  set (any := if ny =? 0 then 0 else 1) in *.
  assert (wf Npwl /\ nrows Npwl = any /\ (any <> 0 -> ncols Npwl = nx) /\
          forall x, rowsv Npwl x = repeat (lsum (fun j => nth (nb + ng + j) x 0%K) (seq 0 ny)) any) as (W1 & N1 & C1 & V1).
  { unfold any in *. destruct (Nat.eqb_spec ny 0) as [E|E].
    - injection HNpwl as <-. split; [apply wf_zerom|]. split; [reflexivity|]. split; [congruence|]. intros x. reflexivity.
    - pose proof (sparse_wf _ _ _ _ _ _ HNpwl) as W. apply sparse_ok in HNpwl as (L1 & L2 & _ & _ & ->).
      split; auto. split; auto. split; auto. intros x. unfold rowsv. cbn [nrows seq map repeat]. f_equal.
      unfold mulrow. cbn [ents]. rewrite (lsum_zip3 _ _ _ _ ny) by (rewrite ?repeat_length, ?seq_length; auto).
      apply lsum_ext. intros j Hj. apply in_seq in Hj. cbn [erow ecol ev]. rewrite nth_repeat_lt by lia.
      rewrite nth_repeat_lt by lia. cbn [Nat.eqb]. rewrite seq_nth by lia. ring. }
  assert (forall x, rowsv Npol x = map (fun i => nth (nb + i) x 0%K) ipol) as V2.
  { intros x. destruct (sparse_rows _ _ _ _ _ x HNpol) as (_ & _ & _ & _ & _ & V). rewrite V.
    rewrite map2_repeat_l by (rewrite map_length; auto). rewrite map_map. apply map_ext. intros i. ring. }
  destruct (sparse_rows _ _ _ _ _ [] HNpol) as (W2 & N2 & C2 & _ & _ & _).
  assert (forall v, length v = npol -> rowsv Hpol v = map2 rmul (map (fun t => fofZ 2 * fst (fst t))%K cf) v) as V3.
  { intros v Lv. destruct (sparse_rows _ _ _ _ _ v HHpol) as (_ & _ & _ & Ld & _ & V). rewrite V. clear V.
    apply nth_error_ext. intros k. destruct (lt_dec k npol) as [Hk|Hk].
    - rewrite !(nth_error_nth' _ 0%K) by (rewrite map2_length; rewrite ?seq_length; lia). f_equal.
      rewrite (nth_map2_d _ _ _ _ 0%K O) by (rewrite ?seq_length; lia). rewrite (nth_map2_d _ _ _ _ 0%K 0%K) by lia.
      rewrite seq_nth by lia. reflexivity.
    - rewrite !(proj2 (nth_error_None _ _)); auto; rewrite map2_length; rewrite ?seq_length; lia. }
  destruct (sparse_rows _ _ _ _ _ [] HHpol) as (W3 & N3 & C3 & _ & _ & _).
  destruct (vstack_nz_ok [Npwl; Npol; N] NN ltac:(auto) HNN) as (WNN & CNN & NNN & VNN).
  unfold list_sum in NNN. cbn [map fold_right] in NNN. rewrite N1, N2 in NNN. fold nw in NNN.
  pose proof (hstackm_ok _ _ _ HHp1) as (_ & NP1 & CP1). pose proof (wf_hstackm _ _ _ (wf_zerom _ _) W3 HHp1) as WP1.
  pose proof (hstackm_ok _ _ _ HHp2) as (_ & NP2 & CP2). pose proof (wf_hstackm _ _ _ WP1 (wf_zerom _ _) HHp2) as WP2.
  cbn [nrows ncols zerom] in NP1, CP1, NP2, CP2.
  assert (wf Hu /\ nrows Hu = nw /\ (nw <> 0 -> ncols Hu = any + npol + nw) /\
    forall u v, length u = any + npol -> length v = nw -> rowsv Hu (u ++ v) = rowsv Hu0 v) as (WU & NU & CU & VU).
  { destruct (Nat.eqb_spec nw 0) as [E|E].
    - injection HHu as <-. split; [apply wf_zerom|]. split; [auto|]. split; [congruence|]. intros u v _ _.
      rewrite !rowsv_none; auto. congruence.
    - pose proof (hstackm_ok _ _ _ HHu) as (_ & N' & C'). cbn [nrows ncols zerom] in N', C'.
      split; [exact (wf_hstackm _ _ _ (wf_zerom _ _) WH0 HHu)|]. split; auto. split; [lia|]. intros u v Lu Lv.
      rewrite (rowsv_hstackm (zerom nw (any + npol)) Hu0 Hu u v (wf_zerom _ _) Lu HHu). rewrite rowsv_zerom.
      apply add_zeros. rewrite rowsv_length. auto. }
  destruct (vstack_nz_ok [zerom any (any + (npol + nw)); Hp2; Hu] HHw) as (WHw & CHw & NHw & VHw); [|exact HHHw|].
  { constructor; [apply wf_zerom|auto]. }
  unfold list_sum in NHw. cbn [map fold_right nrows zerom] in NHw. rewrite NP2, NP1, NU in NHw.
  pose proof (mulm_ok _ _ _ HMN) as (EM1 & EM2). pose proof (mulm_ok _ _ _ HT) as (ET1 & ET2).
  pose proof (mulm_ok _ _ _ HHH) as (EH1 & EH2).
  destruct (diagm_ok _ _ HM) as (WM & RM & CM & VM). rewrite app_length, repeat_length in RM, CM.
  assert (length (k_mm cp) = nw) as Lmm by lia.
  assert (length (repeat 1%K (any + npol) ++ k_mm cp) = any + npol + nw) as LMD by (rewrite app_length, repeat_length; lia).
  pose proof (mulv_rowsv _ _ _ HMR0) as (LMR0 & EMR). rewrite app_length, repeat_length in LMR0.
  assert (length (k_rh cp) = nw) as Lrh by lia.
  assert (nrows MN = any + npol + nw) as NMN by (rewrite EM2; cbn [nrows]; lia).
  assert (ncols HHw = any + npol + nw) as CHHw. { rewrite ET2 in EH1. cbn [ncols] in EH1. lia. }
  pose proof (mulv_rowsv _ _ _ HHMR) as (LMR & EHMR).
  apply ewise_ok in Hd as (Ld & Ed).
  assert (length HMR = any + npol + nw) as LHMR by (rewrite EHMR, rowsv_length; lia).
  rewrite !app_length, repeat_length, map_length, Lcf, LHMR in Ld.
  assert (length (k_Cw cp) = nw) as LCw by lia.
  assert (ncols NN = nx) as CNX.
  { (* at least one block is there *)
    inversion CNN as [|? ? Q1 CNN1]; subst. inversion CNN1 as [|? ? Q2 CNN2]; subst.
    destruct (Nat.eq_dec any 0) as [E|E]; [|rewrite <- Q1, C1 by congruence; auto].
    destruct (Nat.eq_dec npol 0) as [E'|E']; [|rewrite <- Q2 by congruence; auto].
    destruct (Nat.eq_dec nw 0) as [E''|E''].
    - exfalso. clear - E E' E'' HM Lmm. rewrite E, E' in HM. destruct (k_mm cp); [|simpl in Lmm; lia]. discriminate.
    - inversion CNN2 as [|? ? Q3 _]; subst. rewrite <- Q3 by exact E''. exact CN. }
  set (a2 := map (fun t => fofZ 2 * fst (fst t))%K cf) in *.
  assert (length a2 = npol) as La2 by (unfold a2; rewrite map_length; auto).
  (* the weights *)
  assert (forall v1 v2 v3, length v1 = any -> length v2 = npol -> length v3 = nw ->
    rowsv HHw (v1 ++ v2 ++ v3) = repeat 0%K any ++ map2 rmul a2 v2 ++ rowsv Hu0 v3) as AP.
  { intros v1 v2 v3 Q1 Q2 Q3. rewrite VHw. cbn [flat_map]. rewrite app_nil_r, rowsv_zerom. f_equal.
    rewrite (app_assoc v1 v2 v3). rewrite (VU (v1 ++ v2) v3) by (rewrite ?app_length; lia). f_equal.
    rewrite (rowsv_hstackm _ _ _ (v1 ++ v2) v3 WP1 ltac:(rewrite app_length; lia) HHp2).
    rewrite (rowsv_hstackm (zerom npol any) Hpol Hp1 v1 v2 (wf_zerom _ _) Q1 HHp1).
    rewrite !rowsv_zerom, V3 by auto. rewrite add_zeros by (rewrite map2_length; lia). apply add_zeros_r. rewrite map2_length; lia. }
  (* the transformed variables *)
  set (sy := fun x : list K => lsum (fun j => nth (nb + ng + j) x 0%K) (seq 0 ny)).
  set (zp := fun x : list K => map (fun i => nth (nb + i) x 0%K) ipol).
  set (zu := fun x : list K => map2 rmul (k_mm cp) (rowsv N x)).
  assert (forall x, length (zp x) = npol) as Lzp by (intros x; apply map_length).
  assert (forall x, length (zu x) = nw) as Lzu by (intros x; unfold zu; rewrite map2_length; rewrite ?rowsv_length; fold nw; lia).
  assert (forall x, rowsv MN x = repeat (sy x) any ++ zp x ++ zu x) as ZX.
  { intros x. rewrite (rowsv_mulm _ _ _ x WM HMN). rewrite VNN. cbn [flat_map]. rewrite app_nil_r, V1, V2.
    fold (sy x) (zp x). rewrite VM.
    - rewrite (app_assoc (repeat _ any)). rewrite map2_app by (rewrite repeat_length, app_length, repeat_length, Lzp; auto).
      rewrite map2_repeat_l by (rewrite app_length, repeat_length, Lzp; auto). rewrite map_app, <- app_assoc. f_equal; [|f_equal].
      + transitivity (map (fun a : K => a) (repeat (sy x) any)); [apply map_ext; intros; ring|apply map_id].
      + transitivity (map (fun a : K => a) (zp x)); [apply map_ext; intros; ring|apply map_id].
    - rewrite !app_length, !repeat_length, rowsv_length, Lzp. lia. }
  pose proof (wf_mulm _ _ _ WM WNN HMN) as WMN. pose proof (wf_transp _ WMN) as WTMN.
  assert (ncols MN = nx) as CMN by (rewrite EM2; cbn [ncols]; auto).
  pose proof (wf_mulm _ _ _ WTMN WHw HT) as WT. pose proof (wf_mulm _ _ _ WT WMN HHH) as WHH.
  assert (nrows HH' = nx) as NHH by (rewrite EH2, ET2; cbn [nrows transp]; auto).
  assert (ncols HH' = nx) as CHH by (rewrite EH2; cbn [ncols]; auto).
  assert (forall x x', length x = nx -> inner x (rowsv HH' x')
     = (inner (zp x) (map2 rmul a2 (zp x')) + inner (zu x) (rowsv Hu0 (zu x')))%K) as BF.
  { intros x x' Lx. rewrite (rowsv_mulm _ _ _ x' WT HHH), (rowsv_mulm _ _ _ _ WTMN HT).
    rewrite <- adjoint by (auto; rewrite ?rowsv_length; lia). rewrite (ZX x'), AP by (rewrite ?repeat_length; auto). rewrite (ZX x).
    rewrite inner_app by (rewrite !repeat_length; auto). rewrite inner_0_r.
    rewrite inner_app by (rewrite map2_length; rewrite ?Lzp; lia). ring. }
  assert (forall x x', (inner (zp x) (map2 rmul a2 (zp x')) + inner (zu x) (rowsv Hu0 (zu x'))
     = inner (zp x') (map2 rmul a2 (zp x)) + inner (zu x') (rowsv Hu0 (zu x)))%K) as BS.
  { intros x x'. rewrite (inner_diag_sym a2 (zp x) (zp x')) by (rewrite Lzp; auto).
    rewrite (inner_sym Hu0 nw (zu x) (zu x')) by auto. reflexivity. }
  pose proof (mulv_rowsv _ _ _ HCC) as (LD & ECC).
  assert (length CC' = nx) as LCC by (rewrite ECC, rowsv_length; cbn [nrows transp]; auto).
  do 3 (split; [auto|]). do 4 (split; [auto|]). split.
  { intros i j. destruct (lt_dec i nx) as [Hi|Hi], (lt_dec j nx) as [Hj|Hj].
    - assert (forall i j, i < nx -> j < nx -> at_ HH' i j = inner (unit nx i) (rowsv HH' (unit nx j))) as AT.
      { intros i' j' Hi' Hj'. rewrite inner_unit by (rewrite ?rowsv_length; auto). rewrite nth_rowsv by lia.
        rewrite <- CHH. rewrite mulrow_unit by (auto; lia). reflexivity. }
      assert (forall k, length (unit (K := K) nx k) = nx) as LU by (intros k; unfold unit; rewrite map_length, seq_length; auto).
      rewrite !AT by auto. rewrite !BF by auto. apply BS.
    - rewrite !(at_out HH') by (auto; lia). reflexivity.
    - rewrite !(at_out HH') by (auto; lia). reflexivity.
    - rewrite !(at_out HH') by (auto; lia). reflexivity. }
  intros x Lx. rewrite qform_inner by auto. fold half.
  rewrite BF by auto. rewrite (inner_comm CC' x), ECC. rewrite <- adjoint by (auto; rewrite ?Ed, ?map2_length; rewrite ?app_length, ?repeat_length, ?map_length; lia).
  set (mr := map2 rmul (k_mm cp) (k_rh cp)).
  assert (length mr = nw) as Lmr by (unfold mr; rewrite map2_length; auto; lia).
  assert (MR = repeat 0%K any ++ repeat 0%K npol ++ mr) as EMR'.
  { rewrite EMR, VM by (rewrite !app_length, !repeat_length; lia). rewrite map2_app by (rewrite !repeat_length; auto).
    rewrite map2_repeat_l by apply repeat_length. rewrite app_assoc, <- repeat_app. f_equal.
    rewrite map_repeat'. f_equal. ring. }
  assert (HMR = repeat 0%K any ++ map2 rmul a2 (repeat 0%K npol) ++ rowsv Hu0 mr) as EHMR'.
  { rewrite EHMR, EMR'. apply AP; rewrite ?repeat_length; auto. }
  set (b2 := map (fun t => snd (fst t)) cf) in *. assert (length b2 = npol) as Lb2 by (unfold b2; rewrite map_length; auto).
  rewrite Ed, ZX.
  rewrite inner_sub_r by (rewrite ?app_length, ?repeat_length, ?Lzp, ?Lzu, ?Lb2; lia).
  rewrite EHMR' at 1. rewrite !inner_app by (rewrite ?repeat_length, ?Lzp, ?map2_length; rewrite ?repeat_length; lia).
  rewrite inner_0_r, inner_map2_0 by auto.
  change (dotv MR HMR) with (inner MR HMR). rewrite EMR', EHMR', half_dec.
  rewrite !inner_app by (rewrite ?repeat_length, ?map2_length; rewrite ?repeat_length; lia). rewrite !inner_0.
  unfold gen_cost_by, user_cost. fold N nw Hu0.
  assert (user_w N (k_rh cp) (k_mm cp) x = map2 rsub (zu x) mr) as EW.
  { unfold user_w, zu, mr. apply nth_error_ext. intros k. destruct (lt_dec k nw) as [Hk|Hk].
    - rewrite nth_error_map, seq_nth_error by auto. cbn [option_map Nat.add].
      assert (length (map2 rmul (k_mm cp) (rowsv N x)) = nw) as L1 by (rewrite map2_length; rewrite ?rowsv_length; fold nw; lia).
      assert (length (map2 rmul (k_mm cp) (k_rh cp)) = nw) as L2 by (rewrite map2_length; auto; lia).
      rewrite (nth_error_nth' _ 0%K) by (rewrite map2_length; lia). f_equal.
      rewrite (nth_map2_d _ _ _ _ 0%K 0%K) by lia. rewrite !(nth_map2_d _ _ _ _ 0%K 0%K) by (rewrite ?rowsv_length; lia).
      rewrite nth_rowsv by auto. rewrite row_val_mulrow by auto. ring.
    - rewrite !(proj2 (nth_error_None _ _)); auto.
      + assert (length (map2 rmul (k_mm cp) (rowsv N x)) = nw) as L1 by (rewrite map2_length; rewrite ?rowsv_length; fold nw; lia).
        rewrite map2_length. lia.
      + rewrite map_length, seq_length. fold nw. lia. }
  rewrite EW. rewrite qform_inner by (auto; rewrite ?map2_length; rewrite ?Lzu; lia). fold half.
  rewrite rowsv_sub by (rewrite Lzu; lia).
  rewrite inner_sub by (rewrite ?map2_length; rewrite ?rowsv_length, ?Lzu; lia).
  rewrite !inner_sub_r by (rewrite ?rowsv_length, ?Lzu; lia).
  rewrite (inner_sym Hu0 nw mr (zu x)) by auto.
  fold mr. rewrite (inner_comm (k_Cw cp) (zu x)).
  rewrite <- (PP x). fold (zp x). rewrite (inner_comm b2 (zp x)).
  assert (inner (repeat (sy x) any) (repeat 1%K any) = sy x) as ES.
  { unfold any. destruct (Nat.eqb_spec ny 0) as [E|E].
    - unfold sy. rewrite E. reflexivity.
    - unfold inner. simpl. ring. }
  rewrite ES. fold (sy x). unfold half. pose proof two_nz as T2.
  assert ((fofZ 2 : K) = 1 + 1)%K as E2 by (change 2%Z with (1 + 1)%Z; rewrite fofZ_add, fofZ_1; reflexivity).
  rewrite E2 in *. field. auto.
Qed.
End DcOpfG.
