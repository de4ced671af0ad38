(** opf_costfcn: its gradient over the reals, and the second derivatives. *)
From Coq Require Import Reals Lra Psatz.
From Verif Require Import Lib.ListFacts Model.OpfFcn Spec.AcOpfSpec Proofs.LinAlgFacts Proofs.SparseFacts
  Proofs.FldFacts Proofs.OrdFacts Proofs.MatFacts Proofs.PipsF Proofs.PipsG Proofs.NetworkA Proofs.NetworkE Proofs.DerivR
  Proofs.AcCostA Proofs.AcCostB Proofs.AcCostC.
Local Open Scope nat_scope.

Ltac kr := cbn [radd rmul rsub ropp r0 r1 fdiv fofZ fld_rng R_fld R_rng] in *.

Lemma ltb_r a b : @fltb R R_fld a b = true <-> (a < b)%R.
Proof. apply r_ltb_ok. Qed.
Lemma ltb_r' a b : @fltb R R_fld a b = false <-> (b <= a)%R.
Proof. cbn. unfold r_ltb. destruct (Rlt_dec a b); split; intros; try lra; congruence. Qed.

(** ** polynomials *)
Lemma low_derive (c : list R) x : derivable_pt_lim (low c) x (low (pd c) x).
Proof.
  assert (G : forall (c : list R) k x, low (pd_from k c) x = (INR k * low c x + x * low (pd c) x)%R).
  { clear. induction c as [|a c IH]; intros k x; [cbn; ring|].
    cbn [pd_from pd low]. rewrite (IH (S k)), (IH 1). kr. rewrite <- INR_IZR_INZ, S_INR. simpl INR. ring. }
  induction c as [|a c IH].
  - apply derivable_pt_lim_const.
  - cbn [pd]. rewrite G.
    apply (dl_eq (fun y => (a + y * low c y)%R) _ (0 + (1 * low c x + x * low (pd c) x))%R).
    + apply (derivable_pt_lim_plus (fun _ => a) (fun y => (y * low c y)%R)); [apply derivable_pt_lim_const|].
      apply (derivable_pt_lim_mult (fun y => y) (low c)); [apply derivable_pt_lim_id|exact IH].
    + simpl INR. ring.
Qed.
Lemma pds_pd n : forall c : list R, pds n (pd c) = pd (pds n c).
Proof. induction n as [|n IH]; intros c; simpl; auto. Qed.
Lemma pder_derive der (cs : list R) p : derivable_pt_lim (pder der cs) p (pder (S der) cs p).
Proof. unfold pder. cbn [pds]. rewrite pds_pd. apply low_derive. Qed.
Lemma pder_scaled der (cs : list R) B p :
  derivable_pt_lim (fun t => pder der cs (B * t)%K) p (B * pder (S der) cs (B * p))%K.
Proof.
  kr. apply (dl_eq _ _ (pder (S der) cs (B * p) * B)%R); [|ring].
  apply (derivable_pt_lim_comp (fun t => (B * t)%R) (pder der cs)); [|apply pder_derive].
  apply (dl_eq _ _ (B * 1)%R); [|ring]. apply (derivable_pt_lim_scal (fun t => t) B p 1%R). apply derivable_pt_lim_id.
Qed.

(** ** the dead zone *)
Definition ofs (r k : R) : R := @outside R R_fld r k.
Lemma ofs_cases r k : (0 <= k)%R ->
  (r < - k /\ ofs r k = r + k)%R \/ (- k <= r <= k /\ ofs r k = 0)%R \/ (k < r /\ ofs r k = r - k)%R.
Proof.
  intros Hk. unfold ofs, outside. destruct (fltb r _) eqn:E1; [apply ltb_r in E1; kr; left; auto|apply ltb_r' in E1].
  destruct (fltb k r) eqn:E2; [apply ltb_r in E2; kr; right; right; auto|apply ltb_r' in E2; kr; right; left; auto].
Qed.
Lemma ofs_sq r k : (0 <= k)%R -> derivable_pt_lim (fun t => ofs t k * ofs t k)%R r (2 * ofs r k)%R.
Proof.
  intros Hk eps He. exists (mkposreal _ He). intros h Hh Hl. cbn [pos] in Hl.
  assert (Q : (Rabs (ofs (r + h) k * ofs (r + h) k - ofs r k * ofs r k - 2 * ofs r k * h) <= h * h)%R).
  { apply Rabs_le. destruct (ofs_cases r k Hk) as [(A & ->)|[(A & ->)|(A & ->)]],
      (ofs_cases (r + h) k Hk) as [(A' & ->)|[(A' & ->)|(A' & ->)]]; split; nra. }
  replace ((ofs (r + h) k * ofs (r + h) k - ofs r k * ofs r k) / h - 2 * ofs r k)%R
    with ((ofs (r + h) k * ofs (r + h) k - ofs r k * ofs r k - 2 * ofs r k * h) / h)%R by (field; auto).
  unfold Rdiv. rewrite Rabs_mult, Rabs_inv. apply Rle_lt_trans with (Rabs h); auto.
  assert (P : (0 < Rabs h)%R) by (apply Rabs_pos_lt; auto).
  apply (Rmult_le_reg_r (Rabs h)); auto. rewrite Rmult_assoc, Rinv_l, Rmult_1_r by lra.
  rewrite <- Rabs_mult, (Rabs_pos_eq (h * h)%R) by nra. auto.
Qed.
(** ... off its edges *)
Definition act (r k : R) : R :=
  if @fltb R R_fld r (- k)%K || (@feqb R R_fld r 0%K && @feqb R R_fld k 0%K) || @fltb R R_fld k r then 1%R else 0%R.
Lemma act_cases r k : (0 <= k)%R -> (k = 0 \/ r <> k /\ r <> - k)%R ->
  (k = 0 /\ act r k = 1)%R \/ (0 < k /\ r < - k /\ act r k = 1)%R \/ (- k < r < k /\ act r k = 0)%R \/ (0 < k /\ k < r /\ act r k = 1)%R.
Proof.
  intros Hk O. unfold act. destruct (fltb r _) eqn:E1; [apply ltb_r in E1|apply ltb_r' in E1]; kr; cbn [orb].
  { destruct (Req_dec k 0); [left; auto|right; left; split; [lra|auto]]. }
  destruct (fltb k r) eqn:E2; [apply ltb_r in E2|apply ltb_r' in E2]; rewrite ?orb_true_r, ?orb_false_r.
  { destruct (Req_dec k 0); [left; auto|right; right; right; split; [lra|auto]]. }
  destruct O as [->|O].
  - left. split; auto. assert (r = 0)%R as -> by lra. cbn. unfold r_eqb. destruct (Req_EM_T 0 0); [reflexivity|congruence].
  - right. right. left. split; [lra|]. cbn. unfold r_eqb. destruct (Req_EM_T r 0), (Req_EM_T k 0); auto. lra.
Qed.
Lemma ofs_0 r : ofs r 0 = r.
Proof. destruct (ofs_cases r 0 (Rle_refl 0)) as [(A & ->)|[(A & ->)|(A & ->)]]; lra. Qed.
Lemma ofs_derive r k : (0 <= k)%R -> (k = 0 \/ r <> k /\ r <> - k)%R ->
  derivable_pt_lim (fun t => ofs t k) r (act r k).
Proof.
  intros Hk O. destruct (act_cases r k Hk O) as [(-> & ->)|[(P & A & ->)|[(A & ->)|(P & A & ->)]]].
  - apply (dl_ext (fun t => t)); [intros y; symmetry; apply ofs_0|]. apply derivable_pt_lim_id.
  - apply (dl_near (fun t => t + k)%R _ _ _ (- k - r)%R); [lra| |].
    + intros y Hy. apply Rabs_def2 in Hy. destruct (ofs_cases y k Hk) as [(B & ->)|[(B & ->)|(B & ->)]]; lra.
    + apply (dl_eq _ _ (1 + 0)%R); [|ring]. apply (derivable_pt_lim_plus (fun t => t) (fun _ => k)); [apply derivable_pt_lim_id|apply derivable_pt_lim_const].
  - apply (dl_near (fun t => 0)%R _ _ _ (Rmin (r + k) (k - r))%R); [apply Rmin_pos; lra| |].
    + intros y Hy. assert (Rabs (y - r) < r + k)%R by (eapply Rlt_le_trans; [exact Hy|apply Rmin_l]).
      assert (Rabs (y - r) < k - r)%R as H' by (eapply Rlt_le_trans; [exact Hy|apply Rmin_r]).
      apply Rabs_def2 in H, H'. destruct (ofs_cases y k Hk) as [(B & ->)|[(B & ->)|(B & ->)]]; lra.
    + apply derivable_pt_lim_const.
  - apply (dl_near (fun t => t - k)%R _ _ _ (r - k)%R); [lra| |].
    + intros y Hy. apply Rabs_def2 in Hy. destruct (ofs_cases y k Hk) as [(B & ->)|[(B & ->)|(B & ->)]]; lra.
    + apply (dl_eq _ _ (1 - 0)%R); [|ring]. apply (derivable_pt_lim_minus (fun t => t) (fun _ => k)); [apply derivable_pt_lim_id|apply derivable_pt_lim_const].
Qed.
(** the region does not change nearby *)
Lemma act_near r k : (0 <= k)%R -> (k = 0 \/ r <> k /\ r <> - k)%R ->
  exists e, (0 < e)%R /\ forall y, (Rabs (y - r) < e)%R -> act y k = act r k /\ (k = 0 \/ y <> k /\ y <> - k)%R.
Proof.
  intros Hk O. destruct (act_cases r k Hk O) as [(-> & ->)|[(P & A & ->)|[(A & ->)|(P & A & ->)]]].
  - exists 1%R. split; [lra|]. intros y _. split; auto. destruct (act_cases y 0 Hk (or_introl eq_refl)) as [(_ & ->)|[(? & _)|[(? & _)|(? & _)]]]; auto; lra.
  - exists (- k - r)%R. split; [lra|]. intros y Hy. apply Rabs_def2 in Hy. assert (O' : (k = 0 \/ y <> k /\ y <> - k)%R) by (right; lra).
    split; auto. destruct (act_cases y k Hk O') as [(? & ->)|[(? & ? & ->)|[(? & ->)|(? & ? & ->)]]]; lra.
  - exists (Rmin (r + k) (k - r))%R. split; [apply Rmin_pos; lra|]. intros y Hy.
    assert (Rabs (y - r) < r + k)%R by (eapply Rlt_le_trans; [exact Hy|apply Rmin_l]).
    assert (Rabs (y - r) < k - r)%R as H' by (eapply Rlt_le_trans; [exact Hy|apply Rmin_r]).
    apply Rabs_def2 in H, H'. assert (O' : (k = 0 \/ y <> k /\ y <> - k)%R) by (right; lra).
    split; auto. destruct (act_cases y k Hk O') as [(? & ->)|[(? & ? & ->)|[(? & ->)|(? & ? & ->)]]]; lra.
  - exists (r - k)%R. split; [lra|]. intros y Hy. apply Rabs_def2 in Hy. assert (O' : (k = 0 \/ y <> k /\ y <> - k)%R) by (right; lra).
    split; auto. destruct (act_cases y k Hk O') as [(? & ->)|[(? & ? & ->)|[(? & ->)|(? & ? & ->)]]]; lra.
Qed.

Section AcCostR.
Variable D : acdata (K := R).
Notation B := (a_base D).
Notation nb := (length (a_bus D)).
Notation ng := (length (a_gen D)).
Notation gencost := (a_gencost D).
Notation cp := (a_cp D).
Notation N := (g_N cp).
Notation nw := (nrows (g_N cp)).
Variable nx : nat.
Hypothesis ZD : zone_data nx N (g_H cp) (g_Cw cp) (g_dd cp) (g_rh cp) (g_kk cp) (g_mm cp).
Hypothesis SH : sym_mat (g_H cp).

Definition edge_free (P : R -> Prop) (x : list R) : Prop :=
  forall i, i < nw -> P (nth i (g_dd cp) 0%R) -> (kk_ D i = 0 \/ rr_ D x i <> kk_ D i /\ rr_ D x i <> - kk_ D i)%R.
Lemma edge_free_iff P x : off_edges P N (g_dd cp) (g_rh cp) (g_kk cp) x <-> edge_free P x.
Proof.
  split; intros H i Hi Pi.
  - destruct (Req_dec (kk_ D i) 0); auto. right. apply (H i Hi Pi). auto.
  - intros Z. destruct (H i Hi Pi) as [Z'|A]; [destruct (Z Z')|]. exact A.
Qed.

Lemma rr_upd x j t i : length x = nx -> j < nx ->
  rr_ D (upd x j t) i = (rr_ D x i + at_ N i j * (t - nth j x 0))%R.
Proof.
  intros L Hj. unfold rr_, zone_r, row_val. pose proof ZD as ((_ & NC & _) & _). rewrite NC.
  assert (E : lsum (fun c => at_ N i c * nth c (upd x j t) 0)%K (seq 0 nx)
     = (lsum (fun c => at_ N i c * nth c x 0) (seq 0 nx) + at_ N i j * (t - nth j x 0))%K).
  { rewrite (lsum_ext _ (fun c => at_ N i c * nth c x 0 + (if c =? j then at_ N i c * (t - nth c x 0) else 0))%K).
    - rewrite lsum_add. rewrite lsum_seq_single. cbn [Nat.leb andb].
      rewrite (proj2 (Nat.ltb_lt j (0 + nx))) by lia. reflexivity.
    - intros c Hc. apply in_seq in Hc. rewrite nth_upd by lia. destruct (Nat.eqb_spec c j); kr; ring. }
  kr. rewrite E. kr. ring.
Qed.
Lemma d_rr x j i : length x = nx -> j < nx ->
  derivable_pt_lim (fun t => rr_ D (upd x j t) i) (nth j x 0%R) (at_ N i j).
Proof.
  intros L Hj. apply (dl_ext (fun t => rr_ D x i + at_ N i j * (t - nth j x 0))%R).
  { intros t. symmetry. apply rr_upd; auto. }
  apply (dl_eq _ _ (0 + at_ N i j * (1 - 0))%R); [|ring].
  apply (derivable_pt_lim_plus (fun _ => rr_ D x i) (fun t => at_ N i j * (t - nth j x 0))%R); [apply derivable_pt_lim_const|].
  apply (derivable_pt_lim_scal (fun t => t - nth j x 0)%R). 
  apply (derivable_pt_lim_minus (fun t => t) (fun _ => nth j x 0%R)); [apply derivable_pt_lim_id|apply derivable_pt_lim_const].
Qed.
Lemma kk_ge i : i < nw -> (0 <= kk_ D i)%R.
Proof.
  intros Hi. destruct ZD as (_ & _ & _ & _ & _ & Lk & _ & FK). rewrite Forall_forall in FK.
  assert (H : le 0%K (kk_ D i)) by (apply FK; apply nth_In; lia).
  unfold le in H. apply ltb_r' in H. exact H.
Qed.
Definition W (x : list R) (i : nat) : R :=
  (nth i (g_mm cp) 0 * shape_cost (nth i (g_dd cp) 0) (out_ D x i))%K.
Lemma M_act x i : M_ D x i = (nth i (g_mm cp) 0 * act (rr_ D x i) (kk_ D i))%R.
Proof. unfold M_, active_, act. kr. destruct (_ || _); ring. Qed.
Lemma d1_d2 i : dd_ D 1 i = true -> dd_ D 2 i = false.
Proof.
  intros A. destruct (dd_ D 2 i) eqn:Q; auto. unfold dd_ in A, Q. apply feqb_ok in A, Q. rewrite A in Q.
  apply fofZ_inj in Q. discriminate.
Qed.

Definition one (d : R) : Prop := d = 1%R.
Definition one_two (d : R) : Prop := d = 1%R \/ d = 2%R.

Lemma d_W x j i : length x = nx -> j < nx -> i < nw -> edge_free one x ->
  derivable_pt_lim (fun t => W (upd x j t) i) (nth j x 0%R) (at_ N i j * slope_ D x i)%K.
Proof.
  intros L Hj Hi O. pose proof (kk_ge i Hi) as Hk. unfold W, slope_, shape_cost. change (feqb (nth i (g_dd cp) 0%K) (fofZ 1)) with (dd_ D 1 i).
  change (feqb (nth i (g_dd cp) 0%K) (fofZ 2)) with (dd_ D 2 i). unfold Q_. rewrite M_act.
  change (nth i (g_mm cp) 0%K) with (nth i (g_mm cp) 0%R).
  set (m := nth i (g_mm cp) 0%R). pose proof (d_rr x j i L Hj) as DR.
  assert (RX : rr_ D (upd x j (nth j x 0%R)) i = rr_ D x i) by (rewrite upd_nth_id; auto).
  destruct (dd_ D 1 i) eqn:D1.
  - rewrite (d1_d2 i D1). kr.
    assert (Oi : (kk_ D i = 0 \/ rr_ D x i <> kk_ D i /\ rr_ D x i <> - kk_ D i)%R).
    { apply O; auto. unfold dd_ in D1. apply feqb_ok in D1. exact D1. }
    eapply dl_eq.
    + apply (derivable_pt_lim_scal (fun t => out_ D (upd x j t) i) m).
      apply (derivable_pt_lim_comp (fun t => rr_ D (upd x j t) i) (fun r => ofs r (kk_ D i))); [exact DR|].
      rewrite RX. apply ofs_derive; auto.
    + ring.
  - destruct (dd_ D 2 i) eqn:D2; kr.
    + eapply dl_eq.
      * apply (derivable_pt_lim_scal (fun t => out_ D (upd x j t) i * out_ D (upd x j t) i)%R m).
        apply (derivable_pt_lim_comp (fun t => rr_ D (upd x j t) i) (fun r => ofs r (kk_ D i) * ofs r (kk_ D i))%R); [exact DR|].
        rewrite RX. apply ofs_sq; auto.
      * change (ofs (rr_ D x i) (kk_ D i)) with (out_ D x i). 
        assert (act (rr_ D x i) (kk_ D i) * out_ D x i = out_ D x i)%R as AO; [|transitivity (at_ N i j * (m * (2 * (act (rr_ D x i) (kk_ D i) * out_ D x i))))%R; [rewrite AO; ring|ring]].
        unfold out_, act, outside. destruct (fltb (rr_ D x i) _) eqn:E1; cbn [orb]; [ring|].
        destruct (fltb (kk_ D i) _) eqn:E2; [rewrite orb_true_r; ring|]. kr. ring.
    + apply (dl_eq _ _ 0%R); [|ring]. apply (dl_ext (fun _ => (m * 0)%R)); [reflexivity|]. apply derivable_pt_lim_const.
Qed.

Lemma zone_w_nth x i : i < nw -> nth i (zone_w N (g_dd cp) (g_rh cp) (g_kk cp) (g_mm cp) x) 0%K = W x i.
Proof.
  intros Hi. unfold zone_w. rewrite (nth_map_lt _ _ _ _ 0) by (rewrite seq_length; lia). rewrite seq_nth by lia. reflexivity.
Qed.
Definition HW (x : list R) (i : nat) : R := (lsum (fun j => at_ (g_H cp) i j * W x j) (seq 0 nw) + nth i (g_Cw cp) 0)%K.
Lemma hwc_HW x i : hwc D x i = HW x i.
Proof.
  unfold hwc, HW. cbn zeta. f_equal. apply lsum_ext. intros j Hj. apply in_seq in Hj. rewrite zone_w_nth by lia. reflexivity.
Qed.
Definition user_part (x : list R) : R :=
  qform nw (g_H cp) (g_Cw cp) (zone_w N (g_dd cp) (g_rh cp) (g_kk cp) (g_mm cp) x).

Lemma d_mul f g x a b : derivable_pt_lim f x a -> derivable_pt_lim g x b ->
  derivable_pt_lim (fun t => f t * g t)%K x (a * g x + f x * b)%K.
Proof. intros A C. kr. exact (derivable_pt_lim_mult _ _ _ _ _ A C). Qed.
Lemma d_scal c f x a : derivable_pt_lim f x a -> derivable_pt_lim (fun t => c * f t)%K x (c * a)%K.
Proof. intros A. kr. exact (derivable_pt_lim_scal _ _ _ _ A). Qed.
Lemma d_add f g x a b : derivable_pt_lim f x a -> derivable_pt_lim g x b ->
  derivable_pt_lim (fun t => f t + g t)%K x (a + b)%K.
Proof. intros A C. kr. exact (derivable_pt_lim_plus _ _ _ _ _ A C). Qed.

Lemma d_HW x j i : length x = nx -> j < nx -> edge_free one x ->
  derivable_pt_lim (fun t => HW (upd x j t) i) (nth j x 0%R) (lsum (fun l => at_ (g_H cp) i l * (at_ N l j * slope_ D x l)) (seq 0 nw))%K.
Proof.
  intros L Hj O. unfold HW. eapply dl_eq.
  - apply (d_add _ (fun _ => nth i (g_Cw cp) 0%R)); [|apply derivable_pt_lim_const].
    apply dl_lsum. intros l Hl. apply in_seq in Hl. apply d_scal. apply d_W; auto. lia.
  - kr. ring.
Qed.

Lemma d_user x j : length x = nx -> j < nx -> edge_free one x ->
  vpartial user_part x j (zgrad D x j).
Proof.
  intros L Hj O. unfold vpartial.
  apply (dl_ext (fun t => (1 / fofZ 2 * lsum (fun i => W (upd x j t) i * lsum (fun l => at_ (g_H cp) i l * W (upd x j t) l) (seq 0 nw)) (seq 0 nw)
      + lsum (fun i => nth i (g_Cw cp) 0 * W (upd x j t) i) (seq 0 nw))%K)).
  { intros t. unfold user_part, qform. f_equal; [f_equal|]; apply lsum_ext; intros i Hi; apply in_seq in Hi.
    - rewrite zone_w_nth by lia. f_equal. apply lsum_ext. intros l Hl. apply in_seq in Hl. rewrite zone_w_nth by lia. reflexivity.
    - rewrite zone_w_nth by lia. reflexivity. }
  eapply dl_eq.
  - apply d_add.
    + apply d_scal. apply dl_lsum. intros i Hi. apply in_seq in Hi. apply d_mul.
      * apply d_W; auto. lia.
      * apply dl_lsum. intros l Hl. apply in_seq in Hl. apply d_scal. apply d_W; auto. lia.
    + apply dl_lsum. intros i Hi. apply in_seq in Hi. apply d_scal. apply d_W; auto. lia.
  - cbv beta. rewrite upd_nth_id. unfold zgrad. rewrite lsum_add.
    set (e := fun i => (at_ N i j * slope_ D x i)%K).
    set (G := fun i => lsum (fun l => at_ (g_H cp) i l * W x l)%K (seq 0 nw)).
    assert (S2 : lsum (fun i => W x i * lsum (fun l => at_ (g_H cp) i l * e l) (seq 0 nw))%K (seq 0 nw)
       = lsum (fun i => e i * G i)%K (seq 0 nw)).
    { rewrite (lsum_ext _ (fun i => lsum (fun l => e l * (at_ (g_H cp) l i * W x i))%K (seq 0 nw))).
      - rewrite lsum_swap. apply lsum_ext. intros l _. rewrite lsum_scal. reflexivity.
      - intros i _. rewrite <- lsum_scal. apply lsum_ext. intros l _. cbv beta. replace (at_ (g_H cp) i l) with (at_ (g_H cp) l i) by apply SH. kr. ring. }
    match goal with |- ?lhs = _ => change lhs with (1 / fofZ 2 * (lsum (fun i => e i * G i) (seq 0 nw) + lsum (fun i => W x i * lsum (fun l => at_ (g_H cp) i l * e l) (seq 0 nw)) (seq 0 nw)) + lsum (fun i => nth i (g_Cw cp) 0 * e i) (seq 0 nw))%K end.
    rewrite S2.
    transitivity (lsum (fun i => e i * G i) (seq 0 nw) + lsum (fun i => nth i (g_Cw cp) 0 * e i) (seq 0 nw))%K.
    + kr. field.
    + rewrite <- lsum_add. apply lsum_ext. intros i _. rewrite hwc_HW. unfold HW. fold (G i). unfold e. kr. ring.
Qed.

(** ** the whole cost *)
Definition ac_cost_of (x : list R) : R :=
  ac_cost B nb ng (a_ny D) gencost N (g_H cp) (g_Cw cp) (g_dd cp) (g_rh cp) (g_kk cp) (g_mm cp) x.
Definition poly_part (x : list R) : R := lsum (fun i => pterm D x 0 i) (seq 0 (length gencost)).
Definition y_part (x : list R) : R := lsum (fun j => nth (nb + nb + ng + ng + j) x 0%R) (seq 0 (a_ny D)).
Lemma cost_parts x : ac_cost_of x = (y_part x + poly_part x + user_part x)%K.
Proof.
  unfold ac_cost_of, ac_cost, y_part, poly_part, user_part. f_equal. f_equal. apply lsum_ext. intros i _.
  unfold pterm, row_. cbv zeta. rewrite pder_0. reflexivity.
Qed.
Lemma pterm_upd x j t der i : length x = nx -> j < nx -> nb + nb + i < nx -> i <> j - (nb + nb) \/ j < nb + nb ->
  pterm D (upd x j t) der i = pterm D x der i.
Proof.
  intros L Hj Hi N'. unfold pterm, ac_output. rewrite nth_upd by lia.
  rewrite (proj2 (Nat.eqb_neq _ _)) by lia. reflexivity.
Qed.
Lemma d_pterm x j der i : length x = nx -> j < nx -> nb + nb + i < nx ->
  derivable_pt_lim (fun t => pterm D (upd x j t) der i) (nth j x 0%R)
    (if (nb + nb <=? j) && (i =? j - (nb + nb)) then B * pterm D x (S der) i else 0)%K.
Proof.
  intros L Hj Hi. destruct (Nat.leb_spec (nb + nb) j); [destruct (Nat.eqb_spec i (j - (nb + nb)))|]; cbn [andb].
  - unfold pterm. destruct (cost_is 2 (row_ D i)) eqn:C.
    + apply (dl_ext (fun t => pder der (coeffs (row_ D i)) (B * t)%K)).
      * intros t. unfold ac_output. rewrite nth_upd by lia. rewrite (proj2 (Nat.eqb_eq _ _)) by lia. reflexivity.
      * unfold ac_output. replace (nb + nb + i) with j by lia. apply pder_scaled.
    + eapply dl_eq; [apply derivable_pt_lim_const|]. kr. ring.
  - eapply dl_ext; [intros t; symmetry; apply pterm_upd; auto|]. apply derivable_pt_lim_const.
  - eapply dl_ext; [intros t; symmetry; apply pterm_upd; auto|]. apply derivable_pt_lim_const.
Qed.
Hypothesis NXB : nb + nb + ng + ng + a_ny D <= nx.
Hypothesis LG : length gencost <= ng + ng.
Lemma pterm_beyond x der i : length gencost <= i -> pterm D x der i = 0%R.
Proof.
  intros Hi. unfold pterm, row_. rewrite nth_overflow by auto. rewrite cost_is_nil by discriminate. reflexivity.
Qed.
Lemma pick_sum n j (v : nat -> R) : lsum (fun i => if (nb + nb <=? j) && (i =? j - (nb + nb)) then v i else 0%K) (seq 0 n)
  = (if (nb + nb <=? j) && (j - (nb + nb) <? n) then v (j - (nb + nb)) else 0%K : R).
Proof.
  destruct (nb + nb <=? j); cbn [andb].
  - rewrite lsum_seq_single. cbn [Nat.leb andb]. reflexivity.
  - apply lsum_zero; auto.
Qed.
Lemma pick_range (j : nat) (v : nat -> R) : (forall i, length gencost <= i -> v i = 0%R) ->
  (if (nb + nb <=? j) && (j - (nb + nb) <? length gencost) then v (j - (nb + nb)) else 0%K)
  = (if (nb + nb <=? j) && (j <? nb + nb + ng + ng) then v (j - (nb + nb)) else 0%K).
Proof.
  intros Z. destruct (Nat.leb_spec (nb + nb) j); cbn [andb]; auto.
  destruct (Nat.ltb_spec (j - (nb + nb)) (length gencost)), (Nat.ltb_spec j (nb + nb + ng + ng)); auto; [lia|].
  symmetry. apply Z. auto.
Qed.
Lemma d_cost x j : length x = nx -> j < nx -> edge_free one x -> vpartial ac_cost_of x j (grad_ D x j).
Proof.
  intros L Hj O. unfold vpartial.
  apply (dl_ext (fun t => (y_part (upd x j t) + poly_part (upd x j t) + user_part (upd x j t))%K));
    [intros t; symmetry; apply cost_parts|].
  eapply dl_eq.
  - apply (derivable_pt_lim_plus (fun t => y_part (upd x j t) + poly_part (upd x j t))%R (fun t => user_part (upd x j t)));
      [apply (derivable_pt_lim_plus (fun t => y_part (upd x j t)) (fun t => poly_part (upd x j t)))|apply d_user; auto].
    + unfold y_part. apply (dl_lsum _ (fun i => if nb + nb + ng + ng + i =? j then 1%R else 0%R)). intros i Hi. apply in_seq in Hi.
      destruct (Nat.eqb_spec (nb + nb + ng + ng + i) j) as [->|Q].
      * eapply dl_ext; [|apply derivable_pt_lim_id]. intros t. cbv [id]. rewrite nth_upd by lia. rewrite Nat.eqb_refl. reflexivity.
      * eapply dl_ext; [|apply derivable_pt_lim_const]. intros t. rewrite nth_upd by lia. rewrite (proj2 (Nat.eqb_neq _ _)) by auto. reflexivity.
    + unfold poly_part. apply dl_lsum. intros i Hi. apply in_seq in Hi. apply d_pterm; auto. lia.
  - unfold grad_. rewrite (pick_sum (length gencost) j (fun i => (B * pterm D x 1 i)%K)).
    rewrite (pick_range j (fun i => (B * pterm D x 1 i)%K)) by (intros; rewrite pterm_beyond by auto; kr; ring).
    replace (lsum (fun i => if nb + nb + ng + ng + i =? j then 1%R else 0%R) (seq 0 (a_ny D)))
      with (if (nb + nb + ng + ng <=? j) && (j <? nb + nb + ng + ng + a_ny D) then 1%K else 0%K : R).
    { kr. ring. }
    destruct (Nat.leb_spec (nb + nb + ng + ng) j); cbn [andb].
    + rewrite (lsum_ext _ (fun i => if i =? j - (nb + nb + ng + ng) then 1%K else 0%K)).
      * rewrite lsum_seq_single. cbn [Nat.leb andb].
        destruct (Nat.ltb_spec (j - (nb + nb + ng + ng)) (0 + a_ny D)), (Nat.ltb_spec j (nb + nb + ng + ng + a_ny D)); auto; lia.
      * intros i _. destruct (Nat.eqb_spec (nb + nb + ng + ng + i) j), (Nat.eqb_spec i (j - (nb + nb + ng + ng))); auto; lia.
    + rewrite (lsum_ext _ (fun i => 0%K)); [symmetry; apply lsum_zero; auto|].
      intros i _. rewrite (proj2 (Nat.eqb_neq _ _)) by lia. reflexivity.
Qed.

(** ** second derivatives *)
Lemma near_all n (P : nat -> R -> Prop) a :
  (forall i, i < n -> exists e, (0 < e)%R /\ forall t, (Rabs (t - a) < e)%R -> P i t) ->
  exists e, (0 < e)%R /\ forall t, (Rabs (t - a) < e)%R -> forall i, i < n -> P i t.
Proof.
  induction n as [|n IH]; intros H.
  - exists 1%R. split; [lra|]. intros; lia.
  - destruct IH as (e & He & A). { intros; apply H; lia. }
    destruct (H n ltac:(lia)) as (e' & He' & A'). exists (Rmin e e'). split; [apply Rmin_pos; auto|].
    intros t Ht i Hi. destruct (Nat.eq_dec i n) as [->|].
    + apply A'. eapply Rlt_le_trans; [exact Ht|apply Rmin_r].
    + apply A; [eapply Rlt_le_trans; [exact Ht|apply Rmin_l]|lia].
Qed.
Lemma zone_near x k i : length x = nx -> k < nx -> i < nw ->
  (kk_ D i = 0 \/ rr_ D x i <> kk_ D i /\ rr_ D x i <> - kk_ D i)%R ->
  exists e, (0 < e)%R /\ forall t, (Rabs (t - nth k x 0) < e)%R ->
    act (rr_ D (upd x k t) i) (kk_ D i) = act (rr_ D x i) (kk_ D i) /\
    (kk_ D i = 0 \/ rr_ D (upd x k t) i <> kk_ D i /\ rr_ D (upd x k t) i <> - kk_ D i)%R.
Proof.
  intros L Hk Hi O. destruct (act_near _ _ (kk_ge i Hi) O) as (e & He & A).
  assert (Q : (0 < Rabs (at_ N i k) + 1)%R) by (pose proof (Rabs_pos (at_ N i k)); lra).
  exists (e / (Rabs (at_ N i k) + 1))%R. split; [apply Rdiv_lt_0_compat; auto|].
  intros t Ht. apply A. rewrite rr_upd by auto.
  replace (rr_ D x i + at_ N i k * (t - nth k x 0) - rr_ D x i)%R with (at_ N i k * (t - nth k x 0))%R by ring.
  rewrite Rabs_mult. apply (Rmult_lt_compat_l _ _ _ Q) in Ht.
  replace ((Rabs (at_ N i k) + 1) * (e / (Rabs (at_ N i k) + 1)))%R with e in Ht by (field; lra).
  pose proof (Rabs_pos (t - nth k x 0%R)%R). lra.
Qed.
Lemma edge_near x k : length x = nx -> k < nx -> edge_free one x ->
  exists e, (0 < e)%R /\ forall t, (Rabs (t - nth k x 0) < e)%R -> edge_free one (upd x k t).
Proof.
  intros L Hk O.
  destruct (near_all nw (fun i t => one (nth i (g_dd cp) 0%R) ->
     (kk_ D i = 0 \/ rr_ D (upd x k t) i <> kk_ D i /\ rr_ D (upd x k t) i <> - kk_ D i)%R) (nth k x 0%R)) as (e & He & A).
  - intros i Hi. destruct (Req_EM_T (nth i (g_dd cp) 0%R) 1%R) as [E|E].
    + destruct (zone_near x k i L Hk Hi (O i Hi E)) as (e & He & A). exists e. split; auto. intros t Ht _. apply A. auto.
    + exists 1%R. split; [lra|]. intros t _ Q. destruct (E Q).
  - exists e. split; [exact He|]. intros t Ht i Hi. apply A; auto.
Qed.
Definition curv (x : list R) (i : nat) : R := (fofZ 2 * (M_ D x i * Q_ D i))%K.
Lemma d_slope x k i : length x = nx -> k < nx -> i < nw -> edge_free one_two x ->
  derivable_pt_lim (fun t => slope_ D (upd x k t) i) (nth k x 0%R) (curv x i * at_ N i k)%K.
Proof.
  intros L Hk Hi O. pose proof (kk_ge i Hi) as Kk. destruct (dd_ D 1 i) eqn:D1; [|destruct (dd_ D 2 i) eqn:D2].
  - assert (Oi : (kk_ D i = 0 \/ rr_ D x i <> kk_ D i /\ rr_ D x i <> - kk_ D i)%R).
    { apply O; auto. left. unfold dd_ in D1. apply feqb_ok in D1. exact D1. }
    destruct (zone_near x k i L Hk Hi Oi) as (e & He & A).
    apply (dl_near (fun _ => slope_ D x i) _ _ _ e); auto.
    + intros t Ht. unfold slope_. rewrite !M_act, (proj1 (A t Ht)). unfold Q_. rewrite D1, (d1_d2 i D1). kr. ring.
    + eapply dl_eq; [apply derivable_pt_lim_const|]. unfold curv, Q_. rewrite (d1_d2 i D1). kr. ring.
  - assert (Oi : (kk_ D i = 0 \/ rr_ D x i <> kk_ D i /\ rr_ D x i <> - kk_ D i)%R).
    { apply O; auto. right. unfold dd_ in D2. apply feqb_ok in D2. exact D2. }
    destruct (zone_near x k i L Hk Hi Oi) as (e & He & A).
    apply (dl_near (fun t => (2 * M_ D x i) * out_ D (upd x k t) i)%R _ _ _ e); auto.
    + intros t Ht. unfold slope_. rewrite !M_act, (proj1 (A t Ht)). unfold Q_. rewrite D1, D2. kr. ring.
    + assert (RX : rr_ D (upd x k (nth k x 0%R)) i = rr_ D x i) by (rewrite upd_nth_id; auto).
      eapply dl_eq.
      * apply (derivable_pt_lim_scal (fun t => out_ D (upd x k t) i)).
        apply (derivable_pt_lim_comp (fun t => rr_ D (upd x k t) i) (fun r => ofs r (kk_ D i))); [apply d_rr; auto|].
        rewrite RX. apply ofs_derive; auto.
      * unfold curv, Q_. rewrite D2, M_act.
        assert (AA : (act (rr_ D x i) (kk_ D i) * act (rr_ D x i) (kk_ D i) = act (rr_ D x i) (kk_ D i))%R)
          by (unfold act; destruct (_ || _); ring).
        set (m := nth i (g_mm cp) 0%R). set (a := act _ _) in *. kr.
        transitivity (2 * m * at_ N i k * (a * a))%R; [ring|]. rewrite AA. ring.
  - apply (dl_ext (fun _ => 0%R)).
    + intros t. unfold slope_, Q_. rewrite D1, D2. kr. ring.
    + eapply dl_eq; [apply derivable_pt_lim_const|]. unfold curv, Q_. rewrite D2. kr. ring.
Qed.
Lemma one_one_two x : edge_free one_two x -> edge_free one x.
Proof. intros O i Hi Q. apply O; auto. left. exact Q. Qed.
Lemma d_zgrad x j k : length x = nx -> k < nx -> edge_free one_two x ->
  derivable_pt_lim (fun t => zgrad D (upd x k t) j) (nth k x 0%R)
   (lsum (fun i => at_ N i j * (curv x i * at_ N i k) * hwc D x i
        + at_ N i j * slope_ D x i * lsum (fun l => at_ (g_H cp) i l * (at_ N l k * slope_ D x l)) (seq 0 nw)) (seq 0 nw))%K.
Proof.
  intros L Hk O. unfold zgrad. apply dl_lsum. intros i Hi. apply in_seq in Hi.
  apply (dl_ext (fun t => (at_ N i j * slope_ D (upd x k t) i) * HW (upd x k t) i)%K).
  { intros t. rewrite hwc_HW. reflexivity. }
  eapply dl_eq.
  - apply d_mul.
    + apply d_scal. apply d_slope; auto. lia.
    + apply d_HW; auto. apply one_one_two; auto.
  - cbv beta. rewrite upd_nth_id. rewrite hwc_HW. reflexivity.
Qed.
Definition hess_ (x : list R) (j k : nat) : R :=
  ((if (j =? k) && ((nb + nb <=? j) && (j <? nb + nb + ng + ng)) then B * (B * pterm D x 2 (j - (nb + nb))) else 0)
   + lsum (fun i => at_ N i j * (curv x i * at_ N i k) * hwc D x i
        + at_ N i j * slope_ D x i * lsum (fun l => at_ (g_H cp) i l * (at_ N l k * slope_ D x l)) (seq 0 nw)) (seq 0 nw))%K.
Lemma d2_cost x j k : length x = nx -> j < nx -> k < nx -> edge_free one_two x ->
  vpartial2 ac_cost_of x j k (hess_ x j k).
Proof.
  intros L Hj Hk O. destruct (edge_near x k L Hk (one_one_two x O)) as (e & He & A).
  exists (fun t => grad_ D (upd x k t) j), e. split; [auto|split].
  - intros t Ht. apply d_cost; auto. rewrite upd_len. auto.
  - unfold grad_, hess_. apply d_add; [|apply d_zgrad; auto].
    set (c := if (nb + nb + ng + ng <=? j) && (j <? nb + nb + ng + ng + a_ny D) then 1%K else 0%K).
    assert (Z : forall v : R, derivable_pt_lim (fun _ => v) (nth k x 0%R) 0%K) by (intros; apply derivable_pt_lim_const).
    destruct ((nb + nb <=? j) && (j <? nb + nb + ng + ng)) eqn:R'.
    + apply andb_prop in R'. destruct R' as (R1 & R2). apply Nat.leb_le in R1. apply Nat.ltb_lt in R2.
      eapply dl_eq; [apply (d_add _ (fun _ => c)); [apply d_scal, d_pterm; auto; lia|apply Z]|].
      rewrite andb_true_r. destruct (Nat.eqb_spec j k) as [->|].
      * rewrite (proj2 (Nat.leb_le _ _)) by lia. rewrite Nat.eqb_refl. cbn [andb]. kr. ring.
      * destruct (Nat.leb_spec (nb + nb) k); cbn [andb]; [|kr; ring].
        rewrite (proj2 (Nat.eqb_neq _ _)) by lia. kr. ring.
    + rewrite andb_false_r. eapply dl_eq; [apply (Z (0 + c)%K)|reflexivity].
Qed.
End AcCostR.
