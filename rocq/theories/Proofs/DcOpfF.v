(** The objective of the DC optimal power flow. *)
From Verif Require Import Lib.ListFacts Model.DcOpf Spec.DcSpec Proofs.LinAlgFacts Proofs.SparseFacts
  Proofs.BlockFacts Proofs.FldFacts Proofs.OrdFacts Proofs.NetworkA Proofs.NetworkB Proofs.PipsF
  Proofs.NetworkE Proofs.OpfLinA Proofs.OpfLinB Proofs.DcOpfA Proofs.DcOpfB Proofs.DcOpfC Proofs.DcOpfD.
Local Open Scope nat_scope.

Section DcOpfF.
Context {K : Type} {F : Fld K}.
Add Field KF : (@f_ok K F).

(** ** inner products *)
Lemma inner_nth (u v : list K) : length u = length v ->
  inner u v = lsum (fun i => nth i u 0 * nth i v 0)%K (seq 0 (length u)).
Proof. intros H. unfold inner. rewrite (lsum_combine _ _ _ 0%K 0%K) by auto. reflexivity. Qed.
Lemma inner_app (u v u' v' : list K) : length u = length u' -> inner (u ++ v) (u' ++ v') = (inner u u' + inner v v')%K.
Proof.
  revert u'. induction u as [|a u IH]; intros [|a' u'] H; try discriminate; simpl.
  - unfold inner. simpl. ring.
  - unfold inner in *. simpl. rewrite IH by auto. ring.
Qed.
Lemma inner_comm (u v : list K) : inner u v = inner v u.
Proof. revert v. induction u as [|a u IH]; intros [|b v]; auto. unfold inner in *. simpl. rewrite IH. ring. Qed.
Lemma inner_sub (a b v : list K) : length a = length b -> length a = length v ->
  inner (map2 rsub a b) v = (inner a v - inner b v)%K.
Proof.
  revert b v. induction a as [|x a IH]; intros [|y b] [|z v] L1 L2; try discriminate; unfold inner in *; simpl; [ring|].
  unfold map2 in *. rewrite IH by auto. ring.
Qed.
Lemma inner_sub_r (a b v : list K) : length a = length b -> length a = length v ->
  inner v (map2 rsub a b) = (inner v a - inner v b)%K.
Proof. intros. rewrite !(inner_comm v). apply inner_sub; auto. Qed.
Lemma inner_0 n (v : list K) : inner (repeat 0%K n) v = 0%K.
Proof. revert v. induction n as [|n IH]; intros [|b v]; auto. unfold inner in *. simpl. rewrite IH. ring. Qed.

(** the bilinear form over the stored entries *)
Lemma inner_rowsv (M : smat K) x v : wf M -> length v = nrows M ->
  inner (rowsv M x) v = lsum (fun e => ev e * nth (ecol e) x 0 * nth (erow e) v 0)%K (ents M).
Proof.
  intros W L. rewrite inner_nth by (rewrite rowsv_length; auto). rewrite rowsv_length.
  rewrite (lsum_ext _ (fun i => lsum (fun e => if erow e =? i then ev e * nth (ecol e) x 0 * nth i v 0 else 0)%K (ents M))).
  2:{ intros i Hi. apply in_seq in Hi. rewrite nth_rowsv by lia. unfold mulrow. rewrite <- lsum_scal_r.
      apply lsum_ext. intros e _. destruct (erow e =? i); ring. }
  rewrite lsum_swap. apply lsum_ext. intros e He. unfold wf in W. rewrite Forall_forall in W. specialize (W e He) as (W & _).
  rewrite (lsum_seq_single' (fun i => ev e * nth (ecol e) x 0 * nth i v 0)%K) by auto. reflexivity.
Qed.
Lemma adjoint (M : smat K) x v : wf M -> length x = ncols M -> length v = nrows M ->
  inner (rowsv M x) v = inner x (rowsv (transp M) v).
Proof.
  intros W Lx Lv. rewrite inner_rowsv by auto. rewrite inner_comm. rewrite inner_rowsv; [|apply wf_transp; auto|auto].
  unfold transp. cbn [ents]. rewrite lsum_map. cbn [ev ecol erow]. apply lsum_ext. intros e _. ring.
Qed.

Lemma rowsv_mulm (A B M : smat K) x : wf A -> mulm A B = Ok M -> rowsv M x = rowsv A (rowsv B x).
Proof.
  intros W H. pose proof (mulm_ok _ _ _ H) as (_ & E). unfold rowsv. rewrite E at 2. cbn [nrows].
  apply map_ext. intros i. apply (mulrow_mulm_rows _ _ _ _ _ W H).
Qed.
Lemma wf_mulm (A B M : smat K) : wf A -> wf B -> mulm A B = Ok M -> wf M.
Proof.
  intros WA WB H. apply mulm_ok in H as (E & ->). unfold wf in *. cbn [nrows ncols ents]. unfold mulm_ents.
  apply Forall_forall. intros e He. apply in_flat_map in He as (e1 & H1 & He). apply in_flat_map in He as (e2 & H2 & He).
  destruct (ecol e1 =? erow e2); [|destruct He]. destruct He as [<-|[]]. cbn [erow ecol].
  rewrite Forall_forall in WA, WB. specialize (WA _ H1). specialize (WB _ H2). lia.
Qed.

Lemma row_val_at (M : smat K) x i : row_val M x i = lsum (fun j => at_ M i j * nth j x 0)%K (seq 0 (ncols M)).
Proof. reflexivity. Qed.
Lemma qform_inner n (H : smat K) c x : wf H -> nrows H = n -> ncols H = n -> length x = n -> length c = n ->
  qform n H c x = (1 / fofZ 2 * inner x (rowsv H x) + inner c x)%K.
Proof.
  intros W N1 N2 Lx Lc. unfold qform. rewrite !inner_nth by (rewrite ?rowsv_length; congruence). rewrite Lx, Lc. f_equal. f_equal.
  apply lsum_ext. intros i Hi. apply in_seq in Hi. f_equal. rewrite nth_rowsv by lia. rewrite mulrow_at by auto. rewrite N2. reflexivity.
Qed.

(** ** stacks of non-empty blocks *)
Lemma foldM_vstack (Ms : list (smat K)) : forall M0 M, wf M0 -> Forall wf Ms -> foldM vstackm Ms M0 = Ok M ->
  wf M /\ ncols M = ncols M0 /\ Forall (fun A => ncols A = ncols M0) Ms /\
  nrows M = nrows M0 + list_sum (map nrows Ms) /\
  forall x, rowsv M x = rowsv M0 x ++ flat_map (fun A => rowsv A x) Ms.
Proof.
  induction Ms as [|A Ms IH]; intros M0 M W WS H; simpl in H.
  - injection H as <-. simpl. split; auto. split; auto. split; auto. split; [lia|]. intros x. rewrite app_nil_r. auto.
  - apply bind_ok in H as (M1 & H1 & H). inversion WS as [|? ? WA WS']; subst.
    pose proof (vstackm_ok _ _ _ H1) as (E1 & E2 & E3). pose proof (wf_vstackm _ _ _ W WA H1) as W1.
    destruct (IH M1 M W1 WS' H) as (R1 & R2 & R3 & R4 & R5). split; auto. split; [congruence|].
    split; [constructor; [auto|rewrite <- E3; auto]|]. split; [simpl; lia|].
    intros x. rewrite R5, (rowsv_vstackm _ _ _ _ W H1). simpl. rewrite app_assoc. reflexivity.
Qed.
Lemma rowsv_none (A : smat K) x : nrows A = 0 -> rowsv A x = [].
Proof. intros H. unfold rowsv. rewrite H. reflexivity. Qed.
Lemma vstack_nz_ok (Ms : list (smat K)) M : Forall wf Ms -> vstack_nz Ms = Ok M ->
  wf M /\ Forall (fun A => nrows A <> 0 -> ncols A = ncols M) Ms /\ nrows M = list_sum (map nrows Ms) /\
  forall x, rowsv M x = flat_map (fun A => rowsv A x) Ms.
Proof.
  unfold vstack_nz. intros W H.
  set (p := fun M : smat K => negb (nrows M =? 0)) in *.
  assert (forall x, flat_map (fun A => rowsv A x) Ms = flat_map (fun A => rowsv A x) (filter p Ms)) as FM.
  { intros x. clear. induction Ms as [|A Ms IH]; simpl; auto. unfold p at 1. destruct (Nat.eqb_spec (nrows A) 0) as [E|E]; simpl.
    - rewrite rowsv_none by auto. auto.
    - rewrite IH. auto. }
  assert (list_sum (map nrows Ms) = list_sum (map nrows (filter p Ms))) as LS.
  { clear. induction Ms as [|A Ms IH]; simpl; auto. unfold p at 1. destruct (Nat.eqb_spec (nrows A) 0) as [E|E]; simpl; lia. }
  assert (Forall wf (filter p Ms)) as WF.
  { apply Forall_forall. intros A HA. apply filter_In in HA as (HA & _). rewrite Forall_forall in W. auto. }
  destruct (filter p Ms) as [|A0 t] eqn:E; [discriminate|]. inversion WF as [|? ? W0 W1]; subst.
  destruct (foldM_vstack t A0 M W0 W1 H) as (R1 & R2 & R3 & R4 & R5). split; auto. split; [|split].
  - apply Forall_forall. intros A HA N. assert (In A (filter p Ms)) as I.
    { apply filter_In. split; auto. unfold p. destruct (Nat.eqb_spec (nrows A) 0); auto; congruence. }
    rewrite E in I. destruct I as [<-|I]; auto. rewrite Forall_forall in R3. rewrite (R3 A I). auto.
  - rewrite LS. simpl. lia.
  - intros x. rewrite R5, FM. reflexivity.
Qed.

Lemma wf_zerom nr nc : wf (zerom (K := K) nr nc).
Proof. constructor. Qed.
Lemma rowsv_zerom nr nc x : rowsv (zerom (K := K) nr nc) x = repeat 0%K nr.
Proof.
  unfold rowsv. cbn [nrows zerom]. transitivity (map (fun _ : nat => (0 : K)%K) (seq 0 nr)); [apply map_ext; reflexivity|].
  rewrite map_const, seq_length. reflexivity.
Qed.

Lemma add_zeros n (v : list K) : length v = n -> map2 radd (repeat 0%K n) v = v.
Proof. intros <-. unfold map2. induction v as [|a v IH]; simpl; auto. rewrite IH. f_equal. ring. Qed.
Lemma add_zeros_r n (v : list K) : length v = n -> map2 radd v (repeat 0%K n) = v.
Proof. intros <-. unfold map2. induction v as [|a v IH]; simpl; auto. rewrite IH. f_equal. ring. Qed.

(** ** the polynomial rows *)
Lemma of_option_ok {A} e (a : option A) v : of_option e a = Ok v -> a = Some v.
Proof. destruct a; simpl; intros H; [congruence|discriminate]. Qed.
Lemma nth_error_skipn_d {A} n (l : list A) k : nth_error (skipn n l) k = nth_error l (n + k).
Proof. revert l. induction n as [|n IH]; intros l; auto. destruct l; simpl; [destruct k; auto|auto]. Qed.
Lemma polycf_ok (B : K) r t p : polycf B r = Ok t -> lin_or_quad r ->
  (fst (fst t) * p * p + snd (fst t) * p + snd t)%K = horner (coeffs r) (B * p)%K.
Proof.
  unfold polycf. intros H (_ & HN). apply bind_ok in H as (n & Hn & H). apply get_ok in Hn.
  assert (cell r NCOST = n) as En by (apply nth_error_nth; auto). subst n.
  assert ((fofZ 2 : K) <> fofZ 3) as N23.
  { intros C. assert (ftrunc (fofZ 2 : K) = ftrunc (fofZ 3 : K)) as Q by congruence. rewrite !ftrunc_ofZ in Q. discriminate. }
  assert (forall k a, nth_error r (COST + k) = Some a -> nth_error (skipn COST r) k = Some a) as SK.
  { intros k a Ha. rewrite nth_error_skipn_d. exact Ha. }
  destruct (feqb (cell r NCOST) (fofZ 3)) eqn:E3.
  - apply feqb_ok in E3. apply bind_ok in H as (a & Ha & H). apply bind_ok in H as (b & Hb & H).
    apply bind_ok in H as (c & Hc & H). injection H as <-. cbn [fst snd].
    apply of_option_ok in Ha, Hb, Hc. unfold coeffs, npoints. rewrite E3, ftrunc_ofZ. change (Z.to_nat 3) with 3.
    apply (SK 0) in Ha. apply (SK 1) in Hb. apply (SK 2) in Hc.
    destruct (skipn COST r) as [|a' [|b' [|c' l]]]; try discriminate. injection Ha as ->. injection Hb as ->. injection Hc as ->.
    unfold horner. simpl. ring.
  - destruct HN as [HN|HN]; [|apply feqb_false in E3; congruence].
    rewrite (proj2 (feqb_ok _ _) HN) in H. apply bind_ok in H as (b & Hb & H).
    apply bind_ok in H as (c & Hc & H). injection H as <-. cbn [fst snd].
    apply of_option_ok in Hb, Hc. unfold coeffs, npoints. rewrite HN, ftrunc_ofZ. change (Z.to_nat 2) with 2.
    apply (SK 0) in Hb. apply (SK 1) in Hc.
    destruct (skipn COST r) as [|b' [|c' l]]; try discriminate. injection Hb as ->. injection Hc as ->.
    unfold horner. simpl. ring.
Qed.

Lemma pwl1_cost r r' p : pwl1_row r = Ok r' -> cost_is 1 r = true \/ lin_or_quad r ->
  cost_is 2 r' = negb (segmented r) /\
  (segmented r = false -> lin_or_quad r' /\ horner (coeffs r') p = row_cost r p).
Proof.
  intros H C. destruct (pwl1_ok _ _ H) as (P1 & P2 & P3 & P4 & P5 & P6).
  assert (forall z z', z <> z' -> forall r : list K, cost_is z r = true -> cost_is z' r = false) as NE.
  { intros z z' N q Q. unfold cost_is in *. apply feqb_ok in Q. apply feqb_false. rewrite Q. intros E.
    assert (ftrunc (fofZ z : K) = ftrunc (fofZ z' : K)) as T by congruence. rewrite !ftrunc_ofZ in T. auto. }
  destruct (segmented r) eqn:S.
  - rewrite (P2 eq_refl). split; [|discriminate]. cbn [negb]. unfold segmented in S. apply andb_true_iff in S as (S & _).
    apply (NE 1%Z); auto. discriminate.
  - destruct (cost_is 1 r) eqn:C1.
    + destruct (P6 eq_refl eq_refl) as (D & L & M & N & V). cbv zeta in V. destruct V as (V1 & V2 & LL). cbn [negb].
      assert (cost_is 2 r' = true) as C2 by (unfold cost_is; rewrite M; apply feqb_ok; reflexivity).
      split; auto. intros _. split; [split; auto|]. unfold row_cost. rewrite C1.
      unfold coeffs, npoints. rewrite N, ftrunc_ofZ. change (Z.to_nat 2) with 2.
      assert (exists l, skipn COST r' = cell r' COST :: cell r' (COST + 1) :: l) as (l & ->).
      { assert (forall k, k < 2 -> nth_error (skipn COST r') k = Some (cell r' (COST + k))) as NN.
        { intros k Hk. rewrite nth_error_skipn_d. apply nth_error_nth'. rewrite LL. lia. }
        pose proof (NN 0 ltac:(lia)) as N0. pose proof (NN 1 ltac:(lia)) as N1. rewrite Nat.add_0_r in N0.
        destruct (skipn COST r') as [|a [|b l]]; try discriminate. exists l.
        assert (a = cell r' COST) as -> by (cbn [nth_error] in N0; congruence).
        assert (b = cell r' (COST + 1)) as -> by (cbn [nth_error] in N1; congruence). reflexivity. }
      cbn [firstn]. unfold horner. cbn [fold_left]. rewrite V1, V2. unfold chord, slope, pt. cbn [fst snd].
      clear - D. unfold COST in *. cbn [Nat.add Nat.mul] in *. field. auto.
    + destruct C as [C|C]; [discriminate|]. rewrite (P5 C1). split; [exact (proj1 C)|]. intros _. split; auto.
      unfold row_cost. rewrite C1. reflexivity.
Qed.

Lemma polycf_zero (B : K) r t : polycf B r = Ok t ->
  feqb (cell r NCOST) (fofZ 2) || feqb (cell r NCOST) (fofZ 3) = false -> t = (0, 0, 0)%K.
Proof.
  unfold polycf. intros H E. apply bind_ok in H as (n & Hn & H). apply get_ok in Hn.
  assert (cell r NCOST = n) as <- by (apply nth_error_nth; auto). apply orb_false_iff in E as (E2 & E3).
  rewrite E2, E3 in H. congruence.
Qed.
(** what a row adds to the objective *)
Lemma counted (B : K) r r' p : pwl1_row r = Ok r' ->
  (segmented r = true -> cost_is 2 r' = false) /\
  (segmented r = false -> cost_is 2 r' = false -> low_order_cost r (B * p)%K = 0%K) /\
  (cost_is 2 r' = true -> segmented r = false /\
     forall t, polycf B r' = Ok t -> (fst (fst t) * p * p + snd (fst t) * p + snd t)%K = low_order_cost r (B * p)%K).
Proof.
  intros H. destruct (pwl1_ok _ _ H) as (P1 & P2 & _ & _ & P5 & _).
  destruct (cost_is 1 r) eqn:C1.
  - destruct (pwl1_cost r r' (B * p)%K H (or_introl C1)) as (Q1 & Q2).
    split; [intros Q; rewrite Q in Q1; exact Q1|]. split.
    + intros Q E. rewrite Q1, Q in E. discriminate.
    + intros E. rewrite E in Q1. symmetry in Q1. apply negb_true_iff in Q1. split; auto. intros t Ht.
      destruct (Q2 Q1) as (LQ & EQ). unfold low_order_cost. rewrite C1. cbn [orb]. rewrite (polycf_ok B r' t p Ht LQ).
      exact EQ.
  - assert (segmented r = false) as S by (unfold segmented; rewrite C1; reflexivity).
    rewrite (P5 C1) in *. split; [congruence|]. unfold low_order_cost. rewrite C1. cbn [orb]. split.
    + intros _ ->. reflexivity.
    + intros C2. split; auto. intros t Ht. rewrite C2. cbn [andb].
      destruct (feqb (cell r NCOST) (fofZ 2) || feqb (cell r NCOST) (fofZ 3)) eqn:E.
      * assert (lin_or_quad r) as LQ.
        { split; auto. apply orb_true_iff in E. rewrite !feqb_ok in E. exact E. }
        rewrite (polycf_ok B r t p Ht LQ). unfold row_cost. rewrite C1. reflexivity.
      * rewrite (polycf_zero _ _ _ Ht E). cbn [fst snd]. ring.
Qed.

Lemma sparse_rows (data : list K) cols n nc M x : sparse data (seq 0 n) cols n nc = Ok M ->
  wf M /\ nrows M = n /\ ncols M = nc /\ length data = n /\ length cols = n /\
  rowsv M x = map2 (fun d c => d * nth c x 0)%K data cols.
Proof.
  intros H. pose proof (sparse_wf _ _ _ _ _ _ H) as W. apply sparse_ok in H as (L1 & L2 & _ & _ & ->).
  rewrite seq_length in L1. split; auto. split; auto. split; auto. split; auto. split; [congruence|].
  apply nth_error_ext. intros k. destruct (lt_dec k n) as [Hk|Hk].
  - unfold rowsv. rewrite nth_error_map. cbn [nrows]. rewrite seq_nth_error by auto. cbn [option_map Nat.add].
    rewrite (nth_error_nth' (map2 _ data cols) 0%K) by (rewrite map2_length by congruence; lia). f_equal.
    rewrite (nth_map2_d _ _ _ _ 0%K O) by lia. unfold mulrow. cbn [ents].
    rewrite (lsum_zip3 _ _ _ _ n) by (rewrite ?seq_length; congruence). cbn [erow ecol ev].
    rewrite (lsum_ext _ (fun i => if k =? i then nth i data 0 * nth (nth i cols O) x 0 else 0)%K).
    + apply (lsum_seq_single' (fun i => nth i data 0 * nth (nth i cols O) x 0)%K). auto.
    + intros i Hi. apply in_seq in Hi. rewrite seq_nth by lia. cbn [Nat.add]. rewrite Nat.eqb_sym. reflexivity.
  - rewrite !(proj2 (nth_error_None _ _)); auto; [rewrite map2_length by congruence; lia|rewrite rowsv_length; cbn; lia].
Qed.
End DcOpfF.
