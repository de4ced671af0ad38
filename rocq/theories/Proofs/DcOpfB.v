(** The DC optimal power flow problem set up by the code is the intended one. *)
From Verif Require Import Lib.ListFacts Model.DcOpf Spec.DcSpec Proofs.LinAlgFacts Proofs.SparseFacts
  Proofs.BlockFacts Proofs.FldFacts Proofs.OrdFacts Proofs.NetworkA Proofs.NetworkB Proofs.PipsF
  Proofs.NetworkE Proofs.OpfLinA Proofs.OpfLinB Proofs.DcOpfA.
Local Open Scope nat_scope.

Section DcOpfB.
Context {K : Type} {F : Fld K}.
Add Field KF : (@f_ok K F).

(** ** user constraints *)
Lemma dc_col_eq nb ng j : dc_col nb ng j = Nat.min j nb + Nat.min (j - 2 * nb) ng + (j - (2 * nb + 2 * ng)).
Proof.
  induction j as [|j IH]; [unfold dc_col; cbn [seq filter length]; lia|]. unfold dc_col in *. rewrite seq_S, filter_app, app_length, IH.
  cbn [filter Nat.add]. unfold ac_col.
  destruct (Nat.leb_spec nb j); destruct (Nat.ltb_spec j (2 * nb)); cbn [andb orb negb];
    destruct (Nat.leb_spec (2 * nb + ng) j); destruct (Nat.ltb_spec j (2 * nb + 2 * ng)); cbn [andb orb negb length]; lia.
Qed.

Lemma nth_with_vq nb ng (v : list K) j : nb + ng <= length v ->
  nth j (with_vq nb ng v) 0%K = if ac_col nb ng j then 0%K else nth (dc_col nb ng j) v 0%K.
Proof.
  intros L. rewrite dc_col_eq. unfold with_vq, ac_col.
  assert (length (firstn nb v) = nb) as L1 by (rewrite firstn_length; lia).
  assert (length (firstn ng (skipn nb v)) = ng) as L2 by (rewrite firstn_length, skipn_length; lia).
  destruct (Nat.lt_ge_cases j nb) as [H|H].
  { rewrite app_nth1 by lia. rewrite nth_firstn_lt by auto.
    replace (nb <=? j) with false by (symmetry; apply Nat.leb_gt; lia).
    replace (2 * nb + ng <=? j) with false by (symmetry; apply Nat.leb_gt; lia). cbn [andb orb]. f_equal. lia. }
  rewrite app_nth2, L1 by lia. replace (nb <=? j) with true by (symmetry; apply Nat.leb_le; lia).
  destruct (Nat.lt_ge_cases j (2 * nb)) as [H1|H1].
  { rewrite app_nth1 by (rewrite repeat_length; lia). rewrite nth_repeat_lt by lia.
    replace (j <? 2 * nb) with true by (symmetry; apply Nat.ltb_lt; lia). reflexivity. }
  rewrite app_nth2, repeat_length by (rewrite repeat_length; lia).
  replace (j <? 2 * nb) with false by (symmetry; apply Nat.ltb_ge; lia). cbn [andb orb].
  destruct (Nat.lt_ge_cases j (2 * nb + ng)) as [H2|H2].
  { rewrite app_nth1 by lia. rewrite nth_firstn_lt by lia. rewrite nth_skipn_d.
    replace (2 * nb + ng <=? j) with false by (symmetry; apply Nat.leb_gt; lia). cbn [andb orb]. f_equal. lia. }
  rewrite app_nth2, L2 by lia. replace (2 * nb + ng <=? j) with true by (symmetry; apply Nat.leb_le; lia).
  destruct (Nat.lt_ge_cases j (2 * nb + 2 * ng)) as [H3|H3].
  { rewrite app_nth1 by (rewrite repeat_length; lia). rewrite nth_repeat_lt by lia.
    replace (j <? 2 * nb + 2 * ng) with true by (symmetry; apply Nat.ltb_lt; lia). reflexivity. }
  rewrite app_nth2, repeat_length by (rewrite repeat_length; lia). rewrite nth_skipn_d.
  replace (j <? 2 * nb + 2 * ng) with false by (symmetry; apply Nat.ltb_ge; lia). cbn [andb]. f_equal. lia.
Qed.

Lemma dc_cols_ok nb ng (M : smat K) : wf M ->
  wf (dc_cols nb ng M) /\ nrows (dc_cols nb ng M) = nrows M /\
  (ncols (dc_cols nb ng M) = if ac_sized nb ng M then ncols M - (nb + ng) else ncols M) /\
  forall v i, nb + ng <= length v ->
    mulrow (dc_cols nb ng M) v i = mulrow M (if ac_sized nb ng M then with_vq nb ng v else v) i.
Proof.
  intros W. unfold dc_cols, ac_sized. destruct (Nat.leb_spec (2 * nb + 2 * ng) (ncols M)) as [H|H].
  2:{ repeat split; auto. }
  assert (forall j, ac_col nb ng j = true -> j < 2 * nb + 2 * ng) as AC.
  { intros j Hj. unfold ac_col in Hj. apply orb_true_iff in Hj.
    destruct Hj as [Hj|Hj]; apply andb_true_iff in Hj as (_ & Hj); apply Nat.ltb_lt in Hj; lia. }
  split; [|split; [auto|split]].
  - unfold wf. cbn [nrows ncols ents]. apply Forall_map. apply Forall_forall. intros e He. apply filter_In in He as (He & HN).
    unfold wf in W. rewrite Forall_forall in W. destruct (W e He) as (W1 & W2). cbn [erow ecol]. split; auto.
    rewrite !dc_col_eq. apply negb_true_iff in HN. unfold ac_col in HN. apply orb_false_iff in HN as (H1 & H2).
    apply andb_false_iff in H1. apply andb_false_iff in H2. rewrite Nat.leb_gt, Nat.ltb_ge in H1, H2. lia.
  - cbn [ncols]. rewrite dc_col_eq. lia.
  - intros v i Lv. unfold mulrow. cbn [ents]. rewrite lsum_map, lsum_filter. apply lsum_ext. intros e He. cbn [erow ecol ev].
    rewrite nth_with_vq by auto. destruct (ac_col nb ng (ecol e)); cbn [negb]; destruct (erow e =? i); auto; ring.
Qed.

Section User.
Variables (nb ng ny : nat) (U : user (K := K)).
Definition user_rows : list row :=
  match u_A U with
  | Some M => map (fun i => (lower (u_l U) i, upper (u_u U) i, fun x => user_val nb ng ny M x i)) (seq 0 (nrows M))
  | None => []
  end.
Lemma nth_without_y n (x : list K) j : n + ny <= length x -> nth j (without_y n ny x) 0%K = nth (if j <? n then j else j + ny) x 0%K.
Proof.
  intros L. unfold without_y. destruct (Nat.ltb_spec j n).
  - rewrite app_nth1 by (rewrite firstn_length; lia). apply nth_firstn_lt; auto.
  - rewrite app_nth2; rewrite firstn_length; [|lia]. rewrite nth_skipn_d. f_equal. lia.
Qed.
Lemma user_desc M nz : u_A U = Some M -> wf M -> let A' := dc_cols nb ng M in
  nb + ng <= ncols A' -> nz = ncols A' - (nb + ng) ->
  length (def_bounds ENeg (nrows A') (u_l U)) = nrows A' ->
  length (def_bounds EPos (nrows A') (u_u U)) = nrows A' ->
  desc (nb + ng + ny + nz) (place (nb + ng + ny + nz) (fun j => if j <? nb + ng then j else j + ny) A')
    (def_bounds ENeg (nrows A') (u_l U)) (def_bounds EPos (nrows A') (u_u U)) user_rows.
Proof.
  intros EU W A' H1 H2 L1 L2. destruct (dc_cols_ok nb ng M W) as (W' & N' & C' & V'). fold A' in W', N', C', V'.
  unfold user_rows. rewrite EU. rewrite def_bounds_map by auto. rewrite (def_bounds_map EPos) by auto. rewrite N'.
  split; [apply wf_place; auto; intros j Hj; destruct (Nat.ltb_spec j (nb + ng)); lia|].
  split; [cbn; rewrite map_length, seq_length; auto|]. split; [auto|].
  rewrite !map_map. unfold rlo, rup. cbn [fst snd]. do 2 (split; [reflexivity|]).
  intros x Lx. rewrite (rowsv_place _ _ A' x (without_y (nb + ng) ny x)); auto.
  2:{ intros j Hj. rewrite nth_without_y by lia. reflexivity. }
  rewrite map_map. unfold rowsv. rewrite N'. apply map_ext. intros i. cbn [snd]. unfold user_val. rewrite row_val_mulrow by auto.
  apply V'. unfold without_y. rewrite app_length, firstn_length, skipn_length. lia.
Qed.
End User.

(** ** cost rows *)
Lemma upd_nth {A} (l : list A) i j x d : i < length l -> nth j (upd l i x) d = if i =? j then x else nth j l d.
Proof.
  revert i j. induction l as [|a l IH]; intros [|i] [|j] H; simpl in *; auto; try lia. apply IH. lia.
Qed.
Lemma upd_len {A} (l : list A) i x : length (upd l i x) = length l.
Proof. revert i. induction l as [|a l IH]; intros [|i]; simpl; auto. Qed.

Lemma poly_ne_pwl : (POLY : K) <> fofZ 1.
Proof.
  unfold POLY. intros C. assert ((fofZ 1 : K) = 0%K) as Q.
  { assert ((fofZ 2 : K) = fofZ 1 + fofZ 1)%K as E by (rewrite <- fofZ_add; reflexivity).
    rewrite E in C. transitivity (fofZ 1 + fofZ 1 - fofZ 1 : K)%K; [ring|rewrite C; ring]. }
  revert Q. apply fofZ_nz. lia.
Qed.

Lemma pwl1_ok r r' : pwl1_row r = Ok r' ->
  cost_is 1 r' = segmented r /\ (segmented r = true -> r' = r) /\ MODEL < length r' /\ NCOST < length r /\
  (is_pwl (cell r MODEL) = false -> r' = r) /\
  (cost_is 1 r = true -> segmented r = false ->
     (cell r (COST + 2) - cell r COST)%K <> 0%K /\ COST + 3 < length r /\ cell r' MODEL = POLY /\ cell r' NCOST = fofZ 2 /\
     let s := ((cell r (COST + 3) - cell r (COST + 1)) / (cell r (COST + 2) - cell r COST))%K in
     cell r' COST = s /\ cell r' (COST + 1) = (cell r (COST + 1) - s * cell r COST)%K /\ length r' = length r).
Proof.
  unfold pwl1_row. intros H. apply bind_ok in H as (m & Hm & H). apply bind_ok in H as (n & Hn & H).
  apply get_ok in Hm. apply get_ok in Hn. pose proof (nth_error_some_lt _ _ _ Hm) as Lm.
  pose proof (nth_error_some_lt _ _ _ Hn) as Ln.
  assert (cell r MODEL = m) as Em by (apply nth_error_nth; auto).
  assert (cell r NCOST = n) as En by (apply nth_error_nth; auto).
  unfold segmented, cost_is. rewrite Em, En. unfold is_pwl, PWL in *.
  destruct (feqb m (fofZ 1)) eqn:E1; cbn [andb] in *.
  2:{ injection H as <-. rewrite Em, E1. repeat split; auto; discriminate. }
  destruct (feqb n (fofZ 2)) eqn:E2; cbn [negb] in *.
  2:{ injection H as <-. rewrite Em, E1. repeat split; auto; discriminate. }
  apply bind_ok in H as (x0 & H0 & H). apply bind_ok in H as (y0 & H1 & H).
  apply bind_ok in H as (x1 & H2 & H). apply bind_ok in H as (y1 & H3 & H).
  apply get_ok in H0. apply get_ok in H1. apply get_ok in H2. apply get_ok in H3.
  pose proof (nth_error_some_lt _ _ _ H3) as L3.
  assert (cell r COST = x0) as <- by (apply nth_error_nth; auto).
  assert (cell r (COST + 1) = y0) as <- by (apply nth_error_nth; auto).
  assert (cell r (COST + 2) = x1) as <- by (apply nth_error_nth; auto).
  assert (cell r (COST + 3) = y1) as <- by (apply nth_error_nth; auto).
  destruct (feqb (cell r (COST + 2) - cell r COST)%K 0%K) eqn:E3; [discriminate|]. injection H as <-.
  set (s := ((cell r (COST + 3) - cell r (COST + 1)) / (cell r (COST + 2) - cell r COST))%K).
  set (y := (cell r (COST + 1) - s * cell r COST)%K).
  assert (forall j, cell (upd (upd (upd (upd r MODEL POLY) NCOST (fofZ 2)) COST s) (COST + 1) y) j
    = if COST + 1 =? j then y else if COST =? j then s else if NCOST =? j then fofZ 2 else if MODEL =? j then POLY else cell r j) as UC.
  { intros j. unfold cell at 1. unfold MODEL, NCOST, COST in *. rewrite !upd_nth by (rewrite ?upd_len; lia). reflexivity. }
  rewrite !UC, !upd_len. cbn [Nat.eqb MODEL NCOST COST Nat.add].
  split. { apply feqb_false. apply poly_ne_pwl. }
  split; [discriminate|]. split; [auto|]. split; [auto|]. split; [discriminate|]. intros _ _.
  split; [apply feqb_false in E3; exact E3|]. repeat split; auto.
Qed.
End DcOpfB.
