(** Facts about [Lib.LinAlg]. *)
From Verif Require Import Lib.QcFacts Lib.LinAlg Lib.ListFacts.

Lemma skipn_skipn {A} (l : list A) x y : skipn x (skipn y l) = skipn (x + y) l.
Proof.
  revert l. induction y; intros l; simpl; [f_equal; lia|].
  rewrite Nat.add_succ_r. destruct l; [rewrite !skipn_nil; auto|]. apply IHy.
Qed.

Lemma nth_skipn {A} (l : list A) a j : nth_error (skipn a l) j = nth_error l (a + j).
Proof.
  revert l. induction a; intros [|x l]; simpl; auto. destruct j; auto.
Qed.
Lemma nth_firstn {A} (l : list A) a j :
  j < a -> nth_error (firstn a l) j = nth_error l j.
Proof. revert l j. induction a; intros [|x l] [|j] H; simpl; auto; try lia. apply IHa. lia. Qed.

Lemma dot_nil_r u : dot u [] = 0%Qc.
Proof. destruct u; reflexivity. Qed.

Lemma dot_app u1 u2 v1 v2 :
  length u1 = length v1 -> dot (u1 ++ u2) (v1 ++ v2) = (dot u1 v1 + dot u2 v2)%Qc.
Proof.
  revert v1. induction u1 as [|a u1 IH]; intros [|b v1] H; simpl in *; try discriminate.
  - ring.
  - rewrite IH by lia. ring.
Qed.

Lemma dot_zero n v : dot (repeat 0%Qc n) v = 0%Qc.
Proof. revert v. induction n; intros [|b v]; simpl; auto. rewrite IHn. ring. Qed.

Lemma dot_comm u v : dot u v = dot v u.
Proof. revert v. induction u as [|a u IH]; intros [|b v]; simpl; auto. rewrite IH. ring. Qed.

Lemma slice_split {A} (l : list A) i n :
  i + n <= length l -> l = firstn i l ++ slice i (i + n) l ++ skipn (i + n) l.
Proof.
  intros H. unfold slice. replace (i + n - i) with n by lia.
  rewrite <- (firstn_skipn i l) at 1. f_equal.
  rewrite <- (firstn_skipn n (skipn i l)) at 1. f_equal.
  rewrite skipn_skipn. f_equal. lia.
Qed.

Lemma put_length {A} (l : list A) i seg :
  i + length seg <= length l -> length (put l i seg) = length l.
Proof. intros H. unfold put. rewrite !app_length, firstn_length, skipn_length. lia. Qed.

Lemma nth_put {A} (l : list A) i seg j :
  i + length seg <= length l ->
  nth_error (put l i seg) j =
  if (i <=? j) && (j <? i + length seg) then nth_error seg (j - i) else nth_error l j.
Proof.
  intros H. unfold put.
  destruct (Nat.leb_spec i j); destruct (Nat.ltb_spec j (i + length seg)); simpl.
  - rewrite nth_error_app2 by (rewrite firstn_length; lia).
    rewrite firstn_length, nth_error_app1 by lia. f_equal. lia.
  - rewrite nth_error_app2 by (rewrite firstn_length; lia).
    rewrite firstn_length, nth_error_app2 by lia.
    rewrite nth_skipn. f_equal. lia.
  - rewrite nth_error_app1 by (rewrite firstn_length; lia).
    apply nth_firstn. lia.
  - lia.
Qed.

Lemma slice_put_other {A} (l : list A) i seg a b :
  i + length seg <= length l -> b <= i \/ i + length seg <= a ->
  slice a b (put l i seg) = slice a b l.
Proof.
  intros H D. apply nth_error_ext. intros j. rewrite !nth_slice, nth_put by auto.
  destruct (Nat.ltb_spec j (b - a)); auto.
  destruct (Nat.leb_spec i (a + j)); destruct (Nat.ltb_spec (a + j) (i + length seg)); simpl;
    auto; lia.
Qed.

Lemma slice_slice_length {A} (l : list A) a n :
  a + n <= length l -> length (slice a (a + n) l) = n.
Proof. intros. rewrite slice_length. lia. Qed.

Lemma dot_put row i seg x :
  i + length seg <= length row -> length x = length row ->
  (dot (put row i seg) x + dot (slice i (i + length seg) row) (slice i (i + length seg) x)
   = dot row x + dot seg (slice i (i + length seg) x))%Qc.
Proof.
  intros H L. unfold put.
  pose proof (slice_split row i (length seg) H) as Er.
  pose proof (slice_split x i (length seg) ltac:(lia)) as Ex.
  set (sx := slice i (i + length seg) x) in *.
  set (sr := slice i (i + length seg) row) in *.
  assert (Lsx : length sx = length seg) by (apply slice_slice_length; lia).
  assert (Lsr : length sr = length seg) by (apply slice_slice_length; lia).
  replace (dot row x) with
    (dot (firstn i row ++ sr ++ skipn (i + length seg) row)
         (firstn i x ++ sx ++ skipn (i + length seg) x)) by (rewrite <- Er, <- Ex; reflexivity).
  replace (dot (firstn i row ++ seg ++ skipn (i + length seg) row) x) with
    (dot (firstn i row ++ seg ++ skipn (i + length seg) row)
         (firstn i x ++ sx ++ skipn (i + length seg) x)) by (rewrite <- Ex; reflexivity).
  rewrite !dot_app by (rewrite ?firstn_length; lia). ring.
Qed.

Lemma matvec_app A B x : matvec (A ++ B) x = matvec A x ++ matvec B x.
Proof. apply map_app. Qed.

Lemma matvec_length A x : length (matvec A x) = length A.
Proof. apply map_length. Qed.

Lemma put_append {A} (done seg : list A) z n rest :
  length seg = n ->
  put (done ++ repeat z (n + rest)) (length done) seg = (done ++ seg) ++ repeat z rest.
Proof.
  intros <-. unfold put. rewrite firstn_app, Nat.sub_diag, firstn_all, firstn_O, app_nil_r.
  rewrite <- app_assoc. f_equal. f_equal.
  rewrite skipn_app, skipn_all2 by lia. simpl.
  replace (length done + length seg - length done) with (length seg) by lia.
  rewrite repeat_app, skipn_app, skipn_all2 by (rewrite repeat_length; lia).
  rewrite repeat_length, Nat.sub_diag. reflexivity.
Qed.

Lemma slice_of_repeat {A} (z : A) N a n :
  a + n <= N -> slice a (a + n) (repeat z N) = repeat z n.
Proof.
  intros H. apply nth_error_ext. intros j. rewrite nth_slice.
  destruct (Nat.ltb_spec j (a + n - a)).
  - rewrite !nth_error_repeat by lia. auto.
  - symmetry. apply nth_error_None. rewrite repeat_length. lia.
Qed.

Lemma slice_app_l {A} (l1 l2 : list A) a b :
  b <= length l1 -> slice a b (l1 ++ l2) = slice a b l1.
Proof.
  intros H. apply nth_error_ext. intros j. rewrite !nth_slice.
  destruct (Nat.ltb_spec j (b - a)); auto. rewrite nth_error_app1 by lia. auto.
Qed.

Lemma slice_app_r {A} (l1 l2 : list A) a b :
  length l1 <= a -> slice a b (l1 ++ l2) = slice (a - length l1) (b - length l1) l2.
Proof.
  intros H. apply nth_error_ext. intros j. rewrite !nth_slice.
  destruct (Nat.ltb_spec j (b - a)); destruct (Nat.ltb_spec j (b - length l1 - (a - length l1)));
    try lia; auto.
  rewrite nth_error_app2 by lia. f_equal. lia.
Qed.

Lemma slice_whole {A} (l : list A) b : length l <= b -> slice 0 b l = l.
Proof. intros H. unfold slice. simpl. apply firstn_all2. lia. Qed.

Lemma slice_add {A} (l : list A) a n m :
  slice a (a + (n + m)) l = slice a (a + n) l ++ slice (a + n) (a + n + m) l.
Proof.
  unfold slice. replace (a + (n + m) - a) with (n + m) by lia.
  replace (a + n - a) with n by lia. replace (a + n + m - (a + n)) with m by lia.
  replace (a + n) with (n + a) by lia. rewrite <- (skipn_skipn l n a). generalize (skipn a l). clear. intros l.
  rewrite <- (firstn_skipn n l) at 1. rewrite firstn_app.
  destruct (Nat.le_gt_cases n (length l)).
  - rewrite firstn_length, Nat.min_l by lia.
    rewrite firstn_firstn, Nat.min_r by lia. f_equal. f_equal. lia.
  - rewrite (skipn_all2 l) by lia. rewrite !firstn_nil, !app_nil_r.
    rewrite firstn_firstn. f_equal. lia.
Qed.

Lemma put_append_at {A} (done seg : list A) z i n rest :
  length done = i -> length seg = n ->
  put (done ++ repeat z (n + rest)) i seg = (done ++ seg) ++ repeat z rest.
Proof. intros <- H. apply put_append. auto. Qed.
