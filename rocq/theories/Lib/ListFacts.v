(** Facts about the list operations of [Lib.Py]. *)
From Coq Require Import Permutation Sorted.
From Verif Require Import Lib.Py.

Lemma bind_ok {A B} (r : result A) (f : A -> result B) b :
  bind r f = Ok b -> exists a, r = Ok a /\ f a = Ok b.
Proof. destruct r; simpl; intros H; [eauto | discriminate]. Qed.

Lemma nth_error_ext {A} (l l' : list A) :
  (forall i, nth_error l i = nth_error l' i) -> l = l'.
Proof.
  revert l'; induction l as [|x l IH]; intros [|y l'] H; auto.
  - specialize (H 0); discriminate.
  - specialize (H 0); discriminate.
  - f_equal.
    + specialize (H 0); simpl in H; congruence.
    + apply IH; intros i; exact (H (S i)).
Qed.

Lemma nth_error_lt {A} (l : list A) i : i < length l -> exists x, nth_error l i = Some x.
Proof.
  intros H; destruct (nth_error l i) eqn:E; eauto.
  apply nth_error_None in E; lia.
Qed.

Lemma nth_error_some_lt {A} (l : list A) i x : nth_error l i = Some x -> i < length l.
Proof. intros H; apply nth_error_Some; congruence. Qed.

Lemma get_ok {A} (l : list A) i x : get l i = Ok x <-> nth_error l i = Some x.
Proof. unfold get; destruct (nth_error l i); simpl; split; congruence. Qed.

Lemma mapM_length {A B} (f : A -> result B) l l' : mapM f l = Ok l' -> length l' = length l.
Proof.
  revert l'; induction l as [|x l IH]; simpl; intros l' H.
  - injection H as <-; reflexivity.
  - apply bind_ok in H as (y & _ & H). apply bind_ok in H as (ys & Hys & H).
    injection H as <-; simpl; f_equal; auto.
Qed.

Lemma mapM_nth {A B} (f : A -> result B) l l' i x :
  mapM f l = Ok l' -> nth_error l i = Some x ->
  exists y, f x = Ok y /\ nth_error l' i = Some y.
Proof.
  revert l' i; induction l as [|a l IH]; intros l' i H Hi.
  - destruct i; discriminate.
  - simpl in H. apply bind_ok in H as (y & Hy & H). apply bind_ok in H as (ys & Hys & H).
    injection H as <-. destruct i as [|i]; simpl in *.
    + injection Hi as <-; eauto.
    + eauto.
Qed.

Lemma mapM_ok {A B} (f : A -> result B) (g : A -> B) l :
  (forall x, In x l -> f x = Ok (g x)) -> mapM f l = Ok (map g l).
Proof.
  induction l as [|a l IH]; intros H; simpl; auto.
  rewrite H by (left; reflexivity). simpl. rewrite IH; auto.
  intros x Hx; apply H; right; exact Hx.
Qed.

Lemma mapM_map {A B} (f : A -> result B) l l' :
  mapM f l = Ok l' -> forall x, In x l -> exists y, f x = Ok y /\ In y l'.
Proof.
  intros H x Hx. apply In_nth_error in Hx as [i Hi].
  destruct (mapM_nth _ _ _ _ _ H Hi) as (y & Hy & Hn).
  exists y; split; auto. eapply nth_error_In; eauto.
Qed.

Lemma mapM_exists {A B} (f : A -> result B) l :
  (forall x, In x l -> exists y, f x = Ok y) -> exists l', mapM f l = Ok l'.
Proof.
  induction l as [|a l IH]; intros H; simpl; eauto.
  destruct (H a (or_introl eq_refl)) as [y Hy]. rewrite Hy; simpl.
  destruct IH as [ys Hys]. { intros x Hx; apply H; right; auto. }
  rewrite Hys; simpl; eauto.
Qed.

Lemma upd_length {A} (l : list A) i x : length (upd l i x) = length l.
Proof. revert i; induction l; intros [|i]; simpl; auto. Qed.

Lemma nth_error_upd {A} (l : list A) i x j :
  nth_error (upd l i x) j =
  if (i =? j) then (if i <? length l then Some x else None) else nth_error l j.
Proof.
  revert i j; induction l as [|a l IH]; intros i j; simpl.
  - destruct (i =? j) eqn:E; destruct i, j; simpl; auto.
  - destruct i as [|i], j as [|j]; simpl; auto. rewrite IH.
    change (S i <? S (length l)) with (i <? length l). reflexivity.
Qed.

Lemma nth_error_upd_same {A} (l : list A) i x :
  i < length l -> nth_error (upd l i x) i = Some x.
Proof.
  intros H; rewrite nth_error_upd, Nat.eqb_refl.
  destruct (Nat.ltb_spec i (length l)); [auto|lia].
Qed.

Lemma nth_error_upd_other {A} (l : list A) i x j :
  i <> j -> nth_error (upd l i x) j = nth_error l j.
Proof. intros H; rewrite nth_error_upd. destruct (Nat.eqb_spec i j); congruence. Qed.

Lemma upd_self {A} (l : list A) i x : nth_error l i = Some x -> upd l i x = l.
Proof.
  revert i; induction l as [|a l IH]; intros [|i] H; simpl in *; try congruence.
  f_equal; auto.
Qed.

Lemma upd_upd {A} (l : list A) i x y : upd (upd l i x) i y = upd l i y.
Proof. revert i; induction l as [|a l IH]; intros [|i]; simpl; auto; f_equal; auto. Qed.

Lemma scatter_length {A} idx (l : list A) vals : length (scatter l idx vals) = length l.
Proof.
  revert l vals; induction idx as [|i idx IH]; intros l [|v vals]; simpl; auto.
  rewrite IH, upd_length; auto.
Qed.

Lemma scatter_other {A} idx (l : list A) vals j :
  ~ In j idx -> nth_error (scatter l idx vals) j = nth_error l j.
Proof.
  revert l vals; induction idx as [|i idx IH]; intros l [|v vals] H; simpl in *; auto.
  rewrite IH by tauto. apply nth_error_upd_other; tauto.
Qed.

Lemma scatter_at {A} idx (l : list A) vals k i v :
  NoDup idx -> nth_error idx k = Some i -> nth_error vals k = Some v -> i < length l ->
  nth_error (scatter l idx vals) i = Some v.
Proof.
  revert l vals k; induction idx as [|a idx IH]; intros l vals k Hnd Hi Hv Hl.
  - destruct k; discriminate.
  - destruct vals as [|w vals]; [destruct k; discriminate|].
    inversion Hnd as [|? ? Hni Hnd']; subst. simpl.
    destruct k as [|k]; simpl in *.
    + injection Hi as <-; injection Hv as <-.
      rewrite scatter_other by auto. apply nth_error_upd_same; auto.
    + eapply IH; eauto. rewrite upd_length; auto.
Qed.

Lemma scatter_gather {A} (l : list A) idx vals :
  NoDup idx -> gather l idx = Ok vals -> scatter l idx vals = l.
Proof.
  intros Hnd Hg. apply nth_error_ext; intros j.
  destruct (in_dec Nat.eq_dec j idx) as [Hin|Hni].
  - apply In_nth_error in Hin as [k Hk].
    destruct (mapM_nth _ _ _ _ _ Hg Hk) as (v & Hv & Hvk).
    apply get_ok in Hv. rewrite Hv.
    eapply scatter_at; eauto. eapply nth_error_some_lt; eauto.
  - apply scatter_other; auto.
Qed.

Lemma find_from_spec k mask i :
  In i (find_from k mask) <-> k <= i /\ nth_error mask (i - k) = Some true.
Proof.
  revert k; induction mask as [|b m IH]; intros k; simpl.
  - split; [tauto|]. intros [_ H]. destruct (i - k); discriminate.
  - destruct b; simpl; rewrite ?IH.
    + split.
      * intros [->|[H1 H2]].
        -- split; auto. rewrite Nat.sub_diag; reflexivity.
        -- split; [lia|]. replace (i - k) with (S (i - S k)) by lia; exact H2.
      * intros [H1 H2]. destruct (Nat.eq_dec k i) as [|Hne]; [left; auto|right].
        split; [lia|]. replace (i - k) with (S (i - S k)) in H2 by lia; exact H2.
    + split.
      * intros [H1 H2]. split; [lia|]. replace (i - k) with (S (i - S k)) by lia; exact H2.
      * intros [H1 H2]. destruct (Nat.eq_dec k i) as [->|Hne].
        { rewrite Nat.sub_diag in H2; discriminate. }
        split; [lia|]. replace (i - k) with (S (i - S k)) in H2 by lia; exact H2.
Qed.

Lemma in_find mask i : In i (find mask) <-> nth_error mask i = Some true.
Proof.
  unfold find; rewrite find_from_spec, Nat.sub_0_r. split; [tauto|]. intros; split; auto; lia.
Qed.

Lemma find_from_ge k mask i : In i (find_from k mask) -> k <= i.
Proof. intros H; apply find_from_spec in H; tauto. Qed.

Lemma find_from_sorted k mask : StronglySorted lt (find_from k mask).
Proof.
  revert k; induction mask as [|b m IH]; intros k; simpl; [constructor|].
  destruct b; auto. constructor; auto.
  apply Forall_forall; intros x Hx; apply find_from_ge in Hx; lia.
Qed.

Lemma find_sorted mask : StronglySorted lt (find mask).
Proof. apply find_from_sorted. Qed.

Lemma StronglySorted_lt_NoDup l : StronglySorted lt l -> NoDup l.
Proof.
  induction 1 as [|a l Hl IH Hf]; constructor; auto.
  intros Hin. rewrite Forall_forall in Hf. specialize (Hf _ Hin); lia.
Qed.

Lemma find_NoDup mask : NoDup (find mask).
Proof. apply StronglySorted_lt_NoDup, find_sorted. Qed.

Lemma find_lt mask i : In i (find mask) -> i < length mask.
Proof. intros H; apply in_find in H; eapply nth_error_some_lt; eauto. Qed.

Lemma nth_error_map_iff {A B} (f : A -> B) l i y :
  nth_error (map f l) i = Some y <-> exists x, nth_error l i = Some x /\ f x = y.
Proof.
  rewrite nth_error_map. destruct (nth_error l i); simpl; split.
  - intros H; injection H as <-; eauto.
  - intros (x & H & <-); congruence.
  - discriminate.
  - intros (x & H & _); discriminate.
Qed.

Lemma find_negb_complement mask i :
  i < length mask -> In i (find (map negb mask)) <-> ~ In i (find mask).
Proof.
  intros Hl. rewrite !in_find, nth_error_map.
  destruct (nth_error mask i) as [b|] eqn:E.
  - destruct b; simpl; split; congruence.
  - apply nth_error_None in E; lia.
Qed.

Lemma find_length_split mask : length (find mask) + length (find (map negb mask)) = length mask.
Proof.
  unfold find. generalize 0. induction mask as [|b m IH]; intros k; simpl; auto.
  destruct b; simpl; specialize (IH (S k)); lia.
Qed.

Lemma gather_ok {A} (l : list A) idx :
  (forall i, In i idx -> i < length l) -> exists vals, gather l idx = Ok vals.
Proof.
  intros H. apply mapM_exists. intros i Hi.
  destruct (nth_error_lt l i (H _ Hi)) as [x Hx]. exists x; apply get_ok; auto.
Qed.

Lemma gather_nth {A} (l : list A) idx vals k i :
  gather l idx = Ok vals -> nth_error idx k = Some i -> nth_error vals k = nth_error l i.
Proof.
  intros Hg Hk. destruct (mapM_nth _ _ _ _ _ Hg Hk) as (v & Hv & Hvk).
  apply get_ok in Hv; congruence.
Qed.

Lemma gather_length {A} (l : list A) idx vals :
  gather l idx = Ok vals -> length vals = length idx.
Proof. apply mapM_length. Qed.

Lemma gather_seq {A} (l : list A) : gather l (seq 0 (length l)) = Ok l.
Proof.
  destruct (gather_ok l (seq 0 (length l))) as [v Hv].
  { intros i Hi; apply in_seq in Hi; lia. }
  rewrite Hv; f_equal. apply nth_error_ext; intros i.
  destruct (Nat.lt_ge_cases i (length l)) as [Hi|Hi].
  - eapply gather_nth; eauto. rewrite nth_error_nth' with (d := 0).
    + f_equal. rewrite seq_nth; auto.
    + rewrite seq_length; auto.
  - transitivity (@None A); [|symmetry]; apply nth_error_None; auto.
    rewrite (gather_length _ _ _ Hv), seq_length; auto.
Qed.

Lemma np_index_nonneg n i : (0 <= i < Z.of_nat n)%Z -> np_index n i = Ok (Z.to_nat i).
Proof.
  intros H. unfold np_index.
  destruct (Z.leb_spec 0 i), (Z.ltb_spec i (Z.of_nat n)); simpl; auto; lia.
Qed.

Lemma np_get_nonneg {A} (l : list A) i x :
  (0 <= i)%Z -> nth_error l (Z.to_nat i) = Some x -> np_get l i = Ok x.
Proof.
  intros Hi Hx. assert (Z.to_nat i < length l) by (eapply nth_error_some_lt; eauto).
  unfold np_get. rewrite np_index_nonneg by lia. simpl. rewrite Hx; reflexivity.
Qed.

Lemma seq_nth_error n s i : i < n -> nth_error (seq s n) i = Some (s + i).
Proof.
  intros H. rewrite nth_error_nth' with (d := 0) by (rewrite seq_length; auto).
  rewrite seq_nth; auto.
Qed.

Lemma NoDup_nth_error_eq {A} (l : list A) i j x :
  NoDup l -> nth_error l i = Some x -> nth_error l j = Some x -> i = j.
Proof.
  intros Hn Hi Hj. eapply NoDup_nth_error; eauto.
  - eapply nth_error_some_lt; eauto.
  - congruence.
Qed.

Lemma Forall2_impl {A B} (P Q : A -> B -> Prop) l l' :
  (forall a b, P a b -> Q a b) -> Forall2 P l l' -> Forall2 Q l l'.
Proof. intros H; induction 1; constructor; auto. Qed.

Lemma nth_slice A (r : list A) a b j :
  nth_error (slice a b r) j = if j <? b - a then nth_error r (a + j) else None.
Proof.
  unfold slice. destruct (Nat.ltb_spec j (b - a)).
  - rewrite <- (firstn_skipn a r) at 2.
    destruct (Nat.le_gt_cases (length r) a) as [L|L].
    + rewrite skipn_all2 by lia. rewrite firstn_nil.
      rewrite app_nil_r. rewrite firstn_all2 by lia.
      destruct j; simpl; symmetry; apply nth_error_None; lia.
    + rewrite nth_error_app2 by (rewrite firstn_length; lia).
      rewrite firstn_length. replace (a + j - Nat.min a (length r)) with j by lia.
      generalize (skipn a r). clear L. revert H. generalize (b - a). clear. intros n H l.
      revert l j H. induction n; intros [|x l] [|j] H; simpl; auto; try lia.
      apply IHn; lia.
  - apply nth_error_None. rewrite firstn_length. lia.
Qed.

Lemma slice_length A (r : list A) a b : length (slice a b r) = Nat.min (b - a) (length r - a).
Proof. unfold slice. rewrite firstn_length, skipn_length. reflexivity. Qed.


Lemma NoDup_app_l {A} (l l' : list A) : NoDup (l ++ l') -> NoDup l.
Proof.
  induction l as [|a l IH]; simpl; intros H; constructor; inversion H; subst.
  - intros I. apply H2. apply in_or_app. auto.
  - auto.
Qed.

Lemma Forall2_len {A B} (R : A -> B -> Prop) l l' : Forall2 R l l' -> length l = length l'.
Proof. induction 1; simpl; auto. Qed.

Lemma Forall2_nth {A B} (R : A -> B -> Prop) l l' i a :
  Forall2 R l l' -> nth_error l i = Some a -> exists b, nth_error l' i = Some b /\ R a b.
Proof.
  intros F. revert i. induction F as [|x y l l' H F IH]; intros [|i] E; simpl in *; try discriminate.
  - injection E as <-. eauto.
  - eauto.
Qed.
