(** Lemmas about the conversion between external and internal numbering. *)
From Coq Require Import Permutation Sorted Lia.
From Verif Require Import Lib.Num Lib.ListFacts Model.Idx Model.Ext2int Spec.CaseSpec.

Section Cells.
Context {Ty : Type} {CC : Cell Ty}.
Local Notation num := Ty.
Local Notation row := (list Ty).
Local Notation table := (list (list Ty)).
Local Notation umat := (umat_of Ty).
Local Notation tabs := (tabs_of Ty).
Local Notation order := (order_of Ty).
Local Notation ppc := (ppc_of Ty).

Lemma ofZ_inj a b : ofZ a = ofZ b -> a = b.
Proof.
  intros H. assert (to_int (ofZ a) = to_int (ofZ b)) as E by congruence.
  rewrite !to_int_ofZ in E. congruence.
Qed.

Lemma ofN_inj a b : ofN a = ofN b -> a = b.
Proof. intros H; apply ofZ_inj in H; lia. Qed.

(** ** Positions *)
Lemma zmax_ge l z : In z l -> (z <= zmax l)%Z.
Proof. induction l; simpl; [tauto|]. intros [->|H]; [lia|]. specialize (IHl H); lia. Qed.

Lemma wrap_in size k : (0 <= k < size)%Z -> wrap size k = Ok k.
Proof.
  intros H; unfold wrap. destruct (Z.leb_spec 0 k), (Z.ltb_spec k size); simpl; auto; lia.
Qed.

Lemma sum_pos_notin s l z : ~ In z l -> sum_pos s l z = 0.
Proof.
  revert s; induction l as [|a l IH]; intros s H; simpl; auto.
  destruct (Z.eqb_spec a z); [subst; simpl in H; tauto|]. rewrite IH; [auto|simpl in H; tauto].
Qed.

Lemma sum_pos_at s l z i : NoDup l -> nth_error l i = Some z -> sum_pos s l z = s + i.
Proof.
  revert s i; induction l as [|a l IH]; intros s [|i] Hn H; simpl in *; try discriminate.
  - injection H as ->. rewrite Z.eqb_refl. inversion Hn; subst.
    rewrite sum_pos_notin by auto. lia.
  - inversion Hn; subst. destruct (Z.eqb_spec a z).
    + subst. apply nth_error_In in H; tauto.
    + rewrite (IH (S s) i); auto; lia.
Qed.

Lemma last_pos_notin s l z d : ~ In z l -> last_pos s l z d = d.
Proof.
  revert s d; induction l as [|a l IH]; intros s d H; simpl; auto.
  rewrite IH by (simpl in H; tauto).
  destruct (Z.eqb_spec a z); auto. subst; simpl in H; tauto.
Qed.

Lemma last_pos_at s l z i d : NoDup l -> nth_error l i = Some z -> last_pos s l z d = s + i.
Proof.
  revert s i d; induction l as [|a l IH]; intros s [|i] d Hn H; simpl in *; try discriminate.
  - injection H as ->. rewrite Z.eqb_refl. inversion Hn; subst.
    rewrite last_pos_notin by auto. lia.
  - inversion Hn; subst. rewrite (IH (S s) i); auto; lia.
Qed.

Lemma n2i_at nums z i : NoDup nums -> Forall (fun z => 0 <= z)%Z nums ->
  nth_error nums i = Some z -> n2i_get nums z = Ok i.
Proof.
  intros Hn Hp Hi. unfold n2i_get. pose proof (nth_error_In _ _ Hi) as Hin.
  rewrite Forall_forall in Hp. pose proof (Hp _ Hin). pose proof (zmax_ge _ _ Hin).
  rewrite wrap_in by lia. simpl. f_equal. apply (sum_pos_at 0); auto.
Qed.

Lemma e2i_at nums z i : NoDup nums -> Forall (fun z => 0 <= z)%Z nums ->
  nth_error nums i = Some z -> e2i_get nums z = Ok i.
Proof.
  intros Hn Hp Hi. unfold e2i_get. pose proof (nth_error_In _ _ Hi) as Hin.
  rewrite Forall_forall in Hp. pose proof (Hp _ Hin). pose proof (zmax_ge _ _ Hin).
  rewrite wrap_in by lia. simpl. f_equal. apply (last_pos_at 0); auto.
Qed.

(** ** argsort of a permutation is its inverse *)
Lemma SS_lt_nth l : StronglySorted lt l -> increasing l.
Proof.
  induction 1 as [|x l Hs IH Hf]; intros a b i j Hab Ha Hb.
  - destruct a; discriminate.
  - destruct b as [|b]; [lia|]. simpl in Hb. destruct a as [|a]; simpl in Ha.
    + injection Ha as ->. rewrite Forall_forall in Hf. apply Hf. eapply nth_error_In; eauto.
    + apply (IH a b); auto; lia.
Qed.

Lemma increasing_cons x l : increasing (x :: l) -> increasing l /\ Forall (lt x) l.
Proof.
  intros H; split.
  - intros a b i j Hab Ha Hb. apply (H (S a) (S b)); auto; lia.
  - apply Forall_forall; intros y Hy. apply In_nth_error in Hy as [k Hk].
    apply (H 0 (S k)); auto; lia.
Qed.

Lemma increasing_SS l : increasing l -> StronglySorted lt l.
Proof.
  induction l as [|x l IH]; intros H; constructor; apply increasing_cons in H; tauto.
Qed.

Lemma sorted_range_seq l s :
  StronglySorted lt l -> (forall x, In x l -> s <= x < s + length l) -> l = seq s (length l).
Proof.
  revert s; induction l as [|h l IH]; intros s Hs Hr; simpl; auto.
  inversion Hs as [|? ? Hs' Hf]; subst. rewrite Forall_forall in Hf.
  assert (h = s).
  { pose proof (Hr h (or_introl eq_refl)) as Hh. simpl in Hh.
    assert (length l <= length (seq (S h) (s + length l - h))).
    { apply NoDup_incl_length; [apply StronglySorted_lt_NoDup; auto|].
      intros x Hx. apply in_seq. pose proof (Hf _ Hx). pose proof (Hr x (or_intror Hx)) as Hx2.
      simpl in Hx2. lia. }
    rewrite seq_length in H. lia. }
  subst. f_equal. apply IH; auto.
  intros x Hx. pose proof (Hf _ Hx). pose proof (Hr x (or_intror Hx)) as Hx2. simpl in Hx2. lia.
Qed.

Lemma perm_seq_lt p n i : Permutation p (seq 0 n) -> In i p -> i < n.
Proof. intros Hp Hi. apply (Permutation_in _ Hp) in Hi. apply in_seq in Hi; lia. Qed.

Lemma perm_seq_NoDup p n : Permutation p (seq 0 n) -> NoDup p.
Proof. intros H. eapply Permutation_NoDup; [symmetry; eauto|]. apply seq_NoDup. Qed.

Lemma perm_seq_in p n i : Permutation p (seq 0 n) -> i < n -> In i p.
Proof. intros H Hi. eapply Permutation_in; [symmetry; eauto|]. apply in_seq; lia. Qed.

Lemma perm_seq_length p n : Permutation p (seq 0 n) -> length p = n.
Proof. intros H; rewrite (Permutation_length H), seq_length; auto. Qed.

Lemma argsort_inverse argsort p n a i :
  argsort_spec argsort -> Permutation p (seq 0 n) ->
  nth_error p a = Some i -> nth_error (argsort (map Z.of_nat p)) i = Some a.
Proof.
  intros Has Hp Ha. destruct (Has (map Z.of_nat p)) as [Hq Hsort].
  set (q := argsort (map Z.of_nat p)) in *. rewrite map_length in Hq.
  pose proof (perm_seq_length _ _ Hp) as Hlp. rewrite Hlp in Hq.
  pose proof (perm_seq_length _ _ Hq) as Hlq.
  destruct (gather_ok p q) as [v Hv].
  { intros x Hx. rewrite Hlp. eapply perm_seq_lt; eauto. }
  assert (Hlv : length v = n) by (rewrite (gather_length _ _ _ Hv); auto).
  assert (Hinc : increasing v).
  { intros k1 k2 x y Hk H1 H2.
    assert (k2 < n) by (rewrite <- Hlv; eapply nth_error_some_lt; eauto).
    destruct (nth_error_lt q k1) as [q1 Hq1]; [lia|].
    destruct (nth_error_lt q k2) as [q2 Hq2]; [lia|].
    rewrite (gather_nth _ _ _ _ _ Hv Hq1) in H1.
    rewrite (gather_nth _ _ _ _ _ Hv Hq2) in H2.
    assert (Z.of_nat x <= Z.of_nat y)%Z.
    { apply (Hsort k1 k2 q1 q2); auto; rewrite nth_error_map.
      { rewrite H1; auto. } { rewrite H2; auto. } }
    assert (x <> y).
    { intros ->. assert (q1 = q2).
      { eapply NoDup_nth_error_eq; eauto. eapply perm_seq_NoDup; eauto. }
      subst. assert (k1 = k2).
      { eapply NoDup_nth_error_eq with (l := q); eauto. eapply perm_seq_NoDup; eauto. }
      lia. }
    lia. }
  assert (Hvs : v = seq 0 n).
  { rewrite <- Hlv at 1. apply sorted_range_seq; [apply increasing_SS; auto|].
    intros x Hx. rewrite Hlv. apply In_nth_error in Hx as [k Hk].
    destruct (nth_error_lt q k) as [j Hj].
    { rewrite Hlq, <- Hlv. eapply nth_error_some_lt; eauto. }
    rewrite (gather_nth _ _ _ _ _ Hv Hj) in Hk.
    split; [lia|]. simpl. apply (perm_seq_lt _ _ _ Hp). eapply nth_error_In; eauto. }
  assert (Hi : i < n) by (apply (perm_seq_lt _ _ _ Hp); eapply nth_error_In; eauto).
  destruct (nth_error_lt q i) as [j Hj]; [lia|].
  rewrite Hj. f_equal.
  pose proof (gather_nth _ _ _ _ _ Hv Hj) as E.
  rewrite Hvs, seq_nth_error in E by auto. symmetry in E.
  eapply NoDup_nth_error_eq with (l := p); eauto. eapply perm_seq_NoDup; eauto.
Qed.

(** ** rows *)
Lemma renum_row_ok i2e c r z k :
  NoDup i2e -> Forall (fun z => 0 <= z)%Z i2e ->
  nth_error r c = Some (ofZ z) -> nth_error i2e k = Some z ->
  renum_row i2e c r = Ok (upd r c (ofN k)).
Proof.
  intros Hn Hp Hc Hk. unfold renum_row, get. rewrite Hc; cbn [of_option bind].
  rewrite to_int_ofZ; cbn [bind]. rewrite (e2i_at _ _ _ Hn Hp Hk); cbn [bind].
  unfold set_checked. apply nth_error_some_lt in Hc.
  destruct (Nat.ltb_spec c (length r)); auto; lia.
Qed.

Lemma renum_ok i2e c t :
  NoDup i2e -> Forall (fun z => 0 <= z)%Z i2e ->
  (forall r, In r t -> exists z, nth_error r c = Some (ofZ z) /\ In z i2e) ->
  exists t', renum i2e c t = Ok t' /\ length t' = length t /\
    forall j r z k, nth_error t j = Some r -> nth_error r c = Some (ofZ z) ->
      nth_error i2e k = Some z -> nth_error t' j = Some (upd r c (ofN k)).
Proof.
  intros Hn Hp Ht. destruct (mapM_exists (renum_row i2e c) t) as [t' Ht'].
  { intros r Hr. destruct (Ht r Hr) as (z & Hz & Hin). apply In_nth_error in Hin as [k Hk].
    eexists. eapply renum_row_ok; eauto. }
  exists t'; split; [exact Ht'|]. split; [eapply mapM_length; eauto|].
  intros j r z k Hj Hz Hk. destruct (mapM_nth _ _ _ _ _ Ht' Hj) as (y & Hy & Hyn).
  rewrite (renum_row_ok _ _ _ _ _ Hn Hp Hz Hk) in Hy. injection Hy as <-. auto.
Qed.

Lemma unrenum_row_ok i2e c r k v :
  nth_error r c = Some (ofN k) -> nth_error i2e k = Some v ->
  unrenum_row i2e c r = Ok (upd r c v).
Proof.
  intros Hc Hk. unfold unrenum_row, get. rewrite Hc; cbn [of_option bind].
  unfold ofN. rewrite to_int_ofZ; cbn [bind].
  rewrite (np_get_nonneg i2e (Z.of_nat k) v); [|lia|rewrite Nat2Z.id; auto]. cbn [bind].
  unfold set_checked. apply nth_error_some_lt in Hc.
  destruct (Nat.ltb_spec c (length r)); auto; lia.
Qed.

Lemma scatter_checked_ok {A} (t : list A) on rows :
  length on = length rows -> (forall i, In i on -> i < length t) ->
  scatter_checked t on rows = Ok (scatter t on rows).
Proof.
  intros Hl Hr. unfold scatter_checked. rewrite Hl, Nat.eqb_refl. simpl.
  replace (forallb _ on) with true; auto. symmetry. apply forallb_forall.
  intros i Hi. apply Nat.ltb_lt; auto.
Qed.

Lemma put_rows_ok (t : table) on (rows : table) w :
  Forall (fun r => length r = w) t -> Forall (fun r => length r = w) rows ->
  length on = length rows -> (forall i, In i on -> i < length t) ->
  put_rows t on rows = Ok (scatter t on rows).
Proof.
  intros Ht Hr Hl Ho. unfold put_rows.
  destruct t as [|r0 t']; [apply scatter_checked_ok; auto|].
  destruct rows as [|r1 rows']; [apply scatter_checked_ok; auto|].
  inversion Ht; inversion Hr; subst. rewrite H5, Nat.eqb_refl. apply scatter_checked_ok; auto.
Qed.

Lemma gather_scatter {A} (t : list A) on rows :
  NoDup on -> length on = length rows -> (forall i, In i on -> i < length t) ->
  gather (scatter t on rows) on = Ok rows.
Proof.
  intros Hn Hl Ho. destruct (gather_ok (scatter t on rows) on) as [v Hv].
  { intros i Hi. rewrite scatter_length; auto. }
  rewrite Hv; f_equal. apply nth_error_ext; intros k.
  destruct (nth_error on k) as [i|] eqn:E.
  - rewrite (gather_nth _ _ _ _ _ Hv E).
    destruct (nth_error_lt rows k) as [r Hr].
    { rewrite <- Hl. eapply nth_error_some_lt; eauto. }
    rewrite Hr. eapply scatter_at; eauto. apply Ho. eapply nth_error_In; eauto.
  - apply nth_error_None in E. pose proof (gather_length _ _ _ Hv).
    transitivity (@None A); [|symmetry]; apply nth_error_None; lia.
Qed.

Lemma scatter_scatter {A} (t : list A) on rows rows' :
  NoDup on -> length on = length rows -> length on = length rows' ->
  (forall i, In i on -> i < length t) ->
  scatter (scatter t on rows) on rows' = scatter t on rows'.
Proof.
  intros Hn Hl Hl' Ho. apply nth_error_ext; intros j.
  destruct (in_dec Nat.eq_dec j on) as [Hin|Hni].
  - apply In_nth_error in Hin as [k Hk].
    destruct (nth_error_lt rows' k) as [r Hr].
    { rewrite <- Hl'. eapply nth_error_some_lt; eauto. }
    pose proof (Ho j (nth_error_In _ _ Hk)).
    rewrite (scatter_at _ _ _ _ _ _ Hn Hk Hr) by (rewrite scatter_length; auto).
    rewrite (scatter_at _ _ _ _ _ _ Hn Hk Hr); auto.
  - rewrite !scatter_other; auto.
Qed.

(** one numbering column written back *)
Lemma unrenum_scatter i2e c t on rows (f : row -> row) :
  NoDup on -> length on = length rows -> (forall i, In i on -> i < length t) ->
  (forall r, In r rows -> unrenum_row i2e c r = Ok (f r)) ->
  unrenum i2e c (scatter t on rows) on = Ok (scatter t on (map f rows)).
Proof.
  intros Hn Hl Ho Hf. unfold unrenum. rewrite gather_scatter by auto. cbn [bind].
  rewrite (mapM_ok _ f) by auto. cbn [bind].
  rewrite scatter_checked_ok.
  - rewrite scatter_scatter; auto. rewrite map_length; auto.
  - rewrite map_length; auto.
  - intros i Hi. rewrite scatter_length; auto.
Qed.

(** ** argsort_stable is an argsort *)
Lemma ins_sorted_perm k l : Permutation (ins_sorted k l) (k :: l).
Proof.
  induction l as [|h l IH]; simpl; auto. destruct (_ <=? _)%Z; auto.
  rewrite IH. apply perm_swap.
Qed.

Lemma ins_sorted_sorted k l :
  StronglySorted (fun a b => fst a <= fst b)%Z l ->
  StronglySorted (fun a b => fst a <= fst b)%Z (ins_sorted k l).
Proof.
  induction 1 as [|h l Hs IH Hf]; simpl; [repeat constructor|].
  destruct (Z.leb_spec (fst k) (fst h)).
  - constructor; [constructor; auto|]. constructor; auto.
    eapply Forall_impl; [|exact Hf]. simpl; intros; lia.
  - constructor; auto. apply (Permutation_Forall (Permutation_sym (ins_sorted_perm k l))).
    constructor; auto; lia.
Qed.

Lemma argsort_stable_spec : argsort_spec argsort_stable.
Proof.
  intros keys. unfold argsort_stable.
  set (l := combine keys (seq 0 (length keys))).
  assert (Hp : Permutation (fold_right ins_sorted [] l) l).
  { induction l as [|a l IH]; simpl; auto. rewrite ins_sorted_perm, IH; auto. }
  assert (Hs : StronglySorted (fun a b => fst a <= fst b)%Z (fold_right ins_sorted [] l)).
  { clear Hp. induction l as [|a l IH]; simpl; [constructor|]. apply ins_sorted_sorted; auto. }
  assert (Hpair : forall z i, In (z, i) (fold_right ins_sorted [] l) ->
                  nth_error keys i = Some z).
  { intros z i Hin. apply (Permutation_in _ Hp) in Hin. subst l.
    apply In_nth_error in Hin as [k Hk].
    assert (Hkl : k < length keys).
    { apply nth_error_some_lt in Hk. rewrite combine_length, seq_length in Hk. lia. }
    assert (Hc : forall (A B : Type) (la : list A) (lb : list B) k a b,
      nth_error (combine la lb) k = Some (a, b) ->
      nth_error la k = Some a /\ nth_error lb k = Some b).
    { clear. induction la as [|x la IH]; intros [|y lb] [|k] a b H; simpl in *;
        try discriminate; auto. injection H as -> ->; auto. }
    apply Hc in Hk as [H1 H2]. rewrite seq_nth_error in H2 by auto. injection H2 as <-. auto. }
  split.
  - rewrite (Permutation_map snd Hp). subst l.
    assert (Hms : forall (A B : Type) (la : list A) (lb : list B),
      length la = length lb -> map snd (combine la lb) = lb).
    { clear. induction la as [|x la IH]; intros [|y lb] H; simpl in *; try discriminate; auto.
      f_equal; auto. }
    rewrite Hms; auto. rewrite seq_length; auto.
  - clear Hp. set (m := fold_right ins_sorted [] l) in *. clearbody m. clear l.
    intros a b i j x y Hab Ha Hb Hx Hy.
    apply nth_error_map_iff in Ha as ([xa i'] & Ha & Hi). simpl in Hi; subst i'.
    apply nth_error_map_iff in Hb as ([xb j'] & Hb & Hj). simpl in Hj; subst j'.
    assert (xa = x) by (apply nth_error_In in Ha; apply Hpair in Ha; congruence).
    assert (xb = y) by (apply nth_error_In in Hb; apply Hpair in Hb; congruence).
    subst. clear - Hs Hab Ha Hb. revert a b Hab Ha Hb.
    induction Hs as [|h m Hs IH Hf]; intros a b Hab Ha Hb; [destruct a; discriminate|].
    destruct b as [|b]; [lia|]. simpl in Hb. destruct a as [|a]; simpl in Ha.
    + injection Ha as ->. rewrite Forall_forall in Hf. apply nth_error_In in Hb.
      apply Hf in Hb. auto.
    + apply (IH a b); auto; lia.
Qed.
End Cells.
