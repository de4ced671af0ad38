(** Facts about finite sums and sparse matrices. *)
From Verif Require Import Lib.ListFacts Lib.Sparse Proofs.LinAlgFacts.
Local Open Scope nat_scope.

Lemma nth_map_lt {A B} (f : A -> B) l k d d' : k < length l -> nth k (map f l) d = f (nth k l d').
Proof.
  intros H. rewrite (nth_indep _ d (f d')) by (rewrite map_length; auto). apply map_nth.
Qed.

Lemma nth_repeat_lt {A} (a : A) n k d : k < n -> nth k (repeat a n) d = a.
Proof.
  intros H. rewrite (nth_indep _ d a) by (rewrite repeat_length; auto). apply nth_repeat.
Qed.

Section Facts.
Context {K : Type} {R : Rng K}.
Add Ring KR : (@r_ok K _).
Local Notation "0" := r0 : fld_scope.

Lemma lsum_ext {A} (f g : A -> K) l : (forall x, In x l -> f x = g x) -> lsum f l = lsum g l.
Proof.
  induction l as [|a l IH]; simpl; intros H; auto. rewrite H by auto.
  rewrite IH; auto.
Qed.

Lemma lsum_app {A} (f : A -> K) l l' : lsum f (l ++ l') = (lsum f l + lsum f l')%K.
Proof. induction l; simpl; [|rewrite IHl]; ring. Qed.

Lemma lsum_map {A B} (f : B -> K) (g : A -> B) l : lsum f (map g l) = lsum (fun x => f (g x)) l.
Proof. induction l; simpl; congruence. Qed.

Lemma lsum_0 {A} (l : list A) : lsum (fun _ => 0%K) l = 0%K.
Proof. induction l; simpl; [|rewrite IHl]; ring. Qed.

Lemma lsum_zero {A} (f : A -> K) l : (forall x, In x l -> f x = 0%K) -> lsum f l = 0%K.
Proof. intros H. rewrite (lsum_ext f (fun _ => 0%K)) by auto. apply lsum_0. Qed.

Lemma lsum_add {A} (f g : A -> K) l : lsum (fun x => f x + g x)%K l = (lsum f l + lsum g l)%K.
Proof. induction l; simpl; [|rewrite IHl]; ring. Qed.

Lemma lsum_sub {A} (f g : A -> K) l : lsum (fun x => f x - g x)%K l = (lsum f l - lsum g l)%K.
Proof. induction l; simpl; [|rewrite IHl]; ring. Qed.

Lemma lsum_opp {A} (f : A -> K) l : lsum (fun x => - f x)%K l = (- lsum f l)%K.
Proof. induction l; simpl; [|rewrite IHl]; ring. Qed.

Lemma lsum_scal {A} c (f : A -> K) l : lsum (fun x => c * f x)%K l = (c * lsum f l)%K.
Proof. induction l; simpl; [|rewrite IHl]; ring. Qed.

Lemma lsum_scal_r {A} c (f : A -> K) l : lsum (fun x => f x * c)%K l = (lsum f l * c)%K.
Proof. induction l; simpl; [|rewrite IHl]; ring. Qed.

Lemma lsum_swap {A B} (f : A -> B -> K) l l' :
  lsum (fun x => lsum (f x) l') l = lsum (fun y => lsum (fun x => f x y) l) l'.
Proof.
  induction l; simpl.
  - symmetry. apply lsum_0.
  - rewrite IHl, <- lsum_add. reflexivity.
Qed.

Lemma lsum_flat_map {A B} (f : B -> K) (g : A -> list B) l :
  lsum f (flat_map g l) = lsum (fun x => lsum f (g x)) l.
Proof. induction l; simpl; auto. rewrite lsum_app, IHl. reflexivity. Qed.

Lemma lsum_seq_single (f : nat -> K) a n k :
  lsum (fun i => if i =? k then f i else 0%K) (seq a n)
  = (if (a <=? k) && (k <? a + n) then f k else 0%K).
Proof.
  revert a. induction n as [|n IH]; intros a; simpl.
  - replace ((a <=? k) && (k <? a + 0)) with false; auto.
    symmetry. apply andb_false_iff. destruct (a <=? k) eqn:E; auto. right.
    apply Nat.leb_le in E. apply Nat.ltb_ge. lia.
  - rewrite IH. destruct (Nat.eqb_spec a k) as [->|N].
    + rewrite Nat.leb_refl.
      replace (S k <=? k) with false by (symmetry; apply Nat.leb_gt; lia).
      replace (k <? k + S n) with true by (symmetry; apply Nat.ltb_lt; lia). simpl. ring.
    + replace (a <=? k) with (S a <=? k).
      * replace (k <? S a + n) with (k <? a + S n) by (f_equal; lia). ring.
      * destruct (S a <=? k) eqn:E; symmetry.
        -- apply Nat.leb_le in E. apply Nat.leb_le. lia.
        -- apply Nat.leb_gt in E. apply Nat.leb_gt. lia.
Qed.

(** the same with the test the other way round *)
Lemma lsum_seq_single' (f : nat -> K) n k : k < n ->
  lsum (fun i => if k =? i then f i else 0%K) (seq 0 n) = f k.
Proof.
  intros H. rewrite (lsum_ext _ (fun i => if i =? k then f i else 0%K)).
  - rewrite lsum_seq_single. replace (k <? 0 + n) with true; auto.
    symmetry. apply Nat.ltb_lt. lia.
  - intros i _. rewrite Nat.eqb_sym. reflexivity.
Qed.

(** over an index list without repetition *)
Lemma lsum_list_single (f : nat -> K) l k : NoDup l -> In k l ->
  lsum (fun i => if k =? i then f i else 0%K) l = f k.
Proof.
  intros N. induction N as [|a l NI N IH]; intros H; [contradiction|]. simpl.
  destruct H as [->|H].
  - rewrite Nat.eqb_refl. rewrite lsum_zero; [ring|].
    intros i Hi. destruct (Nat.eqb_spec k i); auto. congruence.
  - rewrite (IH H). destruct (Nat.eqb_spec k a); [congruence|ring].
Qed.

Lemma lsum_perm {A} (f : A -> K) l l' : Permutation.Permutation l l' -> lsum f l = lsum f l'.
Proof. induction 1; simpl; try ring; congruence. Qed.

Lemma lsum_nth {A} (f : A -> K) (l : list A) d :
  lsum f l = lsum (fun i => f (nth i l d)) (seq 0 (length l)).
Proof.
  induction l as [|a l IH]; simpl; auto. rewrite <- seq_shift, lsum_map. simpl. congruence.
Qed.

Lemma lsum_combine {A B} (f : A * B -> K) l l' d d' : length l = length l' ->
  lsum f (combine l l') = lsum (fun i => f (nth i l d, nth i l' d')) (seq 0 (length l)).
Proof.
  intros H. rewrite (lsum_nth _ _ (d, d')), combine_length, <- H, Nat.min_id.
  apply lsum_ext. intros i _. rewrite combine_nth; auto.
Qed.

Lemma lsum_filter {A} (f : A -> K) (p : A -> bool) l :
  lsum f (filter p l) = lsum (fun x => if p x then f x else 0%K) l.
Proof.
  induction l as [|a l IH]; simpl; auto. destruct (p a); simpl; rewrite IH; auto. ring.
Qed.

(** changing some items of a list changes the sum by the differences *)
Lemma lsum_upd {A} (f : A -> K) l i x a : nth_error l i = Some a ->
  lsum f (upd l i x) = (lsum f l + (f x - f a))%K.
Proof.
  revert i. induction l as [|b l IH]; intros [|i] H; simpl in *; try discriminate.
  - injection H as ->. ring.
  - rewrite (IH _ H). ring.
Qed.

Lemma lsum_scatter {A} (f : A -> K) idx vals : forall l old, NoDup idx ->
  Forall2 (fun i a => nth_error l i = Some a) idx old -> length vals = length idx ->
  lsum f (scatter l idx vals)
  = (lsum f l + lsum (fun p => f (fst p) - f (snd p)) (combine vals old))%K.
Proof.
  revert vals. induction idx as [|i idx IH]; intros [|v vals] l old N O L; simpl in *;
    try discriminate.
  - ring.
  - inversion N as [|? ? NI N']; subst. inversion O as [|? a ? old' Ha O']; subst. simpl.
    rewrite (IH vals (upd l i v) old'); auto.
    + rewrite (lsum_upd f l i v a Ha). ring.
    + clear -O' NI. induction O'; constructor.
      * rewrite nth_error_upd_other; auto. intros ->. apply NI. left; auto.
      * apply IHO'. intros C. apply NI. right; auto.
Qed.

(** a condition on the index pulled out of a product *)
Lemma if_mul (b : bool) (x y : K) : ((if b then x else 0) * y)%K = (if b then x * y else 0)%K.
Proof. destruct b; ring. Qed.
Lemma if_lsum {A} (b : bool) (f : A -> K) l :
  (if b then lsum f l else 0%K) = lsum (fun x => if b then f x else 0%K) l.
Proof. destruct b; auto. symmetry. apply lsum_0. Qed.

(** ** sparse matrices *)
Definition wf (M : smat K) : Prop :=
  Forall (fun e => erow e < nrows M /\ ecol e < ncols M) (ents M).

Lemma lsum_zip3 (g : entry K -> K) rows cols data n :
  length rows = n -> length cols = n -> length data = n ->
  lsum g (zip3 rows cols data)
  = lsum (fun i => g (Ent (nth i rows 0) (nth i cols 0) (nth i data 0%K))) (seq 0 n).
Proof.
  intros H1 H2 H3. unfold zip3. rewrite lsum_map.
  rewrite (lsum_combine _ _ _ (0, 0) 0%K) by (rewrite combine_length; lia).
  rewrite combine_length, H1, H2, Nat.min_id. apply lsum_ext. intros i _.
  rewrite combine_nth by lia. reflexivity.
Qed.

Lemma combine_app {A B} (l1 l2 : list A) (m1 m2 : list B) : length l1 = length m1 ->
  combine (l1 ++ l2) (m1 ++ m2) = combine l1 m1 ++ combine l2 m2.
Proof.
  revert m1. induction l1; intros [|b m1] H; simpl in *; try discriminate; auto.
  rewrite IHl1; auto.
Qed.

Lemma zip3_app r1 r2 c1 c2 (d1 d2 : list K) :
  length r1 = length c1 -> length r1 = length d1 ->
  zip3 (r1 ++ r2) (c1 ++ c2) (d1 ++ d2) = zip3 r1 c1 d1 ++ zip3 r2 c2 d2.
Proof.
  intros H1 H2. unfold zip3. rewrite combine_app by auto.
  rewrite combine_app by (rewrite combine_length; lia). apply map_app.
Qed.

Lemma sparse_ok (data : list K) rows cols nr nc M :
  sparse data rows cols nr nc = Ok M ->
  length rows = length data /\ length cols = length data /\
  Forall (fun r => r < nr) rows /\ Forall (fun c => c < nc) cols /\
  M = SM nr nc (zip3 rows cols data).
Proof.
  unfold sparse. destruct (negb _) eqn:E1; [discriminate|].
  apply negb_false_iff in E1.
  destruct (forallb _ rows && _) eqn:E2; [|discriminate]. intros H; injection H as <-.
  apply andb_true_iff in E1. apply andb_true_iff in E2.
  destruct E1 as [A B], E2 as [C D]. apply Nat.eqb_eq in A, B.
  rewrite forallb_forall in C, D.
  repeat split; auto; apply Forall_forall; intros x Hx; apply Nat.ltb_lt; auto.
Qed.

Lemma sparse_def (data : list K) rows cols nr nc :
  length rows = length data -> length cols = length data ->
  Forall (fun r => r < nr) rows -> Forall (fun c => c < nc) cols ->
  sparse data rows cols nr nc = Ok (SM nr nc (zip3 rows cols data)).
Proof.
  intros A B C D. unfold sparse. rewrite A, B, Nat.eqb_refl. simpl.
  rewrite Forall_forall in C, D.
  replace (forallb _ rows) with true
    by (symmetry; apply forallb_forall; intros x Hx; apply Nat.ltb_lt; auto).
  replace (forallb _ cols) with true
    by (symmetry; apply forallb_forall; intros x Hx; apply Nat.ltb_lt; auto).
  reflexivity.
Qed.

Lemma zip3_in rows cols (data : list K) e :
  In e (zip3 rows cols data) -> In (erow e) rows /\ In (ecol e) cols.
Proof.
  unfold zip3. rewrite in_map_iff. intros ([[r c] v] & <- & H).
  apply in_combine_l in H. split; simpl.
  - eapply in_combine_l; eauto.
  - eapply in_combine_r; eauto.
Qed.

Lemma sparse_wf (data : list K) rows cols nr nc M :
  sparse data rows cols nr nc = Ok M -> wf M.
Proof.
  intros H. apply sparse_ok in H. destruct H as (_ & _ & A & B & ->).
  apply Forall_forall. intros e He. apply zip3_in in He. rewrite Forall_forall in A, B.
  simpl. split; [apply A|apply B]; tauto.
Qed.

Lemma mulv_ok (M : smat K) x y : mulv M x = Ok y ->
  length x = ncols M /\ length y = nrows M /\
  forall i, i < nrows M -> nth_error y i = Some (mulrow M x i).
Proof.
  unfold mulv. destruct (Nat.eqb_spec (length x) (ncols M)); [|discriminate].
  intros H; injection H as <-. rewrite map_length, seq_length. repeat split; auto.
  intros i Hi. rewrite nth_error_map, seq_nth_error by auto. reflexivity.
Qed.

Lemma mulv_def (M : smat K) x : length x = ncols M ->
  mulv M x = Ok (map (mulrow M x) (seq 0 (nrows M))).
Proof. unfold mulv. intros ->. rewrite Nat.eqb_refl. reflexivity. Qed.

Lemma mulrow_transp (M : smat K) x j :
  mulrow (transp M) x j
  = lsum (fun e => if ecol e =? j then ev e * nth (erow e) x 0 else 0)%K (ents M).
Proof. unfold mulrow, transp; simpl. apply lsum_map. Qed.

(** rows of a product *)
Lemma mulrow_mulm (a b : list (entry K)) nr nc n x i :
  mulrow (SM nr nc (mulm_ents a b)) x i
  = lsum (fun e => if erow e =? i then ev e * mulrow (SM n nc b) x (ecol e) else 0)%K a.
Proof.
  unfold mulrow at 1, mulm_ents; simpl. rewrite lsum_flat_map. apply lsum_ext. intros e _.
  rewrite lsum_flat_map. unfold mulrow; simpl.
  rewrite <- lsum_scal, if_lsum. apply lsum_ext. intros e' _.
  rewrite (Nat.eqb_sym (erow e') (ecol e)).
  destruct (ecol e =? erow e'); simpl; destruct (erow e =? i); ring.
Qed.

Lemma mulrow_addm nr nc (a b : list (entry K)) x i :
  mulrow (SM nr nc (a ++ b)) x i = (mulrow (SM nr nc a) x i + mulrow (SM nr nc b) x i)%K.
Proof. unfold mulrow; simpl. apply lsum_app. Qed.

(** a row product is the sum over the columns of entry times component *)
Lemma mulrow_at (M : smat K) x i : wf M ->
  mulrow M x i = lsum (fun j => at_ M i j * nth j x 0)%K (seq 0 (ncols M)).
Proof.
  intros W. unfold mulrow, at_.
  rewrite (lsum_ext (fun j => (lsum _ (ents M) * nth j x 0)%K)
     (fun j => lsum (fun e => (if (erow e =? i) && (ecol e =? j) then ev e else 0) * nth j x 0)%K
                 (ents M))).
  2: { intros j _. symmetry. apply lsum_scal_r. }
  rewrite lsum_swap. apply lsum_ext. intros e He.
  unfold wf in W. rewrite Forall_forall in W. destruct (W e He) as [_ Hc].
  destruct (erow e =? i) eqn:E; simpl.
  - rewrite (lsum_ext _ (fun j => if ecol e =? j then ev e * nth j x 0 else 0)%K).
    + symmetry. apply lsum_seq_single'; auto.
    + intros j _. apply if_mul.
  - symmetry. apply lsum_zero. intros; ring.
Qed.

Lemma wf_transp (M : smat K) : wf M -> wf (transp M).
Proof.
  unfold wf, transp; simpl. intros H. apply Forall_map. eapply Forall_impl; [|exact H].
  simpl; tauto.
Qed.

Lemma wf_mulm (A B M : smat K) : wf A -> wf B -> mulm A B = Ok M -> wf M.
Proof.
  unfold mulm. destruct (Nat.eqb_spec (ncols A) (nrows B)) as [E|]; [|discriminate].
  intros WA WB H; injection H as <-. unfold wf in *; simpl.
  rewrite Forall_forall in *. intros e He. unfold mulm_ents in He.
  apply in_flat_map in He. destruct He as (a & Ha & He).
  apply in_flat_map in He. destruct He as (b & Hb & He).
  destruct (ecol a =? erow b); [|contradiction]. destruct He as [<-|[]]. simpl.
  split; [apply (WA a Ha)|apply (WB b Hb)].
Qed.

Lemma mulm_ok (A B M : smat K) : mulm A B = Ok M ->
  ncols A = nrows B /\ M = SM (nrows A) (ncols B) (mulm_ents (ents A) (ents B)).
Proof.
  unfold mulm. destruct (Nat.eqb_spec (ncols A) (nrows B)); [|discriminate].
  intros H; injection H as <-. auto.
Qed.

Lemma nth_map2_d {A B C} (f : A -> B -> C) u v i a b c :
  i < length u -> i < length v -> nth i (map2 f u v) c = f (nth i u a) (nth i v b).
Proof.
  intros H1 H2. unfold map2.
  rewrite (nth_indep _ c (f a b)) by (rewrite map_length, combine_length; lia).
  change (f a b) with ((fun p => f (fst p) (snd p)) (a, b)). rewrite map_nth.
  assert (nth i (combine u v) (a, b) = (nth i u a, nth i v b)) as ->; auto.
  revert i v H1 H2. induction u as [|x u IH]; intros i [|y v] H1 H2; simpl in *; try lia.
  destruct i; auto. apply IH; lia.
Qed.

Lemma mulrow_add (M : smat K) x y i : length x = length y ->
  mulrow M (map2 radd x y) i = (mulrow M x i + mulrow M y i)%K.
Proof.
  intros H. unfold mulrow. rewrite <- lsum_add. apply lsum_ext. intros e _.
  destruct (erow e =? i); [|ring].
  replace (nth (ecol e) (map2 radd x y) 0%K)
    with (nth (ecol e) x 0 + nth (ecol e) y 0)%K; [ring|].
  destruct (Nat.lt_ge_cases (ecol e) (length x)) as [L|L].
  - symmetry. apply nth_map2_d; lia.
  - rewrite (nth_overflow x), (nth_overflow y) by lia.
    rewrite nth_overflow; [ring|]. unfold map2. rewrite map_length, combine_length. lia.
Qed.

Lemma mulrow_ext (M : smat K) x y i :
  wf M -> (forall j, j < ncols M -> nth j x 0%K = nth j y 0%K) -> mulrow M x i = mulrow M y i.
Proof.
  intros W H. apply lsum_ext. intros e He. unfold wf in W. rewrite Forall_forall in W.
  destruct (erow e =? i); auto. rewrite H; auto. apply (W e He).
Qed.

Lemma ewise_ok {A B C} (f : A -> B -> C) u v w : ewise f u v = Ok w ->
  length u = length v /\ w = map2 f u v.
Proof.
  unfold ewise. destruct (Nat.eqb_spec (length u) (length v)); [|discriminate].
  intros H; injection H as <-; auto.
Qed.

(** columns of a table *)
Lemma col_ok j (t : list (list K)) c : col j t = Ok c ->
  Forall (fun r => j < length r) t /\ c = map (fun r => nth j r 0%K) t.
Proof.
  unfold col. revert c. induction t as [|r t IH]; intros c H; simpl in H.
  - injection H as <-. auto.
  - apply bind_ok in H. destruct H as (y & Hy & H). apply bind_ok in H.
    destruct H as (ys & Hys & H). injection H as <-. destruct (IH _ Hys) as [A ->].
    apply get_ok in Hy. split.
    + constructor; auto. eapply nth_error_some_lt; eauto.
    + simpl. f_equal. symmetry. apply nth_error_nth. auto.
Qed.

Lemma col_def j (t : list (list K)) : Forall (fun r => j < length r) t ->
  col j t = Ok (map (fun r => nth j r 0%K) t).
Proof.
  unfold col. induction 1 as [|r t H _ IH]; simpl; auto.
  destruct (nth_error_lt r j H) as (x & Hx).
  rewrite (proj2 (get_ok r j x) Hx). simpl. rewrite IH. simpl. repeat f_equal.
  symmetry. apply nth_error_nth. auto.
Qed.
End Facts.
