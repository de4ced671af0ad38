(** Entries of sums, products, transposes and diagonal matrices. *)
From Verif Require Import Lib.ListFacts Lib.Sparse Proofs.LinAlgFacts Proofs.SparseFacts.
Local Open Scope nat_scope.

(** [M] is a [nr] x [nc] matrix with entries [f] *)
Definition ismat {K} {R : Rng K} (M : smat K) (nr nc : nat) (f : nat -> nat -> K) : Prop :=
  wf M /\ nrows M = nr /\ ncols M = nc /\
  forall i j, i < nr -> j < nc -> at_ M i j = f i j.

Section Mat.
Context {K : Type} {R : Rng K}.
Add Ring KR : (@r_ok K _).

Lemma ismat_refl (M : smat K) : wf M -> ismat M (nrows M) (ncols M) (at_ M).
Proof. repeat split; auto. Qed.

Lemma ismat_eq (M : smat K) nr nc f g :
  ismat M nr nc f -> (forall i j, i < nr -> j < nc -> f i j = g i j) -> ismat M nr nc g.
Proof. intros (W & A & B & H) E. repeat split; auto. intros. rewrite H; auto. Qed.

Lemma wf_addm (A B M : smat K) : wf A -> wf B -> addm A B = Ok M -> wf M.
Proof.
  unfold addm. destruct (Nat.eqb_spec (nrows A) (nrows B)) as [E1|]; simpl; [|discriminate].
  destruct (Nat.eqb_spec (ncols A) (ncols B)) as [E2|]; simpl; [|discriminate].
  intros WA WB H; injection H as <-. unfold wf in *; simpl. apply Forall_app. split; auto.
  rewrite E1, E2; auto.
Qed.

Lemma ismat_add (A B : smat K) nr nc f g : ismat A nr nc f -> ismat B nr nc g ->
  exists M, addm A B = Ok M /\ ismat M nr nc (fun i j => f i j + g i j)%K.
Proof.
  intros (WA & A1 & A2 & HA) (WB & B1 & B2 & HB).
  assert (E : addm A B = Ok (SM (nrows A) (ncols A) (ents A ++ ents B))).
  { unfold addm. rewrite A1, A2, B1, B2, !Nat.eqb_refl. reflexivity. }
  eexists; split; [exact E|]. split; [|split; [|split]]; auto.
  - eapply wf_addm; [exact WA|exact WB|exact E].
  - intros i j Hi Hj. rewrite <- HA, <- HB by auto. unfold at_; simpl. apply lsum_app.
Qed.

Lemma at_mulm_ents (a b : list (entry K)) nr nc n m i j :
  Forall (fun e => ecol e < n) a ->
  at_ (SM nr nc (mulm_ents a b)) i j
  = lsum (fun k => at_ (SM nr n a) i k * at_ (SM n m b) k j)%K (seq 0 n).
Proof.
  intros W. unfold at_ at 1, mulm_ents; simpl. rewrite lsum_flat_map.
  rewrite (lsum_ext (fun k => at_ (SM nr n a) i k * at_ (SM n m b) k j)%K
     (fun k => lsum (fun e => (if (erow e =? i) && (ecol e =? k) then ev e else 0)
                              * at_ (SM n m b) k j)%K a)).
  2: { intros k _. rewrite lsum_scal_r. reflexivity. }
  rewrite lsum_swap. apply lsum_ext. intros e He. rewrite Forall_forall in W.
  rewrite (lsum_ext _ (fun k => if ecol e =? k
      then (if erow e =? i then ev e * at_ (SM n m b) k j else 0)%K else 0%K)).
  2: { intros k _. destruct (erow e =? i), (ecol e =? k); simpl; ring. }
  rewrite (lsum_seq_single' (fun k => if erow e =? i then (ev e * at_ (SM n m b) k j)%K else 0%K))
    by auto.
  rewrite lsum_flat_map. unfold at_; simpl. destruct (erow e =? i) eqn:Ei.
  - rewrite <- lsum_scal. apply lsum_ext. intros e' _.
    rewrite (Nat.eqb_sym (ecol e)). destruct (erow e' =? ecol e) eqn:Ee; simpl.
    + rewrite Ei. simpl. destruct (ecol e' =? j); ring.
    + ring.
  - apply lsum_zero. intros e' _. destruct (ecol e =? erow e'); simpl; auto.
    rewrite Ei; simpl. ring.
Qed.

Lemma ismat_mul (A B : smat K) nr n nc f g : ismat A nr n f -> ismat B n nc g ->
  exists M, mulm A B = Ok M /\
    ismat M nr nc (fun i j => lsum (fun k => f i k * g k j) (seq 0 n))%K.
Proof.
  intros (WA & A1 & A2 & HA) (WB & B1 & B2 & HB).
  assert (E : mulm A B = Ok (SM (nrows A) (ncols B) (mulm_ents (ents A) (ents B)))).
  { unfold mulm. rewrite A2, B1, Nat.eqb_refl. reflexivity. }
  eexists; split; [exact E|]. split; [|split; [|split]]; auto.
  - eapply wf_mulm; [exact WA|exact WB|exact E].
  - intros i j Hi Hj. destruct A as [ra ca a], B as [rb cb b]. simpl in *. subst.
    rewrite (at_mulm_ents a b nr nc n nc).
    2: { unfold wf in WA; simpl in WA. eapply Forall_impl; [|exact WA]. simpl; tauto. }
    apply lsum_ext. intros k Hk. apply in_seq in Hk. rewrite HA, HB by lia. reflexivity.
Qed.

Lemma ismat_transp (A : smat K) nr nc f : ismat A nr nc f ->
  ismat (transp A) nc nr (fun i j => f j i).
Proof.
  intros (WA & A1 & A2 & HA). split; [apply wf_transp; auto|]. repeat split; auto.
  intros i j Hi Hj. rewrite <- HA by auto. unfold at_, transp; simpl. rewrite lsum_map. apply lsum_ext.
  intros e _; simpl. rewrite andb_comm. reflexivity.
Qed.

Lemma at_diag_ents (v : list K) nr nc i j :
  at_ (SM nr nc (zip3 (seq 0 (length v)) (seq 0 (length v)) v)) i j
  = if i =? j then nth i v 0%K else 0%K.
Proof.
  unfold at_; simpl. rewrite (lsum_zip3 _ _ _ _ (length v)); rewrite ?seq_length; auto. simpl.
  destruct (Nat.lt_ge_cases i (length v)) as [L|L].
  - rewrite (lsum_ext _ (fun k => if k =? i then (if i =? j then nth i v 0 else 0) else 0)%K).
    + rewrite lsum_seq_single. simpl.
      replace (i <? length v) with true by (symmetry; apply Nat.ltb_lt; auto). auto.
    + intros k Hk. apply in_seq in Hk. rewrite !seq_nth by lia. simpl.
      destruct (Nat.eqb_spec k i); simpl; auto. subst. reflexivity.
  - rewrite nth_overflow by auto.
    rewrite lsum_zero; [destruct (i =? j); auto|].
    intros k Hk. apply in_seq in Hk. rewrite !seq_nth by lia. simpl.
    destruct (Nat.eqb_spec k i); auto. lia.
Qed.

Lemma ismat_diag (v : list K) n : length v = n -> 0 < n ->
  exists M, diagm v = Ok M /\ ismat M n n (fun i j => if i =? j then nth i v 0%K else 0%K).
Proof.
  intros <- P. exists (SM (length v) (length v) (zip3 (seq 0 (length v)) (seq 0 (length v)) v)).
  split; [destruct v; [simpl in P; lia|reflexivity]|].
  split; [|repeat split; auto; intros; apply at_diag_ents].
  apply Forall_forall. intros e He. apply zip3_in in He. simpl.
  destruct He as [H1 H2]. apply in_seq in H1, H2. lia.
Qed.

(** products with a diagonal matrix scale rows or columns *)
Lemma ismat_diag_mul (v : list K) A B n nc g : length v = n ->
  ismat A n n (fun i j => if i =? j then nth i v 0 else 0)%K -> ismat B n nc g ->
  exists M, mulm A B = Ok M /\ ismat M n nc (fun i j => nth i v 0 * g i j)%K.
Proof.
  intros L HA HB. destruct (ismat_mul A B n n nc _ _ HA HB) as (M & E & HM).
  exists M. split; auto. eapply ismat_eq; [exact HM|]. intros i j Hi Hj. cbv beta.
  rewrite (lsum_ext _ (fun k => if i =? k then (nth i v 0 * g i j) else 0)%K).
  - apply (lsum_seq_single' (fun k => (nth i v 0 * g i j)%K)); auto.
  - intros k _. destruct (Nat.eqb_spec i k); subst; ring.
Qed.

Lemma ismat_mul_diag (v : list K) A B n nr g : length v = n ->
  ismat A nr n g -> ismat B n n (fun i j => if i =? j then nth i v 0 else 0)%K ->
  exists M, mulm A B = Ok M /\ ismat M nr n (fun i j => g i j * nth j v 0)%K.
Proof.
  intros L HA HB. destruct (ismat_mul A B nr n n _ _ HA HB) as (M & E & HM).
  exists M. split; auto. eapply ismat_eq; [exact HM|]. intros i j Hi Hj. cbv beta.
  rewrite (lsum_ext _ (fun k => if j =? k then (g i j * nth j v 0) else 0)%K).
  - apply (lsum_seq_single' (fun k => (g i j * nth j v 0)%K)); auto.
  - intros k _. rewrite (Nat.eqb_sym j k). destruct (Nat.eqb_spec k j); subst; ring.
Qed.

Lemma ismat_mulv (A : smat K) nr n f (x : list K) : ismat A nr n f -> length x = n ->
  exists y, mulv A x = Ok y /\ length y = nr /\
    forall i, i < nr -> nth i y 0%K = lsum (fun k => f i k * nth k x 0)%K (seq 0 n).
Proof.
  intros (WA & A1 & A2 & HA) L. eexists. split; [apply mulv_def; congruence|].
  rewrite map_length, seq_length. split; auto. intros i Hi.
  rewrite (nth_map_lt _ _ _ _ 0) by (rewrite seq_length; lia). rewrite seq_nth by lia. simpl.
  rewrite mulrow_at by auto. rewrite A2. apply lsum_ext. intros k Hk. apply in_seq in Hk.
  rewrite HA; auto. lia.
Qed.

(** [sparse((data, (range(n), cols)), (n, nc))] *)
Lemma ismat_rows (data : list K) cols n nc :
  length data = n -> length cols = n -> Forall (fun c => c < nc) cols ->
  exists M, sparse data (seq 0 n) cols n nc = Ok M /\
    ismat M n nc (fun i j => if nth i cols 0%nat =? j then nth i data 0 else 0)%K.
Proof.
  intros L1 L2 C. assert (E : sparse data (seq 0 n) cols n nc = Ok (SM n nc (zip3 (seq 0 n) cols data))).
  { apply sparse_def; rewrite ?seq_length; auto; try congruence.
    apply Forall_forall. intros x Hx. apply in_seq in Hx. lia. }
  eexists; split; [exact E|]. split; [eapply sparse_wf; exact E|]. repeat split; auto.
  intros i j Hi Hj. unfold at_; simpl. rewrite (lsum_zip3 _ _ _ _ n); rewrite ?seq_length; auto.
  cbn [erow ecol ev].
  rewrite (lsum_ext _ (fun k => if k =? i
      then (if nth i cols 0%nat =? j then nth i data 0 else 0) else 0)%K).
  - rewrite lsum_seq_single. simpl.
    replace (i <? n) with true by (symmetry; apply Nat.ltb_lt; auto). auto.
  - intros k Hk. apply in_seq in Hk. rewrite !seq_nth by lia. simpl.
    destruct (Nat.eqb_spec k i); simpl; auto. subst. reflexivity.
Qed.
End Mat.

Lemma lsum_hom {K L} {RK : Rng K} {RL : Rng L} (f : K -> L) {A} (g : A -> K) l :
  f 0%K = 0%K -> (forall a b, f (a + b)%K = (f a + f b)%K) ->
  f (lsum g l) = lsum (fun x => f (g x)) l.
Proof. intros H0 HA. induction l; simpl; auto. rewrite HA, IHl. reflexivity. Qed.

Lemma ismat_mapm {K L} {RK : Rng K} {RL : Rng L} (f : K -> L) (M : smat K) nr nc g :
  f 0%K = 0%K -> (forall a b, f (a + b)%K = (f a + f b)%K) ->
  ismat M nr nc g -> ismat (mapm f M) nr nc (fun i j => f (g i j)).
Proof.
  intros H0 HA (W & A & B & H). split; [|split; [|split]]; auto.
  - unfold wf in *; simpl. apply Forall_map. exact W.
  - intros i j Hi Hj. rewrite <- H by auto. unfold at_ at 2. rewrite (lsum_hom f) by auto.
    unfold at_, mapm; simpl. rewrite lsum_map. apply lsum_ext. intros e _. simpl.
    destruct (_ && _); auto.
Qed.
