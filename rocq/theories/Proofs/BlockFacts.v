(** Rows of stacked, selected and negated sparse matrices. *)
From Verif Require Import Lib.ListFacts Model.Pips Spec.PipsSpec Proofs.LinAlgFacts Proofs.SparseFacts
  Proofs.FldFacts Proofs.OrdFacts Proofs.NetworkB Proofs.AcPfA.
Local Open Scope nat_scope.

Section Blocks.
Context {K : Type} {R : Rng K}.
Add Ring KR : (@r_ok K R).

Definition rowsv (M : smat K) (x : list K) : list K := map (mulrow M x) (seq 0 (nrows M)).

Lemma mulv_rowsv (M : smat K) x v : mulv M x = Ok v -> length x = ncols M /\ v = rowsv M x.
Proof.
  unfold mulv. destruct (Nat.eqb_spec (length x) (ncols M)); [|discriminate].
  intros H; injection H as <-. auto.
Qed.

Lemma rowsv_length (M : smat K) x : length (rowsv M x) = nrows M.
Proof. unfold rowsv. rewrite map_length, seq_length. auto. Qed.

Lemma nth_rowsv (M : smat K) x i : i < nrows M -> nth i (rowsv M x) 0%K = mulrow M x i.
Proof.
  intros H. unfold rowsv. rewrite (nth_map_lt _ _ _ _ 0) by (rewrite seq_length; auto).
  rewrite seq_nth by auto. reflexivity.
Qed.

Lemma mulrow_app nr nc (a b : list (entry K)) x i :
  mulrow (SM nr nc (a ++ b)) x i = (mulrow (SM nr nc a) x i + mulrow (SM nr nc b) x i)%K.
Proof. unfold mulrow. simpl. apply lsum_app. Qed.

Lemma map_seq_split {A} (f : nat -> A) n m :
  map f (seq 0 (n + m)) = map f (seq 0 n) ++ map (fun i => f (n + i)) (seq 0 m).
Proof.
  rewrite seq_app, map_app. f_equal. simpl. revert f n.
  induction m as [|m IH]; intros f n; simpl; auto.
  rewrite Nat.add_0_r. f_equal. rewrite IH. rewrite <- seq_shift, map_map.
  apply map_ext. intros i. f_equal. lia.
Qed.

Lemma vstackm_ok (A B M : smat K) : vstackm A B = Ok M ->
  ncols A = ncols B /\ nrows M = nrows A + nrows B /\ ncols M = ncols A.
Proof.
  unfold vstackm. destruct (Nat.eqb_spec (ncols A) (ncols B)); [|discriminate].
  intros H; injection H as <-. auto.
Qed.

Lemma wf_vstackm (A B M : smat K) : wf A -> wf B -> vstackm A B = Ok M -> wf M.
Proof.
  unfold vstackm. destruct (Nat.eqb_spec (ncols A) (ncols B)) as [E|]; [|discriminate].
  intros WA WB H; injection H as <-. unfold wf in *. simpl. apply Forall_app. split.
  - eapply Forall_impl; [|exact WA]. simpl. intros e []; lia.
  - apply Forall_map. eapply Forall_impl; [|exact WB]. simpl. intros e []; lia.
Qed.

Lemma mulrow_vstackm (A B M : smat K) x i : wf A -> vstackm A B = Ok M ->
  mulrow M x i = if i <? nrows A then mulrow A x i else mulrow B x (i - nrows A).
Proof.
  unfold vstackm. destruct (Nat.eqb_spec (ncols A) (ncols B)) as [E|]; [|discriminate].
  intros WA H; injection H as <-. unfold mulrow. simpl. rewrite lsum_app, lsum_map. simpl.
  destruct (Nat.ltb_spec i (nrows A)).
  - rewrite (lsum_zero _ (ents B)); [ring|]. intros e _.
    destruct (Nat.eqb_spec (nrows A + erow e) i); [lia|auto].
  - rewrite (lsum_zero _ (ents A)).
    + rewrite (lsum_ext _ (fun e => if erow e =? i - nrows A then ev e * nth (ecol e) x 0 else 0)%K).
      * ring.
      * intros e _. destruct (Nat.eqb_spec (nrows A + erow e) i), (Nat.eqb_spec (erow e) (i - nrows A));
          auto; lia.
    + intros e He. unfold wf in WA. rewrite Forall_forall in WA. specialize (WA e He) as [].
      destruct (Nat.eqb_spec (erow e) i); [lia|auto].
Qed.

Lemma rowsv_vstackm (A B M : smat K) x : wf A -> vstackm A B = Ok M ->
  rowsv M x = rowsv A x ++ rowsv B x.
Proof.
  intros WA H. pose proof (vstackm_ok _ _ _ H) as (_ & NR & _).
  unfold rowsv. rewrite NR, map_seq_split. f_equal.
  - apply map_ext_in. intros i Hi. apply in_seq in Hi.
    rewrite (mulrow_vstackm _ _ _ _ _ WA H). destruct (Nat.ltb_spec i (nrows A)); auto; lia.
  - apply map_ext. intros i. rewrite (mulrow_vstackm _ _ _ _ _ WA H).
    destruct (Nat.ltb_spec (nrows A + i) (nrows A)); [lia|]. f_equal. lia.
Qed.

Lemma rowsel_ok (A M : smat K) idx : rowsel A idx = Ok M ->
  Forall (fun i => i < nrows A) idx /\ nrows M = length idx /\ ncols M = ncols A.
Proof.
  unfold rowsel. destruct (forallb _ idx) eqn:E; [|discriminate]. intros H; injection H as <-.
  split; auto. rewrite forallb_forall in E. apply Forall_forall. intros i Hi.
  specialize (E i Hi). apply Nat.ltb_lt in E. auto.
Qed.

Lemma in_combine_seq {A} (l : list A) a p x : In (p, x) (combine (seq a (length l)) l) ->
  a <= p < a + length l /\ nth_error l (p - a) = Some x.
Proof.
  revert a. induction l as [|y l IH]; intros a; simpl; [tauto|].
  intros [H|H].
  - injection H as -> ->. split; [lia|]. rewrite Nat.sub_diag. reflexivity.
  - apply IH in H as (H & E). split; [lia|]. replace (p - a) with (S (p - S a)) by lia. auto.
Qed.

Lemma wf_rowsel (A M : smat K) idx : wf A -> rowsel A idx = Ok M -> wf M.
Proof.
  unfold rowsel. intros W. destruct (forallb _ idx) eqn:E; [|discriminate]. intros H; injection H as <-.
  unfold wf in *. simpl. apply Forall_forall. intros e He. apply in_flat_map in He as ((p & i) & Hp & He).
  simpl in He. apply in_map_iff in He as (e' & <- & He'). apply filter_In in He' as (He' & _). simpl.
  apply in_combine_seq in Hp as (Hp & _). rewrite Forall_forall in W. specialize (W e' He'). lia.
Qed.

Lemma mulrow_rowsel (A M : smat K) idx x p i : rowsel A idx = Ok M -> nth_error idx p = Some i ->
  mulrow M x p = mulrow A x i.
Proof.
  unfold rowsel. destruct (forallb _ idx) eqn:E; [|discriminate]. intros H Hp; injection H as <-.
  unfold mulrow. simpl. rewrite lsum_flat_map.
  assert (forall q k, lsum (fun e => if erow e =? p then ev e * nth (ecol e) x 0 else 0)%K
            (map (fun e => Ent q (ecol e) (ev e)) (filter (fun e => erow e =? k) (ents A)))
          = if q =? p then mulrow A x k else 0%K) as Q.
  { intros q k. rewrite lsum_map. simpl. destruct (Nat.eqb_spec q p).
    - rewrite lsum_filter. reflexivity.
    - apply lsum_zero. auto. }
  clear E. rewrite (lsum_ext _ (fun q => if fst q =? p then mulrow A x (snd q) else 0%K)).
  2:{ intros q _. apply Q. }
  clear Q. assert (forall a, lsum (fun q => if fst q =? a + p then mulrow A x (snd q) else 0%K)
                       (combine (seq a (length idx)) idx) = mulrow A x i) as G.
  { revert p Hp. induction idx as [|k idx IH]; intros [|p] Hp a; try discriminate; simpl in *.
    - injection Hp as ->. rewrite Nat.add_0_r, Nat.eqb_refl. rewrite lsum_zero; [ring|].
      intros (q & j) Hq. apply in_combine_l in Hq. apply in_seq in Hq. simpl.
      destruct (Nat.eqb_spec q a); [lia|auto].
    - specialize (IH p Hp (S a)). replace (a + S p) with (S a + p) by lia.
      destruct (Nat.eqb_spec a (S a + p)); [lia|]. rewrite IH. ring. }
  apply (G 0).
Qed.

Lemma rowsv_rowsel (A M : smat K) idx x : rowsel A idx = Ok M -> rowsv M x = map (mulrow A x) idx.
Proof.
  intros H. pose proof (rowsel_ok _ _ _ H) as (_ & NR & _). apply (nth_error_ext _ _).
  intros p. unfold rowsv. rewrite NR.
  destruct (lt_dec p (length idx)) as [L|L].
  - destruct (nth_error_lt idx p L) as (i & Hi).
    rewrite !nth_error_map, Hi, seq_nth_error by auto. simpl. f_equal. eapply mulrow_rowsel; eauto.
  - transitivity (@None K); [|symmetry]; apply nth_error_None; rewrite map_length, ?seq_length; lia.
Qed.

Lemma mulrow_opp (M : smat K) x i : mulrow (mapm ropp M) x i = (- mulrow M x i)%K.
Proof.
  unfold mulrow. simpl. rewrite lsum_map. simpl. rewrite <- lsum_opp. apply lsum_ext. intros e _.
  destruct (erow e =? i); ring.
Qed.
Lemma rowsv_opp (M : smat K) x : rowsv (mapm ropp M) x = map ropp (rowsv M x).
Proof. unfold rowsv. simpl. rewrite map_map. apply map_ext. intros i. apply mulrow_opp. Qed.
Lemma wf_opp (M : smat K) : wf M -> wf (mapm ropp M).
Proof. unfold wf. simpl. intros W. apply Forall_map. exact W. Qed.

Lemma mulrow_eyem n x i : i < n -> mulrow (eyem n) x i = nth i x 0%K.
Proof.
  intros H. unfold mulrow, eyem. simpl. rewrite (lsum_zip3 _ _ _ _ n) by
    (rewrite ?seq_length, ?repeat_length; auto).
  rewrite (lsum_ext _ (fun k => if i =? k then nth k x 0%K else 0%K)).
  2:{ intros k Hk. apply in_seq in Hk. simpl. rewrite seq_nth by lia. simpl.
      rewrite (Nat.eqb_sym i k). destruct (k =? i); auto. rewrite nth_repeat_lt by lia. ring. }
  rewrite lsum_seq_single' with (f := fun k => nth k x 0%K); auto.
Qed.
Lemma wf_eyem n : wf (eyem (K := K) n).
Proof.
  unfold wf, eyem. simpl. apply Forall_forall. intros e He. apply zip3_in in He as (A & B).
  apply in_seq in A. apply in_seq in B. lia.
Qed.

Lemma hstackm_ok (A B M : smat K) : hstackm A B = Ok M ->
  nrows A = nrows B /\ nrows M = nrows A /\ ncols M = ncols A + ncols B.
Proof.
  unfold hstackm. destruct (Nat.eqb_spec (nrows A) (nrows B)); [|discriminate].
  intros H; injection H as <-. auto.
Qed.
Lemma wf_hstackm (A B M : smat K) : wf A -> wf B -> hstackm A B = Ok M -> wf M.
Proof.
  unfold hstackm. destruct (Nat.eqb_spec (nrows A) (nrows B)) as [E|]; [|discriminate].
  intros WA WB H; injection H as <-. unfold wf in *. simpl. apply Forall_app. split.
  - eapply Forall_impl; [|exact WA]. simpl. intros e []; lia.
  - apply Forall_map. eapply Forall_impl; [|exact WB]. simpl. intros e []; lia.
Qed.
Lemma mulrow_hstackm (A B M : smat K) u v i : wf A -> length u = ncols A -> hstackm A B = Ok M ->
  mulrow M (u ++ v) i = (mulrow A u i + mulrow B v i)%K.
Proof.
  unfold hstackm. destruct (Nat.eqb_spec (nrows A) (nrows B)) as [E|]; [|discriminate].
  intros WA L H; injection H as <-. unfold mulrow. simpl. rewrite lsum_app, lsum_map. simpl. f_equal.
  - apply lsum_ext. intros e He. unfold wf in WA. rewrite Forall_forall in WA.
    specialize (WA e He) as []. rewrite app_nth1 by lia. auto.
  - apply lsum_ext. intros e _. rewrite app_nth2 by lia. rewrite L.
    replace (ncols A + ecol e - ncols A) with (ecol e) by lia. auto.
Qed.
Lemma rowsv_hstackm (A B M : smat K) u v : wf A -> length u = ncols A -> hstackm A B = Ok M ->
  rowsv M (u ++ v) = map2 radd (rowsv A u) (rowsv B v).
Proof.
  intros WA L H. pose proof (hstackm_ok _ _ _ H) as (E & NR & _). unfold rowsv.
  rewrite <- E, NR, map2_map. apply map_ext. intros i. apply mulrow_hstackm; auto.
Qed.
End Blocks.
