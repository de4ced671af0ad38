(** Successive updates of columns of a table, described cell by cell. *)
From Verif Require Import Lib.ListFacts Model.DcOpf Spec.DcSpec Proofs.SparseFacts Proofs.NetworkD Proofs.PfsolnA Proofs.AcPfB.
Local Open Scope nat_scope.

Section TableEdit.
Context {K : Type} {F : Fld K}.

(** [g i j] is the new value of cell j of row i, if it changes *)
Definition edit (t t' : list (list K)) (g : nat -> nat -> option K) : Prop :=
  length t' = length t /\
  forall i r, nth_error t i = Some r -> exists r', nth_error t' i = Some r' /\ length r' = length r /\
    forall j, cell r' j = match g i j with Some v => v | None => cell r j end.

Definition over (g1 g2 : nat -> nat -> option K) (i j : nat) : option K :=
  match g2 i j with Some v => Some v | None => g1 i j end.
Lemma edit_trans t1 t2 t3 g1 g2 : edit t1 t2 g1 -> edit t2 t3 g2 -> edit t1 t3 (over g1 g2).
Proof.
  intros (L1 & H1) (L2 & H2). split; [congruence|]. intros i r Hr.
  destruct (H1 i r Hr) as (r1 & A1 & A2 & A3). destruct (H2 i r1 A1) as (r2 & B1 & B2 & B3).
  exists r2. split; auto. split; [congruence|]. intros j. rewrite B3, A3. unfold over. destruct (g2 i j); auto.
Qed.

Lemma edit_setcol j vals (t t' : list (list K)) : setcol j vals t = Ok t' ->
  length vals = length t /\ edit t t' (fun i k => if k =? j then Some (nth i vals 0%K) else None).
Proof.
  intros H. apply setcol_ok in H as (L & W & ->). split; auto. split.
  - unfold map2. rewrite map_length, combine_length. lia.
  - intros i r Hr. pose proof (nth_error_some_lt _ _ _ Hr) as Li.
    exists (upd r j (nth i vals 0%K)). split.
    + rewrite (nth_error_nth' _ []) by (unfold map2; rewrite map_length, combine_length; lia).
      rewrite nth_setcol by auto. rewrite (nth_error_nth _ _ _ Hr). reflexivity.
    + split; [apply upd_length|]. rewrite Forall_forall in W. specialize (W r (nth_error_In _ _ Hr)).
      intros k. unfold cell. rewrite (nth_upd_d r j) by auto. rewrite Nat.eqb_sym. destruct (k =? j); auto.
Qed.

Lemma edit_refl (t : list (list K)) : edit t t (fun _ _ => None).
Proof. split; auto. intros i r Hr. exists r. auto. Qed.
Lemma edit_ext t t' g g' : (forall i j, g i j = g' i j) -> edit t t' g -> edit t t' g'.
Proof. intros E (L & H). split; auto. intros i r Hr. destruct (H i r Hr) as (r' & A & B & C). exists r'.
  split; auto. split; auto. intros j. rewrite C, E. reflexivity. Qed.

Lemma edit_zero cs (t t' : list (list K)) : zero_cols cs t = Ok t' ->
  edit t t' (fun _ k => if existsb (Nat.eqb k) cs then Some 0%K else None).
Proof.
  unfold zero_cols. revert t. induction cs as [|c cs IH]; intros t H; simpl in H.
  - injection H as <-. apply edit_refl.
  - apply bind_ok in H as (t1 & H1 & H). apply edit_setcol in H1 as (_ & E1). specialize (IH _ H).
    eapply edit_ext; [|exact (edit_trans _ _ _ _ _ E1 IH)]. intros i j. unfold over. simpl.
    destruct (existsb (Nat.eqb j) cs); [rewrite orb_true_r; auto|]. rewrite orb_false_r.
    destruct (j =? c); auto. rewrite nth_repeat. reflexivity.
Qed.

Fixpoint posn (i : nat) (l : list nat) : option nat :=
  match l with
  | [] => None
  | k :: l => if k =? i then Some 0 else option_map S (posn i l)
  end.
Lemma posn_some i l p : posn i l = Some p -> nth_error l p = Some i.
Proof.
  revert p. induction l as [|k l IH]; simpl; intros p H; [discriminate|].
  destruct (Nat.eqb_spec k i); [injection H as <-; subst; auto|].
  destruct (posn i l) as [q|]; [|discriminate]. injection H as <-. simpl. auto.
Qed.
Lemma posn_none i l : posn i l = None <-> ~ In i l.
Proof.
  induction l as [|k l IH]; simpl; [tauto|]. destruct (Nat.eqb_spec k i); [split; [discriminate|tauto]|].
  destruct (posn i l); simpl; [split; [discriminate|]|tauto]. intros H. exfalso.
  assert (Some n0 = None) by (apply IH; tauto). discriminate.
Qed.
Lemma posn_nth i l p : NoDup l -> nth_error l p = Some i -> posn i l = Some p.
Proof.
  intros ND Hp. destruct (posn i l) as [q|] eqn:E.
  - apply posn_some in E. f_equal. apply (proj1 (NoDup_nth_error l) ND); [eapply nth_error_some_lt; eauto|congruence].
  - apply posn_none in E. exfalso. apply E. eapply nth_error_In; eauto.
Qed.

Lemma edit_set_rows rows j vals (t t' : list (list K)) : NoDup rows -> set_rows t rows j vals = Ok t' ->
  length vals = length rows /\
  edit t t' (fun i k => if k =? j then option_map (fun p => nth p vals 0%K) (posn i rows) else None).
Proof.
  intros ND H. destruct (set_rows_ok _ _ _ _ _ ND H) as (L & L' & O & N). split; auto. split; auto.
  intros i r Hr. destruct (posn i rows) as [p|] eqn:E.
  - apply posn_some in E. destruct (N p i E) as (r0 & Hr0 & W & Hn). assert (r0 = r) as -> by congruence.
    exists (upd r j (nth p vals 0%K)). split; auto. split; [apply upd_length|]. intros k. unfold cell.
    rewrite (nth_upd_d r j) by auto. rewrite Nat.eqb_sym. destruct (k =? j); auto.
  - apply posn_none in E. exists r. rewrite (O i E). split; auto. split; auto. intros k. destruct (k =? j); auto.
Qed.
End TableEdit.
