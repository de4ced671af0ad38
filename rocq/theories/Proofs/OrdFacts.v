(** Order reasoning in an arbitrary ordered field: [lt] and [le] as propositions. *)
From Verif Require Export Spec.PipsSpec Proofs.FldFacts.
Local Open Scope fld_scope.

Section Ord.
Context {K : Type} {F : Fld K}.
Add Field KF : (@f_ok K F).

Lemma lt_le a b : lt a b -> le a b.
Proof. apply flt_asym. Qed.
Lemma le_refl a : le a a.
Proof. apply f_lt_irrefl. Qed.
Lemma le_cases a b : le a b -> a = b \/ lt a b.
Proof. intros H. apply fnlt in H as [->|H]; auto. Qed.
Lemma lt_not_le a b : lt a b -> le b a -> False.
Proof. unfold lt, le. congruence. Qed.
Lemma lt_irrefl a : lt a a -> False.
Proof. unfold lt. rewrite f_lt_irrefl. discriminate. Qed.
Lemma not_lt a b : ~ lt a b -> le b a.
Proof. unfold lt, le. destruct (fltb a b); congruence. Qed.
Lemma not_le a b : ~ le a b -> lt b a.
Proof. unfold lt, le. destruct (fltb b a); congruence. Qed.
Lemma lt_le_dec a b : {lt a b} + {le b a}.
Proof. unfold lt, le. destruct (fltb a b); auto. Qed.
Lemma lt_trans a b c : lt a b -> lt b c -> lt a c.
Proof. apply f_lt_trans. Qed.
Lemma le_lt_trans a b c : le a b -> lt b c -> lt a c.
Proof. intros H. apply le_cases in H as [->|H]; auto. apply lt_trans; auto. Qed.
Lemma lt_le_trans a b c : lt a b -> le b c -> lt a c.
Proof. intros A H. apply le_cases in H as [<-|H]; auto. eapply lt_trans; eauto. Qed.
Lemma le_trans a b c : le a b -> le b c -> le a c.
Proof. intros A H. apply le_cases in H as [<-|H]; auto. apply lt_le. eapply le_lt_trans; eauto. Qed.
Lemma le_antisym a b : le a b -> le b a -> a = b.
Proof. intros A B. apply le_cases in A as [->|A]; auto. exfalso. eapply lt_not_le; eauto. Qed.
Lemma lt_ne a b : lt a b -> a <> b.
Proof. intros H ->. eapply lt_irrefl; eauto. Qed.
Lemma pos_nz a : lt 0 a -> a <> 0.
Proof. intros H C. subst. eapply lt_irrefl; eauto. Qed.

Lemma lt_sub a b : lt a b <-> lt 0 (b - a).
Proof.
  split; intros H.
  - apply (f_lt_add _ _ (- a)) in H. replace (a + - a) with (0 : K) in H by ring.
    replace (b + - a) with (b - a) in H by ring. exact H.
  - apply (f_lt_add _ _ a) in H. replace (0 + a) with a in H by ring.
    replace (b - a + a) with b in H by ring. exact H.
Qed.
Lemma le_sub a b : le a b <-> le 0 (b - a).
Proof.
  split; intros H; apply not_lt; intros C.
  - apply lt_sub in C. replace (0 - (b - a)) with (a - b) in C by ring. apply lt_sub in C.
    eapply lt_not_le; eauto.
  - apply lt_sub in C. eapply lt_not_le; [|exact H]. apply lt_sub.
    replace (0 - (b - a)) with (a - b) by ring. exact C.
Qed.

Lemma add_pos a b : lt 0 a -> lt 0 b -> lt 0 (a + b).
Proof. intros A B. apply f_lt_add2; auto. Qed.
Lemma add_pos_nn a b : lt 0 a -> le 0 b -> lt 0 (a + b).
Proof. intros A B. apply f_lt_add2; auto. apply le_cases in B as [<-|B]; auto. Qed.
Lemma add_nn_pos a b : le 0 a -> lt 0 b -> lt 0 (a + b).
Proof. intros A B. replace (a + b) with (b + a) by ring. apply add_pos_nn; auto. Qed.
Lemma add_nn a b : le 0 a -> le 0 b -> le 0 (a + b).
Proof.
  intros A B. apply le_cases in A as [<-|A].
  - replace (0 + b) with b by ring. auto.
  - apply lt_le, add_pos_nn; auto.
Qed.
Lemma mul_pos a b : lt 0 a -> lt 0 b -> lt 0 (a * b).
Proof. apply f_lt_mul. Qed.
Lemma mul_nn a b : le 0 a -> le 0 b -> le 0 (a * b).
Proof.
  intros A B. apply le_cases in A as [<-|A]; [replace (0 * b) with (0 : K) by ring; apply le_refl|].
  apply le_cases in B as [<-|B]; [replace (a * 0) with (0 : K) by ring; apply le_refl|].
  apply lt_le, mul_pos; auto.
Qed.
Lemma sq_nn a : le 0 (a * a).
Proof.
  destruct (lt_le_dec a 0) as [H|H].
  - replace (a * a) with ((- a) * (- a)) by ring. apply lt_sub in H.
    replace (0 - a) with (- a) in H by ring. apply lt_le, mul_pos; auto.
  - apply mul_nn; auto.
Qed.
Lemma lt_0_1 : lt 0 1.
Proof. apply flt_0_1. Qed.
Lemma inv_pos a : lt 0 a -> lt 0 (1 / a).
Proof.
  intros H. apply not_le. intros C. pose proof (pos_nz _ H) as N.
  assert (le 0 (- (1 / a) * a)) as D.
  { apply mul_nn; [|apply lt_le; auto]. apply le_sub in C. replace (0 - 1 / a) with (- (1 / a)) in C by ring. auto. }
  replace (- (1 / a) * a) with (- (1) : K) in D by (field; auto).
  eapply lt_not_le; [|exact D]. apply lt_sub. replace (0 - - (1)) with (1 : K) by ring. apply lt_0_1.
Qed.
Lemma div_pos a b : lt 0 a -> lt 0 b -> lt 0 (a / b).
Proof.
  intros A B. replace (a / b) with (a * (1 / b)) by (field; apply pos_nz; auto).
  apply mul_pos; auto. apply inv_pos; auto.
Qed.
Lemma div_nn a b : le 0 a -> lt 0 b -> le 0 (a / b).
Proof.
  intros A B. replace (a / b) with (a * (1 / b)) by (field; apply pos_nz; auto).
  apply mul_nn; auto. apply lt_le, inv_pos; auto.
Qed.
Lemma div_lt a b c : lt 0 b -> (lt (a / b) c <-> lt a (c * b)).
Proof.
  intros B. pose proof (pos_nz _ B) as N. rewrite (lt_sub (a / b) c), (lt_sub a (c * b)). split; intros H.
  - apply (mul_pos _ b) in H; auto. replace ((c - a / b) * b) with (c * b - a) in H by (field; auto). auto.
  - apply (mul_pos _ (1 / b)) in H; [|apply inv_pos; auto].
    replace ((c * b - a) * (1 / b)) with (c - a / b) in H by (field; auto). auto.
Qed.
Lemma add_le a b c d : le a b -> le c d -> le (a + c) (b + d).
Proof.
  intros A B. apply le_sub in A. apply le_sub in B. apply le_sub.
  replace (b + d - (a + c)) with (b - a + (d - c)) by ring. apply add_nn; auto.
Qed.
Lemma mul_le_l a b c : le 0 c -> le a b -> le (c * a) (c * b).
Proof.
  intros C A. apply le_sub in A. apply le_sub. replace (c * b - c * a) with (c * (b - a)) by ring.
  apply mul_nn; auto.
Qed.
Lemma opp_le a b : le a b <-> le (- b) (- a).
Proof.
  rewrite (le_sub a b), (le_sub (- b) (- a)). replace (- a - - b) with (b - a) by ring. tauto.
Qed.
Lemma opp_lt a b : lt a b <-> lt (- b) (- a).
Proof.
  rewrite (lt_sub a b), (lt_sub (- b) (- a)). replace (- a - - b) with (b - a) by ring. tauto.
Qed.
Lemma nn_opp a : le a 0 <-> le 0 (- a).
Proof. rewrite (opp_le a 0). replace (- (0)) with (0 : K) by ring. tauto. Qed.
Lemma pos_opp a : lt a 0 <-> lt 0 (- a).
Proof. rewrite (opp_lt a 0). replace (- (0)) with (0 : K) by ring. tauto. Qed.

Lemma fofZ_pos z : (0 < z)%Z -> lt 0 (fofZ z).
Proof.
  intros H. assert (forall n, lt 0 (fofZ (Z.of_nat (S n)))) as P.
  { induction n as [|n IH].
    - simpl. rewrite fofZ_1. apply lt_0_1.
    - rewrite Nat2Z.inj_succ, <- Z.add_1_l, fofZ_add, fofZ_1. apply add_pos; auto. apply lt_0_1. }
  specialize (P (Z.to_nat z - 1)%nat). replace (S (Z.to_nat z - 1)) with (Z.to_nat z) in P by lia.
  rewrite Z2Nat.id in P by lia. auto.
Qed.
Lemma fabs_le a t : le (fabs a) t <-> le (- t) a /\ le a t.
Proof.
  unfold fabs. destruct (fltb a 0) eqn:E.
  - split.
    + intros H. split.
      * apply opp_le. replace (- - t) with t by ring. auto.
      * apply le_trans with 0; [apply lt_le; auto|]. eapply le_trans; [|exact H].
        apply nn_opp, lt_le. auto.
    + intros [H _]. apply opp_le in H. replace (- - t) with t in H by ring. auto.
  - split.
    + intros H. split; auto. apply le_trans with 0; auto. apply nn_opp.
      replace (- - t) with t by ring. eapply le_trans; eauto.
    + tauto.
Qed.
Lemma fabs_nn a : le 0 (fabs a).
Proof. apply fabs_nonneg. Qed.
End Ord.
