(** Ordered field facts; complex numbers over an ordered field form a field. *)
From Verif Require Import Lib.Fld Lib.ListFacts.
Local Open Scope fld_scope.

Section Order.
Context {K : Type} {F : Fld K}.
Add Ring KR : (@r_ok K _).
Add Field KF : (@f_ok K _).

Lemma flt_asym (a b : K) : fltb a b = true -> fltb b a = false.
Proof.
  intros H. destruct (fltb b a) eqn:E; auto.
  pose proof (f_lt_trans _ _ _ H E). rewrite f_lt_irrefl in *. discriminate.
Qed.

Lemma flt_opp (a b : K) : fltb a b = true -> fltb (- b) (- a) = true.
Proof.
  intros H. apply (f_lt_add _ _ (- a - b)) in H.
  replace (a + (- a - b)) with (- b) in H by ring. replace (b + (- a - b)) with (- a) in H by ring.
  exact H.
Qed.

Lemma flt_opp0 (a : K) : fltb a 0 = true -> fltb 0 (- a) = true.
Proof. intros H. apply flt_opp in H. replace (- (0 : K)) with (0 : K) in H by ring. exact H. Qed.

Lemma fnlt (a b : K) : fltb a b = false -> a = b \/ fltb b a = true.
Proof. intros H. destruct (f_lt_total a b) as [C|[C|C]]; auto. congruence. Qed.

Lemma fsq_pos (a : K) : a <> 0 -> fltb 0 (a * a) = true.
Proof.
  intros N. destruct (f_lt_total 0 a) as [H|[H|H]].
  - apply f_lt_mul; auto.
  - congruence.
  - replace (a * a) with (- a * - a) by ring. apply f_lt_mul; apply flt_opp0; auto.
Qed.

Lemma fsq_nonneg (a : K) : a * a = 0 \/ fltb 0 (a * a) = true.
Proof.
  destruct (feqb a 0) eqn:E.
  - apply feqb_ok in E. subst. left. ring.
  - right. apply fsq_pos. intros C. apply feqb_ok in C. congruence.
Qed.

Lemma f_lt_add2 (a b : K) : fltb 0 a = true -> (b = 0 \/ fltb 0 b = true) -> fltb 0 (a + b) = true.
Proof.
  intros A [->|B].
  - replace (a + 0) with a by ring. auto.
  - eapply f_lt_trans; [exact B|]. apply (f_lt_add _ _ b) in A.
    replace (0 + b) with b in A by ring. exact A.
Qed.

Lemma fsumsq_0 (a b : K) : a * a + b * b = 0 -> a = 0 /\ b = 0.
Proof.
  intros H. assert (forall a b : K, a * a + b * b = 0 -> a = 0) as L.
  { clear. intros a b H. destruct (feqb a 0) eqn:E; [apply feqb_ok; auto|].
    assert (fltb 0 (a * a + b * b) = true) as C.
    { apply f_lt_add2; [|apply fsq_nonneg]. apply fsq_pos. intros C. apply feqb_ok in C. congruence. }
    rewrite H, f_lt_irrefl in C. discriminate. }
  split; [eapply L; eauto|]. apply (L b a). rewrite <- H. ring.
Qed.

Lemma flt_0_1 : fltb (0 : K) 1 = true.
Proof.
  replace (1 : K) with (1 * 1 : K) by ring. apply fsq_pos. apply (F_1_neq_0 f_ok).
Qed.

Lemma f_nz_mul (a b : K) : a <> 0 -> b <> 0 -> a * b <> 0.
Proof. intros A B C. apply A. transitivity (a * b / b); [field; auto|]. rewrite C. field. auto. Qed.

Lemma fabs_nonneg (a : K) : fltb (fabs a) 0 = false.
Proof.
  unfold fabs. destruct (fltb a 0) eqn:E; auto. apply flt_asym, flt_opp0. auto.
Qed.

Lemma fabs_lt (a t : K) : fltb (fabs a) t = true <-> fltb (- t) a = true /\ fltb a t = true.
Proof.
  unfold fabs. split.
  - destruct (fltb a 0) eqn:E; intros H.
    + split.
      * apply flt_opp in H. replace (- - a) with a in H by ring. auto.
      * eapply f_lt_trans; [|exact H]. eapply f_lt_trans; [exact E|]. apply flt_opp0; auto.
    + split; auto. destruct (fnlt _ _ E) as [->|P].
      * apply flt_opp in H. replace (- (0 : K)) with (0 : K) in H by ring. auto.
      * eapply f_lt_trans; [|exact P]. assert (fltb 0 t = true) as T by (eapply f_lt_trans; eauto).
        apply flt_opp in T. replace (- (0 : K)) with (0 : K) in T by ring. auto.
  - intros [A B]. destruct (fltb a 0); auto. apply flt_opp in A.
    replace (- - t) with t in A by ring. auto.
Qed.
End Order.

(** ** the complex field *)
Section CField.
Context {K : Type} {F : Fld K}.
Add Ring KR2 : (@r_ok K _).
Add Field KF2 : (@f_ok K _).

Lemma nrm2_nz (z : cpx K) : z <> Cx 0 0 -> nrm2 z <> 0.
Proof.
  intros N C. apply N. destruct z as [a b]. unfold nrm2 in C. simpl in C.
  apply fsumsq_0 in C as [-> ->]. reflexivity.
Qed.

Lemma cpx_field :
  field_theory (Cx 0 0) (Cx 1 0) cadd cmul csub copp cdiv cinv (@eq (cpx K)).
Proof.
  constructor.
  - apply cpx_ring.
  - intros C. injection C as C. apply (F_1_neq_0 f_ok C).
  - intros z w. apply cpx_eq; unfold cdiv, cinv, cmul; cbn [re im]; rewrite !(Fdiv_def f_ok); ring.
  - intros z N. apply nrm2_nz in N. unfold nrm2 in N.
    apply cpx_eq; unfold cinv, cmul, nrm2; cbn [re im]; field; auto.
Qed.
End CField.
