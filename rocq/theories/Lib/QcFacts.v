(** Linear arithmetic over [Qc] by translation to [Q]. *)
From Coq Require Import Lqa.
From Verif Require Export Lib.Num.

Lemma this_add (a b : Qc) : (this (a + b)%Qc == this a + this b)%Q.
Proof. unfold Qcplus. cbn [this Q2Qc]. apply Qred_correct. Qed.
Lemma this_mul (a b : Qc) : (this (a * b)%Qc == this a * this b)%Q.
Proof. unfold Qcmult. cbn [this Q2Qc]. apply Qred_correct. Qed.
Lemma this_opp (a : Qc) : (this (- a)%Qc == - this a)%Q.
Proof. unfold Qcopp. cbn [this Q2Qc]. apply Qred_correct. Qed.
Lemma this_sub (a b : Qc) : (this (a - b)%Qc == this a - this b)%Q.
Proof. unfold Qcminus. rewrite this_add, this_opp. reflexivity. Qed.
Lemma this_Q2Qc (q : Q) : (this (Q2Qc q) == q)%Q.
Proof. cbn [this Q2Qc]. apply Qred_correct. Qed.
Lemma this_zc (z : Z) : (this (zc z) == inject_Z z)%Q.
Proof. apply this_Q2Qc. Qed.
Lemma this_qc n d : (this (qc n d) == n # d)%Q.
Proof. apply this_Q2Qc. Qed.
Lemma qc_eq_this (a b : Qc) : a = b <-> (this a == this b)%Q.
Proof. split; [intros ->; reflexivity | apply Qc_is_canon]. Qed.

Ltac qc_to_q :=
  repeat match goal with
  | H : @eq Qc _ _ |- _ => apply (proj1 (qc_eq_this _ _)) in H
  | H : (_ <= _)%Qc |- _ => unfold Qcle in H
  | H : (_ < _)%Qc |- _ => unfold Qclt in H
  end;
  try match goal with
  | |- @eq Qc _ _ => apply (proj2 (qc_eq_this _ _))
  | |- (_ <= _)%Qc => unfold Qcle
  | |- (_ < _)%Qc => unfold Qclt
  end;
  repeat match goal with
  | H : context [this (_ + _)%Qc] |- _ => setoid_rewrite this_add in H
  | H : context [this (_ - _)%Qc] |- _ => setoid_rewrite this_sub in H
  | H : context [this (_ * _)%Qc] |- _ => setoid_rewrite this_mul in H
  | H : context [this (- _)%Qc] |- _ => setoid_rewrite this_opp in H
  | H : context [this (Q2Qc _)] |- _ => setoid_rewrite this_Q2Qc in H
  | H : context [this (zc _)] |- _ => setoid_rewrite this_zc in H
  | H : context [this (qc _ _)] |- _ => setoid_rewrite this_qc in H
  end;
  repeat match goal with
  | |- context [this (_ + _)%Qc] => setoid_rewrite this_add
  | |- context [this (_ - _)%Qc] => setoid_rewrite this_sub
  | |- context [this (_ * _)%Qc] => setoid_rewrite this_mul
  | |- context [this (- _)%Qc] => setoid_rewrite this_opp
  | |- context [this (Q2Qc _)] => setoid_rewrite this_Q2Qc
  | |- context [this (zc _)] => setoid_rewrite this_zc
  | |- context [this (qc _ _)] => setoid_rewrite this_qc
  end.

Ltac qc_lra := qc_to_q; unfold inject_Z in *; lra.
Ltac qc_nra := qc_to_q; unfold inject_Z in *; nra.

Goal forall a b c : Qc, (a <= b -> b < c + 1 -> a - c < 1)%Qc.
Proof. intros. qc_lra. Qed.
Goal forall a b : Qc, (a + b = zc 2 -> a - b = 0 -> a = 1)%Qc.
Proof. intros. qc_lra. Qed.
Goal forall a b : Qc, (0 <= a -> 0 <= b -> 0 <= a * b + zc 3 * a)%Qc.
Proof. intros. qc_nra. Qed.
