(** polycost's derivative output as derivative of a real function. *)
From Coq Require Import Reals Qreals Lra.
From Coquelicot Require Import Coquelicot.
From Verif Require Import Lib.QcFacts Lib.LinAlg Lib.ListFacts Model.Cost Spec.CostSpec
  Spec.RealSpec Proofs.CostA.
Local Open Scope R_scope.

Lemma q2r_plus a b : q2r (a + b)%Qc = q2r a + q2r b.
Proof. unfold q2r. rewrite <- Q2R_plus. apply Qeq_eqR, this_add. Qed.
Lemma q2r_mult a b : q2r (a * b)%Qc = q2r a * q2r b.
Proof. unfold q2r. rewrite <- Q2R_mult. apply Qeq_eqR, this_mul. Qed.
Lemma q2r_opp a : q2r (- a)%Qc = - q2r a.
Proof. unfold q2r. rewrite <- Q2R_opp. apply Qeq_eqR, this_opp. Qed.
Lemma q2r_zc z : q2r (zc z) = IZR z.
Proof.
  unfold q2r. rewrite (Qeq_eqR _ _ (this_zc z)). unfold Q2R, inject_Z. simpl. lra.
Qed.
Lemma q2r_0 : q2r 0%Qc = 0.
Proof. exact (q2r_zc 0). Qed.
Lemma q2r_1 : q2r 1%Qc = 1.
Proof. exact (q2r_zc 1). Qed.
Lemma q2r_inj a b : q2r a = q2r b -> a = b.
Proof. intros H. apply Qc_is_canon. apply eqR_Qeq. exact H. Qed.

Definition lowR (c : list Qc) (x : R) : R := fold_right (fun a s => q2r a + x * s) 0 c.

Lemma lowR_q c p : q2r (low c p) = lowR c (q2r p).
Proof.
  induction c as [|a c IH]; simpl; [apply q2r_0|]. rewrite q2r_plus, q2r_mult, IH. reflexivity.
Qed.

Lemma polyvalR_q c p : q2r (polyval c p) = polyvalR c (q2r p).
Proof.
  unfold polyval, polyvalR.
  assert (G : forall s, q2r (fold_left (fun s a => (s * p + a)%Qc) c s)
              = fold_left (fun s a => s * q2r p + q2r a) c (q2r s)).
  { induction c as [|a c IH]; intros s; simpl; auto. rewrite IH, q2r_plus, q2r_mult. reflexivity. }
  rewrite G, q2r_0. reflexivity.
Qed.

Lemma lowR_app l l' x : lowR (l ++ l') x = lowR l x + x ^ length l * lowR l' x.
Proof. induction l as [|a l IH]; simpl; [ring|]. rewrite IH. ring. Qed.

Lemma lowR_zeros n x : lowR (repeat 0%Qc n) x = 0.
Proof. induction n as [|n IH]; simpl; auto. rewrite IH, q2r_0. ring. Qed.

Lemma lowR_rev c pad x : lowR (rev c ++ repeat 0%Qc pad) x = polyvalR c x.
Proof.
  rewrite lowR_app, lowR_zeros, Rmult_0_r, Rplus_0_r.
  unfold polyvalR.
  assert (G : forall s, fold_left (fun s a => s * x + q2r a) c s = s * x ^ length c + lowR (rev c) x).
  { induction c as [|a c IH]; intros s; simpl; [ring|].
    rewrite IH, lowR_app, rev_length. simpl. ring. }
  rewrite G. ring.
Qed.

(** [pd_from k] is the coefficient list of (x^k c)' / x^(k-1) *)
Lemma pd_from_R c x : forall k,
  lowR (pd_from k c) x = INR k * lowR c x + x * lowR (pd c) x.
Proof.
  induction c as [|a c IH]; intros k; [simpl; ring|].
  cbn [pd_from pd]. simpl lowR. rewrite (IH (S k)), (IH 1%nat).
  rewrite q2r_mult, q2r_zc, <- INR_IZR_INZ, S_INR. simpl INR. ring.
Qed.

Lemma lowR_derive c x : is_derive (lowR c) x (lowR (pd c) x).
Proof.
  induction c as [|a c IH].
  - simpl. apply (is_derive_const 0).
  - apply (is_derive_ext (fun y => q2r a + y * lowR c y)); [reflexivity|].
    simpl pd. rewrite pd_from_R. simpl INR.
    replace (1 * lowR c x + x * lowR (pd c) x) with (0 + (1 * lowR c x + x * lowR (pd c) x)) by ring.
    apply (is_derive_plus (fun _ => q2r a) (fun y => y * lowR c y)).
    + apply (is_derive_const (q2r a)).
    + apply (is_derive_mult (fun y => y) (lowR c)); auto.
      * apply (is_derive_id x).
      * intros; apply Rmult_comm.
Qed.

Lemma pds_pd n : forall c, pds n (pd c) = pd (pds n c).
Proof. induction n as [|n IH]; intros c; simpl; auto. Qed.

Lemma lowR_Derive_n c n x : Derive_n (lowR c) n x = lowR (pds n c) x.
Proof.
  revert x. induction n as [|n IH]; intros x; simpl; auto.
  rewrite (Derive_ext _ _ _ IH), pds_pd. apply is_derive_unique, lowR_derive.
Qed.

Lemma lowR_is_derive_n c n x : is_derive_n (lowR c) n x (lowR (pds n c) x).
Proof.
  destruct n as [|n]; simpl; auto.
  rewrite pds_pd. apply (is_derive_ext (lowR (pds n c))).
  - intros y. symmetry. apply lowR_Derive_n.
  - apply lowR_derive.
Qed.
