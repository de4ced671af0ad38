(** Table cells: finite rationals plus the IEEE special values. *)
From Coq Require Export QArith Qcanon.
From Verif Require Export Lib.Py.
Global Open Scope nat_scope.

Inductive num : Type := Fin (q : Qc) | PInf | NInf | NaN.

Definition zc (z : Z) : Qc := Q2Qc (inject_Z z).
Definition qc (n : Z) (d : positive) : Qc := Q2Qc (n # d).
Definition n_ofZ (z : Z) : num := Fin (zc z).

(** truncation towards zero, numpy's [astype(int)] on a finite float *)
Definition qtrunc (q : Qc) : Z := Z.quot (Qnum (this q)) (Zpos (Qden (this q))).

(** [x.astype(int)]; inf/nan have no defined integer value *)
Definition n_to_int (x : num) : result Z :=
  match x with Fin q => Ok (qtrunc q) | _ => Err NonFinite end.

Definition qc_eqb (a b : Qc) : bool := if Qc_eq_dec a b then true else false.
Definition qc_ltb (a b : Qc) : bool := match (a ?= b)%Qc with Lt => true | _ => false end.
Definition qc_leb (a b : Qc) : bool := match (a ?= b)%Qc with Gt => false | _ => true end.

(** IEEE comparisons of table cells *)
Definition n_eqb (a b : num) : bool :=
  match a, b with
  | Fin p, Fin q => qc_eqb p q
  | PInf, PInf => true
  | NInf, NInf => true
  | _, _ => false
  end.

Definition num_ltb (a b : num) : bool :=
  match a, b with
  | Fin p, Fin q => qc_ltb p q
  | Fin _, PInf => true
  | NInf, Fin _ => true
  | NInf, PInf => true
  | _, _ => false
  end.

Definition n_gt0 (a : num) : bool := num_ltb (n_ofZ 0) a.

Lemma qtrunc_zc z : qtrunc (zc z) = z.
Proof.
  unfold qtrunc, zc. cbn [Q2Qc this].
  rewrite (Qred_identity (inject_Z z)) by (simpl; apply Z.gcd_1_r).
  simpl. apply Z.quot_1_r.
Qed.

Lemma n_to_int_ofZ z : n_to_int (n_ofZ z) = Ok z.
Proof. unfold n_to_int, n_ofZ; rewrite qtrunc_zc; reflexivity. Qed.

Lemma zc_inj a b : zc a = zc b -> a = b.
Proof. intros H. rewrite <- (qtrunc_zc a), <- (qtrunc_zc b), H. reflexivity. Qed.

Lemma qc_eqb_eq a b : qc_eqb a b = true <-> a = b.
Proof. unfold qc_eqb; destruct (Qc_eq_dec a b); split; congruence. Qed.
Lemma qc_eqb_neq a b : qc_eqb a b = false <-> a <> b.
Proof. unfold qc_eqb; destruct (Qc_eq_dec a b); split; congruence. Qed.
Lemma qc_eqb_refl a : qc_eqb a a = true.
Proof. apply qc_eqb_eq; reflexivity. Qed.

Lemma qc_ltb_lt a b : qc_ltb a b = true <-> (a < b)%Qc.
Proof.
  unfold qc_ltb. rewrite Qclt_alt. destruct (a ?= b)%Qc; split; congruence.
Qed.
Lemma qc_ltb_ge a b : qc_ltb a b = false <-> (b <= a)%Qc.
Proof.
  split; intros H.
  - apply Qcnot_lt_le. intros C. apply qc_ltb_lt in C; congruence.
  - destruct (qc_ltb a b) eqn:E; auto. apply qc_ltb_lt in E.
    exfalso; eapply Qclt_not_le; eauto.
Qed.
Lemma qc_leb_le a b : qc_leb a b = true <-> (a <= b)%Qc.
Proof.
  unfold qc_leb. rewrite Qcle_alt. destruct (a ?= b)%Qc; split; congruence.
Qed.
Lemma qc_leb_gt a b : qc_leb a b = false <-> (b < a)%Qc.
Proof.
  split; intros H.
  - apply Qcnot_le_lt. intros C. apply qc_leb_le in C; congruence.
  - destruct (qc_leb a b) eqn:E; auto. apply qc_leb_le in E.
    exfalso; eapply Qclt_not_le; eauto.
Qed.

Lemma n_eqb_ofZ a b : n_eqb (n_ofZ a) (n_ofZ b) = (a =? b)%Z.
Proof.
  unfold n_eqb, n_ofZ. destruct (Z.eqb_spec a b) as [->|H].
  - apply qc_eqb_refl.
  - apply qc_eqb_neq. intros C; apply zc_inj in C; auto.
Qed.

(** What the book-keeping code needs to know about a table cell. *)
Class Cell (C : Type) := {
  ofZ : Z -> C;
  to_int : C -> result Z;           (* astype(int) *)
  num_eqb : C -> C -> bool;
  num_gt0 : C -> bool;
  to_int_ofZ : forall z, to_int (ofZ z) = Ok z;
  num_eqb_ofZ : forall a b, num_eqb (ofZ a) (ofZ b) = (a =? b)%Z }.
Definition ofN {C} {CC : Cell C} (n : nat) : C := ofZ (Z.of_nat n).

Global Instance num_cell : Cell num := {
  ofZ := n_ofZ; to_int := n_to_int; num_eqb := n_eqb; num_gt0 := n_gt0;
  to_int_ofZ := n_to_int_ofZ; num_eqb_ofZ := n_eqb_ofZ }.
