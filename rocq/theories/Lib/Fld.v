(** The number operations used by the network code, as classes: commutative rings (enough for
    sparse matrix algebra) and ordered fields.  Instances: exact rationals
    (executable), reals (analytic statements), and complex numbers over any such field. *)
From Coq Require Export Ring Field.
From Coq Require Import InitialRing.
From Coq Require Import Reals Lra.
From Verif Require Export Lib.Num.

Class Rng (K : Type) := {
  r0 : K; r1 : K;
  radd : K -> K -> K; rmul : K -> K -> K; rsub : K -> K -> K; ropp : K -> K;
  r_ok : ring_theory r0 r1 radd rmul rsub ropp eq }.

Declare Scope fld_scope.
Delimit Scope fld_scope with K.
Infix "+" := radd : fld_scope.
Infix "*" := rmul : fld_scope.
Infix "-" := rsub : fld_scope.
Notation "- x" := (ropp x) : fld_scope.
Notation "0" := r0 : fld_scope.
Notation "1" := r1 : fld_scope.

(** [fpi] stands for numpy's [pi]; [ftrunc] is the float to integer conversion. *)
Class Fld (K : Type) := {
  fld_rng :> Rng K;
  fdiv : K -> K -> K; finv : K -> K;
  f_ok : field_theory r0 r1 radd rmul rsub ropp fdiv finv eq;
  feqb : K -> K -> bool;
  feqb_ok : forall a b, feqb a b = true <-> a = b;
  fltb : K -> K -> bool;
  f_lt_irrefl : forall a, fltb a a = false;
  f_lt_trans : forall a b c, fltb a b = true -> fltb b c = true -> fltb a c = true;
  f_lt_total : forall a b, fltb a b = true \/ a = b \/ fltb b a = true;
  f_lt_add : forall a b c, fltb a b = true -> fltb (radd a c) (radd b c) = true;
  f_lt_mul : forall a b, fltb r0 a = true -> fltb r0 b = true -> fltb r0 (rmul a b) = true;
  fofZ : Z -> K;
  fofZ_0 : fofZ 0 = r0; fofZ_1 : fofZ 1 = r1;
  fofZ_add : forall a b, fofZ (a + b) = radd (fofZ a) (fofZ b);
  ftrunc : K -> Z;
  ftrunc_ofZ : forall z, ftrunc (fofZ z) = z;
  fpi : K; fpi_nz : fpi <> r0 }.
Infix "/" := fdiv : fld_scope.

(** absolute value *)
Definition fabs {K} {F : Fld K} (a : K) : K := if fltb a 0%K then (- a)%K else a.

(** field elements as table cells *)
Lemma feqb_ofZ {K} {F : Fld K} a b : feqb (fofZ a) (fofZ b : K) = (a =? b)%Z.
Proof.
  destruct (Z.eqb_spec a b) as [->|H]; [apply feqb_ok; auto|].
  destruct (feqb (fofZ a) (fofZ b)) eqn:E; auto. apply feqb_ok in E. exfalso. apply H.
  rewrite <- (ftrunc_ofZ a), E. apply ftrunc_ofZ.
Qed.
Global Instance fld_cell {K} {F : Fld K} : Cell K := {
  ofZ := fofZ; to_int := fun x => Ok (ftrunc x); num_eqb := feqb; num_gt0 := fltb r0;
  to_int_ofZ := fun z => f_equal Ok (ftrunc_ofZ z); num_eqb_ofZ := feqb_ofZ }.

(** ** exact rationals; pi is the double 884279719003555/281474976710656 that numpy uses *)
Definition np_pi : Qc := qc 884279719003555 281474976710656.

Lemma np_pi_nz : np_pi <> 0%Qc.
Proof. discriminate. Qed.

Lemma zc_add_qc a b : zc (a + b) = (zc a + zc b)%Qc.
Proof.
  unfold zc. apply Qc_is_canon. cbn [this Qcplus Q2Qc]. rewrite !Qred_correct.
  rewrite inject_Z_plus. reflexivity.
Qed.

Lemma qc_lt_irrefl a : qc_ltb a a = false.
Proof. destruct (qc_ltb a a) eqn:E; auto. apply qc_ltb_lt in E. destruct (Qclt_not_le _ _ E). apply Qcle_refl. Qed.
Lemma qc_lt_trans a b c : qc_ltb a b = true -> qc_ltb b c = true -> qc_ltb a c = true.
Proof. rewrite !qc_ltb_lt. apply Qclt_trans. Qed.
Lemma qc_lt_total a b : qc_ltb a b = true \/ a = b \/ qc_ltb b a = true.
Proof. rewrite !qc_ltb_lt. destruct (Qc_dec a b) as [[H|H]|H]; auto. Qed.
Lemma qc_lt_add a b c : qc_ltb a b = true -> qc_ltb (a + c)%Qc (b + c)%Qc = true.
Proof.
  rewrite !qc_ltb_lt. unfold Qclt. cbn [this Qcplus Q2Qc]. rewrite !Qred_correct.
  apply Qplus_lt_le_compat_l || (intros H; apply Qplus_lt_l; exact H).
Qed.
Lemma qc_lt_mul a b : qc_ltb 0%Qc a = true -> qc_ltb 0%Qc b = true -> qc_ltb 0%Qc (a * b)%Qc = true.
Proof.
  rewrite !qc_ltb_lt. unfold Qclt. cbn [this Qcmult Q2Qc]. rewrite !Qred_correct.
  apply Qmult_lt_0_compat.
Qed.

Global Instance Qc_rng : Rng Qc := {
  r0 := 0%Qc; r1 := 1%Qc; radd := Qcplus; rmul := Qcmult; rsub := Qcminus; ropp := Qcopp;
  r_ok := Qcrt }.
Global Instance Qc_fld : Fld Qc := {
  fld_rng := Qc_rng; fdiv := Qcdiv; finv := Qcinv; f_ok := Qcft;
  feqb := qc_eqb; feqb_ok := qc_eqb_eq; fltb := qc_ltb;
  f_lt_irrefl := qc_lt_irrefl; f_lt_trans := qc_lt_trans; f_lt_total := qc_lt_total;
  f_lt_add := qc_lt_add; f_lt_mul := qc_lt_mul; fofZ := zc;
  fofZ_0 := eq_refl; fofZ_1 := eq_refl; fofZ_add := zc_add_qc; ftrunc := qtrunc;
  ftrunc_ofZ := qtrunc_zc; fpi := np_pi; fpi_nz := np_pi_nz }.

(** ** reals *)
Definition r_eqb (a b : R) : bool := if Req_EM_T a b then true else false.
Definition r_ltb (a b : R) : bool := if Rlt_dec a b then true else false.
Definition r_trunc (a : R) : Z :=
  if Rlt_dec a 0 then (- Int_part (- a))%Z else Int_part a.

Lemma r_eqb_ok a b : r_eqb a b = true <-> a = b.
Proof. unfold r_eqb; destruct (Req_EM_T a b); split; congruence. Qed.

Lemma r_ltb_ok a b : r_ltb a b = true <-> (a < b)%R.
Proof. unfold r_ltb; destruct (Rlt_dec a b); split; congruence. Qed.
Lemma r_lt_irrefl a : r_ltb a a = false.
Proof. unfold r_ltb; destruct (Rlt_dec a a); auto. lra. Qed.
Lemma r_lt_trans a b c : r_ltb a b = true -> r_ltb b c = true -> r_ltb a c = true.
Proof. rewrite !r_ltb_ok. lra. Qed.
Lemma r_lt_total a b : r_ltb a b = true \/ a = b \/ r_ltb b a = true.
Proof. rewrite !r_ltb_ok. lra. Qed.
Lemma r_lt_add a b c : r_ltb a b = true -> r_ltb (a + c)%R (b + c)%R = true.
Proof. rewrite !r_ltb_ok. lra. Qed.
Lemma r_lt_mul a b : r_ltb 0%R a = true -> r_ltb 0%R b = true -> r_ltb 0%R (a * b)%R = true.
Proof. rewrite !r_ltb_ok. apply Rmult_lt_0_compat. Qed.

Lemma Int_part_IZR z : Int_part (IZR z) = z.
Proof.
  unfold Int_part. rewrite <- (tech_up (IZR z) (z + 1)).
  - ring.
  - rewrite plus_IZR; lra.
  - rewrite plus_IZR; lra.
Qed.

Lemma r_trunc_IZR z : r_trunc (IZR z) = z.
Proof.
  unfold r_trunc. destruct (Rlt_dec (IZR z) 0); [|apply Int_part_IZR].
  rewrite <- opp_IZR, Int_part_IZR. ring.
Qed.

Global Instance R_rng : Rng R := {
  r0 := 0%R; r1 := 1%R; radd := Rplus; rmul := Rmult; rsub := Rminus; ropp := Ropp;
  r_ok := RealField.RTheory }.
Global Instance R_fld : Fld R := {
  fld_rng := R_rng; fdiv := Rdiv; finv := Rinv; f_ok := RealField.Rfield;
  feqb := r_eqb; feqb_ok := r_eqb_ok; fltb := r_ltb;
  f_lt_irrefl := r_lt_irrefl; f_lt_trans := r_lt_trans; f_lt_total := r_lt_total;
  f_lt_add := r_lt_add; f_lt_mul := r_lt_mul; fofZ := IZR;
  fofZ_0 := eq_refl; fofZ_1 := eq_refl; fofZ_add := plus_IZR; ftrunc := r_trunc;
  ftrunc_ofZ := r_trunc_IZR; fpi := PI; fpi_nz := PI_neq0 }.

(** ** integers (ring only) *)
Global Instance Z_rng : Rng Z := {
  r0 := 0%Z; r1 := 1%Z; radd := Z.add; rmul := Z.mul; rsub := Z.sub; ropp := Z.opp;
  r_ok := InitialRing.Zth }.

(** ** complex numbers over a field *)
Record cpx (K : Type) := Cx { re : K; im : K }.
Arguments Cx {K} re im.
Arguments re {K} c.
Arguments im {K} c.

Section Complex.
Context {K : Type} {F : Fld K}.
Local Open Scope fld_scope.
Add Ring KR : (@r_ok K _).

Definition cadd (z w : cpx K) := Cx (re z + re w) (im z + im w).
Definition csub (z w : cpx K) := Cx (re z - re w) (im z - im w).
Definition cmul (z w : cpx K) := Cx (re z * re w - im z * im w) (re z * im w + im z * re w).
Definition copp (z : cpx K) := Cx (- re z) (- im z).
Definition conj (z : cpx K) := Cx (re z) (- im z).
(** |z|^2 *)
Definition nrm2 (z : cpx K) := re z * re z + im z * im z.
Definition cdiv (z w : cpx K) :=
  Cx ((re z * re w + im z * im w) / nrm2 w) ((im z * re w - re z * im w) / nrm2 w).
Definition cinv (w : cpx K) := Cx (re w / nrm2 w) (- im w / nrm2 w).
Definition ofK (a : K) : cpx K := Cx a 0.
(** [1j * a] *)
Definition jK (a : K) : cpx K := Cx 0 a.

Lemma cpx_eq (z w : cpx K) : re z = re w -> im z = im w -> z = w.
Proof. destruct z, w; simpl; congruence. Qed.

Lemma cpx_ring : ring_theory (Cx 0 0) (Cx 1 0) cadd cmul csub copp eq.
Proof.
  constructor; intros; apply cpx_eq; unfold cadd, csub, cmul, copp; cbn [re im]; ring.
Qed.

Global Instance cpx_rng : Rng (cpx K) := {
  r0 := Cx 0 0; r1 := Cx 1 0; radd := cadd; rmul := cmul; rsub := csub; ropp := copp;
  r_ok := cpx_ring }.
End Complex.
