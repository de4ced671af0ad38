(** Calculus for Spec/AcDeriv.v. *)
From Coq Require Import Reals Lra.
From Verif Require Import Lib.ListFacts Spec.AcDeriv Model.Derivs Proofs.LinAlgFacts
  Proofs.SparseFacts Proofs.FldFacts Proofs.YbusA Proofs.MatFacts Proofs.DerivA.
Local Open Scope nat_scope.

Notation CR := (cpx R).
Add Ring CRR : (@r_ok CR _).

Lemma dl_ext f g x l : (forall y, f y = g y) -> derivable_pt_lim f x l -> derivable_pt_lim g x l.
Proof.
  intros E H eps He. destruct (H eps He) as (d & Hd). exists d. intros h Hh Hl.
  rewrite <- !E. auto.
Qed.
(** functions that agree near the point *)
Lemma dl_near f g x l r : (0 < r)%R -> (forall y, (Rabs (y - x) < r)%R -> f y = g y) ->
  derivable_pt_lim f x l -> derivable_pt_lim g x l.
Proof.
  intros Hr E H eps He. destruct (H eps He) as (d & Hd).
  assert (Hm : (0 < Rmin d r)%R) by (apply Rmin_pos; auto; apply cond_pos).
  exists (mkposreal _ Hm). intros h Hh Hl. simpl in Hl.
  rewrite <- !E.
  - apply Hd; auto. eapply Rlt_le_trans; [exact Hl|apply Rmin_l].
  - replace (x - x)%R with 0%R by ring. rewrite Rabs_R0. auto.
  - replace (x + h - x)%R with h by ring. eapply Rlt_le_trans; [exact Hl|apply Rmin_r].
Qed.

Lemma cd_ext f g x l : (forall y, f y = g y) -> cderiv f x l -> cderiv g x l.
Proof.
  intros E [A B]. split; eapply dl_ext; try eassumption; intros y; simpl; rewrite E; auto.
Qed.
Lemma cd_eq f x l l' : cderiv f x l -> l = l' -> cderiv f x l'.
Proof. intros H <-. exact H. Qed.
Lemma dl_eq f x l l' : derivable_pt_lim f x l -> l = l' -> derivable_pt_lim f x l'.
Proof. intros H <-. exact H. Qed.
Lemma cd_const (c : CR) x : cderiv (fun _ => c) x 0%K.
Proof. split; apply derivable_pt_lim_const. Qed.
Lemma cd_add f g x a b : cderiv f x a -> cderiv g x b -> cderiv (fun t => f t + g t)%K x (a + b)%K.
Proof. intros [A B] [C D]. split; apply (derivable_pt_lim_plus _ _ _ _ _ A C) || apply (derivable_pt_lim_plus _ _ _ _ _ B D). Qed.
Lemma cd_conj f x a : cderiv f x a -> cderiv (fun t => conj (f t)) x (conj a).
Proof. intros [A B]. split; auto. apply (derivable_pt_lim_opp _ _ _ B). Qed.
Lemma cd_mul f g x a b : cderiv f x a -> cderiv g x b ->
  cderiv (fun t => f t * g t)%K x (a * g x + f x * b)%K.
Proof.
  intros [A B] [C D]. split.
  - eapply dl_eq.
    + apply (derivable_pt_lim_minus _ _ _ _ _ (derivable_pt_lim_mult _ _ _ _ _ A C)
        (derivable_pt_lim_mult _ _ _ _ _ B D)).
    + cbn. ring.
  - eapply dl_eq.
    + apply (derivable_pt_lim_plus _ _ _ _ _ (derivable_pt_lim_mult _ _ _ _ _ A D)
        (derivable_pt_lim_mult _ _ _ _ _ B C)).
    + cbn. ring.
Qed.
Lemma cd_scal (c : CR) f x a : cderiv f x a -> cderiv (fun t => c * f t)%K x (c * a)%K.
Proof.
  intros H. eapply cd_eq; [apply (cd_mul (fun _ => c) f x 0%K a); auto; apply cd_const|].
  ring.
Qed.
Lemma cd_lsum {A} (f : A -> R -> CR) (d : A -> CR) l x :
  (forall a, In a l -> cderiv (f a) x (d a)) ->
  cderiv (fun t => lsum (fun a => f a t) l) x (lsum d l).
Proof.
  induction l as [|a l IH]; intros H; simpl.
  - exact (cd_const (@r0 CR cpx_rng) _).
  - apply (cd_add (f a) (fun t => lsum (fun a => f a t) l)); auto with datatypes.
Qed.
Lemma dl_lsum {A} (f : A -> R -> R) (d : A -> R) l x :
  (forall a, In a l -> derivable_pt_lim (f a) x (d a)) ->
  derivable_pt_lim (fun t => lsum (fun a => f a t) l) x (lsum d l).
Proof.
  induction l as [|a l IH]; intros H; simpl.
  - apply derivable_pt_lim_const.
  - apply (derivable_pt_lim_plus (f a) (fun t => lsum (fun a => f a t) l)); auto with datatypes.
Qed.

(** ** moving one coordinate *)
Lemma upd_nth_id {A} (l : list A) k d : upd l k (nth k l d) = l.
Proof. revert k. induction l; intros [|k]; simpl; auto. f_equal. auto. Qed.
Lemma nth_upd {A} (l : list A) k i x d : i < length l ->
  nth i (upd l k x) d = if i =? k then x else nth i l d.
Proof.
  revert k i. induction l as [|a l IH]; intros [|k] [|i] H; simpl in *; try lia; auto.
  apply IH. lia.
Qed.
Lemma upd_len {A} (l : list A) k x : length (upd l k x) = length l.
Proof. revert k. induction l; intros [|k]; simpl; auto. Qed.

Lemma coord_same c k s : coord_set c k s (coord_get c k s) = s.
Proof. destruct s, c; simpl; rewrite upd_nth_id; auto. Qed.
Lemma coord_len c k s t n : length (mag s) = n -> length (ang s) = n ->
  length (mag (coord_set c k s t)) = n /\ length (ang (coord_set c k s t)) = n.
Proof. destruct c; simpl; rewrite upd_len; auto. Qed.

Lemma volt_nth n s i : length (mag s) = n -> length (ang s) = n -> i < n ->
  nth i (volt s) (0%K : CR) = Cx (nth i (mag s) 0 * cos (nth i (ang s) 0%R))%R
                          (nth i (mag s) 0 * sin (nth i (ang s) 0%R))%R.
Proof.
  intros A B H. unfold volt. rewrite (nth_map2_d _ _ _ _ 0%R 0%R) by lia. reflexivity.
Qed.

(** the unit vector in the direction of voltage [k] *)
Definition uv (s : state) (k : nat) : CR :=
  Cx (cos (nth k (ang s) 0%R)) (sin (nth k (ang s) 0%R)).
Definition dv (c : coord) (k : nat) (s : state) : CR :=
  match c with Ang => (jj * vv (volt s) k)%K | Mag => uv s k end.
Definition ddv (c c' : coord) (k : nat) (s : state) : CR :=
  match c, c' with
  | Ang, Ang => (- vv (volt s) k)%K
  | Mag, Mag => 0%K
  | _, _ => (jj * uv s k)%K
  end.

Section Path.
Variables (n : nat) (s : state).
Hypothesis Lm : length (mag s) = n.
Hypothesis La : length (ang s) = n.

Lemma d_cos x : derivable_pt_lim cos x (- sin x)%R.
Proof. apply derivable_pt_lim_cos. Qed.
Lemma d_sin x : derivable_pt_lim sin x (cos x).
Proof. apply derivable_pt_lim_sin. Qed.

Lemma path c k i : i < n ->
  partial c k (fun s' => vv (volt s') i) s (delta i k (dv c k s)).
Proof.
  intros Hi. unfold partial.
  assert (Q : forall t, vv (volt (coord_set c k s t)) i
     = Cx (nth i (mag (coord_set c k s t)) 0 * cos (nth i (ang (coord_set c k s t)) 0))%R
          (nth i (mag (coord_set c k s t)) 0 * sin (nth i (ang (coord_set c k s t)) 0))%R).
  { intros t. destruct (coord_len c k s t n Lm La). apply (volt_nth n); auto. }
  eapply cd_ext; [intros t; symmetry; apply Q|]. clear Q.
  destruct c; simpl.
  - eapply (cd_ext (fun t => Cx (nth i (mag s) 0 * cos (if i =? k then t else nth i (ang s) 0%R))%R
       (nth i (mag s) 0 * sin (if i =? k then t else nth i (ang s) 0%R))%R)).
    { intros t. rewrite nth_upd by lia. reflexivity. }
    unfold delta. destruct (Nat.eqb_spec i k) as [<-|].
    + split; simpl; unfold vv; rewrite (volt_nth n) by auto; simpl.
      * eapply dl_eq; [apply (derivable_pt_lim_scal cos _ _ _ (d_cos _))|]. ring.
      * eapply dl_eq; [apply (derivable_pt_lim_scal sin _ _ _ (d_sin _))|]. ring.
    + apply (fun a b => cd_const (Cx a b) _).
  - eapply (cd_ext (fun t => Cx ((if i =? k then t else nth i (mag s) 0) * cos (nth i (ang s) 0%R))%R
       ((if i =? k then t else nth i (mag s) 0) * sin (nth i (ang s) 0%R))%R)).
    { intros t. rewrite nth_upd by lia. reflexivity. }
    unfold delta. destruct (Nat.eqb_spec i k) as [<-|].
    + split; simpl.
      * eapply dl_eq; [apply (derivable_pt_lim_mult (fun t => t) (fun _ => cos (nth i (ang s) 0%R)) _ _ _
          (derivable_pt_lim_id _) (derivable_pt_lim_const _ _))|]. ring.
      * eapply dl_eq; [apply (derivable_pt_lim_mult (fun t => t) (fun _ => sin (nth i (ang s) 0%R)) _ _ _
          (derivable_pt_lim_id _) (derivable_pt_lim_const _ _))|]. ring.
    + apply (fun a b => cd_const (Cx a b) _).
Qed.

Lemma path_uv c m k : k < n ->
  partial c m (fun s' => uv s' k) s
    (delta k m (match c with Ang => (jj * uv s k)%K | Mag => 0%K end)).
Proof.
  intros Hk. unfold partial, uv. destruct c; simpl.
  - eapply (cd_ext (fun t => Cx (cos (if k =? m then t else nth k (ang s) 0%R)%R)
       (sin (if k =? m then t else nth k (ang s) 0%R)%R))).
    { intros t. rewrite nth_upd by lia. reflexivity. }
    unfold delta. destruct (Nat.eqb_spec k m) as [<-|].
    + split; simpl.
      * eapply dl_eq; [apply d_cos|]. ring.
      * eapply dl_eq; [apply d_sin|]. ring.
    + apply (fun a b => cd_const (Cx a b) _).
  - eapply cd_eq; [apply (fun a b => cd_const (Cx a b) _)|]. unfold delta. destruct (k =? m); auto.
Qed.

(** second derivative of a voltage *)
Lemma path2 c k c' m i : k < n -> i < n ->
  partial c' m (fun s' => delta i k (dv c k s')) s (delta i k (delta k m (ddv c c' k s))).
Proof.
  intros Hk Hi. unfold delta at 1 2. destruct (i =? k); [|exact (cd_const (@r0 CR cpx_rng) _)].
  destruct c; simpl dv.
  - eapply cd_eq; [apply cd_scal; apply (path c' m k Hk)|].
    unfold delta. destruct (Nat.eqb_spec k m) as [<-|]; [|ring].
    destruct c'; simpl dv; simpl ddv; [|reflexivity].
    apply cpx_eq; simpl; ring.
  - eapply cd_eq; [apply (path_uv c' m k Hk)|]. destruct c'; reflexivity.
Qed.
End Path.

(** ** linear and quadratic forms *)
Lemma lin_delta n (y : nat -> nat -> CR) k w l : k < n ->
  lin n y (fun i => delta i k w) l = (y l k * w)%K.
Proof.
  intros H. unfold lin, delta.
  rewrite (lsum_ext _ (fun i => if k =? i then (y l k * w)%K else 0%K)).
  - apply (lsum_seq_single' (fun _ => (y l k * w)%K)); auto.
  - intros i _. rewrite (Nat.eqb_sym k i). destruct (Nat.eqb_spec i k); subst; auto. ring.
Qed.

Lemma cd_lin n (y : nat -> nat -> CR) (v : nat -> R -> CR) w x l :
  (forall i, i < n -> cderiv (v i) x (w i)) ->
  cderiv (fun t => lin n y (fun i => v i t) l) x (lin n y w l).
Proof.
  intros H. unfold lin. apply (cd_lsum (fun k t => (y l k * v k t)%K)). intros k Hk.
  apply in_seq in Hk. apply cd_scal. apply H. lia.
Qed.

Section Forms.
Variables (n : nat) (s : state).
Hypothesis Lm : length (mag s) = n.
Hypothesis La : length (ang s) = n.

Lemma partial_lin c k (y : nat -> nat -> CR) l : k < n ->
  partial c k (fun s' => lin n y (vv (volt s')) l) s (y l k * dv c k s)%K.
Proof.
  intros Hk. unfold partial. eapply cd_eq.
  - apply (cd_lin n y (fun i t => vv (volt (coord_set c k s t)) i)).
    intros i Hi. apply (path n s Lm La c k i Hi).
  - apply lin_delta; auto.
Qed.

Lemma partial_lin2 c k c' m (y : nat -> nat -> CR) l : k < n ->
  partial c' m (fun s' => y l k * dv c k s')%K s (y l k * delta k m (ddv c c' k s))%K.
Proof.
  intros Hk. unfold partial. apply cd_scal.
  assert (H := path2 n s Lm La c k c' m k Hk Hk). unfold partial, delta at 1 2 in H.
  rewrite Nat.eqb_refl in H. exact H.
Qed.

(** one row of a product (C V) conj (Y V) *)
Definition prow (c y : nat -> nat -> CR) (l : nat) (s : state) : CR :=
  (lin n c (vv (volt s)) l * conj (lin n y (vv (volt s)) l))%K.
Definition dprow (c y : nat -> nat -> CR) (l : nat) (co : coord) (k : nat) (s : state) : CR :=
  (c l k * dv co k s * conj (lin n y (vv (volt s)) l)
   + lin n c (vv (volt s)) l * conj (y l k * dv co k s))%K.
Definition ddprow (c y : nat -> nat -> CR) (l : nat) (co : coord) (k : nat) (co' : coord) (m : nat)
  (s : state) : CR :=
  (c l k * delta k m (ddv co co' k s) * conj (lin n y (vv (volt s)) l)
   + c l k * dv co k s * conj (y l m * dv co' m s)
   + c l m * dv co' m s * conj (y l k * dv co k s)
   + lin n c (vv (volt s)) l * conj (y l k * delta k m (ddv co co' k s)))%K.

Lemma partial_prow c y l co k : k < n ->
  partial co k (prow c y l) s (dprow c y l co k s).
Proof.
  intros Hk. unfold partial, prow. eapply cd_eq.
  - apply (cd_mul (fun t => lin n c (vv (volt (coord_set co k s t))) l)
             (fun t => conj (lin n y (vv (volt (coord_set co k s t))) l))).
    + apply (partial_lin co k c l Hk).
    + apply (cd_conj (fun t => lin n y (vv (volt (coord_set co k s t))) l)).
      apply (partial_lin co k y l Hk).
  - cbv beta. rewrite coord_same. reflexivity.
Qed.

Lemma partial_dprow c y l co k co' m : k < n -> m < n ->
  partial co' m (dprow c y l co k) s (ddprow c y l co k co' m s).
Proof.
  intros Hk Hm. unfold partial, dprow. eapply cd_eq.
  - apply (cd_add (fun t => (c l k * dv co k (coord_set co' m s t)
                * conj (lin n y (vv (volt (coord_set co' m s t))) l))%K)
             (fun t => (lin n c (vv (volt (coord_set co' m s t))) l
                * conj (y l k * dv co k (coord_set co' m s t)))%K)).
    + apply (cd_mul (fun t => (c l k * dv co k (coord_set co' m s t))%K)
               (fun t => conj (lin n y (vv (volt (coord_set co' m s t))) l))).
      * apply (partial_lin2 co k co' m c l Hk).
      * apply (cd_conj (fun t => lin n y (vv (volt (coord_set co' m s t))) l)).
        apply (partial_lin co' m y l Hm).
    + apply (cd_mul (fun t => lin n c (vv (volt (coord_set co' m s t))) l)
               (fun t => conj (y l k * dv co k (coord_set co' m s t))%K)).
      * apply (partial_lin co' m c l Hm).
      * apply (cd_conj (fun t => (y l k * dv co k (coord_set co' m s t))%K)).
        apply (partial_lin2 co k co' m y l Hk).
  - cbv beta. rewrite coord_same. unfold ddprow. ring.
Qed.
End Forms.
