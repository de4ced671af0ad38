(** Property C124: linear indices of subscripts. *)
From Coq Require Import Lia.
From Verif Require Import Lib.Fld Model.Sub2ind Model.DcOpf.
Local Open Scope nat_scope.

Definition table {A} (n : nat) (t : list (list A)) : Prop := forall r, In r t -> length r = n.

Section Theorems.
Context {A : Type}.

(** blocks of the same length *)
Lemma blocks {B} (f : B -> list A) m l : (forall x, In x l -> length (f x) = m) -> forall k x i, nth_error l k = Some x -> i < m ->
  nth_error (flat_map f l) (k * m + i) = nth_error (f x) i.
Proof.
  induction l as [|y l IH]; intros H k x i Hk Hi; [destruct k; discriminate|]. cbn [flat_map]. pose proof (H y (or_introl eq_refl)) as Ly. destruct k as [|k].
  - cbn in Hk. injection Hk as ->. cbn [Nat.mul Nat.add]. apply nth_error_app1. lia.
  - rewrite nth_error_app2 by (rewrite Ly; lia). rewrite Ly. replace (S k * m + i - m) with (k * m + i) by lia. apply IH; auto. intros z Hz. apply H. right. exact Hz.
Qed.
Lemma blocks_length {B} (f : B -> list A) m l : (forall x, In x l -> length (f x) = m) -> length (flat_map f l) = length l * m.
Proof. induction l as [|y l IH]; intros H; [reflexivity|]. cbn [flat_map length]. rewrite app_length, IH, H by (try (left; reflexivity); intros; apply H; right; assumption). lia. Qed.

Lemma column_spec n (t : list (list A)) j : table n t -> j < n -> length (column j t) = length t /\
  forall i r, nth_error t i = Some r -> nth_error (column j t) i = nth_error r j.
Proof.
  intros R Hj. induction t as [|a t IH]; [split; [reflexivity|intros [|i] r Hr; discriminate]|].
  destruct IH as (L & N); [intros r Hr; apply R; right; exact Hr|]. unfold column. cbn [flat_map]. fold (column j t).
  assert (La : length a = n) by (apply R; left; reflexivity). destruct (nth_error a j) as [x|] eqn:E; [|apply nth_error_None in E; lia].
  cbn [app length]. rewrite L. split; [reflexivity|]. intros [|i] r Hr; cbn in *; [injection Hr as <-; symmetry; exact E|apply N; exact Hr].
Qed.

Lemma at_F n (t : list (list A)) i j r : table n t -> j < n -> nth_error t i = Some r -> nth_error (flattenF n t) (j * length t + i) = nth_error r j.
Proof.
  intros R Hj Hr. unfold flattenF. assert (Hi : i < length t) by (apply nth_error_Some; congruence).
  rewrite (blocks (fun j => column j t) (length t) (seq 0 n)) with (x := j); auto.
  - apply (column_spec n t j R Hj). exact Hr.
  - intros k Hk. apply in_seq in Hk. apply (column_spec n t k R). lia.
  - rewrite (nth_error_nth' _ 0) by (rewrite seq_length; lia). rewrite seq_nth by lia. reflexivity.
Qed.
Lemma length_F n (t : list (list A)) : table n t -> length (flattenF n t) = n * length t.
Proof. intros R. unfold flattenF. rewrite (blocks_length _ (length t)), seq_length; auto. intros k Hk. apply in_seq in Hk. apply (column_spec n t k R). lia. Qed.

Lemma at_C n (t : list (list A)) i j r : table n t -> j < n -> nth_error t i = Some r -> nth_error (flattenC t) (i * n + j) = nth_error r j.
Proof. intros R Hj Hr. unfold flattenC. rewrite <- flat_map_concat_map with (f := fun x => x) at 1 || rewrite <- (map_id t), <- flat_map_concat_map. rewrite (blocks (fun x => x) n t) with (x := r); auto. Qed.
Lemma length_C n (t : list (list A)) : table n t -> length (flattenC t) = length t * n.
Proof. intros R. unfold flattenC. rewrite <- (map_id t) at 1. rewrite <- flat_map_concat_map. apply blocks_length. exact R. Qed.

(** a subscript as numpy reads it *)
Definition sub (n : nat) (i : Z) (k : nat) : Prop := k < n /\ (i = Z.of_nat k \/ i = Z.of_nat k - Z.of_nat n)%Z.
Lemma sub_mod n i k : sub n i k -> np_mod i (Z.of_nat n) = Z.of_nat k.
Proof.
  intros (K & [-> | ->]); unfold np_mod; destruct (Z.eqb_spec (Z.of_nat n) 0); try lia; [apply Z.mod_small; lia|].
  rewrite <- (Z.mod_add _ 1) by lia. rewrite Z.mod_small; lia.
Qed.

Variable n : nat.
Variable t : list (list A).
Hypothesis R : table n t.
Notation shape := (Z.of_nat (length t), Z.of_nat n).

(** the index finds the entry, in both orders, also for subscripts that count from the end *)
Theorem C124_column_major_partial I J i j r x : sub (length t) I i -> sub n J j -> nth_error t i = Some r -> nth_error r j = Some x ->
  np_get (flattenF n t) (sub2ind shape I J false) = Ok x.
Proof.
  intros HI HJ Hr Hx. unfold sub2ind. cbn [fst snd]. rewrite (sub_mod _ _ _ HI), (sub_mod _ _ _ HJ). destruct HI as (Li & _), HJ as (Lj & _).
  unfold np_get, np_index. rewrite (length_F n t R).
  replace ((0 <=? Z.of_nat j * Z.of_nat (length t) + Z.of_nat i)%Z && (Z.of_nat j * Z.of_nat (length t) + Z.of_nat i <? Z.of_nat (n * length t))%Z) with true.
  - cbn [bind]. replace (Z.to_nat (Z.of_nat j * Z.of_nat (length t) + Z.of_nat i)) with (j * length t + i) by lia. rewrite (at_F n t i j r R Lj Hr), Hx. reflexivity.
  - symmetry. apply andb_true_intro. split; [apply Z.leb_le; lia|apply Z.ltb_lt]. nia.
Qed.
Theorem C124_row_major_partial I J i j r x : sub (length t) I i -> sub n J j -> nth_error t i = Some r -> nth_error r j = Some x ->
  np_get (flattenC t) (sub2ind shape I J true) = Ok x.
Proof.
  intros HI HJ Hr Hx. unfold sub2ind. cbn [fst snd]. rewrite (sub_mod _ _ _ HI), (sub_mod _ _ _ HJ). destruct HI as (Li & _), HJ as (Lj & _).
  unfold np_get, np_index. rewrite (length_C n t R).
  replace ((0 <=? Z.of_nat i * Z.of_nat n + Z.of_nat j)%Z && (Z.of_nat i * Z.of_nat n + Z.of_nat j <? Z.of_nat (length t * n))%Z) with true.
  - cbn [bind]. replace (Z.to_nat (Z.of_nat i * Z.of_nat n + Z.of_nat j)) with (i * n + j) by lia. rewrite (at_C n t i j r R Lj Hr), Hx. reflexivity.
  - symmetry. apply andb_true_intro. split; [apply Z.leb_le; lia|apply Z.ltb_lt]. nia.
Qed.
End Theorems.

(** different entries have different indices *)
Theorem C124_different m n I J I' J' i j i' j' o : sub m I i -> sub n J j -> sub m I' i' -> sub n J' j' ->
  sub2ind (Z.of_nat m, Z.of_nat n) I J o = sub2ind (Z.of_nat m, Z.of_nat n) I' J' o -> i = i' /\ j = j'.
Proof.
  intros HI HJ HI' HJ'. unfold sub2ind. cbn [fst snd]. rewrite (sub_mod _ _ _ HI), (sub_mod _ _ _ HJ), (sub_mod _ _ _ HI'), (sub_mod _ _ _ HJ').
  destruct HI as (L1 & _), HJ as (L2 & _), HI' as (L3 & _), HJ' as (L4 & _). destruct o; intros E.
  - destruct (Nat.lt_trichotomy i i') as [Q|[Q|Q]]; [nia|subst i'; split; [reflexivity|lia]|nia].
  - destruct (Nat.lt_trichotomy j j') as [Q|[Q|Q]]; [nia|subst j'; split; [lia|reflexivity]|nia].
Qed.

(** subscripts beyond the table are not noticed: they start again at the first column *)
Theorem C124_beyond_refuted m n I J : (0 < n)%Z -> sub2ind (m, n) I (J + n)%Z false = sub2ind (m, n) I J false.
Proof. intros Hn. unfold sub2ind, np_mod. cbn [fst snd]. destruct (Z.eqb_spec n 0); [lia|]. rewrite <- (Z.mod_add J 1 n), Z.mul_1_l by lia. reflexivity. Qed.

(** where it is used: the cost at the last breakpoint, as the model of the start point takes it *)
Theorem C124_last_cost {K} {F : Fld K} n (t : list (list K)) i r y : table n t -> nth_error t i = Some r -> last_cost r = Ok y ->
  exists k, nth_error r NCOST = Some (fofZ (Z.of_nat k)) /\
    np_get (flattenF n t) (sub2ind (Z.of_nat (length t), Z.of_nat n) (Z.of_nat i) (Z.of_nat NCOST + 2 * Z.of_nat k) false) = Ok y.
Proof.
  intros R Hr E. unfold last_cost in E. unfold get in E at 1. destruct (nth_error r NCOST) as [q|] eqn:Eq; [|discriminate]. cbn [of_option bind] in E.
  destruct (to_idx OutOfModel q) as [k|]; [|discriminate]. cbn [bind] in E. destruct (feqb q (fofZ (Z.of_nat k))) eqn:Ek; [|discriminate].
  apply feqb_ok in Ek. subst q. exists k. split; [reflexivity|]. destruct (nth_error r (NCOST + 2 * k)) as [x|] eqn:Ex; [|discriminate]. injection E as ->.
  assert (Hi : i < length t) by (apply nth_error_Some; congruence). assert (Hj : NCOST + 2 * k < n) by (rewrite <- (R r (nth_error_In _ _ Hr)); apply nth_error_Some; congruence).
  apply (C124_column_major_partial n t R _ _ i (NCOST + 2 * k) r y); auto; split; auto; left; lia.
Qed.
Print Assumptions C124_column_major_partial.
Print Assumptions C124_row_major_partial.
Print Assumptions C124_different.
Print Assumptions C124_beyond_refuted.
Print Assumptions C124_last_cost.

(** ** example: entries of a table with two rows and three columns *)
Example C124_example : let t := [[1; 2; 3]; [4; 5; 6]] in
  map (fun p => np_get (flattenF 3 t) (sub2ind (2, 3)%Z (fst p) (snd p) false)) [(0, 0); (1, 0); (0, 2); (1, -2); (1, 3)]%Z = [Ok 1; Ok 4; Ok 3; Ok 5; Ok 4] /\
  map (fun p => np_get (flattenC t) (sub2ind (2, 3)%Z (fst p) (snd p) true)) [(0, 0); (1, 0); (0, 2); (1, -2)]%Z = [Ok 1; Ok 4; Ok 3; Ok 5].
Proof. split; vm_compute; reflexivity. Qed.
