(** Property C122: polynomial costs are turned into piecewise linear ones. *)
From Coq Require Import Lia QArith.Qcanon.
From Verif Require Import Model.Poly2pwl.
Local Open Scope nat_scope.

Definition table (n : nat) (t : list (list Qc)) : Prop := forall r, In r t -> length r = n.
(** the costs of a row are gone: a piecewise linear cost, all of whose points are zero *)
Definition emptied (n : nat) (npts : Z) (r r' : list Qc) : Prop :=
  length r' = n /\ nth_error r' MODEL = Some (zc 1) /\ nth_error r' NCOST = Some (zc npts) /\
  nth_error r' STARTUP = nth_error r STARTUP /\ nth_error r' SHUTDOWN = nth_error r SHUTDOWN /\
  (forall k, COST <= k < n -> nth_error r' k = Some 0%Qc).

Section Theorems.
Variables fsub fdiv : num -> num -> num.
Variable rest : nat -> list Z -> list (list Qc) -> list (list Qc) * option exn.
Notation run := (poly2pwl fsub fdiv rest).

(** there are never any points: the step is a float, and a row before has not come so far *)
Lemma no_points lo hi npts : points fsub fdiv lo hi npts None = Err TypeError \/ points fsub fdiv lo hi npts None = Err UnboundLocalError.
Proof.
  unfold points, range, div. destruct (n_eqb _ _); [left; destruct lo; reflexivity|]. destruct (lt (SInt 0) lo); [left; destruct lo; reflexivity|].
  destruct hi as [h|h]; [|left; reflexivity]. cbn [bitand bind]. rewrite Z.land_0_l. replace (lt (SInt 0) (SInt 0)) with false by reflexivity.
  rewrite Bool.andb_false_r. right. reflexivity.
Qed.

(** a table with a row is never converted, whatever the limits and the number of points *)
Theorem C122_fails_refuted n t Pmin Pmax npts : t <> [] -> exists e, snd (run n t Pmin Pmax npts) = Some e.
Proof.
  intros NE. unfold poly2pwl. destruct (n <=? MODEL); [eexists; reflexivity|]. destruct (n <=? NCOST); [eexists; reflexivity|].
  destruct t as [|r t']; [contradiction|]. cbn [length seq loop]. destruct (get Pmin 0) as [lo|e]; [|eexists; reflexivity].
  destruct (get Pmax 0) as [hi|e]; [|eexists; reflexivity]. cbn [bind]. destruct (no_points lo hi npts) as [-> | ->]; eexists; reflexivity.
Qed.

(** with limits in floats it is a TypeError *)
Theorem C122_floats_refuted n t lo x Pmin Pmax npts : t <> [] -> NCOST < n ->
  snd (run n t (lo :: Pmin) (SFloat x :: Pmax) npts) = Some TypeError.
Proof.
  intros NE Hn. unfold poly2pwl. replace (n <=? MODEL) with false by (symmetry; apply Nat.leb_gt; unfold MODEL, NCOST in *; lia).
  replace (n <=? NCOST) with false by (symmetry; apply Nat.leb_gt; exact Hn).
  destruct t as [|r t']; [contradiction|]. cbn [length seq loop get nth_error of_option bind]. unfold points, range, div.
  destruct (n_eqb _ _) eqn:E0; [destruct lo; reflexivity|]. destruct (lt (SInt 0) lo) eqn:E1; [destruct lo; reflexivity|]. reflexivity.
Qed.

Lemma emptied_row n npts r : length r = n -> NCOST < n ->
  emptied n npts r (upd (firstn COST (upd r MODEL (zc 1)) ++ repeat 0%Qc (length (upd r MODEL (zc 1)) - COST)) NCOST (zc npts)).
Proof.
  intros R Hn. unfold NCOST in Hn. destruct r as [|a [|b [|c [|d r]]]]; cbn [length] in R; try lia.
  cbn [upd MODEL COST firstn app NCOST length Nat.sub]. unfold emptied. cbn [length]. rewrite repeat_length. split; [lia|]. repeat (split; [reflexivity|]).
  intros k (K1 & K2). unfold COST in K1. do 4 (destruct k as [|k]; [lia|]). cbn [nth_error]. apply nth_error_repeat. lia.
Qed.

(** the costs of the caller are overwritten before the call fails *)
Theorem C122_costs_lost_refuted n t lo hi Pmin Pmax npts : t <> [] -> NCOST < n -> table n t ->
  Forall2 (emptied n npts) t (fst (run n t (lo :: Pmin) (hi :: Pmax) npts)).
Proof.
  intros NE Hn R. unfold poly2pwl. replace (n <=? MODEL) with false by (symmetry; apply Nat.leb_gt; unfold MODEL, NCOST in *; lia).
  replace (n <=? NCOST) with false by (symmetry; apply Nat.leb_gt; exact Hn).
  assert (Q : Forall2 (emptied n npts) t (map (fun r => upd r NCOST (zc npts)) (map (fun r => firstn COST r ++ repeat 0%Qc (length r - COST)) (map (fun r => upd r MODEL (zc 1)) t)))).
  { rewrite !map_map. clear NE. induction t as [|r t IH]; [constructor|]. constructor; [apply emptied_row; auto; apply R; left; reflexivity|apply IH; intros x I; apply R; right; exact I]. }
  destruct t as [|r t']; [contradiction|]. cbn [length seq loop]. cbn [get nth_error of_option bind].
  destruct (no_points lo hi npts) as [-> | ->]; exact Q.
Qed.

(** a table without rows is returned as it is *)
Theorem C122_empty_partial n Pmin Pmax npts : NCOST < n -> run n [] Pmin Pmax npts = ([], None).
Proof.
  intros Hn. unfold poly2pwl. replace (n <=? MODEL) with false by (symmetry; apply Nat.leb_gt; unfold MODEL, NCOST in *; lia).
  replace (n <=? NCOST) with false by (symmetry; apply Nat.leb_gt; exact Hn). reflexivity.
Qed.
End Theorems.
Print Assumptions C122_fails_refuted.
Print Assumptions C122_floats_refuted.
Print Assumptions C122_costs_lost_refuted.
Print Assumptions C122_empty_partial.

(** ** example: 0.01 p^2 + 40 p between 0 and 100, ten points; the same with limits that are integers, and for reactive power *)
Definition cost1 : list (list Qc) := [map zc [2; 0; 0; 3; 1; 4000; 0; 0]%Z].
Definition gone : list (list Qc) := [map zc [1; 0; 0; 10; 0; 0; 0; 0]%Z].
Definition same (a b : list (list Qc)) : bool := forallb (fun p => qc_eqb (fst p) (snd p)) (combine (concat a) (concat b)).
Definition demo lo hi := poly2pwl (fun a _ => a) (fun a _ => a) (fun _ _ t => (t, None)) 8 cost1 [lo] [hi] 10.
Example C122_example :
  snd (demo (SFloat (n_ofZ 0)) (SFloat (n_ofZ 100))) = Some TypeError /\ snd (demo (SInt 0) (SInt 100)) = Some TypeError /\
  snd (demo (SInt 10) (SInt 100)) = Some TypeError /\ snd (demo (SInt (-50)) (SInt 50)) = Some UnboundLocalError /\
  same (fst (demo (SFloat (n_ofZ 0)) (SFloat (n_ofZ 100)))) gone = true.
Proof. repeat split; vm_compute; reflexivity. Qed.
