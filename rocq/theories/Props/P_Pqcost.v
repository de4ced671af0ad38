(** Property C128: pqcost.py separates the costs of active and reactive power.  The selection is an array of indices, not
    negative; a Python list raises TypeError in line 33 if there are reactive costs. *)
From Coq Require Import Lia.
From Verif Require Import Lib.ListFacts Model.Cost Model.DcOpf Proofs.OpfLinB.
Local Open Scope nat_scope.

Lemma gather_in {A} (l v : list A) idx i : gather l idx = Ok v -> In i idx -> i < length l.
Proof.
  intros E I. apply In_nth_error in I as (k & Hk). pose proof (gather_nth _ _ _ _ _ E Hk) as Q. apply nth_error_Some. rewrite <- Q. apply nth_error_Some.
  rewrite (gather_length _ _ _ E). apply nth_error_Some. congruence.
Qed.

(** which calls return: as many rows as generators or twice as many, and only generators that exist *)
Theorem C128_defined gencost ng on : (exists r, pqcost gencost ng (Some on) = Ok r) <->
  (length gencost = ng \/ length gencost = 2 * ng) /\ forall i, In i on -> i < ng.
Proof.
  unfold pqcost. destruct (Nat.eqb_spec (length gencost) ng) as [Q|Q].
  - split.
    + intros (r & H). destruct (gather gencost on) eqn:E; [|discriminate]. split; auto. intros i I. rewrite <- Q. eapply gather_in; eauto.
    + intros (_ & B). destruct (gather_ok gencost on) as (v & E); [intros i I; rewrite Q; auto|]. rewrite E. cbn. eauto.
  - destruct (Nat.eqb_spec (length gencost) (2 * ng)) as [Q2|Q2].
    + split.
      * intros (r & H). destruct (gather gencost on) eqn:E; [|discriminate]. cbn [bind] in H. destruct (gather gencost (map _ on)) eqn:E2; [|discriminate]. split; auto.
        intros i I. assert (i + ng < length gencost) by (eapply gather_in; [exact E2|]; apply in_map_iff; eauto). lia.
      * intros (_ & B). destruct (gather_ok gencost on) as (v & E); [intros i I; apply B in I; lia|]. rewrite E. cbn [bind].
        destruct (gather_ok gencost (map (fun i => i + ng) on)) as (w & E2); [intros i I; apply in_map_iff in I as (j & <- & J); apply B in J; lia|]. rewrite E2. cbn. eauto.
    + split; [intros (r & H); discriminate|lia].
Qed.

(** what they return: the rows of the chosen generators in their order; reactive rows only if there are any *)
Theorem C128_rows gencost ng on p q : pqcost gencost ng (Some on) = Ok (p, q) ->
  length p = length on /\ (forall k i, nth_error on k = Some i -> nth_error p k = nth_error gencost i) /\
  (length gencost = ng -> q = []) /\
  (length gencost <> ng -> length q = length on /\ forall k i, nth_error on k = Some i -> nth_error q k = nth_error gencost (ng + i)).
Proof.
  unfold pqcost. intros H. destruct (Nat.eqb_spec (length gencost) ng) as [Q|Q].
  - destruct (gather gencost on) eqn:E; [|discriminate]. injection H as <- <-. split; [eapply gather_length; eauto|]. split; [intros; eapply gather_nth; eauto|]. split; [auto|lia].
  - destruct (Nat.eqb_spec (length gencost) (2 * ng)) as [Q2|Q2]; [|discriminate]. destruct (gather gencost on) eqn:E; [|discriminate]. cbn [bind] in H. destruct (gather gencost (map _ on)) eqn:E2; [|discriminate].
    injection H as <- <-. split; [eapply gather_length; eauto|]. split; [intros; eapply gather_nth; eauto|]. split; [lia|]. intros _. split; [rewrite (gather_length _ _ _ E2); apply map_length|].
    intros k i Hk. apply (gather_nth _ _ _ _ _ E2). rewrite nth_error_map, Hk. cbn. f_equal. lia.
Qed.

(** without a selection: the two halves, nothing lost *)
Theorem C128_all gencost ng p q : pqcost gencost ng None = Ok (p, q) -> p ++ q = gencost /\ length p = ng /\ (q = [] \/ length q = ng).
Proof.
  intros H. change (pqcost gencost ng None) with (pqcost gencost ng (Some (seq 0 ng))) in H.
  destruct (proj1 (C128_defined gencost ng (seq 0 ng)) (ex_intro _ _ H)) as (L & _). destruct (C128_rows _ _ _ _ _ H) as (Lp & Rp & Q0 & Q1). rewrite seq_length in *.
  assert (S : forall k, k < ng -> nth_error (seq 0 ng) k = Some k) by (intros k Hk; rewrite (nth_error_nth' _ 0) by (rewrite seq_length; auto); rewrite seq_nth by auto; reflexivity).
  split; [|split; [auto|]].
  - destruct (Nat.eq_dec (length gencost) ng) as [E|E].
    + rewrite (Q0 E), app_nil_r. apply nth_error_ext. intros k. destruct (Nat.lt_ge_cases k ng) as [Q|Q]; [apply Rp, S, Q|]. rewrite !(proj2 (nth_error_None _ _)) by lia. reflexivity.
    + destruct (Q1 E) as (Lq & Rq). apply nth_error_ext. intros k. destruct (Nat.lt_ge_cases k ng) as [Q|Q]; [rewrite nth_error_app1 by lia; apply Rp, S, Q|]. rewrite nth_error_app2 by lia. rewrite Lp.
      destruct (Nat.lt_ge_cases k (2 * ng)) as [Q'|Q']; [|rewrite !(proj2 (nth_error_None _ _)) by lia; reflexivity]. rewrite (Rq (k - ng) (k - ng)) by (apply S; lia). f_equal. lia.
  - destruct (Nat.eq_dec (length gencost) ng) as [E|E]; [left; auto|right; apply (Q1 E)].
Qed.

(** the active rows that the DC optimal power flow keeps (opf_setup.py:65) are those *)
Theorem C128_setup (gencost : list (list Qc)) ng : pcost_rows ng gencost = (r <- pqcost gencost ng None ;; Ok (fst r)).
Proof.
  destruct (pqcost gencost ng None) as [(p, q)|e] eqn:E.
  - destruct (C128_all _ _ _ _ E) as (A & Lp & Lq). cbn [bind fst]. unfold pcost_rows. rewrite <- A, app_length.
    assert (FN : firstn ng (p ++ q) = p) by (rewrite <- Lp, firstn_app, Nat.sub_diag, firstn_all, firstn_O, app_nil_r; reflexivity). rewrite FN.
    destruct (Nat.eqb_spec (length p + length q) ng) as [Q|Q]; [destruct q; [rewrite app_nil_r; reflexivity|cbn in Q; lia]|].
    destruct Lq as [->|Lq]; [cbn in Q; lia|]. destruct (Nat.eqb_spec (length p + length q) (2 * ng)); [reflexivity|lia].
  - cbn [bind]. unfold pcost_rows. change (pqcost gencost ng None) with (pqcost gencost ng (Some (seq 0 ng))) in E.
    assert (N : ~ (length gencost = ng \/ length gencost = 2 * ng)).
    { intros L. destruct (proj2 (C128_defined gencost ng (seq 0 ng))) as (r & R); [split; auto; intros i I; apply in_seq in I; lia|]. congruence. }
    unfold pqcost in E. destruct (Nat.eqb_spec (length gencost) ng); [lia|]. destruct (Nat.eqb_spec (length gencost) (2 * ng)); [lia|]. injection E as <-. reflexivity.
Qed.
Print Assumptions C128_defined.
Print Assumptions C128_rows.
Print Assumptions C128_all.
Print Assumptions C128_setup.

(** two generators with reactive costs, the second one chosen; three rows for two generators *)
Example C128_example : pqcost [[zc 1]; [zc 2]; [zc 3]; [zc 4]] 2 (Some [1]) = Ok ([[zc 2]], [[zc 4]]) /\
  pqcost [[zc 1]; [zc 2]; [zc 3]; [zc 4]] 2 (Some [2]) = Err IndexError /\ pqcost [[zc 1]; [zc 2]; [zc 3]] 2 None = Err UnboundLocalError.
Proof. repeat split. Qed.
