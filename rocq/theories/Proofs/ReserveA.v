(** Reserve data in the numbering of the case and in internal numbering. *)
From Coq Require Import Sorting.Sorted.
From Verif Require Import Lib.ListFacts Model.Reserves Spec.ReserveSpec Proofs.SparseFacts Proofs.FldFacts
  Proofs.OrdFacts Proofs.Ext2intA Proofs.Ext2intB Proofs.Ext2intD.
Local Open Scope nat_scope.

Lemma increasing_tail a l : increasing (a :: l) -> increasing l.
Proof. intros H i j x y L Hx Hy. apply (H (S i) (S j) x y); auto. lia. Qed.

Lemma increasing_head a l x : increasing (a :: l) -> In x l -> a < x.
Proof. intros H Hx. apply In_nth_error in Hx as (n & Hn). apply (H 0 (S n) a x); auto. lia. Qed.

Lemma increasing_unique l : forall l', increasing l -> increasing l' -> (forall i, In i l <-> In i l') -> l = l'.
Proof.
  induction l as [|a l IH]; intros [|b l'] I I' E; auto.
  - destruct (proj2 (E b)); left; auto.
  - destruct (proj1 (E a)); left; auto.
  - assert (a = b) as ->.
    { destruct (proj1 (E a) (or_introl eq_refl)) as [->|Ha]; auto.
      destruct (proj2 (E b) (or_introl eq_refl)) as [->|Hb]; auto.
      pose proof (increasing_head _ _ _ I Hb). pose proof (increasing_head _ _ _ I' Ha). lia. }
    f_equal. apply IH; eauto using increasing_tail.
    intros i. split; intros Hi.
    + destruct (proj1 (E i) (or_intror Hi)) as [<-|]; auto. pose proof (increasing_head _ _ _ I Hi). lia.
    + destruct (proj2 (E i) (or_intror Hi)) as [<-|]; auto. pose proof (increasing_head _ _ _ I' Hi). lia.
Qed.

Section A.
Context {K : Type} {F : Fld K}.
Add Field KF : (@f_ok K F).

Lemma nonzero_iff (a : K) : nonzero a = true <-> a <> 0%K.
Proof.
  unfold nonzero. destruct (feqb a 0%K) eqn:E; cbn.
  - apply (@feqb_ok K F) in E. split; [discriminate|]. tauto.
  - split; auto. intros _ C. apply (@feqb_ok K F) in C. congruence.
Qed.

Variable n : nat.
Variable zones : list (list K).

Lemma rgens_length : length (rgens n zones) = n.
Proof. unfold rgens. rewrite map_length, seq_length. auto. Qed.

Lemma rgens_nth j : j < n -> nth_error (rgens n zones) j = Some true <-> provider zones j.
Proof.
  intros L. unfold rgens. rewrite nth_error_map, (seq_nth_error n 0 j) by auto. cbn [option_map Nat.add].
  split.
  - intros H. assert (existsb (fun z => nonzero (nth j z 0%K)) zones = true) as H' by congruence.
    apply existsb_exists in H' as (z & Hz & N). apply In_nth_error in Hz as (i & Hi). apply nonzero_iff in N.
    exists i, z. auto.
  - intros (i & z & Hi & N). f_equal. apply existsb_exists. exists z. split; [eapply nth_error_In; eauto|].
    apply nonzero_iff. auto.
Qed.

Lemma in_rgens j : In j (find (rgens n zones)) <-> j < n /\ provider zones j.
Proof.
  rewrite in_find. split.
  - intros H. assert (j < n) by (rewrite <- rgens_length; eapply nth_error_some_lt; eauto). split; auto.
    apply rgens_nth; auto.
  - intros (L & P). apply rgens_nth; auto.
Qed.

Lemma find_increasing m : increasing (find m).
Proof. apply SS_lt_nth, find_sorted. Qed.

(** data for units in zones only *)
Lemma expand_ok v : length v = n \/ length v = length (find (rgens n zones)) ->
  exists w, expand n (find (rgens n zones)) v = Ok w /\ length w = n /\ (length v = n -> w = v) /\
    forall j a, j < n -> provider zones j -> (nth_error w j = Some a <-> stated n zones v j a).
Proof.
  intros L. set (igr := find (rgens n zones)) in *.
  assert (length igr <= n) as LE.
  { unfold igr. pose proof (find_length_split (rgens n zones)) as S. rewrite rgens_length in S. lia. }
  unfold expand. destruct (Nat.ltb_spec (length v) n) as [S|S].
  - assert (length v = length igr) as L' by lia.
    rewrite scatter_checked_ok.
    2: auto. 2:{ intros i Hi. rewrite repeat_length. apply in_rgens in Hi. tauto. }
    eexists. split; [reflexivity|]. rewrite scatter_length, repeat_length. split; auto. split; [lia|].
    intros j a J P. assert (In j igr) as I by (apply in_rgens; auto). apply In_nth_error in I as (k & Hk).
    destruct (nth_error_lt v k) as [b Hb]; [rewrite L'; eapply nth_error_some_lt; eauto|].
    rewrite (scatter_at _ _ _ k _ b); auto; [|apply find_NoDup|rewrite repeat_length; auto].
    split.
    + intros E. right. split; [lia|]. exists igr, k. split; [apply find_increasing|]. split; [intros; apply in_rgens|].
      split; auto. congruence.
    + intros [(E & _)|(_ & idx & k' & I1 & I2 & Hk' & Ha)]; [lia|].
      assert (idx = igr) as ->.
      { apply increasing_unique; auto; [apply find_increasing|]. intros i. rewrite I2. symmetry. apply in_rgens. }
      assert (k' = k) as ->.
      { pose proof (find_NoDup (rgens n zones)) as ND. rewrite NoDup_nth_error in ND. apply ND; [eapply nth_error_some_lt; eauto|].
        fold igr. congruence. }
      congruence.
  - assert (length v = n) as L' by (destruct L; lia). exists v. split; auto. split; auto. split; auto.
    intros j a J P. split.
    + intros E. left. auto.
    + intros [(_ & E)|(C & _)]; auto. lia.
Qed.

Variable argsort : list Z -> list nat.
Variables (p q : ppc_of K) (o : order_of K) (i2eZ : list Z) (sb gon ge sg sl sa : list nat).
Hypothesis C : conv argsort p q o i2eZ sb gon ge sg sl sa.
Hypothesis Hn : length (p_gen p) = n.

Lemma to_int {A} (v : list A) : length v = n ->
  exists w, e2i_single o OGen v = Ok w /\ length w = length sg /\
    forall k j, nth_error sg k = Some j -> nth_error w k = nth_error v j.
Proof.
  intros L. destruct (e2i_single_ok _ _ _ _ _ _ _ _ _ _ _ C OGen v) as (w & H1 & H2 & H3); [cbn; congruence|].
  exists w. auto.
Qed.

Lemma sg_lt k j : nth_error sg k = Some j -> j < n.
Proof.
  intros H. rewrite <- Hn. apply (src_range _ _ _ _ _ _ _ _ _ _ _ C OGen). cbn. eapply nth_error_In; eauto.
Qed.
End A.

Section B.
Context {K : Type} {F : Fld K}.
Variable argsort : list Z -> list nat.
Variables (p q : ppc_of K) (o : order_of K) (i2eZ : list Z) (sb gon ge sg sl sa : list nat).
Hypothesis C : conv argsort p q o i2eZ sb gon ge sg sl sa.
Notation n := (length (p_gen p)).
Variables (R : reserves (K := K)) (igr0 : list nat) (ri : rint (K := K)).

(** values [w] of the internal units for the data [v] *)
Definition values_of (v w : list K) : Prop :=
  length w = length sg /\ (length v = n \/ length v = length (find (rgens n (rs_zones R)))) /\
  (length v = n -> e2i_single o OGen v = Ok w) /\
  forall k j a, nth_error sg k = Some j -> provider (rs_zones R) j ->
    (nth_error w k = Some a <-> stated n (rs_zones R) v j a).

Record ext2int_done : Prop := {
  ed_req : length (rs_zones R) = length (rs_req R);
  ed_wide : forall z, In z (rs_zones R) -> length z = n;
  ed_igr0 : igr0 = find (rgens n (rs_zones R));
  ed_zones_len : length (ri_zones ri) = length (rs_zones R);
  ed_zones : forall i z, nth_error (rs_zones R) i = Some z -> exists w, nth_error (ri_zones ri) i = Some w /\
    e2i_single o OGen z = Ok w /\ length w = length sg /\ forall k j, nth_error sg k = Some j -> nth_error w k = nth_error z j;
  ed_cost : values_of (rs_cost R) (ri_cost ri);
  ed_qty : match rs_qty R, ri_qty ri with
           | Some v, Some w => values_of v w /\ length v = length (rs_cost R) | None, None => True | _, _ => False end;
  ed_igr : increasing (ri_igr ri);
  ed_nodup : NoDup (ri_igr ri);
  ed_in : forall k, In k (ri_igr ri) <-> exists j, nth_error sg k = Some j /\ provider (rs_zones R) j }.

Lemma expand_values v w u : length v = n \/ length v = length (find (rgens n (rs_zones R))) ->
  expand n (find (rgens n (rs_zones R))) v = Ok w -> e2i_single o OGen w = Ok u -> values_of v u.
Proof.
  intros L H1 H2. destruct (expand_ok n (rs_zones R) v L) as (w' & E & Lw & Ew & S).
  assert (w' = w) by congruence. subst w'.
  destruct (to_int n argsort p q o i2eZ sb gon ge sg sl sa C eq_refl w Lw) as (u' & E2 & Lu & Su).
  assert (u' = u) by congruence. subst u'.
  split; auto. split; auto. split.
  - intros E3. rewrite <- (Ew E3). auto.
  - intros k j a Hk P. rewrite (Su _ _ Hk). apply S; auto. eapply sg_lt; eauto.
Qed.

Lemma res_ext2int_ok : res_ext2int o n R = Ok (igr0, ri) -> ext2int_done.
Proof.
  unfold res_ext2int. intros H. apply bind_ok in H as (u1 & G1 & H). apply bind_ok in H as (u2 & G2 & H).
  apply bind_ok in H as (u3 & G3 & H). apply bind_ok in H as (cost & Hc & H). apply bind_ok in H as (qty & Hq & H).
  apply bind_ok in H as (qty' & Hq' & H). apply bind_ok in H as (cost' & Hc' & H). apply bind_ok in H as (zs & Hz & H).
  apply bind_ok in H as (m' & Hm & H).
  assert (igr0 = find (rgens n (rs_zones R)) /\ ri = RInt zs cost' qty' (find m')) as (E0 & E1) by (split; congruence).
  clear H. unfold guard in G1, G2, G3.
  destruct ((length (rs_zones R) =? length (rs_req R)) && forallb (fun z => length z =? n) (rs_zones R)) eqn:G1'; [|discriminate].
  apply andb_prop in G1' as (Q1 & Q2). apply Nat.eqb_eq in Q1. rewrite forallb_forall in Q2.
  assert (Q2' : forall z, In z (rs_zones R) -> length z = n) by (intros z I; apply Nat.eqb_eq; auto).
  destruct ((length (rs_cost R) =? n) || _) eqn:G2'; [|discriminate].
  assert (LC : length (rs_cost R) = n \/ length (rs_cost R) = length (find (rgens n (rs_zones R)))).
  { apply orb_prop in G2' as [X|X]; apply Nat.eqb_eq in X; auto. }
  constructor; rewrite ?E1; cbn [ri_zones ri_cost ri_qty ri_igr]; auto.
  - apply mapM_length in Hz. auto.
  - intros i z Hi. destruct (mapM_nth _ _ _ _ _ Hz Hi) as (w & Hw & Hwi). exists w. split; auto. split; auto.
    destruct (to_int n argsort p q o i2eZ sb gon ge sg sl sa C eq_refl z) as (w' & E2 & L2 & S2).
    { apply Q2'. eapply nth_error_In; eauto. }
    assert (w' = w) by congruence. subst w'. auto.
  - apply (expand_values _ cost); auto.
  - destruct (rs_qty R) as [v|].
    + apply bind_ok in Hq as (w & Hw & Hq). assert (qty = Some w) by congruence. subst qty.
      apply bind_ok in Hq' as (u & Hu & Hq'). assert (qty' = Some u) by congruence. subst qty'.
      destruct (length v =? length (rs_cost R)) eqn:LV; [|discriminate]. apply Nat.eqb_eq in LV.
      split; auto. apply (expand_values _ w); auto. rewrite LV. auto.
    + assert (qty = None) by congruence. subst qty. assert (qty' = None) by congruence. subst qty'. auto.
  - apply find_increasing.
  - apply find_NoDup.
  - intros k.
    destruct (to_int n argsort p q o i2eZ sb gon ge sg sl sa C eq_refl (rgens n (rs_zones R))) as (m & E2 & L2 & S2).
    { apply rgens_length. }
    assert (m = m') by congruence. subst m. rewrite in_find. split.
    + intros Hk. destruct (nth_error_lt sg k) as [j Hj]; [rewrite <- L2; eapply nth_error_some_lt; eauto|].
      exists j. split; auto. rewrite (S2 _ _ Hj) in Hk. apply (rgens_nth n (rs_zones R) j) in Hk; auto. eapply sg_lt; eauto.
    + intros (j & Hj & P). rewrite (S2 _ _ Hj). apply (rgens_nth n (rs_zones R) j); auto. eapply sg_lt; eauto.
Qed.
End B.
