(** Reports: which areas get a row, and the totals over the rows. *)
From Coq Require Import Permutation Sorted.
From Verif Require Import Lib.ListFacts Model.PrintPf Spec.PrintSpec Spec.PfSpec
  Proofs.SparseFacts Proofs.FldFacts Proofs.NetworkE Proofs.PrintA Proofs.PrintB Proofs.PrintC Proofs.PrintD.
Local Open Scope nat_scope.

Section PrintE.
Context {K : Type} {F : Fld K}.
Add Field KFpe : (@f_ok K F).

Definition nle (a b : K) : Prop := fltb b a = false.
Lemma nle_refl a : nle a a. Proof. apply f_lt_irrefl. Qed.
Lemma nle_trans a b c : nle a b -> nle b c -> nle a c.
Proof.
  unfold nle. intros A B. destruct (fltb c a) eqn:E; auto. destruct (fnlt _ _ A) as [->|G]; [congruence|].
  rewrite (f_lt_trans c a b E G) in B. discriminate.
Qed.
Lemma nle_antisym a b : nle a b -> nle b a -> a = b.
Proof. unfold nle. intros A B. destruct (f_lt_total a b) as [G|[G|G]]; congruence. Qed.
Lemma insert_perm (a : K) l : Permutation (insert a l) (a :: l).
Proof.
  induction l as [|b l IH]; cbn; auto. destruct (fltb b a); auto.
  eapply Permutation_trans; [apply perm_skip, IH|apply perm_swap].
Qed.
Lemma sort_perm (l : list K) : Permutation (sort l) l.
Proof. induction l as [|a l IH]; cbn; auto. eapply Permutation_trans; [apply insert_perm|auto]. Qed.
Lemma insert_sorted (a : K) l : StronglySorted nle l -> StronglySorted nle (insert a l).
Proof.
  induction l as [|b l IH]; intros H; cbn; [repeat constructor|]. inversion H as [|? ? Hs Hf]; subst. destruct (fltb b a) eqn:E.
  - constructor; auto. rewrite (insert_perm a l). constructor; auto. unfold nle. apply flt_asym. exact E.
  - constructor; auto. constructor; [exact E|]. rewrite Forall_forall in *. intros x I. apply (nle_trans a b x); [exact E|auto].
Qed.
Lemma sort_sorted (l : list K) : StronglySorted nle (sort l).
Proof. induction l; cbn; [constructor|apply insert_sorted; auto]. Qed.

(** the entries that differ from the one before *)
Fixpoint steps (p : K) (t : list K) : list K :=
  match t with [] => [] | b :: t' => if nz (b - p)%K then b :: steps b t' else steps b t' end.
Lemma nz_sub (a b : K) : nz (b - a)%K = negb (feqb b a).
Proof.
  unfold nz. f_equal. destruct (feqb b a) eqn:E.
  - apply feqb_ok in E. subst. apply feqb_ok. ring.
  - destruct (feqb (b - a) 0)%K eqn:G; auto. apply feqb_ok in G. assert (b = a) as G' by (transitivity (b - a + a)%K; [ring|rewrite G; ring]).
    apply feqb_ok in G'. congruence.
Qed.
Lemma gather_steps t : forall pre p, gather (pre ++ p :: t) (map S (find_from (length pre) (map2 (fun a b => nz (b - a)%K) (p :: t) t))) = Ok (steps p t).
Proof.
  unfold gather. induction t as [|b t IH]; intros pre p; [reflexivity|].
  change (map2 (fun a b0 => nz (b0 - a)%K) (p :: b :: t) (b :: t)) with (nz (b - p)%K :: map2 (fun a b0 => nz (b0 - a)%K) (b :: t) t).
  specialize (IH (pre ++ [p]) b). rewrite app_length in IH. cbn [length] in IH. rewrite Nat.add_1_r, <- app_assoc in IH. cbn [app] in IH.
  cbn [find_from steps]. destruct (nz (b - p)%K).
  - cbn [map mapM]. rewrite IH. unfold get. rewrite nth_error_app2 by lia.
    replace (S (length pre) - length pre) with 1 by lia. reflexivity.
  - exact IH.
Qed.
Lemma steps_in p t : StronglySorted nle (p :: t) -> (forall x, In x (p :: t) <-> In x (p :: steps p t)) /\ NoDup (p :: steps p t)
   /\ forall x, In x (steps p t) -> x <> p.
Proof.
  revert p. induction t as [|b t IH]; intros p H; [cbn; repeat split; auto; try tauto; repeat constructor; tauto|].
  inversion H as [|? ? Hs Hf]; subst. destruct (IH b Hs) as (A & B & C). cbn [steps]. rewrite nz_sub. destruct (feqb b p) eqn:E; cbn [negb].
  - apply feqb_ok in E. subst b. split; [|split; auto]. intros x. rewrite <- A. cbn. tauto.
  - assert (N : forall x, In x (b :: t) -> x <> p).
    { intros x I ->. inversion Hs as [|? ? Hs' Hf']; subst. rewrite Forall_forall in Hf, Hf'.
      assert (b = p); [|subst; rewrite (proj2 (feqb_ok p p) eq_refl) in E; discriminate].
      apply nle_antisym; [|apply Hf; left; auto]. destruct I as [->|I]; [apply nle_refl|apply Hf'; exact I]. }
    split; [|split].
    + intros x. specialize (A x). cbn in *. tauto.
    + constructor; auto. intros I. apply A in I. exact (N p I eq_refl).
    + intros x I. apply N. apply A. exact I.
Qed.

Lemma area_list_spec c l : area_list c = Ok l ->
  exists a b t, sort c = a :: b :: t /\ l = b :: (if nz (b - a)%K then b :: steps b t else steps b t).
Proof.
  unfold area_list. cbv zeta. intros H. unfold gather in H. cbn [mapM] in H. apply bind_ok in H as (y & Hy & H). apply bind_ok in H as (ys & Hys & H).
  assert (l = y :: ys) by congruence. subst l. apply get_ok in Hy. destruct (sort c) as [|a [|b t]]; try discriminate.
  cbn in Hy. assert (y = b) by congruence. subst y. exists a, b, t. split; auto. f_equal.
  pose proof (gather_steps (b :: t) [] a) as G. cbn [app length tl find] in *. unfold gather in G. unfold find in Hys. rewrite G in Hys.
  cbn [steps] in Hys. congruence.
Qed.
Lemma area_list_full c l : area_list c = Ok l -> low_twice c -> NoDup l /\ forall a, In a l <-> In a c.
Proof.
  intros H (m & rest & HP & HM). destruct (area_list_spec _ _ H) as (a & b & t & Es & ->).
  pose proof (sort_sorted c) as SS. pose proof (sort_perm c) as SP. rewrite Es in *.
  inversion SS as [|? ? Hs Hf]; subst. rewrite Forall_forall in Hf.
  assert (a = m).
  { apply nle_antisym.
    - assert (In m (a :: b :: t)) as [->|I] by (apply (Permutation_in m (Permutation_sym SP)); apply (Permutation_in m (Permutation_sym HP)); left; auto);
        [apply nle_refl|apply Hf; exact I].
    - apply HM. apply (Permutation_in a SP). left; auto. }
  subst a.
  assert (b = m).
  { assert (Permutation (b :: t) (m :: rest)) as HQ by (apply (Permutation_cons_inv (a := m)); eapply Permutation_trans; [exact SP|exact HP]).
    assert (In m (b :: t)) as I by (apply (Permutation_in m (Permutation_sym HQ)); left; auto).
    inversion Hs as [|? ? Hs' Hf']; subst. rewrite Forall_forall in Hf'. apply nle_antisym.
    - destruct I as [->|I]; [apply nle_refl|apply Hf'; exact I].
    - apply Hf. left; auto. }
  subst b. assert (nz (m - m)%K = false) as -> by (rewrite nz_sub, (proj2 (feqb_ok m m) eq_refl); reflexivity).
  destruct (steps_in m t Hs) as (A & B & _). split; auto. intros x. rewrite <- A. split; intros I.
  - apply (Permutation_in x SP). right; auto.
  - apply (Permutation_in x (Permutation_sym SP)) in I. cbn in *. tauto.
Qed.
(** otherwise the lowest one is lost and the second lowest appears twice *)
Lemma area_list_lost c l m : area_list c = Ok l -> In m c -> (forall b, In b c -> fltb b m = false) -> ~ low_twice c ->
  ~ In m l /\ exists b t, l = b :: b :: t.
Proof.
  intros H I HM N. destruct (area_list_spec _ _ H) as (a & b & t & Es & ->).
  pose proof (sort_sorted c) as SS. pose proof (sort_perm c) as SP. rewrite Es in *.
  inversion SS as [|? ? Hs Hf]; subst. rewrite Forall_forall in Hf.
  assert (a = m).
  { apply nle_antisym; [|apply HM; apply (Permutation_in a SP); left; auto].
    apply (Permutation_in m (Permutation_sym SP)) in I as [->|I]; [apply nle_refl|apply Hf; exact I]. }
  subst a.
  assert (forall x, In x (b :: t) -> x <> m) as D.
  { intros x J ->. apply N. destruct (in_split _ _ J) as (l1 & l2 & E). exists m, (l1 ++ l2). split; auto.
    eapply Permutation_trans; [apply Permutation_sym, SP|]. apply perm_skip. rewrite E. apply Permutation_sym, Permutation_middle. }
  assert (nz (b - m)%K = true) as ->.
  { rewrite nz_sub. destruct (feqb b m) eqn:E; auto. apply feqb_ok in E. destruct (D b (or_introl eq_refl) E). }
  split; [|eauto]. destruct (steps_in b t Hs) as (A & _ & _).
  intros [J|J]; [apply (D b); cbn; auto|]. apply A in J. exact (D m J eq_refl).
Qed.

(** ** totals over the rows *)
Lemma sum_over_keys {A} (areas : list K) (key : A -> K) (h : A -> K -> bool) (f : A -> K) t :
  NoDup areas -> (forall x, In x t -> In (key x) areas) ->
  lsum (fun a => sum_if (fun x => feqb (key x) a && h x a) f t) areas = sum_if (fun x => h x (key x)) f t.
Proof.
  intros ND C. unfold sum_if. rewrite lsum_swap. apply lsum_ext. intros x I. specialize (C x I). revert ND C.
  induction areas as [|a areas IH]; intros ND C; [destruct C|]. apply NoDup_cons_iff in ND as (Na & ND). cbn. destruct C as [->|C].
  - rewrite (proj2 (feqb_ok (key x) (key x)) eq_refl). cbn. rewrite lsum_zero; [ring|]. intros b J.
    destruct (feqb (key x) b) eqn:E; auto. apply feqb_ok in E. subst b. destruct (Na J).
  - destruct (feqb (key x) a) eqn:E; [apply feqb_ok in E; subst a; destruct (Na C)|]. cbn. rewrite IH by auto. ring.
Qed.
Lemma list_sum_add {A} (f g : A -> nat) l : list_sum (map (fun a => f a + g a) l) = list_sum (map f l) + list_sum (map g l).
Proof. unfold list_sum. induction l as [|a l IH]; [reflexivity|]. cbn [map fold_right]. lia. Qed.
Lemma list_sum_zero {A} (f : A -> nat) l : (forall a, In a l -> f a = 0) -> list_sum (map f l) = 0.
Proof.
  unfold list_sum. induction l as [|a l IH]; intros H; [reflexivity|]. cbn [map fold_right].
  rewrite (H a (or_introl eq_refl)). apply IH. intros x I. apply H. right; exact I.
Qed.
Lemma count_if_cons {A} (p : A -> bool) x t : count_if p (x :: t) = (if p x then 1 else 0) + count_if p t.
Proof. unfold count_if. cbn. destruct (p x); reflexivity. Qed.
Lemma count_over_keys {A} (areas : list K) (key : A -> K) (h : A -> K -> bool) t :
  NoDup areas -> (forall x, In x t -> In (key x) areas) ->
  list_sum (map (fun a => count_if (fun x => feqb (key x) a && h x a) t) areas) = count_if (fun x => h x (key x)) t.
Proof.
  intros ND C. induction t as [|x t IH]; [apply list_sum_zero; auto|].
  rewrite (map_ext _ (fun a => (if feqb (key x) a && h x a then 1 else 0) + count_if (fun x => feqb (key x) a && h x a) t))
    by (intros a; exact (count_if_cons (fun x => feqb (key x) a && h x a) x t)).
  rewrite list_sum_add, count_if_cons, IH by (intros; apply C; right; auto). f_equal.
  specialize (C x (or_introl eq_refl)). clear IH. revert ND C. induction areas as [|a areas IH]; intros ND C; [destruct C|].
  apply NoDup_cons_iff in ND as (Na & ND). cbn [map list_sum fold_right]. destruct C as [->|C].
  - rewrite (proj2 (feqb_ok (key x) (key x)) eq_refl). cbn [andb]. change (fold_right Nat.add 0) with list_sum. rewrite list_sum_zero; [lia|].
    intros b J. destruct (feqb (key x) b) eqn:E; auto. apply feqb_ok in E. subst b. destruct (Na J).
  - destruct (feqb (key x) a) eqn:E; [apply feqb_ok in E; subst a; destruct (Na C)|]. cbn [andb]. change (fold_right Nat.add 0) with list_sum. rewrite IH by auto. lia.
Qed.
Lemma count_if_ext {A} (p q : A -> bool) t : (forall x, In x t -> p x = q x) -> count_if p t = count_if q t.
Proof.
  induction t as [|x t IH]; intros H; auto. rewrite !count_if_cons, (H x), IH; cbn; auto. intros; apply H; cbn; auto.
Qed.
Lemma count_if_split {A} (p : A -> bool) t : count_if p t + count_if (fun x => negb (p x)) t = length t.
Proof. induction t as [|x t IH]; auto. rewrite !count_if_cons. cbn [length]. destruct (p x); cbn; lia. Qed.
End PrintE.
