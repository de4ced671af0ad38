(** Iterates stay interior; meaning of the termination conditions. *)
From Verif Require Import Lib.ListFacts Model.Pips Spec.PipsSpec Proofs.LinAlgFacts Proofs.SparseFacts
  Proofs.FldFacts Proofs.OrdFacts Proofs.NetworkB Proofs.AcPfA Proofs.BlockFacts Proofs.PipsA.
Local Open Scope nat_scope.

Section PipsB.
Context {K : Type} {F : Fld K}.
Add Field KF : (@f_ok K F).

(** ** step lengths *)
Lemma fmin_cases (a b : K) : fmin a b = a /\ le a b \/ fmin a b = b /\ le b a.
Proof.
  unfold fmin, le. destruct (fltb b a) eqn:E; auto. right. split; auto. apply flt_asym; auto.
Qed.
Lemma fmin_le (a b : K) : le (fmin a b) a /\ le (fmin a b) b.
Proof. destruct (fmin_cases a b) as [[-> H]|[-> H]]; auto using le_refl. Qed.
Lemma fmin_pos (a b : K) : lt 0%K a -> lt 0%K b -> lt 0%K (fmin a b).
Proof. destruct (fmin_cases a b) as [[-> H]|[-> H]]; auto. Qed.

Lemma fold_fmin t (a : K) :
  (forall b, In b (a :: t) -> le (fold_left fmin t a) b) /\
  (Forall (lt 0%K) (a :: t) -> lt 0%K (fold_left fmin t a)).
Proof.
  revert a. induction t as [|b t IH]; intros a.
  - cbn [fold_left]. split.
    + intros b [->|[]]. apply le_refl.
    + intros H. inversion H; auto.
  - cbn [fold_left]. destruct (IH (fmin a b)) as (A & B). destruct (fmin_le a b) as (M1 & M2). split.
    + intros c [->|[->|H]].
      * eapply le_trans; [apply A; left; reflexivity|]. auto.
      * eapply le_trans; [apply A; left; reflexivity|]. auto.
      * apply A. right. auto.
    + intros H. inversion H as [|? ? H1 H2]; subst. inversion H2 as [|? ? H3 H4]; subst.
      apply B. constructor; auto. apply fmin_pos; auto.
Qed.

Lemma dec_pos n d : (0 < n)%Z -> lt 0%K (dec n d : K).
Proof. intros H. apply div_pos; apply fofZ_pos; lia. Qed.

Lemma xi_lt_1 : lt (xi : K) 1%K.
Proof.
  unfold xi, dec. apply div_lt; [apply fofZ_pos; lia|].
  replace (1 * fofZ (10 ^ Z.of_nat 5))%K with (fofZ (10 ^ Z.of_nat 5) : K) by ring.
  apply lt_sub. replace (10 ^ Z.of_nat 5)%Z with (5 + 99995)%Z by reflexivity.
  rewrite fofZ_add. replace (fofZ 5 + fofZ 99995 - fofZ 99995)%K with (fofZ 5 : K) by ring.
  apply fofZ_pos. lia.
Qed.

Lemma step_len_ok (z dz : list K) : Forall (lt 0%K) z ->
  lt 0%K (step_len z dz) /\ le (step_len z dz) 1%K /\
  forall a d, In (a, d) (combine z dz) -> lt 0%K (a + step_len z dz * d)%K.
Proof.
  intros Z. unfold step_len.
  assert (forall a d, In (a, d) (combine z dz) -> lt 0%K a) as ZP.
  { intros a d H. rewrite Forall_forall in Z. apply Z. eapply in_combine_l; eauto. }
  assert (forall a d, In (a, d) (combine z dz) -> lt d 0%K -> In (a / - d)%K (ratios z dz)) as RI.
  { intros a d H D. unfold ratios. apply in_map_iff. exists (a, d). split; auto. apply filter_In. split; auto. }
  assert (Forall (lt 0%K) (ratios z dz)) as RP.
  { apply Forall_forall. intros q Hq. unfold ratios in Hq. apply in_map_iff in Hq as ((a & d) & <- & H).
    apply filter_In in H as (H & D). simpl in *. apply div_pos; [eapply ZP; eauto|].
    apply (proj1 (pos_opp d)). exact D. }
  destruct (ratios z dz) as [|r t] eqn:E.
  - split; [apply lt_0_1|]. split; [apply le_refl|]. intros a d H.
    destruct (lt_le_dec d 0%K) as [D|D]; [destruct (RI a d H D)|].
    replace (a + 1 * d)%K with (a + d)%K by ring. apply add_pos_nn; eauto.
  - destruct (fold_fmin t r) as (ML & MP). specialize (MP RP). set (m := fold_left fmin t r) in *.
    pose proof (dec_pos 99995 5 ltac:(lia)) as XP. fold (@xi K F) in XP.
    destruct (fmin_le (xi * m)%K 1%K) as (A1 & A2). set (al := fmin (xi * m)%K 1%K) in *.
    assert (lt 0%K al) as AP by (apply fmin_pos; [apply mul_pos; auto|apply lt_0_1]).
    split; auto. split; auto. intros a d H. destruct (lt_le_dec d 0%K) as [D|D].
    + specialize (RI a d H D). apply ML in RI. specialize (ZP a d H).
      apply (proj1 (pos_opp d)) in D. pose proof (pos_nz _ D) as ND.
      (* al (-d) <= xi m (-d) <= xi a < a *)
      assert (le (al * (- d))%K (xi * a)%K) as L.
      { apply le_trans with (xi * m * - d)%K.
        - replace (al * - d)%K with ((- d) * al)%K by ring.
          replace (xi * m * - d)%K with ((- d) * (xi * m))%K by ring.
          apply mul_le_l; auto. apply lt_le; auto.
        - replace (xi * m * - d)%K with (xi * - d * m)%K by ring.
          replace (xi * a)%K with (xi * - d * (a / - d))%K by (field; auto).
          apply mul_le_l; auto. apply lt_le, mul_pos; auto. }
      apply le_sub in L. pose proof xi_lt_1 as X1. apply lt_sub in X1.
      replace (a + al * d)%K with ((xi * a - al * - d) + (1 - xi) * a)%K by ring.
      apply add_nn_pos; auto. apply mul_pos; auto.
    + apply add_pos_nn; eauto. apply mul_nn; auto. apply lt_le; auto.
Qed.

Lemma step_len_pos (z dz z' : list K) : Forall (lt 0%K) z ->
  ewise radd z (scale (step_len z dz) dz) = Ok z' -> Forall (lt 0%K) z' /\ length z' = length z.
Proof.
  intros Z H. apply ewise_ok in H as (L & ->). pose proof (step_len_ok z dz Z) as (_ & _ & Q).
  split; [|unfold map2; rewrite map_length, combine_length; lia].
  unfold scale in *. revert Q. generalize (step_len z dz). intros al Q.
  rewrite map_length in L. clear Z. revert dz L Q. induction z as [|a z IH]; intros [|d dz] L Q; try discriminate.
  - constructor.
  - simpl. constructor.
    + simpl. apply (Q a d). left; auto.
    + apply IH; auto. intros a' d' H. apply Q. right; auto.
Qed.

(** ** starting point *)
Lemma init_z_pos (h : list K) : Forall (lt 0%K) (init_z h).
Proof.
  apply Forall_map, Forall_forall. intros a _. destruct (fltb a (- (1))%K) eqn:E; [|apply lt_0_1].
  apply opp_lt in E. replace (- - (1))%K with (1%K : K) in E by ring. eapply lt_trans; [apply lt_0_1|auto].
Qed.
Lemma init_mu_pos (z : list K) : Forall (lt 0%K) (init_mu z).
Proof.
  apply Forall_map, Forall_forall. intros a _. destruct (fltb 1%K (1 / a)%K) eqn:E; [|apply lt_0_1].
  eapply lt_trans; [apply lt_0_1|auto].
Qed.

(** ** norms *)
Lemma fmax_cases (a b : K) : fmax a b = a /\ le b a \/ fmax a b = b /\ le a b.
Proof.
  unfold fmax, le. destruct (fltb a b) eqn:E; auto. right. split; auto. apply flt_asym; auto.
Qed.
Lemma fmax_ge (a b : K) : le a (fmax a b) /\ le b (fmax a b).
Proof. destruct (fmax_cases a b) as [[-> H]|[-> H]]; auto using le_refl. Qed.

Lemma norm_fold_ok v : forall m : K,
  let r := fold_left (fun m x => fmax m (fabs x)) v m in
  (r = m \/ exists a, In a v /\ r = fabs a) /\ le m r /\ forall a, In a v -> le (fabs a) r.
Proof.
  induction v as [|b v IH]; intros m; simpl.
  - split; [auto|]. split; [apply le_refl|intros a []].
  - destruct (IH (fmax m (fabs b))) as (A & B & C). destruct (fmax_ge m (fabs b)) as (M1 & M2).
    split; [|split].
    + destruct A as [A|(a & Ha & A)]; [|right; exists a; auto].
      destruct (fmax_cases m (fabs b)) as [[E _]|[E _]]; rewrite E in A at 2; auto.
      right. exists b. auto.
    + eapply le_trans; eauto.
    + intros a [->|Ha]; auto. eapply le_trans; eauto.
Qed.

Lemma norm_inf_is v (n : K) : norm_inf v = Ok n -> is_norm v n.
Proof.
  destruct v as [|a v]; simpl; [discriminate|]. intros H; injection H as <-. right.
  destruct (norm_fold_ok v (fabs a)) as (A & B & C). split.
  - destruct A as [A|(b & Hb & A)]; [exists a; split; [left|]; auto|exists b; split; [right|]; auto].
  - intros b [<-|Hb]; auto.
Qed.
Lemma norm0_is v (n : K) : norm0 v = Ok n -> is_norm v n.
Proof.
  destruct v as [|a v]; [|apply norm_inf_is]. simpl. intros H; injection H as <-. left. auto.
Qed.
Lemma is_norm_unique v (n m : K) : is_norm v n -> is_norm v m -> n = m.
Proof.
  intros [[-> ->]|((a & Ha & ->) & A)] [[E ->]|((b & Hb & ->) & B)]; subst; auto; try (destruct Hb; fail); try (destruct Ha; fail).
  apply le_antisym; auto.
Qed.
Lemma is_norm_nn v (n : K) : is_norm v n -> le 0%K n.
Proof. intros [[_ ->]|((a & _ & ->) & _)]; [apply le_refl|apply fabs_nn]. Qed.

Lemma maxh_ge (h : list K) a : In a h -> le a (maxh h).
Proof.
  destruct h as [|b t]; simpl; [tauto|].
  assert (forall t (b : K), (forall a, In a (b :: t) -> le a (fold_left fmax t b))) as G.
  { clear. induction t as [|c t IH]; intros b a H.
    - destruct H as [->|[]]. apply le_refl.
    - cbn [fold_left]. destruct (fmax_ge b c) as (M1 & M2).
      assert (le (fmax b c) (fold_left fmax t (fmax b c))) as T by (apply IH; left; auto).
      destruct H as [->|[->|H]]; [eapply le_trans; eauto|eapply le_trans; eauto|].
      apply IH. right. auto. }
  apply G.
Qed.

Lemma div_below (a d tol : K) : le 0%K d -> lt (a / (1 + d))%K tol <-> lt a (tol * (1 + d))%K.
Proof. intros D. apply div_lt. apply add_pos_nn; auto. apply lt_0_1. Qed.

Lemma feas_ok g h x z (c tol : K) : feas g h x z = Ok c -> lt c tol -> feasible_to tol g h x z.
Proof.
  unfold feas. intros H T. apply bind_ok in H as (gn & Hg & H). apply bind_ok in H as (xn & Hx & H).
  apply bind_ok in H as (zn & Hz & H). injection H as <-.
  intros xn' zn' X Z. apply norm_inf_is in Hx. apply norm0_is in Hz. apply norm0_is in Hg.
  rewrite (is_norm_unique _ _ _ X Hx), (is_norm_unique _ _ _ Z Hz). clear xn' zn' X Z.
  exists (fmax xn zn). split; [destruct (fmax_cases xn zn) as [[-> _]|[-> _]]; auto|].
  apply div_below in T; [|destruct (fmax_ge xn zn) as (M & _); eapply le_trans; [|exact M]; eapply is_norm_nn; eauto].
  apply fmax_lt in T as (T1 & T2). split; apply Forall_forall; intros a Ha.
  - eapply le_lt_trans; [|exact T1]. destruct Hg as [[-> _]|(_ & Hg)]; [destruct Ha|auto].
  - eapply le_lt_trans; [|exact T2]. apply maxh_ge; auto.
Qed.

Lemma grad_ok Lx lam mu (c tol : K) : grad Lx lam mu = Ok c -> lt c tol -> stationary_to tol Lx lam mu.
Proof.
  unfold grad. intros H T. apply bind_ok in H as (a & Ha & H). apply bind_ok in H as (b & Hb & H).
  apply bind_ok in H as (m & Hm & H). injection H as <-.
  intros ln mn L M. apply norm_inf_is in Ha. apply norm0_is in Hb. apply norm0_is in Hm.
  rewrite (is_norm_unique _ _ _ L Hb), (is_norm_unique _ _ _ M Hm). clear ln mn L M.
  exists (fmax b m). split; [destruct (fmax_cases b m) as [[-> _]|[-> _]]; auto|].
  apply div_below in T; [|destruct (fmax_ge b m) as (M & _); eapply le_trans; [|exact M]; eapply is_norm_nn; eauto].
  apply Forall_forall; intros q Hq.
  eapply le_lt_trans; [|exact T]. destruct Ha as [[-> _]|(_ & Ha)]; [destruct Hq|auto].
Qed.
End PipsB.
