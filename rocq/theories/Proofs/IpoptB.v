(** Positions of the entries of the derivatives. *)
From Coq Require Import Lia.
From Verif Require Import Lib.ListFacts Model.IpoptOpf Proofs.SparseFacts Proofs.FldFacts Proofs.NetworkA Proofs.BlockFacts Proofs.OrdFacts Proofs.IpoptA.
Local Open Scope nat_scope.

Ltac step H := let x := fresh "x" in let E := fresh "E" in apply bind_ok in H as (x & E & H).

Lemma sh_dl2 {L} {R : Rng L} (A B M : smat L) r k k' c P : mulm A B = Ok M -> shape A r k (fun i j => i = j /\ i < r) -> shape B k' c P -> shape M r c (fun i j => i < r /\ P i j).
Proof. intros E HA HB. eapply sh_mulm; eauto. intros i m j (<- & L0) Q. auto. Qed.
Lemma sh_diag2 {L} (v : list L) M : diagm v = Ok M -> shape M (length v) (length v) (fun i j => i = j /\ i < length v).
Proof.
  intros E. destruct (sh_diagm v M E) as (A & B & C). repeat split; auto. unfold diagm in E. destruct v as [|a v]; [discriminate|]. injection E as <-.
  cbn [ents] in H. apply zip3_pos in H as (k & H1 & _). apply nth_error_In in H1. change (In (erow e) (seq 0 (S (length v)))) in H1. apply in_seq in H1. cbn. lia.
Qed.
Lemma sh_eq {L} (M : smat L) r c n : shape M r c (fun i j => i = j /\ i < n) -> shape M r c eq.
Proof. intros H. eapply sh_weak; [exact H|]. intros i j (Q & _). exact Q. Qed.

Section Derivatives.
Context {K : Type} {F : Fld K}.
Variables (cis : K -> cpx K) (cabs : cpx K -> K).

Lemma mulv_len {L} {R : Rng L} (M : smat L) x y : mulv M x = Ok y -> length y = nrows M /\ length x = ncols M.
Proof. unfold mulv. destruct (Nat.eqb_spec (length x) (ncols M)); [|discriminate]. intros E. injection E as <-. rewrite map_length, seq_length. auto. Qed.
Lemma cvdiv_len (u v w : list (cpx K)) : cvdiv u v = Ok w -> length w = length u /\ length u = length v.
Proof.
  unfold cvdiv. destruct (negb (length u =? length v)) eqn:E; [discriminate|]. apply Bool.negb_false_iff, Nat.eqb_eq in E. destruct (existsb _ _); [discriminate|]. intros Q. injection Q as <-.
  split; auto. clear - E. revert v E. induction u as [|a u IH]; intros [|b v] E; cbn in *; try discriminate; auto. f_equal. apply IH. lia.
Qed.
Lemma vnorm_len V (w : list (cpx K)) : vnorm cabs V = Ok w -> length w = length V.
Proof. unfold vnorm. intros E. apply cvdiv_len in E. tauto. Qed.

Variables f t : list nat.
Notation touches := (touches f t).
Notation linked := (linked f t).
Variable nb : nat.

Lemma dSbus_pos Y V dm da : dSbus_dV cabs Y V = Ok (dm, da) -> shape Y nb nb linked ->
  shape dm nb nb (fun i j => i < nb /\ linked i j) /\ shape da nb nb (fun i j => i < nb /\ linked i j).
Proof.
  intros H SY. unfold dSbus_dV in H. step H. destruct SY as (Y1 & Y2 & Y3). destruct (mulv_len _ _ _ E) as (L1 & L2). assert (SY : shape Y nb nb linked) by (repeat split; auto). rewrite Y1 in L1. rewrite Y2 in L2.
  step H. pose proof (sh_diag2 _ _ E0) as S0. rewrite L2 in S0. step H. pose proof (sh_diag2 _ _ E1) as S1. rewrite L1 in S1. step H. step H. pose proof (sh_diag2 _ _ E3) as S3. rewrite (vnorm_len _ _ E2), L2 in S3.
  step H. step H. step H. step H. step H. step H. step H. injection H as <- <-.
  assert (SL : forall i j, (i = j /\ i < nb) -> linked i j) by (intros i j (-> & _); left; reflexivity).
  split.
  - eapply sh_addm; [exact E7| |].
    + eapply sh_dl2; [exact E5|exact S0|]. apply sh_mapm. eapply sh_dr; [exact E4|exact SY|apply (sh_eq _ _ _ _ S3)].
    + eapply sh_dl2; [exact E6|apply sh_mapm, S1|]. eapply sh_weak; [exact S3|exact SL].
  - eapply sh_dl2; [exact E10|apply sh_mapm, S0|]. apply sh_mapm. unfold subm in E9. eapply sh_addm; [exact E9|eapply sh_weak; [exact S1|exact SL]|].
    apply sh_mapm. eapply sh_dr; [exact E8|exact SY|apply (sh_eq _ _ _ _ S0)].
Qed.

Section Ends.
Variable il : list nat.
Definition at_end (k j : nat) : Prop := exists l, nth_error il k = Some l /\ touches l j.

Lemma dSend_pos ff Yf V Vn da dm S : dSend_dV ff Yf V Vn = Ok (da, dm, S) -> shape Yf (length il) nb at_end -> length Vn = length V ->
  (forall k j, nth_error ff k = Some j -> at_end k j) ->
  shape da (length il) nb at_end /\ shape dm (length il) nb at_end /\ length S = length il.
Proof.
  intros H SY LV HF. unfold dSend_dV in H. destruct SY as (Y1 & Y2 & Y3). assert (SY : shape Yf (length il) nb at_end) by (repeat split; auto).
  step H. destruct (mulv_len _ _ _ E) as (L1 & L2). rewrite Y1 in L1. rewrite Y2 in L2. step H. step H. step H. pose proof (sh_diagm _ _ E2) as S2. step H. pose proof (sh_diagm _ _ E3) as S3. rewrite L1 in S3.
  step H. pose proof (sh_diagm _ _ E4) as S4. step H. pose proof (sh_diagm _ _ E5) as S5. step H. step H.
  assert (HS : forall data (M : smat (cpx K)), sparse data (seq 0 (length ff)) ff (length ff) (length V) = Ok M -> shape M (length ff) nb at_end).
  { intros data M EM. rewrite L2 in EM. eapply sh_weak; [eapply sh_sparse, EM|]. intros i j (k & A1 & A2). apply HF. assert (i = k).
    { assert (k < length ff) by (apply nth_error_Some; congruence). rewrite (nth_error_nth' _ 0) in A1 by (rewrite seq_length; lia). rewrite seq_nth in A1 by lia. injection A1. lia. } subst i. exact A2. }
  pose proof (HS _ _ E6) as S6. pose proof (HS _ _ E7) as S7. do 9 step H. injection H as <- <- <-.
  assert (LX : length x0 = length il /\ length x16 = length il).
  { unfold ewise in E16. destruct (Nat.eqb_spec (length x0) (length x)) as [Q|]; [|discriminate]. injection E16 as <-. split; [lia|]. rewrite <- L1, <- Q. clear - Q. revert x Q. induction x0 as [|a x0 IH]; intros [|b x] Q; cbn in *; try discriminate; auto. f_equal. apply IH. lia. }
  destruct LX as (LX & LS). rewrite LX in S2. rewrite LV in S5. rewrite L2 in S4, S5.
  split; [|split; [|exact LS]].
  - apply sh_mapm. unfold subm in E11. eapply sh_addm; [exact E11|eapply sh_dl; [exact E8|apply sh_mapm, S3|exact S6]|].
    apply sh_mapm. eapply sh_dl; [exact E10|exact S2|apply sh_mapm]. eapply sh_dr; [exact E9|exact SY|exact S4].
  - eapply sh_addm; [exact E15|eapply sh_dl; [exact E13|exact S2|apply sh_mapm]; eapply sh_dr; [exact E12|exact SY|exact S5]|].
    eapply sh_dl; [exact E14|apply sh_mapm, S3|exact S7].
Qed.

Lemma dIend_pos Yf V Vn da dm S : dIend_dV Yf V Vn = Ok (da, dm, S) -> shape Yf (length il) nb at_end -> length Vn = length V ->
  shape da (length il) nb at_end /\ shape dm (length il) nb at_end /\ length S = length il.
Proof.
  intros H SY LV. unfold dIend_dV in H. destruct SY as (Y1 & Y2 & Y3). assert (SY : shape Yf (length il) nb at_end) by (repeat split; auto).
  step H. pose proof (sh_diagm _ _ E) as S0. step H. pose proof (sh_diagm _ _ E0) as S1. do 3 step H. injection H as <- <- <-.
  destruct (mulv_len _ _ _ E3) as (L1 & L2). rewrite Y1 in L1. rewrite Y2 in L2. rewrite LV in S1. rewrite L2 in S0, S1.
  split; [|split; [|exact L1]]; [eapply sh_dr; [exact E1|apply sh_mapm, SY|exact S0]|eapply sh_dr; [exact E2|exact SY|exact S1]].
Qed.

Lemma dAend_pos (dS : smat (cpx K)) S M r c P : dAend dS S = Ok M -> shape dS r c P -> length S = r -> shape M r c P.
Proof.
  intros H SS LS. unfold dAend in H. step H. pose proof (sh_diagm _ _ E) as S0. step H. pose proof (sh_diagm _ _ E0) as S1. rewrite map_length, LS in S0, S1. step H. step H.
  eapply sh_addm; [exact H|eapply sh_dl; [exact E1|exact S0|apply sh_mapm, SS]|eapply sh_dl; [exact E2|exact S1|apply sh_mapm, SS]].
Qed.
Lemma dAbr_pos fa fm ta tm Sf St da dm ea em r c P : dAbr_dV fa fm ta tm Sf St = Ok (da, dm, ea, em) ->
  shape fa r c P -> shape fm r c P -> shape ta r c P -> shape tm r c P -> length Sf = r -> length St = r ->
  shape da r c P /\ shape dm r c P /\ shape ea r c P /\ shape em r c P.
Proof.
  intros H S1 S2 S3 S4 L1 L2. unfold dAbr_dV in H. do 4 step H. injection H as <- <- <- <-. split; [|split; [|split]]; eapply dAend_pos; eauto.
Qed.
End Ends.

(** the admittance matrices *)
Lemma split_ends n l j k : nth_error (seq 0 n ++ seq 0 n) k = Some l -> nth_error (f ++ t) k = Some j -> length f = n -> touches l j.
Proof.
  intros H1 H2 L. destruct (Nat.lt_ge_cases k n) as [Q|Q].
  - rewrite nth_error_app1 in H1, H2 by (rewrite ?seq_length; lia). rewrite (nth_error_nth' _ 0) in H1 by (rewrite seq_length; lia). rewrite seq_nth in H1 by lia. injection H1 as <-. left. exact H2.
  - rewrite nth_error_app2 in H1, H2 by (rewrite ?seq_length; lia). rewrite seq_length in H1. rewrite L in H2. assert (k - n < n). { pose proof (proj1 (nth_error_Some (seq 0 n) (k - n))) as X. rewrite seq_length in X. apply X. rewrite H1. discriminate. }
    rewrite (nth_error_nth' _ 0) in H1 by (rewrite seq_length; lia). rewrite seq_nth in H1 by lia. injection H1 as <-. right. exact H2.
Qed.

Lemma ybus_pos B bus branch Y Yf Yt : makeYbus cis B bus branch = Ok (Y, Yf, Yt) ->
  idxcol ValueError F_BUS branch = Ok f -> idxcol ValueError T_BUS branch = Ok t -> length bus = nb ->
  shape Y nb nb linked /\ shape Yf (length branch) nb touches /\ shape Yt (length branch) nb touches.
Proof.
  intros H Ef Et LB. unfold makeYbus in H. do 14 step H. step H. step H.
  assert (x13 = f) by congruence. assert (x14 = t) by congruence. subst x13 x14. rewrite LB in H.
  assert (Lf : length f = length branch) by (destruct (idxcol_ok _ _ _ _ Ef) as (_ & _ & ->); apply map_length).
  do 9 step H. injection H as <- <- <-.
  assert (SC : forall (c : list nat) (M : smat (cpx K)) d, (forall l j, nth_error c l = Some j -> touches l j) -> sparse d (seq 0 (length branch)) c (length branch) nb = Ok M -> shape M (length branch) nb touches).
  { intros c M d HC EM. eapply sh_weak; [eapply sh_sparse, EM|]. intros i j (k & A1 & A2). apply HC. assert (i = k); [|congruence].
    assert (k < length branch) by (rewrite <- (seq_length (length branch) 0); apply nth_error_Some; rewrite A1; discriminate). rewrite (nth_error_nth' _ 0) in A1 by (rewrite seq_length; lia). rewrite seq_nth in A1 by lia. injection A1. lia. }
  assert (SF : shape x15 (length branch) nb touches /\ shape x16 (length branch) nb touches).
  { split; eapply sh_weak; try (eapply sh_sparse; eassumption); intros i j (k & A1 & A2); eapply split_ends; eauto. }
  destruct SF as (SF & ST). split; [|auto].
  assert (S3 : shape x13 (length branch) nb touches) by (eapply (SC f); [|exact E15]; intros l j Q; left; exact Q).
  assert (S4 : shape x14 (length branch) nb touches) by (eapply (SC t); [|exact E16]; intros l j Q; right; exact Q).
  eapply sh_addm; [exact E23| |].
  - eapply sh_addm; [exact E22| |].
    + eapply sh_mulm; [exact E19|apply sh_transp, S3|exact SF|]. intros i m j Q1 Q2. right. exists m. split; [exact Q1|exact Q2].
    + eapply sh_mulm; [exact E20|apply sh_transp, S4|exact ST|]. intros i m j Q1 Q2. right. exists m. split; [exact Q1|exact Q2].
  - eapply sh_weak; [eapply sh_sparse, E21|]. intros i j (k & A1 & A2). left. congruence.
Qed.
End Derivatives.
