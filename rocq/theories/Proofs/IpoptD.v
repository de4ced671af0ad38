(** Positions of the entries of the second derivatives. *)
From Coq Require Import Lia.
From Verif Require Import Lib.ListFacts Model.IpoptOpf Proofs.SparseFacts Proofs.FldFacts Proofs.NetworkA Proofs.NetworkD Proofs.BlockFacts Proofs.OrdFacts Proofs.IpoptA Proofs.IpoptB Proofs.IpoptC.
Local Open Scope nat_scope.

Section Second.
Context {K : Type} {F : Fld K}.
Add Field KF : (@f_ok K F).
Variables (cis : K -> cpx K) (cabs : cpx K -> K).
Variables f t : list nat.
Notation touches := (touches f t).
Notation linked := (linked f t).
Variable nb : nat.
Hypothesis TB : forall l j, touches l j -> j < nb.
Definition joined (i j : nat) : Prop := i < nb /\ linked i j.
Definition diagonal (i j : nat) : Prop := i = j /\ i < nb.

Lemma linked_sym i j : linked i j -> linked j i.
Proof. intros [->|(l & A & B)]; [left; reflexivity|right; exists l; auto]. Qed.
Lemma joined_sym i j : joined i j -> joined j i.
Proof. intros (L & H). split; [|apply linked_sym, H]. destruct H as [<-|(l & _ & B)]; eauto. Qed.
Lemma diagonal_joined i j : diagonal i j -> joined i j.
Proof. intros (-> & L). split; auto. left. reflexivity. Qed.

Lemma dg (v : list (cpx K)) M : diagm v = Ok M -> length v = nb -> shape M nb nb diagonal.
Proof. intros E L. pose proof (sh_diag2 _ _ E) as S. rewrite L in S. exact S. Qed.
Lemma dgj (M : smat (cpx K)) : shape M nb nb diagonal -> shape M nb nb joined.
Proof. intros S. eapply sh_weak; [exact S|apply diagonal_joined]. Qed.
Lemma sl (A B M : smat (cpx K)) P : mulm A B = Ok M -> shape A nb nb diagonal -> shape B nb nb P -> shape M nb nb (fun i j => i < nb /\ P i j).
Proof. intros E SA SB. eapply sh_dl2; eauto. Qed.
Lemma slj (A B M : smat (cpx K)) : mulm A B = Ok M -> shape A nb nb diagonal -> shape B nb nb joined -> shape M nb nb joined.
Proof. intros E SA SB. eapply sh_mulm; [exact E|exact SA|exact SB|]. intros i m j (<- & _) H. exact H. Qed.
Lemma sr (A B M : smat (cpx K)) r P : mulm A B = Ok M -> shape A r nb P -> shape B nb nb diagonal -> shape M r nb P.
Proof. intros E SA SB. eapply sh_mulm; [exact E|exact SA|exact SB|]. intros i m j H (<- & _). exact H. Qed.
Lemma sadd (A B M : smat (cpx K)) P : addm A B = Ok M -> shape A nb nb P -> shape B nb nb P -> shape M nb nb P.
Proof. intros E SA SB. eapply sh_addm; eauto. Qed.
Lemma ssub (A B M : smat (cpx K)) P : subm A B = Ok M -> shape A nb nb P -> shape B nb nb P -> shape M nb nb P.
Proof. intros E SA SB. unfold subm in E. eapply sh_addm; [exact E|exact SA|apply sh_mapm, SB]. Qed.
Lemma str (A : smat (cpx K)) : shape A nb nb joined -> shape (transp A) nb nb joined.
Proof. intros S. eapply sh_weak; [apply sh_transp, S|]. intros i j. apply joined_sym. Qed.
Lemma ewise_len {A B C} (g : A -> B -> C) u v w : ewise g u v = Ok w -> length w = length u /\ length u = length v.
Proof. unfold ewise. destruct (Nat.eqb_spec (length u) (length v)) as [Q|]; [|discriminate]. intros E. injection E as <-. unfold map2. rewrite map_length, combine_length. lia. Qed.
Lemma inv_len V (w : list (cpx K)) : inv_abs cabs V = Ok w -> length w = length V.
Proof. unfold inv_abs. intros E. apply cvdiv_len in E as (-> & _). apply map_length. Qed.

Definition four (P : smat (cpx K) -> Prop) (x : smat (cpx K) * smat (cpx K) * smat (cpx K) * smat (cpx K)) : Prop :=
  let '(a, b, c, d) := x in P a /\ P b /\ P c /\ P d.

Lemma d2Sbus_pos Y V lam r : d2Sbus_dV2 cabs Y V lam = Ok r -> shape Y nb nb linked -> four (fun M => shape M nb nb joined) r.
Proof.
  intros H SY. unfold d2Sbus_dV2 in H. step H. destruct (mulv_len _ _ _ E) as (L1 & L2). destruct SY as (Y1 & Y2 & Y3). assert (SY : shape Y nb nb linked) by (repeat split; auto). rewrite Y1 in L1. rewrite Y2 in L2.
  do 3 step H. destruct (ewise_len _ _ _ _ E2) as (L3 & L4). pose proof (dg _ _ E0 ltac:(lia)) as S0. pose proof (dg _ _ E1 L2) as S1.
  step H. pose proof (dg _ _ E3 ltac:(lia)) as S3. step H. pose proof (sr _ _ _ _ _ E4 SY S1) as S4. step H. pose proof (sl _ _ _ _ E5 S3 (sh_mapm conj _ _ _ _ S4)) as S5.
  assert (SH : shape (getH Y) nb nb linked) by (apply sh_mapm; eapply sh_weak; [apply sh_transp, SY|intros i j; apply linked_sym]).
  step H. pose proof (sr _ _ _ _ _ E6 SH S1) as S6. step H. pose proof (sr _ _ _ _ _ E7 S6 S0) as S7. step H. destruct (mulv_len _ _ _ E8) as (L5 & L6). step H.
  assert (L7 : length x8 = nb) by (destruct S6 as (Q & _); lia). pose proof (dg _ _ E9 L7) as S9.
  step H. assert (S10 : shape x10 nb nb linked) by (eapply ssub; [exact E10|exact S7|eapply sh_weak; [exact S9|intros i j Q; apply (diagonal_joined i j Q)]]).
  step H. pose proof (sl _ _ _ _ E11 (sh_mapm conj _ _ _ _ S1) S10) as S11. step H. pose proof (dg _ _ E12 ltac:(rewrite map_length; lia)) as S12. step H. pose proof (slj _ _ _ E13 S3 (dgj _ S12)) as S13.
  step H. pose proof (ssub _ _ _ _ E14 S5 S13) as S14. step H. step H. pose proof (dg _ _ E16 ltac:(rewrite (inv_len _ _ E15); lia)) as S16.
  step H. pose proof (sadd _ _ _ _ E17 S11 S14) as S17. step H. pose proof (ssub _ _ _ _ E18 S11 S14) as S18. step H. pose proof (slj _ _ _ E19 (sh_mapm (cmul jj) _ _ _ _ S16) S18) as S19.
  step H. pose proof (sadd _ _ _ _ E20 S5 (str _ S5)) as S20. step H. pose proof (slj _ _ _ E21 S16 S20) as S21. step H. pose proof (sr _ _ _ _ _ E22 S21 S16) as S22.
  injection H as <-. split; [exact S17|split; [apply str, S19|split; [exact S19|exact S22]]].
Qed.

Section Ends.
Variable il : list nat.
Notation at_end := (at_end f t il).
Lemma ends_joined i k j : at_end k i -> at_end k j -> joined i j.
Proof. intros (l & A & B) (l' & A' & B'). rewrite A in A'. injection A' as <-. split; [eauto|]. right. exists l. auto. Qed.

Lemma d2Sbr_pos C Y V lam r : d2Sbr_dV2 cabs C Y V lam = Ok r -> shape C (length il) nb at_end -> shape Y (length il) nb at_end -> length lam = length il -> length V = nb -> four (fun M => shape M nb nb joined) r.
Proof.
  intros H SC SY LL LV. unfold d2Sbr_dV2 in H. do 2 step H. pose proof (sh_diagm _ _ E) as S. rewrite LL in S. pose proof (dg _ _ E0 LV) as S0.
  step H. step H. assert (S2 : shape x2 nb nb joined).
  { eapply sh_mulm; [exact E2|eapply sh_dr; [exact E1|apply sh_mapm, sh_transp, SY|exact S]|exact SC|]. intros i m j Q1 Q2. exact (ends_joined i m j Q1 Q2). }
  step H. pose proof (slj _ _ _ E3 (sh_mapm conj _ _ _ _ S0) S2) as S3. step H. pose proof (sr _ _ _ _ _ E4 S3 S0) as S4.
  step H. destruct (mulv_len _ _ _ E5) as (L5 & _). step H. destruct (ewise_len _ _ _ _ E6) as (L6 & _). step H. assert (L7 : length x6 = nb) by (destruct S2 as (Q & _); lia). pose proof (dgj _ (dg _ _ E7 L7)) as S7.
  step H. destruct (mulv_len _ _ _ E8) as (L8 & _). step H. destruct (ewise_len _ _ _ _ E9) as (L9 & L9'). step H. pose proof (dgj _ (dg _ _ E10 ltac:(lia))) as S10.
  step H. pose proof (sadd _ _ _ _ E11 S4 (str _ S4)) as S11. step H. step H. pose proof (dg _ _ E13 ltac:(rewrite (inv_len _ _ E12); lia)) as S13.
  step H. pose proof (ssub _ _ _ _ E14 S11 S7) as S14. step H. pose proof (ssub _ _ _ _ E15 S14 S10) as S15. step H. pose proof (ssub _ _ _ _ E16 S4 (str _ S4)) as S16.
  step H. pose proof (ssub _ _ _ _ E17 S16 S7) as S17. step H. pose proof (sadd _ _ _ _ E18 S17 S10) as S18. step H. pose proof (slj _ _ _ E19 (sh_mapm (cmul jj) _ _ _ _ S13) S18) as S19.
  step H. pose proof (slj _ _ _ E20 S13 S11) as S20. step H. pose proof (sr _ _ _ _ _ E21 S20 S13) as S21.
  injection H as <-. split; [exact S15|split; [apply str, S19|split; [exact S19|exact S21]]].
Qed.

Lemma d2Ibr_pos Y V lam r : d2Ibr_dV2 cabs Y V lam = Ok r -> length V = nb -> four (fun M => shape M nb nb joined) r.
Proof.
  intros H LV. unfold d2Ibr_dV2 in H. do 2 step H. pose proof (dg _ _ E0 ltac:(rewrite (inv_len _ _ E); lia)) as S0. do 2 step H. destruct (ewise_len _ _ _ _ E2) as (L2 & L3). step H. pose proof (dg _ _ E3 ltac:(lia)) as S3.
  step H. pose proof (slj _ _ _ E4 (sh_mapm (cmul (copp jj)) _ _ _ _ S3) (dgj _ S0)) as S4. injection H as <-. rewrite LV. split; [apply dgj, S3|split; [exact S4|split; [exact S4|]]].
  split; [reflexivity|split; [reflexivity|]]. intros e [].
Qed.

Lemma sq_pos S X Y dl M : sq_term S X Y dl = Ok M -> shape S nb nb joined -> shape X (length il) nb at_end -> shape Y (length il) nb at_end -> shape dl (length il) (length il) eq -> shape M nb nb joined.
Proof.
  intros H SS SX SY SD. unfold sq_term in H. do 3 step H. injection H as <-. do 2 apply sh_mapm. eapply sadd; [exact E1|exact SS|].
  eapply sh_mulm; [exact E0|eapply sh_dr; [exact E|apply sh_transp, SX|exact SD]|apply sh_mapm, SY|]. intros i m j Q1 Q2. exact (ends_joined i m j Q1 Q2).
Qed.
Definition fourK (P : smat K -> Prop) (x : smat K * smat K * smat K * smat K) : Prop :=
  let '(a, b, c, d) := x in P a /\ P b /\ P c /\ P d.
Lemma d2AS_pos va vm S C Y V lam r : d2ASbr_dV2 cabs va vm S C Y V lam = Ok r -> shape va (length il) nb at_end -> shape vm (length il) nb at_end -> length S = length il -> shape C (length il) nb at_end ->
  shape Y (length il) nb at_end -> length V = nb -> fourK (fun M => shape M nb nb joined) r.
Proof.
  intros H Sa Sm LS SC SY LV. unfold d2ASbr_dV2 in H. do 3 step H. pose proof (sh_diagm _ _ E0) as S0. rewrite map_length, LS in S0. destruct (mulv_len _ _ _ E1) as (L1 & L2). destruct S0 as (R1 & R2 & _).
  pose proof (sh_diagm _ _ E) as SD. rewrite L2, R2 in SD. step H. destruct x2 as (((aa, av), vx), vv). destruct (d2Sbr_pos _ _ _ _ _ E2 SC SY ltac:(lia) LV) as (A1 & A2 & A3 & A4).
  do 4 step H. injection H as <-. split; [|split; [|split]]; eapply sq_pos; eassumption.
Qed.
Lemma d2AI_pos va vm S Y V lam r : d2AIbr_dV2 cabs va vm S Y V lam = Ok r -> shape va (length il) nb at_end -> shape vm (length il) nb at_end -> length S = length il ->
  length V = nb -> fourK (fun M => shape M nb nb joined) r.
Proof.
  intros H Sa Sm LS LV. unfold d2AIbr_dV2 in H. do 3 step H. pose proof (sh_diagm _ _ E0) as S0. rewrite map_length, LS in S0. destruct (mulv_len _ _ _ E1) as (L1 & L2). destruct S0 as (R1 & R2 & _).
  pose proof (sh_diagm _ _ E) as SD. rewrite L2, R2 in SD. step H. destruct x2 as (((aa, av), vx), vv). destruct (d2Ibr_pos _ _ _ _ E2 LV) as (A1 & A2 & A3 & A4).
  do 4 step H. injection H as <-. split; [|split; [|split]]; eapply sq_pos; eassumption.
Qed.
End Ends.
End Second.
