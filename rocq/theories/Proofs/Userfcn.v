From Coq Require Import Lia.
From Verif Require Import Lib.Py Lib.ListFacts Model.Userfcn.

Lemma stage_eqb_spec a b : Bool.reflect (a = b) (stage_eqb a b).
Proof.
  destruct a, b; simpl; try (constructor; congruence).
  destruct (Nat.eqb_spec n n0); constructor; congruence.
Qed.

Lemma cb_eqb_spec a b : Bool.reflect (a = b) (cb_eqb a b).
Proof.
  destruct a as [e s|m], b as [e' s'|n]; simpl; try (constructor; congruence).
  - destruct (stage_eqb_spec s s'); destruct e, e'; simpl; constructor; congruence.
  - destruct (Nat.eqb_spec m n); constructor; congruence.
Qed.

Section U.
Variables F Arg : Type.
Variable feqb : F -> F -> bool.
Hypothesis feqb_spec : forall a b, Bool.reflect (a = b) (feqb a b).
Notation entry := (entry F Arg).
Notation userfcn := (userfcn F Arg).

(** the registrations of a stage, none if the stage or the whole field is missing *)
Definition callbacks (u : userfcn) (s : stage) : list entry :=
  match u with
  | None => []
  | Some d => match assoc F Arg s d with None => [] | Some l => l end
  end.

Lemma assoc_dset s s' l d :
  assoc F Arg s (dset F Arg s' l d) = if stage_eqb s s' then Some l else assoc F Arg s d.
Proof.
  induction d as [|[t m] d IH]; simpl.
  - reflexivity.
  - destruct (stage_eqb_spec s' t); simpl.
    + subst t. destruct (stage_eqb_spec s s'); auto.
    + rewrite IH. destruct (stage_eqb_spec s t), (stage_eqb_spec s s'); auto. congruence.
Qed.

Lemma callbacks_add u s f a s' :
  callbacks (add_userfcn F Arg u s f a) s' =
  callbacks u s' ++ if stage_eqb s' s then [{| e_fcn := f; e_args := a |}] else [].
Proof.
  unfold callbacks, add_userfcn. destruct u as [d|]; simpl.
  - destruct (assoc F Arg s d) eqn:E; rewrite assoc_dset; destruct (stage_eqb_spec s' s).
    + subst; rewrite E; auto.
    + rewrite app_nil_r; auto.
    + subst; rewrite E; auto.
    + rewrite app_nil_r; auto.
  - destruct (stage_eqb_spec s' s); auto.
Qed.

Lemma remove_first_app f l1 e l2 :
  Forall (fun x => e_fcn x <> f) l1 -> e_fcn e = f ->
  remove_first F Arg feqb f (l1 ++ e :: l2) = l1 ++ l2.
Proof.
  intros H He. induction H as [|x l Hx Hl IH]; simpl.
  - destruct (feqb_spec (e_fcn e) f); congruence.
  - destruct (feqb_spec (e_fcn x) f); [congruence|]. rewrite IH; auto.
Qed.

Lemma remove_first_none f l :
  Forall (fun x => e_fcn x <> f) l -> remove_first F Arg feqb f l = l.
Proof.
  induction 1 as [|x l Hx Hl IH]; simpl; auto.
  destruct (feqb_spec (e_fcn x) f); [congruence|]. rewrite IH; auto.
Qed.

(** removing the last registration of [f]; nothing happens if there is none *)
Definition removed (f : F) (l l' : list entry) : Prop :=
  (exists l1 e l2, l = l1 ++ e :: l2 /\ e_fcn e = f /\
     Forall (fun x => e_fcn x <> f) l2 /\ l' = l1 ++ l2)
  \/ (Forall (fun x => e_fcn x <> f) l /\ l' = l).

Lemma last_split f (l : list entry) :
  Forall (fun x => e_fcn x <> f) l \/
  exists l1 e l2, l = l1 ++ e :: l2 /\ e_fcn e = f /\ Forall (fun x => e_fcn x <> f) l2.
Proof.
  induction l as [|x l IH]; [left; constructor|].
  destruct IH as [IH|(l1 & e & l2 & -> & He & H2)].
  - destruct (feqb_spec (e_fcn x) f) as [Hx|Hx].
    + right. exists [], x, l. auto.
    + left; constructor; auto.
  - right. exists (x :: l1), e, l2. auto.
Qed.

Lemma remove_removed f l : removed f l (rev (remove_first F Arg feqb f (rev l))).
Proof.
  destruct (last_split f l) as [H|(l1 & e & l2 & -> & He & H2)].
  - right. split; auto. rewrite remove_first_none; [apply rev_involutive|].
    apply Forall_rev; auto.
  - left. exists l1, e, l2. repeat split; auto.
    rewrite rev_app_distr. simpl. rewrite <- app_assoc. simpl.
    rewrite remove_first_app; [|apply Forall_rev; auto|auto].
    rewrite rev_app_distr, !rev_involutive. auto.
Qed.

Lemma remove_ok u s f : 
  (exists d l, u = Some d /\ assoc F Arg s d = Some l /\
     exists u', remove_userfcn F Arg feqb u s f = Ok u' /\
       removed f (callbacks u s) (callbacks u' s) /\
       forall s', s' <> s -> callbacks u' s' = callbacks u s')
  \/ remove_userfcn F Arg feqb u s f = Err KeyError /\ callbacks u s = [].
Proof.
  unfold remove_userfcn, callbacks. destruct u as [d|]; [|auto].
  destruct (assoc F Arg s d) as [l|] eqn:E; [|auto].
  left. exists d, l. split; auto. split; auto. eexists; split; [reflexivity|]. split.
  - rewrite assoc_dset. destruct (stage_eqb_spec s s); [|congruence]. apply remove_removed.
  - intros s' Hs. rewrite assoc_dset. destruct (stage_eqb_spec s' s); [congruence|auto].
Qed.

Lemma removed_det f l a b : removed f l a -> removed f l b -> a = b.
Proof.
  assert (K : forall l, Forall (fun x : entry => e_fcn x <> f) l -> forall l1 e l2,
            l = l1 ++ e :: l2 -> e_fcn e = f -> False).
  { intros m Hm l1 e l2 -> He. rewrite Forall_forall in Hm.
    apply (Hm e); auto. apply in_or_app; right; left; auto. }
  assert (U : forall l1 l2 m1 m2 (e g : entry), l1 ++ e :: l2 = m1 ++ g :: m2 ->
     e_fcn e = f -> e_fcn g = f -> Forall (fun x => e_fcn x <> f) l2 ->
     Forall (fun x => e_fcn x <> f) m2 -> l1 ++ l2 = m1 ++ m2).
  { induction l1 as [|x l1 IH]; intros l2 [|y m1] m2 e g H He Hg H2 M2; simpl in *.
    - congruence.
    - injection H as <- H. exfalso. apply (K l2 H2 m1 g m2 H Hg).
    - injection H as -> H. exfalso. apply (K m2 M2 l1 e l2); auto.
    - injection H as <- H. f_equal. eapply IH; eauto. }
  intros [(l1 & e & l2 & -> & He & H2 & ->)|(H & ->)] [(m1 & g & m2 & E & Hg & M2 & ->)|(H' & ->)].
  - eapply U; eauto.
  - exfalso. apply (K _ H' l1 e l2); auto.
  - exfalso. apply (K _ H m1 g m2); auto.
  - auto.
Qed.

Lemma add_remove u s f a : exists u',
  remove_userfcn F Arg feqb (add_userfcn F Arg u s f a) s f = Ok u' /\
  forall s', callbacks u' s' = callbacks u s'.
Proof.
  destruct (remove_ok (add_userfcn F Arg u s f a) s f)
    as [(d & l & _ & _ & u' & Hu & Hr & Ho)|(_ & E)].
  - exists u'. split; auto. intros s'. destruct (stage_eqb_spec s' s) as [->|Hs].
    + eapply removed_det; [exact Hr|]. rewrite callbacks_add.
      destruct (stage_eqb_spec s s); [|congruence].
      left. exists (callbacks u s), {| e_fcn := f; e_args := a |}, []. rewrite app_nil_r. auto.
    + rewrite Ho by auto. rewrite callbacks_add.
      destruct (stage_eqb_spec s' s); [congruence|]. apply app_nil_r.
  - exfalso. rewrite callbacks_add in E. destruct (stage_eqb_spec s s); [|congruence].
    destruct (callbacks u s); discriminate.
Qed.
End U.

(** ** toggles *)
Section T.
Variable Arg : Type.
Notation cbs := (callbacks cb Arg).

Definition std (s : stage) : bool := match s with Sother _ => false | _ => true end.

Lemma toggle_on_callbacks e u u' : toggle Arg e true On u = Ok u' ->
  forall s, cbs u' s = cbs u s ++ if std s then [{| e_fcn := Cb e s; e_args := [] |}] else [].
Proof.
  unfold toggle. rewrite Bool.andb_false_r. intros H; injection H as <-. intros s.
  unfold on_stages. simpl fold_left. rewrite !callbacks_add.
  destruct s; simpl; rewrite ?app_nil_r; auto.
Qed.

Lemma toggle_off_ok e u :
  (forall s, std s = true -> exists l1 x l2, cbs u s = l1 ++ x :: l2 /\ e_fcn x = Cb e s) ->
  forall b, exists u', toggle Arg e b Off u = Ok u' /\
   (forall s, std s = true -> removed cb Arg (Cb e s) (cbs u s) (cbs u' s)) /\
   (forall s, std s = false -> cbs u' s = cbs u s).
Proof.
  intros H b. unfold toggle, on_stages. simpl rev. cbn [foldM].
  assert (R : forall s0 v, (exists l1 x l2, cbs v s0 = l1 ++ x :: l2 /\ e_fcn x = Cb e s0) ->
     exists v', remove_userfcn cb Arg cb_eqb v s0 (Cb e s0) = Ok v' /\
       removed cb Arg (Cb e s0) (cbs v s0) (cbs v' s0) /\
       forall s', s' <> s0 -> cbs v' s' = cbs v s').
  { intros s0 v (l1 & x & l2 & E & _).
    destruct (remove_ok cb Arg cb_eqb cb_eqb_spec v s0 (Cb e s0))
      as [(d & l & _ & _ & v' & Hv & Hr & Ho)|(_ & E')].
    - exists v'; auto.
    - rewrite E in E'. destruct l1; discriminate. }
  destruct (R Ssavecase u) as (u1 & E1 & R1 & O1); [apply H; auto|]. rewrite E1; cbn [bind].
  destruct (R Sprintpf u1) as (u2 & E2 & R2 & O2); [rewrite O1 by discriminate; apply H; auto|].
  rewrite E2; cbn [bind].
  destruct (R Sint2ext u2) as (u3 & E3 & R3 & O3);
    [rewrite O2, O1 by discriminate; apply H; auto|]. rewrite E3; cbn [bind].
  destruct (R Sformulation u3) as (u4 & E4 & R4 & O4);
    [rewrite O3, O2, O1 by discriminate; apply H; auto|]. rewrite E4; cbn [bind].
  destruct (R Sext2int u4) as (u5 & E5 & R5 & O5);
    [rewrite O4, O3, O2, O1 by discriminate; apply H; auto|]. rewrite E5; cbn [bind].
  exists u5. split; auto. split.
  - intros s Hs. destruct s; try discriminate Hs.
    + rewrite O4, O3, O2, O1 in R5 by discriminate. auto.
    + rewrite O3, O2, O1 in R4 by discriminate. rewrite O5 by discriminate. auto.
    + rewrite O2, O1 in R3 by discriminate. rewrite O5, O4 by discriminate. auto.
    + rewrite O1 in R2 by discriminate. rewrite O5, O4, O3 by discriminate. auto.
    + rewrite O5, O4, O3, O2 by discriminate. auto.
  - intros s Hs. destruct s; try discriminate Hs.
    rewrite O5, O4, O3, O2, O1 by discriminate. auto.
Qed.

(** switching off an extension after any later registrations that are not its own *)
Lemma toggle_off_later e b u v w :
  toggle Arg e true On u = Ok v ->
  (forall s, exists l, cbs w s = cbs v s ++ l /\ Forall (fun x => e_fcn x <> Cb e s) l) ->
  exists x, toggle Arg e b Off w = Ok x /\
    forall s l, cbs w s = cbs v s ++ l -> cbs x s = cbs u s ++ l.
Proof.
  intros Hon Hw. pose proof (toggle_on_callbacks _ _ _ Hon) as Hv.
  destruct (toggle_off_ok e w) with (b := b) as (x & Hx & Hr & Ho).
  { intros s Hs. destruct (Hw s) as (l & El & _). rewrite El, Hv, Hs.
    exists (cbs u s), {| e_fcn := Cb e s; e_args := [] |}, l.
    rewrite <- app_assoc. auto. }
  exists x. split; auto. intros s l El.
  destruct (std s) eqn:Es.
  - eapply (removed_det cb Arg (Cb e s)); [apply Hr; auto|].
    left. exists (cbs u s), {| e_fcn := Cb e s; e_args := [] |}, l.
    rewrite El, Hv, Es, <- app_assoc. repeat split; auto.
    destruct (Hw s) as (l' & El' & Hl'). rewrite El in El'. apply app_inv_head in El'. subst; auto.
  - rewrite Ho by auto. rewrite El, Hv, Es, app_nil_r. auto.
Qed.
End T.
