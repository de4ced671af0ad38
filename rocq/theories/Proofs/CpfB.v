(** Continuation power flow: the loop over the curve. *)
From Verif Require Import Lib.ListFacts Model.Cpf Spec.PfSpec Spec.CpfSpec Proofs.LinAlgFacts Proofs.SparseFacts Proofs.FldFacts
  Proofs.NetworkA Proofs.NetworkC Proofs.YbusA Proofs.MatFacts Proofs.AcPfA Proofs.NewtonA Proofs.CpfA.
Local Open Scope nat_scope.

Section Adj.
Context {A : Type}.
Lemma adj_in (l : list A) a b : adjacent l a b -> In a l /\ In b l.
Proof. intros (u & v & ->). split; apply in_or_app; cbn; auto. Qed.
Lemma adj_snoc (l : list A) q p a b : adjacent ((l ++ [q]) ++ [p]) a b -> adjacent (l ++ [q]) a b \/ (a = q /\ b = p).
Proof.
  intros (u & v & E). destruct v as [|w v] using rev_ind.
  - right. replace (u ++ [a; b]) with ((u ++ [a]) ++ [b]) in E by (rewrite <- app_assoc; auto).
    apply app_inj_tail in E as (E & ->). apply app_inj_tail in E as (_ & ->). auto.
  - left. clear IHv. replace (u ++ a :: b :: v ++ [w]) with ((u ++ a :: b :: v) ++ [w]) in E by (rewrite <- app_assoc; auto).
    apply app_inj_tail in E as (-> & _). exists u, v. reflexivity.
Qed.
Lemma adj_one (q a b : A) : ~ adjacent [q] a b.
Proof. intros ([|x u] & v & E); [discriminate|]. injection E as _ E. destruct u; discriminate. Qed.
Lemma adj_mono (l : list A) p a b : adjacent l a b -> adjacent (l ++ [p]) a b.
Proof. intros (u & v & ->). exists u, (v ++ [p]). rewrite <- app_assoc. reflexivity. Qed.
Lemma adj_last (l : list A) q p : adjacent ((l ++ [q]) ++ [p]) q p.
Proof. exists l, []. rewrite <- app_assoc. reflexivity. Qed.
End Adj.

Section CpfB.
Context {K : Type} {F : Fld K}.
Add Field KF : (@f_ok K F).
Variables (cis : K -> cpx K) (cabs cang : cpx K -> K).
Variable norm2 : list K -> K.
Variable solve : list (list K) -> list K -> result (list K).
Variables (n : nat) (Y : smat (cpx K)) (Sb Sx : list (cpx K)) (pv pq : list nat) (o : @cpf_opt K).
Hypothesis SQ : square n Y.
Hypothesis PO : polar_ok cis cabs cang.

(** the conditions under which the run ends *)
Definition ends (st : @stop_at K) (lam lamprv : K) : Prop :=
  match st with
  | Nose => fltb lam lamprv = true
  | Full => within tiny lam
  | At l => fltb lam lamprv = true \/ within tiny (l - lam)%K
  end.

Lemma stop_test_done st lam lamprv step par adapt d s p a :
  stop_test st lam lamprv step par adapt = (d, s, p, a) -> (d = true <-> ends st lam lamprv) /\ (p = par \/ p = 1).
Proof.
  unfold stop_test, ends, within. intros H.
  destruct st;
    repeat match type of H with context [if ?b then _ else _] => destruct b eqn:? end; injection H as <- <- <- <-;
    try rewrite andb_true_iff in *; intuition (auto; congruence).
Qed.

Definition link (q p : @point K) : Prop :=
  length (V_c p) = n /\ solved_by (fun _ => cp_tol o) Y (inj (lam_c p) Sb Sx) (V_c p) pv pq /\
  keeps cabs n pv pq (V_c q) (V_c p) /\
  exists par step z P, (par = cp_par o \/ par = 1) /\
    cpf_p cabs cang par step z (V_c p) (lam_c p) (V_c q) (lam_c q) pv pq = Ok P /\ within (cp_tol o) P.

(** the state before each pass *)
Definition linv (c : @cstate K) : Prop :=
  length (cs_V c) = n /\ (cs_par c = cp_par o \/ cs_par c = 1) /\
  (exists ps q, cs_points c = ps ++ [q] /\ V_c q = cs_V c /\ lam_c q = cs_lam c) /\
  (forall a b, adjacent (cs_points c) a b -> link a b).

Lemma step_ok c c' : linv c -> cpf_step cis cabs cang norm2 solve o Y Sb Sx pv pq c = Ok c' ->
  (cs_success c' = false /\ cs_done c' = true) \/
  (cs_success c' = true /\ linv c' /\
   exists p, cs_points c' = cs_points c ++ [p] /\
     (cs_done c' = true <-> ends (cp_stop o) (lam_c p) (cs_lam c))).
Proof.
  intros (LV & PA & (ps & q & EP & EV & EL) & CH) H. unfold cpf_step in H.
  apply bind_ok in H as (((V0 & lam0) & z) & HP & H). apply bind_ok in H as ((((V & ok) & i) & lam) & HC & H).
  apply (predictor_keeps cis cabs cang solve n) in HP as (LV0 & KP); auto.
  apply (corrector_ok cis cabs cang solve n) in HC as (LVc & _ & _ & OK & KC); auto.
  destruct ok; cbn [negb] in H.
  2: { injection H as <-. auto. }
  destruct (stop_test _ _ _ _ _ _) as (((d & st) & par) & ad) eqn:ES.
  apply stop_test_done in ES as (ED & EPar).
  apply bind_ok in H as (step' & _ & H). injection H as <-. right. cbn.
  split; auto. split.
  - split; auto. cbn. split. { destruct EPar as [-> | ->]; auto. }
    split. { exists (cs_points c), (Pt V0 lam0 V lam). auto. }
    intros a b AD. rewrite EP in AD. apply adj_snoc in AD as [AD|(-> & ->)].
    { apply CH. rewrite EP. auto. }
    destruct OK as (OK & _). destruct (OK eq_refl) as (SO & P & HPp & W). unfold link. cbn.
    split; auto. split; auto. split.
    + intros j Hj. rewrite EV. destruct (KP PO j Hj) as (A1 & A2). destruct (KC PO j Hj) as (B1 & B2).
      split; intros N; [rewrite B1, A1 | rewrite B2, A2]; auto.
    + exists (cs_par c), (cs_step c), z, P. rewrite EV, EL. auto.
  - eexists. split; [reflexivity|]. cbn. exact ED.
Qed.

Lemma loop_ok fuel : forall c c', linv c ->
  cpf_loop cis cabs cang norm2 solve o Y Sb Sx pv pq fuel c = Ok (Some c') ->
  (cs_done c = true /\ c' = c) \/ cs_done c = false /\ cs_done c' = true /\
  (cs_success c' = true -> linv c' /\
   exists ext q p, cs_points c' = (cs_points c ++ ext) ++ [p] /\ adjacent (cs_points c') q p /\
     V_c p = cs_V c' /\ lam_c p = cs_lam c' /\ ends (cp_stop o) (lam_c p) (lam_c q) /\
     forall a b, adjacent (cs_points c ++ ext) a b -> adjacent (cs_points c) a b \/ ~ ends (cp_stop o) (lam_c b) (lam_c a)).
Proof.
  induction fuel as [|fuel IH]; intros c c' W H; cbn [cpf_loop] in H; destruct (cs_done c) eqn:D.
  - left. injection H as <-. auto.
  - discriminate.
  - left. injection H as <-. auto.
  - right. split; auto. apply bind_ok in H as (c1 & H1 & H).
    pose proof W as (_ & _ & (ps & q & EP & EV & EL) & CH).
    destruct (step_ok _ _ W H1) as [(SF & DT)|(ST & W1 & p & EP1 & ED)].
    + destruct fuel; cbn [cpf_loop] in H; rewrite DT in H; injection H as <-; split; auto; intros C; congruence.
    + destruct (IH _ _ W1 H) as [(D1 & ->)|(D1 & D2 & R)].
      * split; auto. intros _. split; auto. exists [], q, p. rewrite app_nil_r. split; auto.
        split. { rewrite EP1, EP. apply adj_last. }
        destruct W1 as (_ & _ & (ps1 & q1 & E1 & A1 & A2) & _). rewrite EP1 in E1. apply app_inj_tail in E1 as (_ & <-).
        split; auto. split; auto. split; [|auto]. rewrite EL. apply ED; auto.
      * split; auto. intros S1. destruct (R S1) as (W' & ext & q' & p' & E1 & AD & A1 & A2 & EN & NE).
        split; auto. exists (p :: ext), q', p'.
        assert (cs_points c ++ p :: ext = cs_points c1 ++ ext) as EX by (rewrite EP1, <- app_assoc; auto).
        rewrite EX. repeat (split; [assumption|]). intros a b AB. destruct (NE a b AB) as [AB'|]; auto.
        rewrite EP1, EP in AB'. apply adj_snoc in AB' as [AB'|(-> & ->)].
        { left. rewrite EP. auto. }
        right. rewrite EL. intros C. apply ED in C. congruence.
Qed.

(** ** invariants of the loop *)
Lemma loop_ind (I : @cstate K -> Prop) :
  (forall c c', I c -> cs_done c = false -> cpf_step cis cabs cang norm2 solve o Y Sb Sx pv pq c = Ok c' ->
     cs_success c' = true -> cs_done c' = false -> I c') ->
  forall fuel c c', cpf_loop cis cabs cang norm2 solve o Y Sb Sx pv pq fuel c = Ok (Some c') ->
  I c -> cs_done c = false -> cs_success c' = true ->
  exists c1, I c1 /\ cs_done c1 = false /\ cs_done c' = true /\
    cpf_step cis cabs cang norm2 solve o Y Sb Sx pv pq c1 = Ok c'.
Proof.
  intros ST. induction fuel as [|fuel IH]; intros c c' H I0 D0 SU; cbn [cpf_loop] in H; rewrite D0 in H; [discriminate|].
  apply bind_ok in H as (c1 & H1 & H). destruct (cs_done c1) eqn:D1.
  - destruct fuel; cbn [cpf_loop] in H; rewrite D1 in H; injection H as <-; exists c; auto.
  - assert (cs_success c1 = true) as S1.
    { unfold cpf_step in H1. apply bind_ok in H1 as (((V0 & lam0) & z) & _ & H1).
      apply bind_ok in H1 as ((((V & ok) & i) & lam) & _ & H1). destruct ok; cbn [negb] in H1.
      - destruct (stop_test _ _ _ _ _ _) as (((d & st) & par) & ad). apply bind_ok in H1 as (step' & _ & H1). injection H1 as <-. auto.
      - injection H1 as <-. discriminate. }
    apply (IH c1); auto. eapply ST; eauto.
Qed.

(** what one successful pass does *)
Lemma step_facts c c' : length (cs_V c) = n ->
  cpf_step cis cabs cang norm2 solve o Y Sb Sx pv pq c = Ok c' -> cs_success c' = true ->
  exists p step adapt, cs_points c' = cs_points c ++ [p] /\ V_c p = cs_V c' /\ lam_c p = cs_lam c' /\
    length (V_c p) = n /\
    (exists z P, cpf_p cabs cang (cs_par c) (cs_step c) z (V_c p) (lam_c p) (cs_V c) (cs_lam c) pv pq = Ok P /\
       within (cp_tol o) P) /\
    stop_test (cp_stop o) (lam_c p) (cs_lam c) (cs_step c) (cs_par c) (cs_adapt c) = (cs_done c', step, cs_par c', adapt) /\
    cs_adapt c' = adapt /\
    (if adapt && negb (cs_done c') then adapt_size cabs cang o pv pq (V_c p) (V_p p) (lam_c p) (lam_p p) step = Ok (cs_step c')
     else cs_step c' = step).
Proof.
  intros LV H SU. unfold cpf_step in H.
  apply bind_ok in H as (((V0 & lam0) & z) & HP & H). apply bind_ok in H as ((((V & ok) & i) & lam) & HC & H).
  apply (corrector_ok cis cabs cang solve n) in HC as (LVc & _ & _ & OK & KC); auto.
  destruct ok; cbn [negb] in H.
  2: { injection H as <-. discriminate. }
  destruct (stop_test _ _ _ _ _ _) as (((d & st) & par) & ad) eqn:ES.
  apply bind_ok in H as (step' & HA & H). injection H as <-. cbn in *.
  exists (Pt V0 lam0 V lam), st, ad. cbn. split; auto. split; auto. split; auto. split; auto.
  destruct OK as (OK & _). destruct (OK eq_refl) as (_ & P & HPp & W).
  split; [eauto|]. split; auto. split; auto.
  destruct (ad && negb d); [auto|congruence].
Qed.
End CpfB.
