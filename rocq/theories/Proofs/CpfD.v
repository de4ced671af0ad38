(** Continuation power flow: how far apart the points of the curve are, and where the run ends. *)
From Verif Require Import Lib.ListFacts Model.Cpf Spec.PfSpec Spec.CpfSpec Proofs.LinAlgFacts Proofs.SparseFacts Proofs.FldFacts
  Proofs.AcPfA Proofs.NewtonA Proofs.CpfA Proofs.CpfB Proofs.OrdFacts.
Local Open Scope nat_scope.

Section CpfD.
Context {K : Type} {F : Fld K}.
Add Field KF : (@f_ok K F).
Variables (cis : K -> cpx K) (cabs cang : cpx K -> K).
Variable norm2 : list K -> K.
Variable solve : list (list K) -> list K -> result (list K).
Variables (n : nat) (Y : smat (cpx K)) (Sb Sx : list (cpx K)) (pv pq : list nat) (o : @cpf_opt K).
Hypothesis SQ : square n Y.

Notation pass := (cpf_step cis cabs cang norm2 solve o Y Sb Sx pv pq).
Notation pp := (cpf_p cabs cang).

(** the last point is the current one *)
Definition tip (c : @cstate K) : Prop :=
  length (cs_V c) = n /\ exists ps q, cs_points c = ps ++ [q] /\ V_c q = cs_V c /\ lam_c q = cs_lam c.
Lemma tip_step c c' : tip c -> pass c = Ok c' -> cs_success c' = true -> tip c'.
Proof.
  intros (LV & _) H SU. destruct (step_facts _ _ _ _ _ n _ _ _ _ _ o SQ c c' LV H SU) as (p & st & ad & EP & EV & EL & LVp & _).
  split; [congruence|]. exists (cs_points c), p. auto.
Qed.

(** ** fixed steps *)
(** the step is changed after this point *)
Definition shortens (prev this : @point K) : Prop :=
  match cp_stop o with
  | Nose => False
  | Full => lt (lam_c this) (lam_c prev) /\ lt (lam_c this - cp_step o)%K 0%K
  | At l => lt l (lam_c this + cp_step o)%K
  end.
Definition distance par step (a b : @point K) : Prop :=
  exists z P, pp par step z (V_c b) (lam_c b) (V_c a) (lam_c a) pv pq = Ok P /\ within (cp_tol o) P.
Definition last_step (a : @point K) : K := match cp_stop o with At l => (l - lam_c a)%K | _ => lam_c a end.

Definition unshortened (l : list (@point K)) : Prop := forall x y, adjacent l x y -> ~ shortens x y.
Definition gait_points (pts : list (@point K)) : Prop :=
  (forall u a b v, pts = u ++ a :: b :: v -> unshortened (u ++ [a]) -> distance (cp_par o) (cp_step o) a b) /\
  (forall u x a b v, pts = u ++ x :: a :: b :: v -> unshortened (u ++ [x]) -> shortens x a -> distance 1 (last_step a) a b).
Definition gait (c : @cstate K) : Prop :=
  tip c /\ cs_adapt c = false /\ cs_done c = false /\
  (forall x y, adjacent (cs_points c) x y -> ~ ends (cp_stop o) (lam_c y) (lam_c x)) /\
  (unshortened (cs_points c) -> cs_step c = cp_step o /\ cs_par c = cp_par o) /\
  (forall u x a, cs_points c = u ++ [x; a] -> unshortened (u ++ [x]) -> shortens x a -> cs_par c = 1 /\ cs_step c = last_step a) /\
  gait_points (cs_points c).

Lemma split_tail (ps : list (@point K)) p u a b v : ps ++ [p] = u ++ a :: b :: v ->
  (exists w, v = w ++ [p] /\ ps = u ++ a :: b :: w) \/ (v = [] /\ b = p /\ ps = u ++ [a]).
Proof.
  destruct v as [|w v] using rev_ind; intros E.
  - right. replace (u ++ [a; b]) with ((u ++ [a]) ++ [b]) in E by (rewrite <- app_assoc; auto).
    apply app_inj_tail in E as (-> & ->). auto.
  - left. clear IHv. replace (u ++ a :: b :: v ++ [w]) with ((u ++ a :: b :: v) ++ [w]) in E by (rewrite <- app_assoc; auto).
    apply app_inj_tail in E as (-> & ->). eauto.
Qed.

Lemma gait_extend c c' : gait c -> pass c = Ok c' -> cs_success c' = true -> gait_points (cs_points c').
Proof.
  intros (TP & AD & DN & _ & G1 & G2 & G3 & G4) H SU. pose proof TP as (LV & ps & q & EP & EV & EL).
  destruct (step_facts _ _ _ _ _ n _ _ _ _ _ o SQ c c' LV H SU) as (p & st & ad & EP' & EV' & EL' & LVp & (z & P & HP & W) & _).
  rewrite EP'. split.
  - intros u a b v E U. apply split_tail in E as [(w & -> & E)|(-> & -> & E)]; [eapply G3; eauto|].
    rewrite EP in E. apply app_inj_tail in E as (-> & ->).
    destruct G1 as (S1 & S2). { rewrite EP. auto. }
    exists z, P. rewrite EV, EL, <- S1, <- S2. auto.
  - intros u x a b v E U SH. change (u ++ x :: a :: b :: v) with (u ++ [x] ++ a :: b :: v) in E. rewrite app_assoc in E.
    apply split_tail in E as [(w & -> & E)|(-> & -> & E)].
    { apply (G4 u x a b w); auto. rewrite E, <- app_assoc. auto. }
    destruct (G2 u x a) as (S1 & S2); auto. { rewrite E, <- app_assoc. auto. }
    rewrite EP in E. apply app_inj_tail in E as (-> & ->).
    exists z, P. rewrite EV, EL, <- S1, <- S2. auto.
Qed.

Lemma stop_keep st lam lamprv step par d s p a :
  stop_test st lam lamprv step par false = (d, s, p, a) -> d = false ->
  a = false /\
  match st with
  | Nose => s = step /\ p = par
  | Full => (lt lam lamprv /\ lt (lam - step)%K 0%K -> s = lam /\ p = 1) /\
            (~ (lt lam lamprv /\ lt (lam - step)%K 0%K) -> s = step /\ p = par)
  | At l => (lt l (lam + step)%K -> s = (l - lam)%K /\ p = 1) /\ (~ lt l (lam + step)%K -> s = step /\ p = par)
  end.
Proof.
  unfold stop_test, lt. intros H D. destruct st.
  - destruct (fltb lam lamprv); injection H as <- <- <- <-; auto.
  - destruct (fltb (fabs lam) tiny); [injection H as <- <- <- <-; discriminate|].
    destruct (fltb lam lamprv) eqn:A; destruct (fltb (lam - step)%K 0%K) eqn:B; cbn in H; injection H as <- <- <- <-;
      (split; [auto|]); intuition congruence.
  - destruct (fltb lam lamprv); [injection H as <- <- <- <-; discriminate|].
    destruct (fltb (fabs (l - lam)%K) tiny); [injection H as <- <- <- <-; discriminate|].
    destruct (fltb l (lam + step)%K) eqn:A; injection H as <- <- <- <-; (split; [auto|]); intuition congruence.
Qed.

Lemma shortens_dec x y : shortens x y \/ ~ shortens x y.
Proof.
  unfold shortens, lt. destruct (cp_stop o); auto.
  - destruct (fltb (lam_c y) (lam_c x)), (fltb (lam_c y - cp_step o)%K 0%K); intuition congruence.
  - destruct (fltb l (lam_c y + cp_step o)%K); intuition congruence.
Qed.

Lemma gait_step c c' : gait c -> pass c = Ok c' -> cs_success c' = true -> cs_done c' = false -> gait c'.
Proof.
  intros G H SU D. pose proof (gait_extend _ _ G H SU) as GP.
  destruct G as (TP & AD & DN & NE & G1 & G2 & G3 & G4). pose proof TP as (LV & ps & q & EP & EV & EL).
  destruct (step_facts _ _ _ _ _ n _ _ _ _ _ o SQ c c' LV H SU)
    as (p & st & ad & EP' & EV' & EL' & LVp & (z & P & HP & W) & ST & EA & ES).
  rewrite AD in ST. pose proof (stop_test_done _ _ _ _ _ _ _ _ _ _ ST) as (EN & _).
  destruct (stop_keep _ _ _ _ _ _ _ _ _ ST D) as (-> & SK). cbn [andb] in ES.
  assert (unshortened (cs_points c) -> shortens q p -> cs_par c' = 1 /\ cs_step c' = last_step p) as KA.
  { intros U SH. destruct (G1 U) as (E1 & E2). rewrite E1, <- EL, ES in *. clear - SK SH. unfold shortens, last_step in *.
    destruct (cp_stop o); [contradiction| |]; destruct SK as (SK & _); destruct (SK SH) as (-> & ->); auto. }
  assert (unshortened (cs_points c) -> ~ shortens q p -> cs_step c' = cp_step o /\ cs_par c' = cp_par o) as KB.
  { intros U SH. destruct (G1 U) as (E1 & E2). rewrite E1, <- EL, ES, E2 in *. clear - SK SH. unfold shortens in *.
    destruct (cp_stop o); [destruct SK; auto| |]; destruct SK as (_ & SK); destruct (SK SH) as (-> & ->); auto. }
  split. { apply (tip_step c); auto. } split; auto. split; auto. split; [|split; [|split; [|exact GP]]].
  - intros x y A. rewrite EP', EP in A. apply adj_snoc in A as [A|(-> & ->)].
    + apply NE. rewrite EP. auto.
    + rewrite EL. intros C. apply EN in C. congruence.
  - intros U. apply KB.
    + intros x y A. apply U. rewrite EP'. apply adj_mono; auto.
    + apply U. rewrite EP', EP. apply adj_last.
  - intros u x a E U SH. rewrite EP' in E. replace (u ++ [x; a]) with ((u ++ [x]) ++ [a]) in E by (rewrite <- app_assoc; auto).
    apply app_inj_tail in E as (E & <-). pose proof E as E'. rewrite EP in E'. apply app_inj_tail in E' as (_ & <-).
    apply KA; auto. rewrite E. auto.
Qed.

(** ** a target for lambda *)
Variable l : K.
Hypothesis TO : cp_stop o = At l.
Hypothesis pos_step : lt 0%K (cp_step o).
Hypothesis pos_err : lt 0%K (cp_err_tol o).
Hypothesis pos_min : lt 0%K (cp_step_min o).
Hypothesis pos_max : lt 0%K (cp_step_max o).

Lemma norm_inf_nn v (m : K) : norm_inf v = Ok m -> le 0%K m.
Proof.
  intros H. apply not_lt. intros C. unfold lt in C. apply (norm_inf_lt _ _ 0%K H) in C.
  destruct v as [|a v]; [discriminate|]. inversion C; subst. unfold within in *. rewrite fabs_nonneg in *. discriminate.
Qed.

Lemma adapt_pos (V V0 : list (cpx K)) lam lam0 step s : lt 0%K step -> adapt_size cabs cang o pv pq V V0 lam lam0 step = Ok s -> lt 0%K s.
Proof.
  intros PS H. unfold adapt_size in H. do 5 (apply bind_ok in H as (? & _ & H)). apply bind_ok in H as (err & HE & H).
  cbv zeta in H. apply norm_inf_nn in HE. assert (lt 0%K (step * cp_err_tol o)%K) as PN by (apply mul_pos; auto).
  assert (feqb err 0%K = false -> lt 0%K (step * cp_err_tol o / err)%K) as PD.
  { intros N. apply div_pos; auto. apply le_cases in HE as [<-|]; auto. exfalso.
    assert (feqb (0%K : K) 0%K = true) by (apply feqb_ok; auto). congruence. }
  destruct (fltb err (cp_err_tol o)).
  - destruct (feqb err 0%K). { destruct (fltb 0%K _); [injection H as <-; auto|discriminate]. }
    destruct (fltb (cp_step_max o) _); injection H as <-; auto.
  - destruct (feqb err 0%K); [discriminate|]. destruct (fltb _ (cp_step_min o)); injection H as <-; auto.
Qed.

Definition aim (c : @cstate K) : Prop :=
  tip c /\
  (lt 0%K (cs_step c) \/ (cs_par c = 1 /\ cs_adapt c = false /\ cs_step c = (l - cs_lam c)%K)) /\
  (1 < length (cs_points c) -> lt l (cs_lam c) -> cs_par c = 1 /\ cs_step c = (l - cs_lam c)%K) /\
  (forall b r x y, cs_points c = b :: r -> adjacent r x y -> lt (lam_c x) (l + cp_tol o)%K).

Lemma aim_extend c c' : aim c -> pass c = Ok c' -> cs_success c' = true ->
  forall b r x y, cs_points c' = b :: r -> adjacent r x y -> lt (lam_c x) (l + cp_tol o)%K.
Proof.
  intros (TP & SG & OV & BD) H SU b r x y E A. pose proof TP as (LV & ps & q & EP & EV & EL).
  destruct (step_facts _ _ _ _ _ n _ _ _ _ _ o SQ c c' LV H SU) as (p & st & ad & EP' & EV' & EL' & LVp & (z & P & HP & W) & _).
  rewrite EP', EP in E. destruct ps as [|b0 ps].
  { injection E as <- <-. apply adj_one in A. contradiction. }
  cbn in E. injection E as <- <-. apply adj_snoc in A as [A|(-> & ->)].
  { apply (BD b0 (ps ++ [q]) x y); auto. }
  assert (lt 0%K (cp_tol o)) as TP0.
  { eapply le_lt_trans; [apply fabs_nn|exact W]. }
  destruct (lt_le_dec l (cs_lam c)) as [C|C].
  - destruct OV as (E1 & E2); auto. { rewrite EP. cbn. rewrite app_length. cbn. lia. }
    rewrite E1, E2 in HP. cbn [cpf_p] in HP. injection HP as <-. rewrite EL.
    unfold within in W. apply fabs_lt in W as (_ & W). change (lt (if fgeb (lam_c p) (cs_lam c) then (lam_c p - cs_lam c - (l - cs_lam c))%K
       else (cs_lam c - lam_c p - (l - cs_lam c))%K) (cp_tol o)) in W.
    unfold fgeb in W. apply lt_sub. apply lt_sub in W. destruct (fltb (lam_c p) (cs_lam c)) eqn:CP; cbn [negb] in W.
    + assert (lt 0 (cs_lam c - lam_c p))%K as CP' by exact (proj1 (lt_sub _ _) CP).
      pose proof (add_pos _ _ W CP') as X. eapply eq_ind; [exact X|ring].
    + assert (le 0 (lam_c p - cs_lam c))%K as CP' by exact (proj1 (le_sub _ _) CP).
      pose proof (add_pos_nn _ _ W CP') as X. eapply eq_ind; [exact X|ring].
  - rewrite EL. eapply le_lt_trans; [exact C|]. apply lt_sub. eapply eq_ind; [exact TP0|ring].
Qed.

Lemma aim_step c c' : aim c -> pass c = Ok c' -> cs_success c' = true -> cs_done c' = false -> aim c'.
Proof.
  intros AI H SU D. pose proof (aim_extend _ _ AI H SU) as BD'.
  destruct AI as (TP & SG & OV & BD). pose proof TP as (LV & ps & q & EP & EV & EL).
  destruct (step_facts _ _ _ _ _ n _ _ _ _ _ o SQ c c' LV H SU)
    as (p & st & ad & EP' & EV' & EL' & LVp & (z & P & HP & W) & ST & EA & ES).
  split. { apply (tip_step c); auto. }
  rewrite TO, D in ST. unfold stop_test in ST.
  destruct (fltb (lam_c p) (cs_lam c)) eqn:C1; [discriminate|].
  destruct (fltb (fabs (l - lam_c p)%K) tiny) eqn:C2; [discriminate|].
  rewrite D in ES. cbn [negb] in ES. rewrite andb_true_r in ES.
  destruct (fltb l (lam_c p + cs_step c)%K) eqn:C3.
  - injection ST as <- <- <-. cbn in ES. rewrite <- EL'.
    split. { right. auto. } auto.
  - injection ST as <- E2 <-. rewrite <- EL' in *.
    assert (cs_par c = 1 /\ cs_adapt c = false /\ cs_step c = (l - cs_lam c)%K -> le (cs_lam c) (lam_c p) ->
            lt l (lam_c p) -> cs_par c' = 1 /\ cs_step c' = (l - lam_c p)%K) as KEY.
    { intros (A1 & A2 & A3) L1 L2. rewrite A2 in ES. split; [congruence|]. rewrite ES, A3. f_equal. apply le_antisym; auto.
      change (le (lam_c p + cs_step c)%K l) in C3. rewrite A3 in C3. apply le_sub in C3. apply le_sub.
      eapply eq_ind; [exact C3|ring]. }
    split; [|split; [|exact BD']].
    + destruct SG as [SG|(A1 & A2 & A3)].
      * left. destruct (cs_adapt c); [|rewrite ES; auto]. eapply adapt_pos; eauto.
      * destruct (lt_le_dec 0%K (cs_step c')) as [|NP]; auto. right. rewrite A2 in ES. split; [congruence|]. split; [congruence|].
        assert (le l (lam_c p)) as LL.
        { rewrite ES, A3 in NP. apply le_sub in NP. apply le_trans with (cs_lam c); [apply le_sub; eapply eq_ind; [exact NP|ring]|exact C1]. }
        apply le_cases in LL as [LL|LL]; [|apply KEY; auto].
        rewrite ES, A3. f_equal. apply le_antisym; [exact C1|]. rewrite <- LL.
        change (le (lam_c p + cs_step c)%K l) in C3. rewrite A3, <- LL in C3. apply le_sub in C3. apply le_sub.
        eapply eq_ind; [exact C3|ring].
    + intros _ L2. destruct SG as [SG|SG]; [|apply KEY; auto; exact C1]. exfalso.
      assert (lt l (lam_c p + cs_step c)%K) as X; [|unfold lt in X; congruence].
      apply lt_trans with (lam_c p); auto. apply lt_sub. eapply eq_ind; [exact SG|ring].
Qed.
End CpfD.
