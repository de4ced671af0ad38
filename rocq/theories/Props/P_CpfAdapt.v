(** C82: the adaptive step of a continuation run. *)
From Verif Require Import Lib.ListFacts Lib.QcFacts Model.Cpf Spec.PfSpec Spec.CpfSpec Spec.PipsSpec Proofs.LinAlgFacts
  Proofs.SparseFacts Proofs.FldFacts Proofs.AcPfA Proofs.NewtonA Proofs.CpfA Proofs.CpfB Proofs.CpfC Proofs.CpfD Proofs.OrdFacts
  Proofs.PipsB Props.P_Network Props.P_Ybus Props.P_AcPf Props.P_Cpf.
Local Open Scope nat_scope.

Section Theorems.
Context {K : Type} {F : Fld K}.
Add Field KF : (@f_ok K F).
Variables (cis : K -> cpx K) (cabs cang : cpx K -> K).
Variable norm2 : list K -> K.
Variable solve : list (list K) -> list K -> result (list K).
Variables (pv pq : list nat) (o : @cpf_opt K).

(** the largest difference between predicted and corrected values: the angles at PQ buses, the magnitudes at
    PV and PQ buses, lambda *)
Definition differences (p : @point K) : list K :=
  map (fun i => cang (nth i (V_c p) 0%K) - cang (nth i (V_p p) 0%K))%K pq
  ++ map (fun i => cabs (nth i (V_c p) 0%K) - cabs (nth i (V_p p) 0%K))%K (pv ++ pq)
  ++ [(lam_c p - lam_p p)%K].
Definition deviation (p : @point K) (e : K) : Prop :=
  (exists d, In d (differences p) /\ e = fabs d) /\ forall d, In d (differences p) -> le (fabs d) e.

(** the step [h'] after a point corrected by [e]: scaled by tolerance over error, and no larger than the maximum
    when the error is below the tolerance, no smaller than the minimum otherwise *)
Definition resized (h : K) (p : @point K) (h' : K) : Prop :=
  exists e, deviation p e /\
    ((lt e (cp_err_tol o) /\
      ((e = 0%K /\ h' = cp_step_max o) \/
       (e <> 0%K /\ let s := (h * cp_err_tol o / e)%K in
        (le s (cp_step_max o) /\ h' = s \/ lt (cp_step_max o) s /\ h' = cp_step_max o)))) \/
     (le (cp_err_tol o) e /\ e <> 0%K /\ let s := (h * cp_err_tol o / e)%K in
        (le (cp_step_min o) s /\ h' = s \/ lt s (cp_step_min o) /\ h' = cp_step_min o))).

(** the step is shortened to reach the end of the run, and adaptation switched off *)
Definition cut (h : K) (prev this : @point K) : Prop :=
  match cp_stop o with
  | Nose => False
  | Full => lt (lam_c this) (lam_c prev) /\ lt (lam_c this - h)%K 0%K
  | At l => lt l (lam_c this + h)%K
  end.
Definition aim (p : @point K) : K := match cp_stop o with At l => (l - lam_c p)%K | _ => lam_c p end.
Notation gap := (spaced cabs cang o pv pq).

(** points reached with adaptive steps, and the step to take next *)
Inductive paced : list (@point K) -> K -> Prop :=
| paced_start p : paced [p] (cp_step o)
| paced_next pts a b h h' : paced (pts ++ [a]) h -> gap (cp_par o) h a b -> ~ cut h a b -> resized h b h' ->
    paced (pts ++ [a; b]) h'.

Lemma paced_nonempty pts h : paced pts h -> exists u a, pts = u ++ [a].
Proof. intros [p|u a b h0 h' _ _ _ _]; [exists [], p; auto|exists (u ++ [a]), b; rewrite <- app_assoc; auto]. Qed.

(** ** one resizing *)
Lemma gather_at {A} (f : A -> K) V d idx v : gather (map f V) idx = Ok v -> v = map (fun i => f (nth i V d)) idx.
Proof.
  unfold gather. revert v. induction idx as [|i idx IH]; intros v E; cbn in E.
  - injection E as <-. auto.
  - apply bind_ok in E as (y & Hy & E). apply bind_ok in E as (w & Hw & E). injection E as <-. cbn [map]. rewrite <- (IH _ Hw).
    f_equal. apply get_ok in Hy. rewrite nth_error_map in Hy. destruct (nth_error V i) as [v0|] eqn:E0; [|discriminate].
    injection Hy as <-. rewrite (nth_error_nth _ _ _ E0). auto.
Qed.
Lemma map2_map {A} (f g : A -> K) l : map2 rsub (map f l) (map g l) = map (fun i => f i - g i)%K l.
Proof. unfold map2. induction l as [|x l IH]; cbn; auto. f_equal. exact IH. Qed.

Lemma adapt_resized p h h' : lt 0%K (cp_err_tol o) ->
  adapt_size cabs cang o pv pq (V_c p) (V_p p) (lam_c p) (lam_p p) h = Ok h' -> resized h p h'.
Proof.
  intros TP H. unfold adapt_size in H. apply bind_ok in H as (a & Ha & H). apply bind_ok in H as (m & Hm & H).
  apply bind_ok in H as (a0 & Ha0 & H). apply bind_ok in H as (m0 & Hm0 & H). apply bind_ok in H as (d & Hd & H).
  apply bind_ok in H as (e & He & H).
  apply (gather_at _ _ 0%K) in Ha, Hm, Ha0, Hm0. subst a m a0 m0. apply ewise_ok in Hd as (_ & ->).
  assert (norm_inf (differences p) = Ok e) as HE.
  { unfold differences. remember (pv ++ pq) as L.
    rewrite !map2_app, !map2_map in He by (rewrite ?map_length; auto). exact He. }
  apply norm_inf_is in HE. destruct HE as [(N & _)|HE].
  { exfalso. apply (f_equal (@length K)) in N. unfold differences in N. rewrite !app_length in N. cbn in N. lia. }
  cbv zeta in H. exists e. split; [exact HE|].
  destruct (fltb e (cp_err_tol o)) eqn:C.
  - left. split; [exact C|]. destruct (feqb e 0%K) eqn:E0.
    + left. apply feqb_ok in E0. destruct (fltb 0%K _); [|discriminate]. injection H as <-. auto.
    + right. split; [intros ->; rewrite (proj2 (feqb_ok _ _)) in E0; auto; discriminate|]. cbv zeta.
      destruct (fltb (cp_step_max o) _) eqn:G; injection H as <-; auto.
  - right. split; [exact C|]. destruct (feqb e 0%K) eqn:E0; [discriminate|].
    split; [intros ->; rewrite (proj2 (feqb_ok _ _)) in E0; auto; discriminate|]. cbv zeta.
    destruct (fltb _ (cp_step_min o)) eqn:G; injection H as <-; auto.
Qed.

(** ** steps stay within their bounds *)
Theorem C82_bounds pts h : lt 0%K (cp_err_tol o) -> le 0%K (cp_step_min o) -> le (cp_step_min o) (cp_step o) ->
  le (cp_step o) (cp_step_max o) -> paced pts h -> le (cp_step_min o) h /\ le h (cp_step_max o).
Proof.
  intros TP NM L1 L2 P. induction P as [p|pts a b h h' P (I1 & I2) _ _ (e & DV & R)]; auto.
  assert (le 0%K e) as EN. { destruct DV as ((d & _ & ->) & _). apply fabs_nn. }
  assert (le 0%K h) as HN by exact (le_trans _ _ _ NM I1).
  pose proof (le_trans _ _ _ L1 L2) as L3.
  destruct R as [(C & [(-> & ->)|(NZ & R)])|(C & NZ & R)]; cbv zeta in *.
  - split; auto. apply le_refl.
  - assert (lt 0%K e) as EP. { destruct (le_cases _ _ EN) as [X|X]; auto. congruence. }
    assert (le h (h * cp_err_tol o / e)%K) as G.
    { apply le_sub. assert ((h * cp_err_tol o / e - h)%K = (h * (cp_err_tol o - e) / e)%K) as -> by (field; auto).
      apply div_nn; auto. apply mul_nn; auto. apply (proj1 (le_sub _ _)). apply lt_le. auto. }
    destruct R as [(X & ->)|(X & ->)]; split; auto; [exact (le_trans _ _ _ I1 G)|apply le_refl].
  - assert (lt 0%K e) as EP by exact (lt_le_trans _ _ _ TP C).
    assert (le (h * cp_err_tol o / e)%K h) as G.
    { apply le_sub. assert ((h - h * cp_err_tol o / e)%K = (h * (e - cp_err_tol o) / e)%K) as -> by (field; auto).
      apply div_nn; auto. apply mul_nn; auto. apply (proj1 (le_sub _ _)). auto. }
    destruct R as [(X & ->)|(X & ->)]; split; auto; [exact (le_trans _ _ _ G I2)|apply le_refl].
Qed.

(** ** the run *)
Section Run.
Variables (fuel : nat) (baseb baset : K) (busb genb branchb bust gent brancht : list (list K)).
Variable r : @cpf_result K.
Hypothesis run : runcpf cis cabs cang norm2 solve fuel o baseb busb genb branchb baset bust gent brancht = Ok (Some r).
Hypothesis polar : polar_ok cis cabs cang.
Variables (ref : list nat) (Y Yf Yt : smat (cpx K)) (Sb St : list (cpx K)).
Hypothesis buses : bustypes busb genb = Ok (ref, pv, pq).
Hypothesis net : makeYbus cis baseb busb branchb = Ok (Y, Yf, Yt).
Hypothesis injb : makeSbus baseb busb genb = Ok Sb.
Hypothesis injt : makeSbus baset bust gent = Ok St.
Let n := length busb.
Let Sx := map2 csub St Sb.
Hypothesis adaptive : cp_adapt o = true.
Hypothesis err_tol : lt 0%K (cp_err_tol o).

Definition shortly (pts : list (@point K)) (next : option (nat * K)) : Prop :=
  exists u a b h rest, pts = u ++ a :: b :: rest /\ paced (u ++ [a]) h /\ gap (cp_par o) h a b /\ cut h a b /\
    match rest with [] => next = Some (1, aim b) | p :: _ => gap 1 (aim b) b p end.
Definition pace (c : @cstate K) : Prop :=
  tip n c /\ (cs_adapt c = true /\ cs_par c = cp_par o /\ paced (cs_points c) (cs_step c) \/
              cs_adapt c = false /\ shortly (cs_points c) (Some (cs_par c, cs_step c))).

Lemma shortly_next pts p q h par next : pts = p ++ [q] -> shortly pts (Some (par, h)) -> forall b, gap par h q b -> shortly (pts ++ [b]) next.
Proof.
  intros E (u & a & b & h0 & rest & E1 & P & G & C & X) c GC. exists u, a, b, h0, (rest ++ [c]).
  split. { rewrite E1, <- app_assoc. reflexivity. }
  split; auto. split; auto. split; auto. destruct rest as [|x rest]; cbn [app]; auto.
  injection X as -> ->. rewrite E in E1. change (p ++ [q] = u ++ [a] ++ [b]) in E1. rewrite app_assoc in E1. apply app_inj_tail in E1 as (_ & ->). auto.
Qed.

Lemma pace_step c c' : square n Y -> pace c -> cpf_step cis cabs cang norm2 solve o Y Sb Sx pv pq c = Ok c' ->
  cs_success c' = true ->
  exists p, cs_points c' = cs_points c ++ [p] /\
   (cs_done c' = false -> pace c') /\
   (cs_done c' = true ->
    (exists u q h, cs_points c = u ++ [q] /\ paced (cs_points c) h /\ gap (cp_par o) h q p) \/ shortly (cs_points c') None).
Proof.
  intros SQ (TI & ST) H SU. pose proof (tip_step _ _ _ _ _ _ _ _ _ _ _ _ SQ _ _ TI H SU) as TI'.
  destruct TI as (LV & ps & q & EP & EV & EL).
  destruct (step_facts _ _ _ _ _ n _ _ _ _ _ o SQ c c' LV H SU)
    as (p & st & ad & EP' & EV' & EL' & LVp & (z & P & HP & W) & HT & HA & HS).
  assert (gap (cs_par c) (cs_step c) q p) as GP.
  { apply distance_spaced. exists z, P. rewrite EV, EL. auto. }
  exists p. split; auto. destruct ST as [(A & PA & PC)|(A & SH)].
  - rewrite PA in GP. split; intros D; [|left; exists ps, q, (cs_step c); auto].
    split; auto. rewrite D in HT, HS. rewrite A, PA in HT. rewrite EP', EP. rewrite EP in PC.
    unfold stop_test in HT. rewrite <- EL in HT.
    assert (forall s, st = s -> ad = true -> s = cs_step c -> ~ cut (cs_step c) q p -> paced ((ps ++ [q]) ++ [p]) (cs_step c')) as GO.
    { intros s -> -> -> NC. cbn in HS. apply (adapt_resized _ _ _ err_tol) in HS. rewrite <- app_assoc. cbn [app].
      eapply paced_next; eauto. }
    assert (forall x, cut (cs_step c) q p -> aim p = x -> shortly ((ps ++ [q]) ++ [p]) (Some (1, x))) as CUT.
    { intros x CT <-. exists ps, q, p, (cs_step c), []. rewrite <- app_assoc. auto. }
    destruct (cp_stop o) as [| |l] eqn:SO.
    + (* nose *) destruct (fltb (lam_c p) (lam_c q)); [discriminate|]. injection HT as <- <- <-.
      left. split; [congruence|]. split; auto. apply (GO _ eq_refl); auto. unfold cut. rewrite SO. auto.
    + destruct (fltb (fabs (lam_c p)) tiny); [discriminate|].
      destruct (fltb (lam_c p) (lam_c q)) eqn:C1; [destruct (fltb (lam_c p - cs_step c)%K 0%K) eqn:C2|]; cbn [andb] in HT;
        injection HT as <- <- <-.
      * right. split; [congruence|]. cbn in HS. rewrite HS. apply CUT; unfold cut, aim; rewrite SO; auto.
      * left. split; [congruence|]. split; auto. apply (GO _ eq_refl); auto. unfold cut. rewrite SO. intros (_ & X). unfold lt in X. congruence.
      * left. split; [congruence|]. split; auto. apply (GO _ eq_refl); auto. unfold cut. rewrite SO. intros (X & _). unfold lt in X. congruence.
    + destruct (fltb (lam_c p) (lam_c q)); [discriminate|]. destruct (fltb (fabs (l - lam_c p)%K) tiny); [discriminate|].
      destruct (fltb l (lam_c p + cs_step c)%K) eqn:C2; injection HT as <- <- <-.
      * right. split; [congruence|]. cbn in HS. rewrite HS. apply CUT; unfold cut, aim; rewrite SO; auto.
      * left. split; [congruence|]. split; auto. apply (GO _ eq_refl); auto. unfold cut. rewrite SO. intros X. unfold lt in X. congruence.
  - assert (ad = false) as ->.
    { unfold stop_test in HT. rewrite A in HT. destruct (cp_stop o);
        repeat match type of HT with context [if ?b then _ else _] => destruct b end; injection HT as _ _ _ <-; auto. }
    split; intros D; [split; auto|]; right; [split; auto|]; rewrite EP'; eapply shortly_next; eauto.
Qed.

(** the points of a successful run: adaptive steps to the last one, or adaptive steps to a point from where the
    step aims at the end *)
Theorem C82_steps : cr_success r = true -> forallb czero Sx = false ->
  (exists u q p h, cr_points r = u ++ [q; p] /\ paced (u ++ [q]) h /\ gap (cp_par o) h q p) \/
  (exists u a b c rest h, cr_points r = u ++ a :: b :: c :: rest /\ paced (u ++ [a]) h /\ gap (cp_par o) h a b /\ cut h a b /\
     gap 1 (aim b) b c).
Proof.
  intros SU DF.
  destruct (run_data _ _ _ _ _ _ _ _ _ _ _ _ _ _ _ _ run _ _ _ _ _ _ _ _ buses net injb injt)
    as (SQ & V0 & V & ok & m & c & HV & HN & LV & LS & HL & E1 & E2 & E3 & _).
  rewrite E1 in SU. destruct (E3 SU) as (EP & _). fold Sx in HL. rewrite DF in HL.
  assert (pace (start o V false ok)) as P0.
  { split; [split; [exact LV|exists [], (Pt V 0%K V 0%K); auto]|]. left. split; auto. split; auto. apply paced_start. }
  destruct (loop_ind cis cabs cang norm2 solve Y Sb Sx pv pq o pace) with (2 := HL) as (c1 & PC & _ & D & HC); auto.
  { intros x x' I _ H S1 D1. destruct (pace_step _ _ SQ I H S1) as (p & _ & G & _). auto. }
  destruct (pace_step _ _ SQ PC HC SU) as (p & EP1 & _ & G). rewrite EP. destruct (G D) as [(u & q & h & EC & PA & GP)|(u & a & b & h & rest & E & P & G1 & CT & X)].
  - left. exists u, q, p, h. rewrite EP1, EC, <- app_assoc. rewrite EC in PA. auto.
  - right. destruct rest as [|x rest]; [discriminate|]. exists u, a, b, x, rest, h. auto.
Qed.
End Run.
End Theorems.

(** ** Examples *)
Definition adapt_ex fuel tol et smin smax st :=
  runcpf cis_q (fun z => re z) (fun _ => zc 0) norm_ex solve6 fuel
    (CpfOpt (qc 1 20) 1 true st et smin smax tol 10) (zc 100) pf_bus pf_gen pf_branch
    (zc 100) target_bus pf_gen pf_branch.
(** compare [adapt_ex] with its definition before computing *)
Local Strategy 100 [runcpf].
(** the step grows from 1/20 to the maximum of 1/5, and the last one is shortened *)
Example C82_grow : lams (adapt_ex 30 (qc 1 1000) (qc 1 10) (qc 1 100) (qc 1 5) (At (zc 1)))
  = Ok (true, [0; 1 # 20; 1 # 4; 9 # 20; 13 # 20; 17 # 20; 1])%Q.
Proof. vm_compute. reflexivity. Qed.
(** the step shrinks from 1/20 to the minimum of 1/25 *)
Example C82_shrink : lams (adapt_ex 30 (qc 1 1000) (qc 1 50) (qc 1 25) (qc 1 5) (At (qc 1 5)))
  = Ok (true, [0; 1 # 20; 9 # 100; 13 # 100; 17 # 100; 1 # 5])%Q.
Proof. vm_compute. reflexivity. Qed.
Print Assumptions C82_bounds.
Print Assumptions C82_steps.
