(** C73: the CPF corrector; C75: the points of a continuation curve; C77: identical base and target;
    C78: a target for lambda below the first step. *)
From Coq Require Import Permutation Qround.
From Verif Require Import Lib.ListFacts Lib.QcFacts Lib.GaussQ Model.Cpf Spec.PfSpec Spec.AcSpec Spec.CpfSpec Proofs.LinAlgFacts
  Proofs.SparseFacts Proofs.FldFacts Proofs.NetworkA Proofs.NetworkB Proofs.NetworkC Proofs.NetworkD Proofs.YbusA Proofs.MatFacts
  Proofs.AcPfA Proofs.PfsolnA Proofs.PfsolnB Proofs.PfsolnC Proofs.AcPfC Proofs.NewtonA Proofs.CpfA Proofs.CpfB Proofs.CpfC
  Proofs.CpfD Proofs.OrdFacts Proofs.PipsI Props.P_Network Props.P_Ybus Props.P_AcPf.
Local Open Scope nat_scope.

Section Theorems.
Context {K : Type} {F : Fld K}.
Variables (cis : K -> cpx K) (cabs cang : cpx K -> K).
Variable norm2 : list K -> K.
Variable solve : list (list K) -> list K -> result (list K).
Add Field KF : (@f_ok K F).

(** ** C73 *)

(** the flag says exactly that the returned voltages solve the power flow equations at the returned lambda
    and satisfy the parameterization, to within the tolerance; other voltages are as given *)
Theorem C73_corrector n Y Sb Sx V0 pv pq lam0 Vprv lamprv z step par tol max_it V c m lam : square n Y ->
  cpf_corrector cis cabs cang solve Y Sb V0 pv pq lam0 Sx Vprv lamprv z step par tol max_it = Ok (V, c, m, lam) ->
  length V = n /\ m <= max_it /\ (c = false -> m = max_it) /\
  (c = true <-> solved_by (fun _ => tol) Y (inj lam Sb Sx) V pv pq /\
                exists P, cpf_p cabs cang par step z V lam Vprv lamprv pv pq = Ok P /\ within tol P) /\
  (polar_ok cis cabs cang -> keeps cabs n pv pq V0 V).
Proof. intros SQ H. apply (corrector_ok _ _ _ _ _ _ _ _ _ _ SQ) in H. exact H. Qed.

(** ** C75 *)
Section Run.
Variables (fuel : nat) (o : @cpf_opt K) (baseb baset : K) (busb genb branchb bust gent brancht : list (list K)).
Variable r : @cpf_result K.
Hypothesis run : runcpf cis cabs cang norm2 solve fuel o baseb busb genb branchb baset bust gent brancht = Ok (Some r).
Hypothesis polar : polar_ok cis cabs cang.
Variables (ref pv pq : list nat) (Y Yf Yt : smat (cpx K)) (Sb St : list (cpx K)).
Hypothesis buses : bustypes busb genb = Ok (ref, pv, pq).
Hypothesis net : makeYbus cis baseb busb branchb = Ok (Y, Yf, Yt).
Hypothesis injb : makeSbus baseb busb genb = Ok Sb.
Hypothesis injt : makeSbus baset bust gent = Ok St.
Let n := length busb.
Let Sx := map2 csub St Sb.

Lemma run_data : square n Y /\
  exists V0 V ok m c, start_voltage cis cabs busb genb (onl genb) (gbs genb) pq = Ok V0 /\
    newtonpf cis cabs cang solve Y Sb V0 pv pq (cp_tol o) (cp_max_it o) = Ok (V, ok, m) /\ length V = n /\ length St = length Sb /\
    cpf_loop cis cabs cang norm2 solve o Y Sb Sx pv pq fuel (start o V (forallb czero Sx) ok) = Ok (Some c) /\
    cr_success r = cs_success c /\ cr_lam r = cs_lam c /\
    (cs_success c = true -> cr_points r = cs_points c /\ cr_iterations r = length (cs_points c) - 1 /\
       (1 < length (cs_points c) \/ length (cs_V c) = 1) /\
       exists ml, cr_max_lam r = Some ml /\ amax (map lam_c (cs_points c)) = Ok ml) /\
    (forallb czero Sx = true -> cs_success c = true).
Proof.
  destruct (runcpf_ok _ _ _ _ _ _ _ _ _ _ _ _ _ _ _ _ run)
    as (ref' & pv' & pq' & V0 & Y' & Yf' & Yt' & Sb' & St' & V & ok & m & c & HB & HV & YS & SQ & S1 & S2 & LS & HN & HL & SM' & _ & E1 & E2 & E3 & _).
  rewrite buses in HB. injection HB as <- <- <-. rewrite injb in S1. injection S1 as <-. rewrite injt in S2. injection S2 as <-.
  rewrite net in YS. injection YS as <- <- <-. split; [exact SQ|].
  exists V0, V, ok, m, c. pose proof (newtonpf_ok _ _ _ _ _ _ _ _ _ _ SQ _ _ _ _ _ HN) as (_ & LV & _).
  repeat (split; [assumption|]). exact SM'.
Qed.

Lemma start_linv V ok same : length V = n -> linv cabs cang n Y Sb Sx pv pq o (start o V same ok).
Proof.
  intros L. split; auto. split; [cbn; auto|]. split.
  - exists [], (Pt V 0%K V 0%K). auto.
  - intros a b A. apply adj_one in A. contradiction.
Qed.

(** every recorded point solves the power flow at its own lambda, with the reference voltage and the PV
    magnitudes of the base solution, the point the curve starts from *)
Theorem C75_points : cr_success r = true ->
  exists V0 V ok m rest, start_voltage cis cabs busb genb (onl genb) (gbs genb) pq = Ok V0 /\
    newtonpf cis cabs cang solve Y Sb V0 pv pq (cp_tol o) (cp_max_it o) = Ok (V, ok, m) /\
    cr_points r = Pt V 0%K V 0%K :: rest /\ cr_iterations r = length rest /\
    forall p, In p rest -> length (V_c p) = n /\
      solved_by (fun _ => cp_tol o) Y (inj (lam_c p) Sb Sx) (V_c p) pv pq /\ keeps cabs n pv pq V (V_c p).
Proof.
  intros SU. destruct run_data as (SQ & V0 & V & ok & m & c & HV & HN & LV & LS & HL & E1 & E2 & E3 & _).
  rewrite E1 in SU. destruct (E3 SU) as (EP & EI & _).
  pose proof (start_linv V ok (forallb czero Sx) LV) as W0.
  assert (linv cabs cang n Y Sb Sx pv pq o c /\ exists rest, cs_points c = Pt V 0%K V 0%K :: rest) as ((_ & _ & _ & CH) & rest & ER).
  { destruct (loop_ok _ _ _ _ _ n _ _ _ _ _ o SQ polar _ _ _ W0 HL) as [(_ & ->)|(_ & _ & R)].
    - split; auto. exists []. reflexivity.
    - destruct (R SU) as (W & ext & q & p & -> & _). split; auto. exists (ext ++ [p]). reflexivity. }
  exists V0, V, ok, m, rest. split; auto. split; auto. rewrite EP, EI, ER. split; auto. split; [cbn; lia|].
  intros p I. apply in_split in I as (u & v & ->).
  assert (exists q, adjacent (cs_points c) q p) as (q & AQ).
  { rewrite ER. destruct u as [|x u] using rev_ind; [exists (Pt V 0%K V 0%K), [], v; reflexivity|].
    exists x, (Pt V 0%K V 0%K :: u), v. rewrite <- app_assoc. reflexivity. }
  destruct (CH _ _ AQ) as (L & SO & _). split; auto. split; auto.
  (* voltages are passed on along the curve *)
  assert (forall u, (exists v, cs_points c = Pt V 0%K V 0%K :: u ++ v) -> Forall (fun p => keeps cabs n pv pq V (V_c p)) u) as KA.
  { clear u v ER q AQ L SO. induction u as [|x u IH] using rev_ind; intros (v & E); [constructor|].
    rewrite <- app_assoc in E. apply Forall_app. pose proof (IH (ex_intro _ _ E)) as A. split; auto. constructor; auto.
    destruct u as [|y u _] using rev_ind.
    - destruct (CH (Pt V 0%K V 0%K) x) as (_ & _ & KP & _). { rewrite E. exists [], v. reflexivity. } exact KP.
    - apply Forall_app in A as (_ & A). inversion A as [|? ? A1 _]; subst.
      destruct (CH y x) as (_ & _ & KP & _). { rewrite E. exists (Pt V 0%K V 0%K :: u), v. cbn. rewrite <- app_assoc. reflexivity. }
      intros i Hi. destruct (A1 i Hi) as (B1 & B2). destruct (KP i Hi) as (C1 & C2).
      split; intros N; [rewrite C1, B1 | rewrite C2, B2]; auto. }
  specialize (KA (u ++ [p])). rewrite Forall_app in KA. destruct KA as (_ & KA).
  { exists v. rewrite ER, <- app_assoc. reflexivity. }
  inversion KA; auto.
Qed.

(** the condition that ends a run at a point with parameter [lam] after one with [prev] *)
Definition finished (lam prev : K) : Prop :=
  match cp_stop o with
  | Nose => lt lam prev
  | Full => lt (fabs lam) (fofZ 1 / fofZ (10 ^ 8))%K
  | At l => lt lam prev \/ lt (fabs (l - lam)%K) (fofZ 1 / fofZ (10 ^ 8))%K
  end.
Lemma finished_ends lam prev : finished lam prev <-> ends (cp_stop o) lam prev.
Proof. unfold finished, ends. destruct (cp_stop o); reflexivity. Qed.

(** a successful run whose cases differ ends at the first point where the condition holds; that point is
    the one reported, with the largest lambda met on the way *)
Theorem C75_end : cr_success r = true -> forallb czero Sx = false ->
  exists pts q p, cr_points r = pts ++ [q; p] /\ lam_c p = cr_lam r /\ finished (lam_c p) (lam_c q) /\
    (forall a b, adjacent (pts ++ [q]) a b -> ~ finished (lam_c b) (lam_c a)) /\
    exists m, cr_max_lam r = Some m /\ In m (map lam_c (cr_points r)) /\ forall x, In x (cr_points r) -> le (lam_c x) m.
Proof.
  intros SU DF. destruct run_data as (SQ & V0 & V & ok & m & c & HV & HN & LV & LS & HL & E1 & E2 & E3 & _).
  rewrite E1 in SU. destruct (E3 SU) as (EP & EI & _ & ml & EM & HM). rewrite DF in HL.
  pose proof (start_linv V ok false LV) as W0.
  destruct (loop_ok _ _ _ _ _ n _ _ _ _ _ o SQ polar _ _ _ W0 HL) as [(C & _)|(_ & _ & R)]; [discriminate|].
  destruct (R SU) as (W & ext & q & p & EC & AD & EV & EL & EN & NE).
  assert (exists pts, (cs_points (start o V false ok) ++ ext) = pts ++ [q]) as (pts & EPT).
  { rewrite EC in AD. destruct AD as (u & v & E). apply split_tail in E as [(w & -> & E)|(-> & _ & E)]; [|exists u; auto].
    exfalso. (* q is followed by p before the end: then the run ended there *)
    assert (adjacent (cs_points (start o V false ok) ++ ext) q p) as A by (exists u, w; auto).
    destruct (NE _ _ A) as [A'|A']; [apply adj_one in A'; contradiction|contradiction]. }
  exists pts, q, p. rewrite EP, EC, EPT, <- app_assoc. split; auto. rewrite E2. split; auto.
  split; [apply finished_ends; auto|]. split.
  - intros a b A. rewrite finished_ends. rewrite <- EPT in A. destruct (NE _ _ A) as [A'|A']; auto. apply adj_one in A'. contradiction.
  - exists ml. split; auto. rewrite EC, EPT, <- app_assoc in HM. cbn [app] in HM |- *. clear - HM.
    assert (forall t (a m : K), fold_left (fun m x => fmax m x) t a = m -> In m (a :: t) /\ forall x, In x (a :: t) -> le x m) as KEY.
    { induction t as [|b t IH]; intros a m E; cbn in E.
      - subst. split; [left; auto|]. intros x [<-|[]]. apply le_refl.
      - destruct (IH _ _ E) as (A & B). assert (le a (fmax a b) /\ le b (fmax a b) /\ (fmax a b = a \/ fmax a b = b)) as (M1 & M2 & M3).
        { unfold fmax. destruct (fltb a b) eqn:C; [split; [apply lt_le; exact C|]|split; [apply le_refl|]];
            (split; [|auto]); [apply le_refl|exact C]. }
        split.
        + destruct A as [A|A]; [|right; right; auto]. rewrite <- A. destruct M3 as [-> | ->]; [left|right; left]; auto.
        + intros x [<-|[<-|I]]; [eapply le_trans; [exact M1|]|eapply le_trans; [exact M2|]|apply B; right; auto]; apply B; left; auto. }
    unfold amax in HM. destruct (map lam_c (pts ++ [q; p])) as [|a t] eqn:E; [discriminate|].
    injection HM as HM. destruct (KEY _ _ _ HM) as (A & B). split; auto.
    intros x I. apply B. rewrite <- E. apply in_map. auto.
Qed.

(** ** steps of fixed size *)

(** what the parameterization asks of neighbouring points: the change of lambda, or the Euclidean distance
    of (angles, magnitudes, lambda), equals the step *)
Definition angle_at (p : @point K) i : K := cang (nth i (V_c p) 0%K).
Definition modulus_at (p : @point K) i : K := cabs (nth i (V_c p) 0%K).
Definition spaced (par : nat) (step : K) (a b : @point K) : Prop :=
  match par with
  | 1 => within (cp_tol o) (fabs (lam_c b - lam_c a)%K - step)%K
  | 2 => within (cp_tol o)
           (lsum (fun i => (angle_at b i - angle_at a i) * (angle_at b i - angle_at a i)) (pv ++ pq)
            + lsum (fun i => (modulus_at b i - modulus_at a i) * (modulus_at b i - modulus_at a i)) pq
            + (lam_c b - lam_c a) * (lam_c b - lam_c a) - step * step)%K
  | _ => True
  end.

Lemma sq_lsum {A} (f g : A -> K) l : fsum (map (fun a => a * a)%K (map2 rsub (map f l) (map g l))) = lsum (fun i => (f i - g i) * (f i - g i))%K l.
Proof. unfold fsum, map2. induction l as [|x l IH]; cbn; auto. rewrite IH. reflexivity. Qed.
Lemma fsum_app (u v : list K) : fsum (u ++ v) = (fsum u + fsum v)%K.
Proof. unfold fsum. apply lsum_app. Qed.
Lemma map2_app {A B C} (f : A -> B -> C) u u' v v' : length u = length u' -> map2 f (u ++ v) (u' ++ v') = map2 f u u' ++ map2 f v v'.
Proof.
  unfold map2. revert u'. induction u as [|x u IH]; intros [|y u'] L; try discriminate; auto. cbn. f_equal. apply IH. auto.
Qed.
Lemma unknowns_ok (V : list (cpx K)) x : unknowns cabs cang V pv pq = Ok x ->
  x = map (fun i => cang (nth i V 0%K)) (pv ++ pq) ++ map (fun i => cabs (nth i V 0%K)) pq.
Proof.
  unfold unknowns. intros H. apply bind_ok in H as (a & Ha & H). apply bind_ok in H as (m & Hm & H). injection H as <-.
  assert (forall (f : cpx K -> K) idx v, gather (map f V) idx = Ok v -> v = map (fun i => f (nth i V 0%K)) idx) as KEY.
  { intros f idx. unfold gather. induction idx as [|i idx IH]; intros v E; cbn in E.
    - injection E as <-. auto.
    - apply bind_ok in E as (y & Hy & E). apply bind_ok in E as (w & Hw & E). injection E as <-. cbn [map]. rewrite <- (IH _ Hw).
      f_equal. apply get_ok in Hy. rewrite nth_error_map in Hy. destruct (nth_error V i) as [v0|] eqn:E0; [|discriminate].
      injection Hy as <-. rewrite (nth_error_nth _ _ _ E0). auto. }
  rewrite (KEY _ _ _ Ha), (KEY _ _ _ Hm). auto.
Qed.

Lemma distance_spaced par step a b : distance cabs cang pv pq o par step a b -> spaced par step a b.
Proof.
  intros (z & P & HP & W). unfold spaced. destruct par as [|[|[|par]]]; auto; cbn [cpf_p] in HP.
  - injection HP as <-. eapply eq_ind; [exact W|]. unfold fgeb, fabs. 
    destruct (fltb (lam_c b) (lam_c a)) eqn:C; cbn [negb].
    + assert (fltb (lam_c b - lam_c a)%K 0%K = true) as ->; [|ring].
      apply pos_opp. apply (proj1 (lt_sub _ _)) in C. eapply eq_ind; [exact C|ring].
    + assert (fltb (lam_c b - lam_c a)%K 0%K = false) as ->; [|ring].
      exact (proj1 (le_sub _ _) C).
  - apply bind_ok in HP as (x & Hx & HP). apply bind_ok in HP as (y & Hy & HP). apply bind_ok in HP as (d & Hd & HP).
    injection HP as <-. apply unknowns_ok in Hx, Hy. subst. apply ewise_ok in Hd as (_ & ->).
    remember (pv ++ pq) as L. rewrite !map2_app in W by (rewrite ?app_length, ?map_length; auto). rewrite !map_app, !fsum_app, !sq_lsum in W.
    eapply eq_ind; [exact W|]. unfold angle_at, modulus_at. unfold fsum, map2. cbn [map combine lsum fst snd]. ring.
Qed.

(** the run shortens its step after a point that comes too close to where it is to end *)
Definition shortened (prev this : @point K) : Prop :=
  match cp_stop o with
  | Nose => False
  | Full => lt (lam_c this) (lam_c prev) /\ lt (lam_c this - cp_step o)%K 0%K
  | At l => lt l (lam_c this + cp_step o)%K
  end.

Lemma gait_run : cr_success r = true -> forallb czero Sx = false -> cp_adapt o = false ->
  gait_points cabs cang pv pq o (cr_points r).
Proof.
  intros SU DF AD. destruct run_data as (SQ & V0 & V & ok & m & c & HV & HN & LV & LS & HL & E1 & E2 & E3 & _).
  rewrite E1 in SU. destruct (E3 SU) as (EP & _). rewrite DF in HL. rewrite EP.
  destruct (loop_ind _ _ _ _ _ _ _ _ _ _ o (gait cabs cang n pv pq o)
    (fun c c' I _ => gait_step _ _ _ _ _ _ _ _ _ _ _ o SQ c c' I) _ _ _ HL) as (c1 & G & _ & _ & H); auto.
  - split. { split; [auto|]. exists [], (Pt V 0%K V 0%K). auto. }
    split; auto. split; auto. split. { intros x y A. apply adj_one in A. contradiction. }
    split; [cbn; auto|]. split.
    { intros u x a E. apply (f_equal (@length _)) in E. rewrite app_length in E. cbn in E. lia. }
    split; [intros u a b v E|intros u x a b v E]; apply (f_equal (@length _)) in E; rewrite app_length in E; cbn in E; lia.
  - eapply gait_extend; eauto.
Qed.

(** without step adaptation, until the step is shortened, the points are one step apart *)
Theorem C75_spacing u a b v : cr_success r = true -> forallb czero Sx = false -> cp_adapt o = false ->
  cr_points r = u ++ a :: b :: v -> (forall x y, adjacent (u ++ [a]) x y -> ~ shortened x y) ->
  spaced (cp_par o) (cp_step o) a b.
Proof.
  intros SU DF AD E U. destruct (gait_run SU DF AD) as (G & _). apply distance_spaced. eapply G; eauto.
Qed.

(** the shortened step aims at the target for lambda, or at lambda = 0, and with a tolerance no looser
    than that of the stopping test it is the last one *)
Theorem C75_last_step u x a b v : cr_success r = true -> forallb czero Sx = false -> cp_adapt o = false ->
  cr_points r = u ++ x :: a :: b :: v -> (forall x' y, adjacent (u ++ [x]) x' y -> ~ shortened x' y) -> shortened x a ->
  spaced 1 (match cp_stop o with At l => l - lam_c a | _ => lam_c a end)%K a b /\
  (forall l, cp_stop o = At l -> le (lam_c a) l -> le (cp_tol o) (fofZ 1 / fofZ (10 ^ 8))%K -> v = []).
Proof.
  intros SU DF AD E U SH. destruct (gait_run SU DF AD) as (_ & G). pose proof (distance_spaced _ _ _ _ (G u x a b v E U SH)) as SP.
  split; [exact SP|]. intros l TO LE TL. unfold last_step in SP. rewrite TO in SP. cbn [spaced] in SP.
  destruct (C75_end SU DF) as (pts & q & p & EP & _ & _ & NF & _).
  destruct v as [|w v]; auto. exfalso. apply (NF a b).
  - destruct v as [|w' v _] using rev_ind.
    + exists (u ++ [x]), []. rewrite EP in E. replace (pts ++ [q; p]) with ((pts ++ [q]) ++ [p]) in E by (rewrite <- app_assoc; auto).
      replace (u ++ [x; a; b; w]) with ((u ++ [x; a; b]) ++ [w]) in E by (rewrite <- app_assoc; auto).
      apply app_inj_tail in E as (-> & _). rewrite <- app_assoc. reflexivity.
    + exists (u ++ [x]), (w :: v). rewrite EP in E. replace (pts ++ [q; p]) with ((pts ++ [q]) ++ [p]) in E by (rewrite <- app_assoc; auto).
      replace (u ++ x :: a :: b :: w :: v ++ [w']) with ((u ++ x :: a :: b :: w :: v) ++ [w']) in E by (rewrite <- app_assoc; auto).
      apply app_inj_tail in E as (-> & _). rewrite <- app_assoc. reflexivity.
  - unfold finished. rewrite TO. destruct (lt_le_dec (lam_c b) (lam_c a)) as [|GE]; auto. right.
    eapply lt_le_trans; [|exact TL]. unfold within in SP. unfold lt.
    assert (fabs (lam_c b - lam_c a)%K = (lam_c b - lam_c a)%K) as EA.
    { unfold fabs. apply le_sub in GE. unfold le in GE. rewrite GE. reflexivity. }
    rewrite EA in SP. rewrite <- PipsI.fabs_opp.
    replace (- (l - lam_c b))%K with (lam_c b - lam_c a - (l - lam_c a))%K by ring. exact SP.
Qed.

(** ** C78 *)

(** a run that is to stop at [l] succeeds only if no point but the last, and the base, lies more than the
    tolerance above [l]: a first step beyond the target is never recovered *)
Theorem C78_overshoot_partial l b u a v : cp_stop o = At l ->
  lt 0%K (cp_step o) -> lt 0%K (cp_err_tol o) -> lt 0%K (cp_step_min o) -> lt 0%K (cp_step_max o) ->
  cr_success r = true -> forallb czero Sx = false ->
  cr_points r = b :: u ++ a :: v -> v <> [] -> lt (lam_c a) (l + cp_tol o)%K.
Proof.
  intros TO P1 P2 P3 P4 SU DF E NV. destruct run_data as (SQ & V0 & V & ok & m & c & HV & HN & LV & LS & HL & E1 & E2 & E3 & _).
  rewrite E1 in SU. destruct (E3 SU) as (EP & _). rewrite DF in HL. rewrite EP in E.
  destruct (loop_ind _ _ _ _ _ _ _ _ _ _ o (aim n o l)
    (fun c c' I _ => aim_step _ _ _ _ _ _ _ _ _ _ _ o SQ l TO P2 P3 P4 c c' I) _ _ _ HL) as (c1 & G & _ & _ & H); auto.
  - split. { split; [auto|]. exists [], (Pt V 0%K V 0%K). auto. }
    split; [left; auto|]. split; [cbn; lia|]. intros b' r' x y E' A. injection E' as _ <-.
    destruct A as ([|? ?] & ? & A); discriminate.
  - destruct v as [|w v]; [congruence|].
    eapply (aim_extend _ _ _ _ _ _ _ _ _ _ _ o SQ l c1 c G H SU b (u ++ a :: w :: v) a w); auto. exists u, v. auto.
Qed.

(** ** C77 *)

(** when the two cases inject the same powers, the run returns only for a network of one bus; then it
    reports the base solution and nothing else *)
Theorem C77_identical_partial : forallb czero Sx = true ->
  length busb = 1 /\ cr_success r = true /\ cr_lam r = 0%K /\ cr_iterations r = 0 /\
  exists V, cr_points r = [Pt V 0%K V 0%K].
Proof.
  intros SA. destruct run_data as (SQ & V0 & V & ok & m & c & HV & HN & LV & LS & HL & E1 & E2 & E3 & E4).
  specialize (E4 SA). rewrite SA in HL. destruct (E3 E4) as (EP & EI & G & _).
  assert (c = start o V true ok) as EC by (destruct fuel; cbn in HL; congruence).
  subst c. cbn in *. split; [fold n; lia|]. split; [congruence|]. split; auto. split; [lia|]. exists V. auto.
Qed.

(** ** C79 *)

(** the first point solves the base case when the base power flow converged; the run does not ask *)
Theorem C79_base_partial V0 V m : cr_success r = true ->
  start_voltage cis cabs busb genb (onl genb) (gbs genb) pq = Ok V0 ->
  newtonpf cis cabs cang solve Y Sb V0 pv pq (cp_tol o) (cp_max_it o) = Ok (V, true, m) ->
  exists rest, cr_points r = Pt V 0%K V 0%K :: rest /\ solved_by (fun _ => cp_tol o) Y Sb V pv pq.
Proof.
  intros SU HV HN. destruct (C75_points SU) as (V0' & V' & ok & m' & rest & HV' & HN' & EP & _).
  rewrite HV in HV'. injection HV' as <-. rewrite HN in HN'. injection HN' as <- <- <-.
  exists rest. split; auto. destruct run_data as (SQ & _).
  destruct (newtonpf_ok _ _ _ _ _ _ _ _ _ _ SQ _ _ _ _ _ HN) as (_ & _ & _ & _ & C & _). apply C. reflexivity.
Qed.
End Run.
End Theorems.

(** ** Examples: the load at the second bus of the network of C49 goes from 100 to 200 MW *)

(** elimination, with solutions rounded to six places to keep the rationals small *)
Definition round6 (q : Qc) : Qc := Q2Qc (Qfloor (this q * 1000000) # 1000000).
Definition solve6 (A : list (list Qc)) (b : list Qc) : result (list Qc) :=
  let n := length b in
  let x := map (fun r => nth n r (Q2Qc 0)) (jordan n 0 [] (map2 (fun r c => r ++ [c]) A b)) in
  if length x =? n then Ok (map round6 x) else Err NonFinite.
(** the sum of magnitudes, rounded up, in place of the Euclidean norm *)
Definition norm_ex (v : list Qc) : Qc := Q2Qc (inject_Z (Qceiling (this (lsum (fun a => fabs a) v)))).
Definition target_bus : list (list Qc) := [nth 0 pf_bus []; upd (nth 1 pf_bus []) PD (zc 200)].
Definition cpf_ex fuel max_it tol par step st :=
  runcpf cis_q (fun z => re z) (fun _ => zc 0) norm_ex solve6 fuel
    (CpfOpt step par false st (qc 1 1000) (qc 1 10000) (qc 1 5) tol max_it) (zc 100) pf_bus pf_gen pf_branch
    (zc 100) target_bus pf_gen pf_branch.
Definition lams (r : result (option cpf_result)) : result (bool * list Q) :=
  match r with
  | Ok (Some r) => Ok (cr_success r, map (fun p => this (lam_c p)) (cr_points r))
  | Ok None => Err OutOfModel
  | Err e => Err e
  end.

Lemma some_ok {A} (x : result (option A)) (f : A -> bool) :
  match x with Ok (Some r) => f r | _ => false end = true -> exists r, x = Ok (Some r) /\ f r = true.
Proof. destruct x as [[r|]|]; try discriminate. eauto. Qed.

(** compare [cpf_ex] with its definition before computing *)
Local Strategy 100 [runcpf].

(** up to lambda = 1/2 in two steps *)
Example C75_at_ex : lams (cpf_ex 30 10 (qc 1 1000) 1 (qc 1 4) (At (qc 1 2))) = Ok (true, [0; 1 # 4; 1 # 2])%Q.
Proof. vm_compute. reflexivity. Qed.

(** past the nose (at 3/2): lambda rises, then falls once, to the reported value *)
Fixpoint rising (l : list Q) : bool :=
  match l with a :: ((b :: _) as t) => Qle_bool a b && rising t | _ => true end.
Example C75_nose_ex : match cpf_ex 30 10 (qc 1 10000) 2 (qc 1 5) Nose with
  | Ok (Some r) =>
      let l := map (fun p => this (lam_c p)) (cr_points r) in
      cr_success r && (length l =? 10) && (cr_iterations r =? 9) && rising (removelast l) && negb (rising l)
      && Qeq_bool (last l 0%Q) (this (cr_lam r))
      && (match cr_max_lam r with Some m => Qeq_bool (nth 8 l 0%Q) (this m) && Qle_bool (14 # 10) (this m) | None => false end)
  | _ => false
  end = true.
Proof. vm_compute. reflexivity. Qed.

(** C77: two equal cases with two buses *)
Theorem C77_refuted : exists (cis : Qc -> cpx Qc) cabs cang norm2 solve fuel o base bus gen branch ref pv pq Y Yf Yt Sb V0 V m,
  bustypes bus gen = Ok (ref, pv, pq) /\ makeYbus cis base bus branch = Ok (Y, Yf, Yt) /\ makeSbus base bus gen = Ok Sb /\
  start_voltage cis cabs bus gen (onl gen) (gbs gen) pq = Ok V0 /\
  newtonpf cis cabs cang solve Y Sb V0 pv pq (cp_tol o) (cp_max_it o) = Ok (V, true, m) /\
  runcpf cis cabs cang norm2 solve fuel o base bus gen branch base bus gen branch = Err ValueError.
Proof.
  exists cis_q, (fun z => re z), (fun _ => zc 0), norm_ex, solve6, 30,
    (CpfOpt (qc 1 4) 1 false Nose (qc 1 1000) (qc 1 10000) (qc 1 5) (qc 1 1000) 10), (zc 100), pf_bus, pf_gen, pf_branch.
  assert (match bustypes pf_bus pf_gen, makeYbus cis_q (zc 100) pf_bus pf_branch, makeSbus (zc 100) pf_bus pf_gen with
    | Ok (ref, pv, pq), Ok (Y, Yf, Yt), Ok Sb =>
        match start_voltage cis_q (fun z => re z) pf_bus pf_gen (onl pf_gen) (gbs pf_gen) pq with
        | Ok V0 => match newtonpf cis_q (fun z => re z) (fun _ => zc 0) solve6 Y Sb V0 pv pq (qc 1 1000) 10 with
                   | Ok (_, ok, _) => ok
                   | _ => false
                   end
        | _ => false
        end
    | _, _, _ => false
    end = true) as H by (vm_compute; reflexivity).
  destruct (bustypes _ _) as [[[ref pv] pq]|]; [|discriminate].
  destruct (makeYbus _ _ _ _) as [[[Y Yf] Yt]|]; [|discriminate].
  destruct (makeSbus _ _ _) as [Sb|]; [|discriminate].
  destruct (start_voltage _ _ _ _ _ _ pq) as [V0|] eqn:E0; [|discriminate].
  destruct (newtonpf _ _ _ _ _ _ _ _ _ _ _) as [[[V ok] m]|] eqn:E1; [|discriminate]. subst ok.
  exists ref, pv, pq, Y, Yf, Yt, Sb, V0, V, m. repeat (split; [first [assumption|reflexivity]|]). vm_compute. reflexivity.
Qed.

(** C78: lambda = 1/5 is on the curve, and steps of 1/10 get there, but a step of 1/4 makes the run fail *)
Theorem C78_refuted : exists (cis : Qc -> cpx Qc) cabs cang norm2 solve fuel l o o' base bus gen branch bust r r',
  cp_stop o = At l /\ cp_stop o' = At l /\ cp_par o = cp_par o' /\ cp_adapt o = cp_adapt o' /\
  cp_tol o = cp_tol o' /\ cp_max_it o = cp_max_it o' /\ lt 0%K (cp_step o') /\ lt (cp_step o') (cp_step o) /\
  runcpf cis cabs cang norm2 solve fuel o' base bus gen branch base bust gen branch = Ok (Some r') /\
  cr_success r' = true /\ cr_lam r' = l /\
  runcpf cis cabs cang norm2 solve fuel o base bus gen branch base bust gen branch = Ok (Some r) /\ cr_success r = false.
Proof.
  exists cis_q, (fun z => re z), (fun _ => zc 0), norm_ex, solve6, 30, (qc 1 5),
    (CpfOpt (qc 1 4) 1 false (At (qc 1 5)) (qc 1 1000) (qc 1 10000) (qc 1 5) (qc 1 1000) 10),
    (CpfOpt (qc 1 10) 1 false (At (qc 1 5)) (qc 1 1000) (qc 1 10000) (qc 1 5) (qc 1 1000) 10),
    (zc 100), pf_bus, pf_gen, pf_branch, target_bus.
  destruct (some_ok (cpf_ex 30 10 (qc 1 1000) 1 (qc 1 4) (At (qc 1 5))) (fun r => negb (cr_success r))) as (r & E0 & S0);
    [vm_compute; reflexivity|].
  destruct (some_ok (cpf_ex 30 10 (qc 1 1000) 1 (qc 1 10) (At (qc 1 5))) (fun r => cr_success r && Qc_eq_bool (cr_lam r) (qc 1 5)))
    as (r' & E1 & S1); [vm_compute; reflexivity|].
  apply andb_true_iff in S1 as (S1 & L). apply Qc_eq_bool_correct in L. apply negb_true_iff in S0.
  unfold cpf_ex in E0, E1. exists r, r'. do 8 (split; [reflexivity|]). split; [exact E1|]. split; [exact S1|]. split; [exact L|]. split; [exact E0|exact S0].
Qed.

(** C79: one Newton iteration is not enough for the base case, and the run succeeds all the same *)
Theorem C79_refuted : exists (cis : Qc -> cpx Qc) cabs cang norm2 solve fuel o base bus gen branch bust r ref pv pq Y Yf Yt Sb V lam V' lam' rest,
  runcpf cis cabs cang norm2 solve fuel o base bus gen branch base bust gen branch = Ok (Some r) /\ cr_success r = true /\
  bustypes bus gen = Ok (ref, pv, pq) /\ makeYbus cis base bus branch = Ok (Y, Yf, Yt) /\ makeSbus base bus gen = Ok Sb /\
  cr_points r = Pt V' lam' V lam :: rest /\ lam = 0%K /\ ~ solved_by (fun _ => cp_tol o) Y Sb V pv pq.
Proof.
  exists cis_q, (fun z => re z), (fun _ => zc 0), norm_ex, solve6, 30,
    (CpfOpt (qc 1 100) 1 false (At (qc 1 50)) (qc 1 1000) (qc 1 10000) (qc 1 5) (qc 1 20) 1),
    (zc 100), pf_bus, pf_gen, pf_branch, target_bus.
  pose (chk := fun r : cpf_result => match bustypes pf_bus pf_gen, makeYbus cis_q (zc 100) pf_bus pf_branch, makeSbus (zc 100) pf_bus pf_gen with
    | Ok (ref, pv, pq), Ok (Y, Yf, Yt), Ok Sb =>
        match cr_points r with
        | Pt _ _ V lam :: _ => cr_success r && Qc_eq_bool lam 0%K && existsb (Nat.eqb 1) (pv ++ pq)
                               && negb (fltb (fabs (re (excess Y Sb V 1))) (qc 1 20))
        | [] => false
        end
    | _, _, _ => false
    end).
  destruct (some_ok (cpf_ex 30 1 (qc 1 20) 1 (qc 1 100) (At (qc 1 50))) chk) as (r & E0 & H); [vm_compute; reflexivity|].
  unfold cpf_ex in E0. exists r. unfold chk in H. clear chk.
  destruct (bustypes _ _) as [[[ref pv] pq]|]; [|discriminate].
  destruct (makeYbus _ _ _ _) as [[[Y Yf] Yt]|]; [|discriminate].
  destruct (makeSbus _ _ _) as [Sb|]; [|discriminate].
  destruct (cr_points r) as [|[V' lam' V lam] rest] eqn:EP; [discriminate|].
  apply andb_true_iff in H as (H & M). apply andb_true_iff in H as (H & I). apply andb_true_iff in H as (SU & L).
  apply Qc_eq_bool_correct in L. apply negb_true_iff in M. apply existsb_exists in I as (k & I & EK). apply Nat.eqb_eq in EK. subst k.
  exists ref, pv, pq, Y, Yf, Yt, Sb, V, lam, V', lam', rest.
  split; [exact E0|]. split; [exact SU|]. do 3 (split; [reflexivity|]). split; [reflexivity|]. split; [exact L|].
  intros (A & _). specialize (A 1 I). unfold within in A. cbn [cp_tol] in A. rewrite M in A. discriminate.
Qed.

Print Assumptions C73_corrector.
Print Assumptions C75_points.
Print Assumptions C75_end.
Print Assumptions C75_spacing.
Print Assumptions C75_last_step.
Print Assumptions C77_identical_partial.
Print Assumptions C77_refuted.
Print Assumptions C78_overshoot_partial.
Print Assumptions C78_refuted.
Print Assumptions C79_base_partial.
Print Assumptions C79_refuted.
