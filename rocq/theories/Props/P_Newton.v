(** C71: the Newton power flow step. *)
From Coq Require Import Reals Lra.
From Verif Require Import Lib.ListFacts Model.AcPf Spec.PfSpec Spec.AcDeriv Spec.NewtonSpec Proofs.LinAlgFacts
  Proofs.SparseFacts Proofs.FldFacts Proofs.NetworkA Proofs.NetworkC Proofs.YbusA Proofs.MatFacts Proofs.DerivA
  Proofs.DerivR Proofs.AcPfA Proofs.NewtonA Props.P_Derivs.
From Verif Require Props.P_AcPf.
Local Open Scope nat_scope.

(** exp(1j * a) *)
Definition cis_R (a : R) : cpx R := Cx (cos a) (sin a).

Lemma cd_minus (f : R -> cpx R) c x a : cderiv f x a -> cderiv (fun t => f t - c)%K x a.
Proof.
  intros H. eapply cd_eq; [|instantiate (1 := (a + 0)%K); apply cpx_eq; cbn; ring].
  apply (cd_ext (fun t => f t + - c)%K); [intros y; apply cpx_eq; cbn; ring|].
  apply cd_add; auto. apply cd_const.
Qed.

Section Newton.
Variables (Y : smat (cpx R)) (S : list (cpx R)) (n : nat) (pv pq : list nat).
Hypothesis shape : shaped Y n n.
Hypothesis size : length S = n.
Hypothesis range : forall i, In i (pv ++ pq) -> i < n.

Lemma eqns_range e : In e (eqns pv pq) -> snd e < n.
Proof.
  unfold eqns. rewrite in_app_iff, !in_map_iff. intros [(i & <- & I)|(i & <- & I)]; cbn; apply range; auto.
  apply in_or_app; auto.
Qed.
Lemma unks_range u : In u (unks pv pq) -> snd u < n.
Proof.
  unfold unks. rewrite in_app_iff, !in_map_iff. intros [(i & <- & I)|(i & <- & I)]; cbn; apply range; auto.
  apply in_or_app; auto.
Qed.

(** the residual vector holds the mismatches *)
Theorem C71_residual s : ok n s ->
  exists mis, mismatch Y S (volt s) = Ok mis /\ residual mis pv pq = Ok (map (fun e => eqn Y S e s) (eqns pv pq)).
Proof.
  intros O. assert (length (volt s) = n) as LV by (destruct O as (A & B & _); unfold volt, map2; rewrite map_length, combine_length; lia).
  eexists. split; [apply (mismatch_tot n); auto|]. rewrite residual_tot by auto.
  unfold eqns. rewrite !map_app, !map_map. reflexivity.
Qed.

Lemma jac_entries s : 0 < n -> ok n s ->
  exists D, jacobian cabsR Y (volt s) pv pq = Ok (map (fun e => map (D e) (unks pv pq)) (eqns pv pq)) /\
    forall e u, In e (eqns pv pq) -> In u (unks pv pq) -> slope u (eqn Y S e) s (D e u).
Proof.
  intros P O. destruct (C23_bus_injections Y n s P shape O) as (dm & da & E & _ & _ & D).
  exists (fun e u => part_of (fst e) (at_ (match fst u with Ang => da | Mag => dm end) (snd e) (snd u))).
  split.
  - unfold jacobian. rewrite E. cbn [bind]. f_equal. unfold eqns, unks. rewrite !map_app, !map_map.
    f_equal; [f_equal|]; apply map_ext; intros i; rewrite !map_app, !map_map; reflexivity.
  - intros (p & i) (c & k) Ie Iu. apply eqns_range in Ie. apply unks_range in Iu. cbn [fst snd] in *.
    destruct (D i k Ie Iu) as (DM & DA). unfold slope, partialR. cbn [fst snd].
    assert (partial c k (fun s => power Y i i s - nth i S 0)%K s (at_ (match c with Ang => da | Mag => dm end) i k)) as PP.
    { apply cd_minus. destruct c; auto. }
    destruct PP as (A & B). destruct p; [exact A|exact B].
Qed.

(** the matrix of the linear system holds the partial derivatives of the mismatches *)
Theorem C71_jacobian s : 0 < n -> ok n s ->
  exists J, jacobian cabsR Y (volt s) pv pq = Ok J /\ length J = length (eqns pv pq) /\
    forall r e, nth_error (eqns pv pq) r = Some e -> exists row, nth_error J r = Some row /\
      length row = length (unks pv pq) /\
      forall c u, nth_error (unks pv pq) c = Some u -> exists d, nth_error row c = Some d /\ slope u (eqn Y S e) s d.
Proof.
  intros P O. destruct (jac_entries s P O) as (D & E & SL). eexists. split; [exact E|]. split; [apply map_length|].
  intros r e He. rewrite nth_error_map, He. eexists. split; [reflexivity|]. split; [apply map_length|].
  intros c u Hu. rewrite nth_error_map, Hu. eexists. split; [reflexivity|]. apply SL; eapply nth_error_In; eauto.
Qed.

Lemma slope_unique u f s d d' : slope u f s d -> slope u f s d' -> d = d'.
Proof. intros A B. eapply uniqueness_limite; [exact A|exact B]. Qed.

(** one step with an exact linear solve: from any state with positive magnitudes it moves the unknowns, and
    only those, so that every mismatch vanishes to first order: [D] is any list of the partial derivatives *)
Theorem C71_step cang solve s J x : 0 < n -> ok n s -> NoDup (pv ++ pq) ->
  let Fx := map (fun e => eqn Y S e s) (eqns pv pq) in
  jacobian cabsR Y (volt s) pv pq = Ok J -> solve J Fx = Ok x -> solves J Fx x ->
  exists s', length (mag s') = n /\ length (ang s') = n /\
    newton_step cis_R cabsR cang solve Y S pv pq (volt s, ang s, mag s, Fx)
    = Ok (volt s', map cang (volt s'), map cabsR (volt s'), map (fun e => eqn Y S e s') (eqns pv pq)) /\
    (forall u, ~ In u (unks pv pq) -> snd u < n -> value u s' = value u s) /\
    forall e D, In e (eqns pv pq) -> (forall u, In u (unks pv pq) -> slope u (eqn Y S e) s (D u)) ->
      lsum (fun u => D u * (value u s' - value u s))%K (unks pv pq) = (- eqn Y S e s)%R.
Proof.
  intros P O ND Fx HJ HS (LX & SV). destruct (jac_entries s P O) as (D0 & EJ & SL).
  rewrite HJ in EJ. injection EJ as ->.
  assert (length Fx = length pv + length pq + length pq) as LF.
  { unfold Fx, eqns. rewrite map_length, app_length, !map_length, app_length. auto. }
  destruct O as (LM & LA & POS).
  destruct (updates_tot (ang s) (mag s) (map (@ropp R (@fld_rng R R_fld)) x) pv pq n LA LM ND range) as
    (Va1 & Va2 & Vm2 & E1 & E2 & E3 & LA2 & LM2 & UA & OA & UM & OM). { rewrite map_length. lia. }
  exists (St Vm2 Va2). cbn [mag ang]. split; auto. split; auto.
  assert (polar cis_R Vm2 Va2 = Ok (volt (St Vm2 Va2))) as EP.
  { rewrite polar_tot by congruence. f_equal. unfold volt. cbn [mag ang]. unfold map2. apply map_ext. intros (m & a). cbn [fst snd].
    apply cpx_eq; cbn; ring. }
  assert (length (volt (St Vm2 Va2)) = n) as LV.
  { unfold volt, map2. cbn [mag ang]. rewrite map_length, combine_length. lia. }
  split; [|split].
  - unfold newton_step. rewrite HJ. cbn [bind]. rewrite HS. cbn [bind]. rewrite E1. cbn [bind]. rewrite E2. cbn [bind].
    rewrite E3. cbn [bind]. rewrite EP. cbn [bind]. rewrite (mismatch_tot n) by auto. cbn [bind].
    rewrite residual_tot by auto. cbn [bind]. unfold eqns. rewrite !map_app, !map_map. reflexivity.
  - intros (c & k) N Lk. unfold value. cbn [fst snd coord_get] in *. destruct c; cbn [coord_get mag ang].
    + apply OA. intros I. apply N. unfold unks. apply in_or_app. left. apply in_map; auto.
    + apply OM. intros I. apply N. unfold unks. apply in_or_app. right. apply in_map; auto.
  - intros e D Ie SD. apply In_nth_error in Ie as (r & Hr).
    assert (forall c u, nth_error (unks pv pq) c = Some u -> (value u (St Vm2 Va2) - value u s)%R = (- nth c x 0)%R) as DV.
    { intros c u Hu. pose proof (nth_error_some_lt _ _ _ Hu) as Lc. unfold unks in Hu, Lc. rewrite app_length, !map_length in Lc.
      assert (forall c, nth c (map (@ropp R (@fld_rng R R_fld)) x) 0%R = (- nth c x 0)%R) as NO.
      { intros c'. change 0%R with (- 0)%R at 1 || idtac. destruct (lt_dec c' (length x)) as [H|H].
        - apply (nth_map_lt (@ropp R (@fld_rng R R_fld)) x c' 0%R 0%R H).
        - rewrite !nth_overflow by (rewrite ?map_length; lia). ring. }
      destruct (lt_dec c (length (pv ++ pq))) as [H|H].
      - rewrite nth_error_app1 in Hu by (rewrite map_length; auto). rewrite nth_error_map in Hu.
        destruct (nth_error (pv ++ pq) c) as [i|] eqn:E; [|discriminate]. injection Hu as <-.
        unfold value. cbn [fst snd coord_get ang]. pose proof (UA _ _ E) as U. rewrite NO in U.
        replace (nth i Va2 0%R) with (nth i (ang s) 0 + - nth c x 0)%R by (symmetry; exact U). ring.
      - rewrite nth_error_app2 in Hu by (rewrite map_length; lia). rewrite map_length, nth_error_map in Hu.
        destruct (nth_error pq (c - length (pv ++ pq))) as [i|] eqn:E; [|discriminate]. injection Hu as <-.
        unfold value. cbn [fst snd coord_get mag]. pose proof (UM _ _ E) as U. rewrite NO in U.
        rewrite app_length in U, H. replace (length pv + length pq + (c - (length pv + length pq))) with c in U by lia.
        replace (nth i Vm2 0%R) with (nth i (mag s) 0 + - nth c x 0)%R by (symmetry; exact U). ring. }
    assert (length x = length (unks pv pq)) as LU.
    { unfold unks. rewrite app_length, !map_length, app_length. lia. }
    specialize (SV r (map (D0 e) (unks pv pq))). rewrite nth_error_map, Hr in SV. specialize (SV eq_refl).
    unfold Fx in SV. rewrite (nth_map_lt _ _ _ _ e) in SV by (eapply nth_error_some_lt; eauto).
    rewrite (nth_error_nth _ _ _ Hr) in SV. rewrite <- SV, LU.
    rewrite (lsum_nth _ _ (Ang, 0)). 
    eapply eq_trans; [|exact (lsum_opp (fun c => (nth c (map (D0 e) (unks pv pq)) 0 * nth c x 0)%K) (seq 0 (length (unks pv pq))))].
    apply lsum_ext. intros c Ic. apply in_seq in Ic.
    destruct (nth_error_lt (unks pv pq) c ltac:(lia)) as (u & Hu).
    rewrite (nth_error_nth _ _ _ Hu). pose proof (DV _ _ Hu) as DV'.
    rewrite (nth_map_lt _ _ _ _ (Ang, 0)) by lia. rewrite (nth_error_nth _ _ _ Hu).
    rewrite (slope_unique _ _ _ _ _ (SD u (nth_error_In _ _ Hu)) (SL e u (nth_error_In _ _ Hr) (nth_error_In _ _ Hu))).
    change ((D0 e u * (value u (St Vm2 Va2) - value u s))%R = (- (D0 e u * nth c x 0))%R). rewrite DV'. ring.
Qed.
End Newton.

(** the angles and magnitudes of the next iteration (angle and abs of the voltages) describe the same
    voltages with positive magnitudes, unless a magnitude has dropped to exactly zero *)
Theorem C71_restart n cang s : polar_ok cis_R cabsR cang ->
  length (mag s) = n -> length (ang s) = n -> Forall (fun m => m <> 0%R) (mag s) ->
  let s' := St (map cabsR (volt s)) (map cang (volt s)) in ok n s' /\ volt s' = volt s.
Proof.
  intros (PA & PZ) LM LA NZ s'.
  assert (length (volt s) = n) as LV by (unfold volt, map2; rewrite map_length, combine_length; lia).
  split; [split; [|split]|]; cbn [mag ang s'].
  - rewrite map_length; auto.
  - rewrite map_length; auto.
  - apply Forall_forall. intros m. rewrite in_map_iff. intros (z & <- & I).
    unfold volt, map2 in I. apply in_map_iff in I as ((m0 & a) & <- & I). cbn [fst snd].
    apply in_combine_l in I. rewrite Forall_forall in NZ. specialize (NZ _ I).
    unfold cabsR, nrm2. cbn [re im]. apply sqrt_lt_R0.
    change (0 < (m0 * cos a) * (m0 * cos a) + (m0 * sin a) * (m0 * sin a))%R.
    replace ((m0 * cos a) * (m0 * cos a) + (m0 * sin a) * (m0 * sin a))%R
      with (m0 * m0 * (Rsqr (sin a) + Rsqr (cos a)))%R by (unfold Rsqr; ring).
    rewrite sin2_cos2, Rmult_1_r. apply Rsqr_pos_lt in NZ. exact NZ.
  - unfold volt at 1. cbn [mag ang s']. unfold map2. clear LV.
    induction (volt s) as [|z v IH]; [reflexivity|]. cbn [map combine fst snd].
    f_equal; [|exact IH]. etransitivity; [|exact (PZ z)]. apply cpx_eq; cbn -[cabsR]; ring.
Qed.

Example C71_polar : polar_ok cis_R cabsR P_AcPf.cangR.
Proof. exact P_AcPf.polar_R. Qed.

(** ** two buses joined by a reactance of 0.1, bus 0 the reference, a load of 0.5 at bus 1, flat start *)
Definition ex_Y : smat (cpx R) :=
  SM 2 2 [Ent 0 0 (Cx 0 (-10)); Ent 0 1 (Cx 0 10); Ent 1 0 (Cx 0 10); Ent 1 1 (Cx 0 (-10))]%R.
Definition ex_S : list (cpx R) := [Cx 0 0; Cx (-(1 / 2)) 0]%R.
Definition ex_s : state := St [1; 1]%R [0; 0]%R.

Lemma ex_power s : length (mag s) = 2 -> length (ang s) = 2 -> nth 0 (mag s) 0%R = 1%R -> nth 0 (ang s) 0%R = 0%R ->
  let m := nth 1 (mag s) 0%R in let a := nth 1 (ang s) 0%R in
  eqn ex_Y ex_S (Act, 1) s = (10 * m * sin a + 1 / 2)%R /\
  eqn ex_Y ex_S (React, 1) s = (10 * m * m - 10 * m * cos a)%R.
Proof.
  destruct s as [[|m0 [|m [|? ?]]] [|a0 [|a [|? ?]]]]; cbn [mag ang length nth]; try discriminate.
  intros _ _ -> ->. pose proof (sin2_cos2 a) as T. unfold Rsqr in T.
  unfold eqn, power, current, at_, lsum. cbn -[sin cos Rdiv]. rewrite sin_0, cos_0. split; [field|].
  transitivity (10 * m * m * (sin a * sin a + cos a * cos a) - 10 * m * cos a)%R; [field|]. rewrite T. ring.
Qed.

Lemma ex_slopes :
  slope (Ang, 1) (eqn ex_Y ex_S (Act, 1)) ex_s 10 /\ slope (Mag, 1) (eqn ex_Y ex_S (Act, 1)) ex_s 0 /\
  slope (Ang, 1) (eqn ex_Y ex_S (React, 1)) ex_s 0 /\ slope (Mag, 1) (eqn ex_Y ex_S (React, 1)) ex_s 10.
Proof.
  assert (forall f g l d, (forall t, f t = g t) -> derivable_pt_lim g l d -> derivable_pt_lim f l d) as EXT.
  { intros f g l d H D eps He. destruct (D eps He) as (dl & Hd). exists dl. intros h Hh Hl. rewrite !H. auto. }
  unfold slope, partialR. cbn [fst snd coord_set coord_get ex_s mag ang upd nth].
  repeat split.
  - apply (EXT _ (fun t => 10 * sin t + 1 / 2)%R).
    + intros t. destruct (ex_power (St [1; 1]%R [0; t]%R)) as (-> & _); auto. cbn. ring.
    + apply (dl_eq _ _ (10 * cos 0 + 0)%R); [|rewrite cos_0; ring].
      apply derivable_pt_lim_plus; [|apply derivable_pt_lim_const]. apply derivable_pt_lim_scal, derivable_pt_lim_sin.
  - apply (EXT _ (fun t => 1 / 2)%R).
    + intros t. destruct (ex_power (St [1; t]%R [0; 0]%R)) as (-> & _); auto. cbn. rewrite sin_0. ring.
    + apply derivable_pt_lim_const.
  - apply (EXT _ (fun t => 10 - 10 * cos t)%R).
    + intros t. destruct (ex_power (St [1; 1]%R [0; t]%R)) as (_ & ->); auto. cbn. ring.
    + apply (dl_eq _ _ (0 - 10 * (- sin 0))%R); [|rewrite sin_0; ring].
      apply derivable_pt_lim_minus; [apply derivable_pt_lim_const|]. apply derivable_pt_lim_scal, derivable_pt_lim_cos.
  - apply (EXT _ (fun t => 10 * (t * t) - 10 * t)%R).
    + intros t. destruct (ex_power (St [1; t]%R [0; 0]%R)) as (_ & ->); auto. cbn. rewrite cos_0. ring.
    + apply (dl_eq _ _ (10 * (1 * 1 + 1 * 1) - 10 * 1)%R); [|ring].
      apply derivable_pt_lim_minus; apply derivable_pt_lim_scal; [|apply derivable_pt_lim_id].
      apply (derivable_pt_lim_mult id id); apply derivable_pt_lim_id.
Qed.

(** the linear system of the flat start is 10 x = (0.5, 0): the step moves the angle of bus 1 by -0.05 *)
Example C71_example : let Fx := map (fun e => eqn ex_Y ex_S e ex_s) (eqns [] [1]) in
  exists J, shaped ex_Y 2 2 /\ ok 2 ex_s /\ jacobian cabsR ex_Y (volt ex_s) [] [1] = Ok J /\
    Fx = [1 / 2; 0]%R /\ solves J Fx [1 / 20; 0]%R /\
    exists s', newton_step cis_R cabsR P_AcPf.cangR (fun _ _ => Ok [1 / 20; 0]%R) ex_Y ex_S [] [1] (volt ex_s, ang ex_s, mag ex_s, Fx)
      = Ok (volt s', map P_AcPf.cangR (volt s'), map cabsR (volt s'), map (fun e => eqn ex_Y ex_S e s') (eqns [] [1])) /\
      value (Ang, 1) s' = (- (1 / 20))%R /\ value (Mag, 1) s' = 1%R /\ value (Ang, 0) s' = 0%R /\ value (Mag, 0) s' = 1%R.
Proof.
  intros Fx.
  assert (shaped ex_Y 2 2) as SH by (repeat split; repeat constructor; cbn; lia).
  assert (ok 2 ex_s) as O by (repeat split; repeat constructor; cbn; lra).
  assert (forall i, In i ([] ++ [1]) -> i < 2) as RG by (intros i [<-|[]]; lia).
  destruct ex_slopes as (S1 & S2 & S3 & S4).
  destruct (jac_entries ex_Y ex_S 2 [] [1] SH RG ex_s ltac:(lia) O) as (D & EJ & SL).
  assert (Fx = [1 / 2; 0]%R) as EF.
  { unfold Fx. cbn [eqns app map]. destruct (ex_power ex_s) as (-> & ->); auto. cbn [ex_s mag ang nth].
    rewrite sin_0, cos_0. f_equal; [field|f_equal; ring]. }
  assert (J : map (fun e => map (D e) (unks [] [1])) (eqns [] [1]) = [[10; 0]; [0; 10]]%R).
  { cbn [eqns unks app map].
    rewrite (slope_unique _ _ _ _ _ (SL (Act, 1) (Ang, 1) ltac:(cbn; auto) ltac:(cbn; auto)) S1).
    rewrite (slope_unique _ _ _ _ _ (SL (Act, 1) (Mag, 1) ltac:(cbn; auto) ltac:(cbn; auto)) S2).
    rewrite (slope_unique _ _ _ _ _ (SL (React, 1) (Ang, 1) ltac:(cbn; auto) ltac:(cbn; auto)) S3).
    rewrite (slope_unique _ _ _ _ _ (SL (React, 1) (Mag, 1) ltac:(cbn; auto) ltac:(cbn; auto)) S4). reflexivity. }
  rewrite J in EJ. eexists. split; [exact SH|]. split; [exact O|]. split; [exact EJ|]. split; [exact EF|].
  assert (solves [[10; 0]; [0; 10]]%R Fx [1 / 20; 0]%R) as SV.
  { rewrite EF. split; [reflexivity|]. intros [|[|r]] row H; cbn in H; try (destruct r; discriminate);
      injection H as <-; unfold lsum; cbn -[Rdiv]; field. }
  split; [exact SV|].
  destruct (C71_step ex_Y ex_S 2 [] [1] SH eq_refl RG P_AcPf.cangR (fun _ _ => Ok [1 / 20; 0]%R) ex_s _ _ ltac:(lia) O
    ltac:(repeat constructor; auto) EJ eq_refl SV) as (s' & LM & LA & E & KEEP & FO).
  exists s'. split; [exact E|].
  pose proof (KEEP (Ang, 0) ltac:(cbn; intros [H|[H|[]]]; discriminate) ltac:(cbn; lia)) as K1.
  pose proof (KEEP (Mag, 0) ltac:(cbn; intros [H|[H|[]]]; discriminate) ltac:(cbn; lia)) as K2.
  pose proof (FO (Act, 1) (fun u => match fst u with Ang => 10 | Mag => 0 end)%R ltac:(cbn; auto)) as F1.
  pose proof (FO (React, 1) (fun u => match fst u with Ang => 0 | Mag => 10 end)%R ltac:(cbn; auto)) as F2.
  assert (forall u, In u (unks [] [1]) -> u = (Ang, 1) \/ u = (Mag, 1)) as IU by (cbn; intros u [<-|[<-|[]]]; auto).
  specialize (F1 ltac:(intros u I; destruct (IU u I) as [-> | ->]; assumption)).
  specialize (F2 ltac:(intros u I; destruct (IU u I) as [-> | ->]; assumption)).
  assert (eqn ex_Y ex_S (Act, 1%nat) ex_s = 1 / 2 /\ eqn ex_Y ex_S (React, 1%nat) ex_s = 0)%R as (E1 & E2).
  { unfold Fx in EF. cbn [eqns app map] in EF. injection EF as A B. auto. }
  rewrite E1 in F1. rewrite E2 in F2. unfold lsum in F1, F2. cbn -[value Rdiv] in F1, F2.
  change (value (Ang, 1) ex_s) with 0%R in *. change (value (Mag, 1) ex_s) with 1%R in *.
  change (value (Ang, 0) ex_s) with 0%R in *. change (value (Mag, 0) ex_s) with 1%R in *.
  repeat split; auto; lra.
Qed.

Print Assumptions C71_residual.
Print Assumptions C71_jacobian.
Print Assumptions C71_step.
Print Assumptions C71_restart.
