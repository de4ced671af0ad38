(** Options and choice of solver. *)
From Verif Require Import Model.Dispatch Spec.DispatchSpec.
Local Open Scope string_scope.

(** * Dictionaries *)
Lemma oget_oset d k v k' : oget (oset d k v) k' = if k =? k' then Some v else oget d k'.
Proof.
  induction d as [|[k0 v0] d IH]; cbn.
  - destruct (k =? k'); reflexivity.
  - destruct (k0 =? k) eqn:E; cbn.
    + apply String.eqb_eq in E. subst k0. destruct (k =? k'); reflexivity.
    + rewrite IH. destruct (k0 =? k') eqn:E'; [|reflexivity].
      apply String.eqb_eq in E'. subst k0. rewrite String.eqb_sym, E. reflexivity.
Qed.

Lemma oget_update_other kw : forall d n, ~ In n (map fst kw) -> oget (update d kw) n = oget d n.
Proof.
  induction kw as [|[k v] kw IH]; intros d n H; [reflexivity|].
  change (update d ((k, v) :: kw)) with (update (oset d k v) kw).
  rewrite IH by (intros X; apply H; right; exact X). rewrite oget_oset.
  destruct (k =? n) eqn:E; [|reflexivity]. apply String.eqb_eq in E. exfalso. apply H. left. exact E.
Qed.

Lemma oget_update_in kw : forall d n v, NoDup (map fst kw) -> In (n, v) kw -> oget (update d kw) n = Some v.
Proof.
  induction kw as [|[k w] kw IH]; intros d n v N H; [destruct H|].
  change (update d ((k, w) :: kw)) with (update (oset d k w) kw).
  cbn in N. inversion N as [|? ? N1 N2]; subst.
  destruct H as [H|H].
  - injection H as -> ->. rewrite oget_update_other by exact N1. rewrite oget_oset, String.eqb_refl. reflexivity.
  - apply IH; assumption.
Qed.

Lemma oget_in d n v : oget d n = Some v -> In (n, v) d.
Proof.
  induction d as [|[k w] d IH]; cbn; [discriminate|]. destruct (k =? n) eqn:E; intros H.
  - apply String.eqb_eq in E. injection H as ->. subst. left. reflexivity.
  - right. exact (IH H).
Qed.

Lemma in_oget d n v : NoDup (map fst d) -> In (n, v) d -> oget d n = Some v.
Proof.
  intros N H. induction d as [|[k w] d IH]; [destruct H|]. cbn in N. inversion N as [|? ? N1 N2]; subst.
  cbn. destruct H as [H|H].
  - injection H as -> ->. rewrite String.eqb_refl. reflexivity.
  - destruct (k =? n) eqn:E; [|exact (IH N2 H)].
    apply String.eqb_eq in E. subst k. exfalso. apply N1. apply in_map_iff. exists (n, v). auto.
Qed.

Definition dup_free (l : list string) : bool :=
  (fix go l := match l with [] => true | x :: r => negb (existsb (String.eqb x) r) && go r end) l.
Lemma dup_free_ok l : dup_free l = true -> NoDup l.
Proof.
  induction l as [|x r IH]; intros H; [constructor|]. cbn in H. apply andb_prop in H. destruct H as [A B].
  constructor; [|exact (IH B)]. intros X. apply negb_true_iff in A.
  assert (Y : existsb (String.eqb x) r = true) by (apply existsb_exists; exists x; split; [exact X|apply String.eqb_refl]).
  congruence.
Qed.

(** the default dict is the five tables under upper-case names *)
Definition main_tables : list options := [PF_OPTIONS; CPF_OPTIONS; OPF_OPTIONS; OUTPUT_OPTIONS; PDIPM_OPTIONS].
Lemma default_is : default_ppopt = map (fun kv => (upper (fst kv), snd kv)) (concat main_tables).
Proof. vm_compute. reflexivity. Qed.
Lemma default_nodup : NoDup (map fst default_ppopt).
Proof. apply dup_free_ok. vm_compute. reflexivity. Qed.

Lemma default_listed n v : oget default_ppopt n = Some v <-> listed main_tables n v.
Proof.
  split.
  - intros H. apply oget_in in H. rewrite default_is in H. apply in_map_iff in H.
    destruct H as [[m w] [E I]]. cbn in E. injection E as E1 E2. subst.
    apply in_concat in I. destruct I as [t [It I]]. exists t, m. auto.
  - intros [t [m [It [I E]]]]. apply in_oget; [exact default_nodup|]. rewrite default_is, E.
    apply (in_map (fun kv => (upper (fst kv), snd kv)) _ (m, v)). apply in_concat. exists t. auto.
Qed.

Lemma documented_split n v : documented n v <-> listed main_tables n v \/ documented_gurobi n v.
Proof.
  split.
  - intros [t [m [It R]]]. change (In t (main_tables ++ [GUROBI_OPTIONS])) in It. apply in_app_or in It.
    destruct It as [It|It]; [left|right]; exists t, m; auto.
  - intros [[t [m [It R]]]|[t [m [It R]]]]; exists t, m; (split; [|exact R]);
      change (In t (main_tables ++ [GUROBI_OPTIONS])); apply in_or_app; auto.
Qed.

(** * C110: each option has the value given, else the base value, else its default *)
Theorem C110_in_force_partial base given n v :
  NoDup (map fst given) -> ~ documented_gurobi n v ->
  (oget (ppoption base given) n = Some v <-> in_force base given n v).
Proof.
  intros N G. unfold ppoption. split.
  - intros H. destruct (in_dec string_dec n (map fst given)) as [I|I].
    + apply in_map_iff in I. destruct I as [[n' w] [E I]]. cbn in E. subst n'.
      rewrite (oget_update_in _ _ _ _ N I) in H. injection H as ->. apply by_call. exact I.
    + rewrite (oget_update_other _ _ _ I) in H. destruct base as [d|].
      * exact (by_base _ _ _ _ d I eq_refl H).
      * apply by_default; [exact I|reflexivity|]. apply documented_split. left. apply default_listed. exact H.
  - intros [I|d I E H|I E H].
    + apply oget_update_in; assumption.
    + subst. rewrite oget_update_other by exact I. exact H.
    + subst. rewrite oget_update_other by exact I. apply default_listed.
      apply documented_split in H. destruct H as [H|H]; [exact H|]. destruct (G H).
Qed.

(** without the exception it is false: the Gurobi options have no default *)
Theorem C110_in_force_refuted : exists base given n v,
  NoDup (map fst given) /\ in_force base given n v /\ oget (ppoption base given) n = None.
Proof.
  exists None, [], "GRB_METHOD", (OInt 1). split; [constructor|]. split; [|vm_compute; reflexivity].
  apply by_default; [intros []|reflexivity|]. apply documented_split. right.
  exists GUROBI_OPTIONS, "grb_method". split; [left; reflexivity|]. split; [left; reflexivity|reflexivity].
Qed.

Lemma oget_run base n : oget (run_options base) n = oget (ppoption base []) n.
Proof. reflexivity. Qed.

(** the DC wrappers switch to the DC formulation and change nothing else *)
Theorem C110_dc_runs base n :
  oget (run_dc_options base) n = (if "PF_DC" =? n then Some (OBool true) else oget (run_options base) n) /\
  oget (dcopf_options base) n = (if "PF_DC" =? n then Some (OInt 1) else oget (run_options base) n).
Proof. split; unfold run_dc_options, run_options, dcopf_options, ppoption, update; cbn [fold_left fst snd]; apply oget_oset. Qed.

(** a base dict is not completed: every option it lacks, and that is not given, stays without a value *)
Theorem C110_base_only d given n :
  ~ In n (map fst given) -> oget d n = None -> oget (ppoption (Some d) given) n = None.
Proof. intros I H. unfold ppoption. rewrite oget_update_other by exact I. exact H. Qed.

(** ppoption(PF_ALG=2, PF_TOL=1e-4), and ppoption(opt, OPF_ALG=565, VERBOSE=2), as in the documentation *)
Example C110_example :
  let opt := ppoption None [("PF_ALG", OInt 2); ("PF_TOL", OFloat 1 (-4))] in
  let opt2 := ppoption (Some opt) [("OPF_ALG", OInt 565); ("VERBOSE", OInt 2)] in
  map (oget opt2) ["PF_ALG"; "PF_TOL"; "OPF_ALG"; "VERBOSE"; "PDIPM_MAX_IT"; "PF_DC"; "pf_alg"] =
    [Some (OInt 2); Some (OFloat 1 (-4)); Some (OInt 565); Some (OInt 2); Some (OInt 150); Some (OBool false); None] /\
  oget (run_dc_options (Some opt2)) "PF_DC" = Some (OBool true) /\ List.length default_ppopt = 43%nat.
Proof. repeat split; vm_compute; reflexivity. Qed.
(** all names that have a default *)
Example C110_names : map fst default_ppopt =
  ["PF_ALG"; "PF_TOL"; "PF_MAX_IT"; "PF_MAX_IT_FD"; "PF_MAX_IT_GS"; "ENFORCE_Q_LIMS"; "PF_DC"; "PF_LIN_SOLVER_NR";
   "CPF_PARAMETERIZATION"; "CPF_STOP_AT"; "CPF_STEP"; "CPF_ADAPT_STEP"; "CPF_ERROR_TOL"; "CPF_STEP_MIN"; "CPF_STEP_MAX";
   "CPF_PLOT_LEVEL"; "CPF_PLOT_BUS"; "CPF_USER_CALLBACK"; "CPF_USER_CALLBACK_ARGS";
   "OPF_ALG"; "OPF_VIOLATION"; "OPF_FLOW_LIM"; "OPF_IGNORE_ANG_LIM"; "OPF_ALG_DC";
   "VERBOSE"; "OUT_ALL"; "OUT_SYS_SUM"; "OUT_AREA_SUM"; "OUT_BUS"; "OUT_BRANCH"; "OUT_GEN"; "OUT_ALL_LIM"; "OUT_V_LIM";
   "OUT_LINE_LIM"; "OUT_PG_LIM"; "OUT_QG_LIM"; "RETURN_RAW_DER";
   "PDIPM_FEASTOL"; "PDIPM_GRADTOL"; "PDIPM_COMPTOL"; "PDIPM_COSTTOL"; "PDIPM_MAX_IT"; "SCPDIPM_RED_IT"].
Proof. vm_compute. reflexivity. Qed.
(** names are taken as they are: a name in lower case is accepted and has no effect *)
Example C110_lower_case :
  let opt := ppoption None [("pf_alg", OInt 2)] in
  oget opt "PF_ALG" = Some (OInt 1) /\ oget opt "pf_alg" = Some (OInt 2).
Proof. split; vm_compute; reflexivity. Qed.

(** * C111: the solver of a DC optimal power flow *)
Lemma okey_some d k v : oget d k = Some v -> okey d k = Ok v.
Proof. intros H. unfold okey. rewrite H. reflexivity. Qed.

Lemma complete_has ppopt n : complete ppopt -> In n (map fst default_ppopt) -> exists v, oget ppopt n = Some v.
Proof.
  intros H I. apply in_map_iff in I. destruct I as [[n' w] [E I]]. cbn in E. subst n'.
  pose proof (in_oget _ _ _ default_nodup I) as G.
  assert (X : oget ppopt n <> None).
  { apply (H n w); [apply documented_split; left; apply default_listed; exact G|].
    intros [t [m [It [Im E]]]]. destruct It as [<-|[]].
    assert (Z : In n (map upper (map fst GUROBI_OPTIONS))).
    { rewrite E. apply in_map. apply in_map_iff. exists (m, w). auto. }
    clear - G Z. cbn in Z. destruct Z as [<-|[<-|[<-|[<-|[]]]]]; vm_compute in G; discriminate G. }
  destruct (oget ppopt n) as [v|]; [exists v; reflexivity|]. destruct (X eq_refl).
Qed.

Ltac has ppopt C n v H :=
  destruct (complete_has ppopt n C ltac:(vm_compute; tauto)) as [v H].

Section Solvers.
Variables (have : string -> bool) (from_cplex mosekopt : bool).

(** no other solver present: the automatic choice of PIPS *)
Definition no_other : Prop := have "cplex" = false /\ have "mosek" = false /\ have "gurobi" = false.

Lemma dcopf_pips ppopt c :
  complete ppopt -> oget ppopt "OPF_ALG_DC" = Some (OInt c) ->
  c = 200%Z \/ c = 250%Z \/ (c = 0%Z /\ no_other) ->
  exists d, dcopf_solver have from_cplex mosekopt ppopt = Ok (Pips d) /\ settings_of ppopt d /\
    oget d "step_control" = Some (OBool (c =? 250)%Z) /\ oget d "cost_mult" = Some (OInt 1).
Proof.
  intros C A W.
  has ppopt C "VERBOSE" vv Hv. has ppopt C "PDIPM_FEASTOL" ft Hft. has ppopt C "PDIPM_GRADTOL" gr Hgt.
  has ppopt C "PDIPM_COMPTOL" ct Hct. has ppopt C "PDIPM_COSTTOL" xt Hxt. has ppopt C "PDIPM_MAX_IT" mi Hmi.
  has ppopt C "SCPDIPM_RED_IT" mr Hmr. has ppopt C "OPF_VIOLATION" vi Hvi.
  assert (F : exists tol, (if eqZ ft 0 then okey ppopt "OPF_VIOLATION" else Ok ft) = Ok tol /\
                          Some tol = (if eqZ ft 0 then oget ppopt "OPF_VIOLATION" else Some ft)).
  { destruct (eqZ ft 0); [exists vi; rewrite (okey_some _ _ _ Hvi), Hvi; auto|exists ft; auto]. }
  destruct F as [tol [F1 F2]].
  assert (S : forall alg, eqZ alg 200 || eqZ alg 250 = true -> eqZ alg 0 = false ->
    forall b, eqZ alg 200 = negb b ->
    exists d, (
      pips_opt <-
        (feastol <- okey ppopt "PDIPM_FEASTOL" ;;
         gradtol <- okey ppopt "PDIPM_GRADTOL" ;;
         comptol <- okey ppopt "PDIPM_COMPTOL" ;;
         costtol <- okey ppopt "PDIPM_COSTTOL" ;;
         max_it <- okey ppopt "PDIPM_MAX_IT" ;;
         max_red <- okey ppopt "SCPDIPM_RED_IT" ;;
         feastol <- (if eqZ feastol 0 then okey ppopt "OPF_VIOLATION" else Ok feastol) ;;
         Ok (Some [("feastol", feastol); ("gradtol", gradtol); ("comptol", comptol); ("costtol", costtol);
                   ("max_it", max_it); ("max_red", max_red); ("cost_mult", OInt 1)])) ;;
      qps_pypower have (QpOpt (Some alg) (Some vv) None pips_opt)) = Ok (Pips d) /\ settings_of ppopt d /\
      oget d "step_control" = Some (OBool b) /\ oget d "cost_mult" = Some (OInt 1)).
  { intros alg O Z b B.
    rewrite (okey_some _ _ _ Hft), (okey_some _ _ _ Hgt), (okey_some _ _ _ Hct), (okey_some _ _ _ Hxt),
      (okey_some _ _ _ Hmi), (okey_some _ _ _ Hmr). cbn [bind]. rewrite F1. cbn [bind].
    unfold qps_pypower. cbn [q_alg q_verbose q_max_it q_pips]. rewrite Z, O, B.
    eexists. split; [reflexivity|].
    split; [|destruct b; split; reflexivity].
    split.
    - intros s o I. cbn in I.
      decompose [or] I; clear I; match goal with E : (_, _) = (s, o) |- _ => injection E as <- <- | X : False |- _ => destruct X end;
        destruct b; cbn; rewrite ?Hgt, ?Hct, ?Hxt, ?Hmi, ?Hmr, ?Hv; split; (reflexivity || discriminate).
    - split; [|destruct b; cbn; discriminate].
      exists ft. split; [exact Hft|]. rewrite <- F2. destruct b; reflexivity. }
  unfold dcopf_solver. rewrite (okey_some _ _ _ Hv), (okey_some _ _ _ A). cbn [bind].
  destruct W as [->|[->|[-> [N1 [N2 N3]]]]].
  - exact (S (OInt 200) eq_refl eq_refl false eq_refl).
  - exact (S (OInt 250) eq_refl eq_refl true eq_refl).
  - cbn [eqZ Z.eqb]. rewrite N1, N2, N3. exact (S (OInt 200) eq_refl eq_refl false eq_refl).
Qed.

(** an optimal power flow call with the DC option and code 200, 250, or 0 when no other solver is there, runs PIPS
    with the settings of the options *)
Theorem C111_pips_partial ppopt c dc :
  complete ppopt -> oget ppopt "OPF_ALG_DC" = Some (OInt c) ->
  c = 200%Z \/ c = 250%Z \/ (c = 0%Z /\ no_other) ->
  oget ppopt "PF_DC" = Some dc -> truth dc = true ->
  (exists z, oget ppopt "VERBOSE" = Some (OInt z)) ->
  exists d, opf_execute have from_cplex mosekopt ppopt = Ok (DcRun (Pips d)) /\ settings_of ppopt d /\
    oget d "step_control" = Some (OBool (c =? 250)%Z) /\ oget d "cost_mult" = Some (OInt 1).
Proof.
  intros C A W D T [z Hv]. destruct (dcopf_pips ppopt c C A W) as [d [E R]].
  exists d. split; [|exact R]. has ppopt C "OPF_ALG" al Hal.
  unfold opf_execute. rewrite (okey_some _ _ _ D), (okey_some _ _ _ Hal), (okey_some _ _ _ Hv). cbn [bind number].
  rewrite T, E. reflexivity.
Qed.

(** codes that name no solver are rejected *)
Theorem C111_unknown ppopt c vv :
  oget ppopt "VERBOSE" = Some vv -> oget ppopt "OPF_ALG_DC" = Some (OInt c) ->
  c <> 0%Z -> ~ In c (map fst qp_codes) -> dcopf_solver have from_cplex mosekopt ppopt = Err ValueError.
Proof.
  intros Hv A Z N. unfold dcopf_solver. rewrite (okey_some _ _ _ Hv), (okey_some _ _ _ A). cbn [bind eqZ].
  assert (X : forall k, In k (0 :: map fst qp_codes)%Z -> (c =? k)%Z = false).
  { intros k I. apply Z.eqb_neq. intros ->. destruct I as [I|I]; [exact (Z (eq_sym I))|exact (N I)]. }
  rewrite (X 0%Z) by (cbn; tauto). cbn [eqZ].
  rewrite (X 200%Z), (X 250%Z), (X 400%Z), (X 500%Z), (X 600%Z), (X 700%Z) by (cbn; tauto).
  reflexivity.
Qed.

(** codes 400, 500, 600 and 700 reach no solver, whatever the options and whatever is installed *)
Theorem C111_others_fail ppopt c :
  oget ppopt "OPF_ALG_DC" = Some (OInt c) -> In c [400; 500; 600; 700]%Z ->
  exists e, dcopf_solver have from_cplex mosekopt ppopt = Err e.
Proof.
  intros A I. unfold dcopf_solver. destruct (okey ppopt "VERBOSE") as [vv|e] eqn:Hv; [|exists e; reflexivity].
  rewrite (okey_some _ _ _ A). cbn [bind].
  assert (T : forall (r : result unit) (f : option options -> result solver),
            (exists e, r = Err e) -> exists e, (o <- (_ <- r ;; Ok (@None options)) ;; f o) = Err e).
  { intros r f [e ->]. exists e. reflexivity. }
  destruct I as [<-|[<-|[<-|[<-|[]]]]]; cbn [eqZ Z.eqb Pos.eqb orb]; apply T.
  - unfold ipopt_options. rewrite Hv. cbn [bind]. destruct (okey ppopt "IPOPT_OPT"); cbn [bind]; [|eauto].
    destruct (truth a); cbn [bind]; [eauto|]. destruct (truth vv); cbn [bind]; [|eauto].
    destruct (number vv); cbn [bind]; eauto.
  - unfold cplex_options, overrides_keys. destruct (okey ppopt "OPF_VIOLATION"); cbn [bind]; [|eauto].
    destruct (number a); cbn [bind]; [|eauto]. rewrite Hv. cbn [bind].
    destruct (okey ppopt "CPLEX_LPMETHOD"); cbn [bind]; [|eauto].
    destruct (okey ppopt "CPLEX_QPMETHOD"); cbn [bind]; [|eauto].
    destruct (okey ppopt "CPLEX_OPT"); cbn [bind]; [|eauto].
    destruct (truth _); cbn [bind]; [eauto|]. destruct from_cplex; cbn [bind]; [|eauto].
    destruct (number vv); cbn [bind]; eauto.
  - unfold mosek_options, overrides_keys. destruct mosekopt; cbn [bind]; eauto.
  - unfold gurobi_options, overrides_keys. rewrite Hv. cbn [bind].
    destruct (okey ppopt "GRB_OPT"); cbn [bind]; [|eauto].
    destruct (okey ppopt "OPF_VIOLATION") as [t|]; cbn [bind]; [|eauto].
    destruct (number t); cbn [bind]; [|eauto].
    destruct (okey ppopt "GRB_METHOD"); cbn [bind]; [|eauto].
    destruct (okey ppopt "GRB_TIMELIMIT"); cbn [bind]; [|eauto].
    destruct (okey ppopt "GRB_THREADS"); cbn [bind]; [|eauto].
    destruct (number vv); cbn [bind]; [|eauto]. destruct (truth a); cbn [bind]; eauto.
Qed.

(** * C112: the solver of a quadratic program *)
Theorem C112_codes_partial opt c m :
  q_alg opt = Some (OInt c) -> In (c, m) qp_codes ->
  exists s, qps_pypower have opt = Ok s /\ is_method m s.
Proof.
  intros A I. unfold qps_pypower. rewrite A.
  destruct I as [I|[I|[I|[I|[I|[I|[]]]]]]]; injection I as <- <-; cbn [eqZ Z.eqb Pos.eqb orb];
    eexists; (split; [reflexivity|]); cbn [is_method]; try exact I; rewrite ?oget_oset; reflexivity.
Qed.

(** the settings handed over for PIPS are kept, but for the iteration limit, the step control and the messages *)
Theorem C112_settings opt c d k :
  q_alg opt = Some (OInt c) -> c = 200%Z \/ c = 250%Z -> qps_pypower have opt = Ok (Pips d) ->
  oget d "verbose" = Some (match q_verbose opt with Some v => v | None => OInt 0 end) /\
  (forall m, q_max_it opt = Some m -> oget d "max_it" = Some m) /\
  (~ In k ["verbose"; "step_control"] -> (k = "max_it" -> q_max_it opt = None) ->
   oget d k = match q_pips opt with Some d0 => oget d0 k | None => None end).
Proof.
  intros A W E. unfold qps_pypower in E. rewrite A in E.
  assert (N : forall a b : string, a <> b -> (a =? b) = false) by (intros a b; apply String.eqb_neq).
  destruct W as [-> | ->]; cbn [eqZ Z.eqb Pos.eqb orb] in E; injection E as <-; (split; [rewrite oget_oset; reflexivity|]); split;
    try (intros m ->; rewrite ?oget_oset; reflexivity);
    (intros K M; rewrite !oget_oset, (N "verbose" k), (N "step_control" k) by (intros <-; apply K; cbn; tauto));
    (destruct (q_max_it opt) as [m|];
     [rewrite oget_oset, (N "max_it" k) by (intros <-; discriminate (M eq_refl))|]; destruct (q_pips opt); reflexivity).
Qed.

(** any code that names no solver goes to Gurobi *)
Theorem C112_unknown_gurobi opt c :
  q_alg opt = Some (OInt c) -> c <> 0%Z -> ~ In c (map fst qp_codes) -> qps_pypower have opt = Ok Gurobi.
Proof.
  intros A Z N. unfold qps_pypower. rewrite A. cbn [eqZ].
  assert (X : forall k, In k (0 :: map fst qp_codes)%Z -> (c =? k)%Z = false).
  { intros k I. apply Z.eqb_neq. intros ->. destruct I as [I|I]; [exact (Z (eq_sym I))|exact (N I)]. }
  rewrite (X 0%Z) by (cbn; tauto). cbn [eqZ].
  rewrite (X 200%Z), (X 250%Z), (X 400%Z), (X 500%Z), (X 600%Z) by (cbn; tauto). reflexivity.
Qed.

(** * C113: the solver of an AC optimal power flow *)
(** the renaming of old codes never happens *)
Theorem C113_codes_kept c : renew_code (OInt c) = Ok (OInt c).
Proof.
  assert (H : forall a b, Z.lor a b <> b -> either_code (OInt c) a b = Ok false).
  { intros a b N. unfold either_code. cbn [bor bind eqZ]. f_equal.
    destruct (c =? Z.lor a c)%Z eqn:E; [|reflexivity]. cbn [andb]. apply Z.eqb_neq. intros X.
    apply Z.eqb_eq in E. apply N. rewrite <- X. rewrite <- E at 2. rewrite X. congruence. }
  unfold renew_code. rewrite !H by (vm_compute; discriminate). reflexivity.
Qed.

Theorem C113_pips_partial ppopt c dc :
  complete ppopt -> oget ppopt "OPF_ALG" = Some (OInt c) -> In c [0; 560; 565]%Z ->
  oget ppopt "PF_DC" = Some dc -> truth dc = false ->
  (exists z, oget ppopt "VERBOSE" = Some (OInt z)) ->
  exists d, opf_execute have from_cplex mosekopt ppopt = Ok (AcRun (AcPips d)) /\ settings_of ppopt d /\
    oget d "step_control" = Some (OBool (c =? 565)%Z) /\ oget d "cost_mult" = Some (OFloat 1 (-4)).
Proof.
  intros C A W D T [z Hv].
  has ppopt C "PDIPM_FEASTOL" ft Hft. has ppopt C "PDIPM_GRADTOL" gr Hgt.
  has ppopt C "PDIPM_COMPTOL" ct Hct. has ppopt C "PDIPM_COSTTOL" xt Hxt. has ppopt C "PDIPM_MAX_IT" mi Hmi.
  has ppopt C "SCPDIPM_RED_IT" mr Hmr. has ppopt C "OPF_VIOLATION" vi Hvi.
  assert (P : forall v, exists d, pipsopf_solver (oset ppopt "OPF_ALG_POLY" v) = Ok d /\ settings_of ppopt d /\
    oget d "step_control" = Some (OBool (c =? 565)%Z) /\ oget d "cost_mult" = Some (OFloat 1 (-4))).
  { intros v.
    assert (G : forall k w, oget ppopt k = Some w -> ("OPF_ALG_POLY" =? k) = false -> okey (oset ppopt "OPF_ALG_POLY" v) k = Ok w).
    { intros k w H N. unfold okey. rewrite oget_oset, N, H. reflexivity. }
    unfold pipsopf_solver.
    rewrite (G _ _ Hv eq_refl), (G _ _ Hft eq_refl), (G _ _ Hgt eq_refl), (G _ _ Hct eq_refl), (G _ _ Hxt eq_refl),
      (G _ _ Hmi eq_refl), (G _ _ Hmr eq_refl), (G _ _ A eq_refl), (G _ _ Hvi eq_refl). cbn [bind].
    assert (F : exists tol, (if eqZ ft 0 then Ok vi else Ok ft) = Ok tol /\
                            Some tol = (if eqZ ft 0 then oget ppopt "OPF_VIOLATION" else Some ft)).
    { destruct (eqZ ft 0); [exists vi; auto|exists ft; auto]. }
    destruct F as [tol [F1 F2]]. rewrite F1. cbn [bind]. eexists. split; [reflexivity|].
    split; [|split; reflexivity].
    split.
    - intros s o I. cbn in I.
      decompose [or] I; clear I; match goal with E : (_, _) = (s, o) |- _ => injection E as <- <- | X : False |- _ => destruct X end;
        cbn; rewrite ?Hgt, ?Hct, ?Hxt, ?Hmi, ?Hmr, ?Hv; split; (reflexivity || discriminate).
    - split; [|cbn; discriminate]. exists ft. split; [exact Hft|]. rewrite <- F2. reflexivity. }
  unfold opf_execute. rewrite (okey_some _ _ _ D), (okey_some _ _ _ A), (okey_some _ _ _ Hv). cbn [bind number].
  rewrite T. destruct W as [<-|[<-|[<-|[]]]]; cbn [eqZ Z.eqb Pos.eqb]; rewrite C113_codes_kept; cbn [bind eqZ Z.eqb Pos.eqb orb].
  - destruct (P (OInt 560)) as [d [E R]]. exists d. rewrite E. split; [reflexivity|exact R].
  - destruct (P (OInt 560)) as [d [E R]]. exists d. rewrite E. split; [reflexivity|exact R].
  - destruct (P (OInt 565)) as [d [E R]]. exists d. rewrite E. split; [reflexivity|exact R].
Qed.

Theorem C113_ipopt ppopt dc z :
  oget ppopt "OPF_ALG" = Some (OInt 580) -> oget ppopt "PF_DC" = Some dc -> truth dc = false ->
  oget ppopt "VERBOSE" = Some (OInt z) ->
  opf_execute have from_cplex mosekopt ppopt = Ok (AcRun (if have "pyipopt" then AcIpopt else AcImportError)).
Proof.
  intros A D T Hv. unfold opf_execute. rewrite (okey_some _ _ _ D), (okey_some _ _ _ A), (okey_some _ _ _ Hv).
  cbn [bind number]. rewrite T. cbn [eqZ Z.eqb]. rewrite C113_codes_kept. cbn [bind eqZ Z.eqb Pos.eqb orb].
  destruct (have "pyipopt"); reflexivity.
Qed.

(** every other code, among them all the codes that ppoption.py and the renaming mention, ends in an error of the interpreter *)
Theorem C113_other_codes ppopt c dc z :
  oget ppopt "OPF_ALG" = Some (OInt c) -> oget ppopt "PF_DC" = Some dc -> truth dc = false ->
  oget ppopt "VERBOSE" = Some (OInt z) -> ~ In c [0; 560; 565; 580]%Z ->
  opf_execute have from_cplex mosekopt ppopt = Err UnboundLocalError.
Proof.
  intros A D T Hv N. unfold opf_execute. rewrite (okey_some _ _ _ D), (okey_some _ _ _ A), (okey_some _ _ _ Hv).
  cbn [bind number]. rewrite T. cbn [eqZ].
  assert (X : forall k, In k [0; 560; 565; 580]%Z -> (c =? k)%Z = false).
  { intros k I. apply Z.eqb_neq. intros ->. exact (N I). }
  rewrite (X 0%Z) by (cbn; tauto). rewrite C113_codes_kept. cbn [bind eqZ].
  rewrite (X 560%Z), (X 565%Z), (X 580%Z) by (cbn; tauto). reflexivity.
Qed.
End Solvers.
Print Assumptions C110_in_force_partial.
Print Assumptions C111_pips_partial.
Print Assumptions C111_others_fail.
Print Assumptions C112_codes_partial.
Print Assumptions C113_pips_partial.
Print Assumptions C113_other_codes.

(** * Instances and counterexamples *)
Lemma default_complete base : base = None \/ base = Some default_ppopt -> complete (run_dc_options base) /\ complete (run_options base).
Proof.
  intros B. assert (E : ppoption base [] = default_ppopt) by (destruct B as [-> | ->]; reflexivity).
  assert (G : forall n v, documented n v -> ~ documented_gurobi n v -> oget (run_options base) n = Some v).
  { intros n v H N. unfold run_options. rewrite E. apply default_listed. apply documented_split in H.
    destruct H as [H|H]; [exact H|destruct (N H)]. }
  split; intros n v H N.
  - rewrite (proj1 (C110_dc_runs base n)). destruct ("PF_DC" =? n); [discriminate|]. rewrite (G n v H N). discriminate.
  - rewrite (G n v H N). discriminate.
Qed.

(** rundcopf without options, on a machine without the other solvers *)
Example C111_example :
  complete (run_dc_options None) /\
  opf_execute (fun _ => false) false false (run_dc_options None) =
    Ok (DcRun (Pips [("feastol", OFloat 5 (-6)); ("gradtol", OFloat 1 (-6)); ("comptol", OFloat 1 (-6)); ("costtol", OFloat 1 (-6));
      ("max_it", OInt 150); ("max_red", OInt 20); ("cost_mult", OInt 1); ("step_control", OBool false); ("verbose", OInt 1)])).
Proof. split; [apply (default_complete None); left; reflexivity|vm_compute; reflexivity]. Qed.
(** the same call where CPLEX, MOSEK or Gurobi can be imported: the default is documented as the first solver available *)
Theorem C111_default_refuted : forall name, In name ["cplex"; "mosek"; "gurobi"] ->
  exists have, have name = true /\ complete (run_dc_options None) /\
    forall fc mo, exists e, opf_execute have fc mo (run_dc_options None) = Err e.
Proof.
  intros name I. exists (String.eqb name). split; [apply String.eqb_refl|].
  split; [apply (default_complete None); left; reflexivity|]. intros fc mo.
  destruct I as [<-|[<-|[<-|[]]]].
  - exists KeyError. vm_compute. reflexivity.
  - exists (if mo then AttributeError else NameError). destruct mo; vm_compute; reflexivity.
  - exists KeyError. vm_compute. reflexivity.
Qed.
(** the code as a float, 250.0 *)
Example C111_float_example :
  match dcopf_solver (fun _ => true) true true (ppoption None [("OPF_ALG_DC", OFloat 2500 (-1)); ("PDIPM_FEASTOL", OFloat 0 (-1))]) with
  | Ok (Pips d) => oget d "step_control" = Some (OBool true) /\ oget d "feastol" = Some (OFloat 5 (-6))
  | _ => False
  end.
Proof. vm_compute. split; reflexivity. Qed.
Example C111_unknown_example :
  dcopf_solver (fun _ => false) false false (ppoption None [("OPF_ALG_DC", OInt 300)]) = Err ValueError.
Proof. vm_compute. reflexivity. Qed.

(** BPMPD (100) and the Optimization Toolbox (300) are listed but not there; the call goes to Gurobi *)
Theorem C112_codes_refuted : exists c, ~ In c (map fst qp_codes) /\ c <> 0%Z /\
  qps_pypower (fun _ => false) (QpOpt (Some (OInt c)) None None None) = Ok Gurobi.
Proof. exists 100%Z. split; [cbn; lia|]. split; [discriminate|]. vm_compute. reflexivity. Qed.
Example C112_example :
  qps_pypower (fun _ => false) (QpOpt (Some (OInt 250)) (Some (OInt 2)) (Some (OInt 7)) (Some [("max_it", OInt 150); ("gradtol", OFloat 1 (-6))])) =
    Ok (Pips [("max_it", OInt 7); ("gradtol", OFloat 1 (-6)); ("step_control", OBool true); ("verbose", OInt 2)]).
Proof. vm_compute. reflexivity. Qed.

(** 540 and 545 are the codes that ppoption.py gives for the interior point solver and its step-controlled variant *)
Theorem C113_codes_refuted : forall c, In c [500; 540; 545; 100; 200; 220; 240; 260]%Z ->
  complete (ppoption None [("OPF_ALG", OInt c)]) /\
  opf_execute (fun _ => true) true true (ppoption None [("OPF_ALG", OInt c)]) = Err UnboundLocalError.
Proof.
  intros c I. split.
  - intros n v H N. unfold ppoption, update. cbn [fold_left fst snd]. rewrite oget_oset.
    destruct ("OPF_ALG" =? n); [discriminate|].
    apply documented_split in H. destruct H as [H|H]; [|destruct (N H)]. apply default_listed in H. rewrite H. discriminate.
  - cbn in I. decompose [or] I; subst; try contradiction; vm_compute; reflexivity.
Qed.
Example C113_example :
  opf_execute (fun _ => false) false false (ppoption None [("OPF_ALG", OInt 565); ("PDIPM_FEASTOL", OFloat 1 (-4))]) =
    Ok (AcRun (AcPips [("feastol", OFloat 1 (-4)); ("gradtol", OFloat 1 (-6)); ("comptol", OFloat 1 (-6)); ("costtol", OFloat 1 (-6));
      ("max_it", OInt 150); ("max_red", OInt 20); ("step_control", OBool true); ("cost_mult", OFloat 1 (-4)); ("verbose", OInt 1)])).
Proof. vm_compute. reflexivity. Qed.
