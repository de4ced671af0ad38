(** C119: options on the command line. *)
From Verif Require Import Spec.MainSpec Props.P_Dispatch.
Local Open Scope string_scope.

Definition word_of (a : string * string) : string * option string := (fst a, Some (snd a)).

Lemma mem_in s l : mem s l = true <-> In s l.
Proof. unfold mem. rewrite existsb_exists. split; [intros (x & I & E); apply String.eqb_eq in E; subst; auto|intros I; exists s; split; [auto|apply String.eqb_refl]]. Qed.

Lemma find_name {A} (l : list (string * A)) n x : NoDup (map fst l) -> In (n, x) l -> List.find (fun o => fst o =? n) l = Some (n, x).
Proof.
  induction l as [|(m, y) l IH]; intros D I; [destruct I|]. cbn [List.find fst]. inversion D as [|? ? N D']; subst. destruct I as [E|I].
  - injection E as -> ->. rewrite String.eqb_refl. reflexivity.
  - destruct (String.eqb_spec m n) as [->|C]; [|auto]. exfalso. apply N. cbn. apply (in_map fst) in I. exact I.
Qed.
Lemma long_nodup opf : NoDup (map fst (long_options opf)).
Proof. apply dup_free_ok. destruct opf; vm_compute; reflexivity. Qed.
Lemma settable_long opf n v : In (n, v) (settable opf) -> In (n, ASet v) (long_options opf).
Proof.
  unfold settable, long_options. intros I. apply in_or_app. right. destruct opf.
  - apply in_app_or in I as [I|I]; apply in_or_app; [left; apply in_or_app; right|right]; apply (in_map (fun o => (fst o, ASet (snd o))) _ _ I).
  - apply in_app_or in I as [I|I]; apply in_or_app; [left|right]; apply (in_map (fun o => (fst o, ASet (snd o))) _ _ I).
Qed.
Lemma long_settable opf n v : In (n, ASet v) (long_options opf) -> In (n, v) (settable opf).
Proof.
  assert (M : forall l, In (n, ASet v) (map (fun o => (fst o, ASet (snd o))) l) -> In (n, v) l).
  { intros l I. apply in_map_iff in I as ((a, b) & E & I). cbn in E. injection E as -> ->. exact I. }
  unfold settable, long_options. intros I. apply in_app_or in I as [I|I]; [cbn in I; repeat destruct I as [I|I]; try discriminate; destruct I|].
  destruct opf; apply in_app_or in I as [I|I]; apply in_or_app; auto. left. apply in_app_or in I as [I|I]; auto. cbn in I. repeat destruct I as [I|I]; try discriminate; destruct I.
Qed.
Lemma match_in {A} (l : list (string * A)) w o : match_long l w = Some o -> In o l.
Proof.
  unfold match_long. destruct (List.find _ l) eqn:E; [intros H; injection H as <-; apply find_some in E; apply E|].
  destruct (filter _ l) as [|p [|q r]] eqn:F; try discriminate. intros H. injection H as <-. assert (In p (filter (fun o => prefix w (fst o)) l)) as I by (rewrite F; left; auto).
  apply filter_In in I. apply I.
Qed.

Section Main.
Variable int_of : string -> option Z.
Variable float_of : string -> option optv.

Lemma argument_gives opf a v d : gives int_of float_of opf a v -> argument int_of float_of opf (word_of a) d = Parsed (oset d (upper (fst a)) v).
Proof.
  intros (df & I & M). unfold argument, match_long, word_of. cbn [fst snd]. rewrite (find_name _ _ _ (long_nodup opf) (settable_long _ _ _ I)).
  destruct M as [b s H|b s H|n s z H|m e s v H N]; cbn [convert].
  - assert (mem s (AFFIRMATIVE ++ NEGATIVE) = true) as -> by (apply mem_in, in_or_app; left; exact H). cbn [option_callback].
    assert (mem s AFFIRMATIVE = true) as -> by (apply mem_in; exact H). reflexivity.
  - assert (mem s (AFFIRMATIVE ++ NEGATIVE) = true) as -> by (apply mem_in, in_or_app; right; exact H). cbn [option_callback].
    destruct (mem s AFFIRMATIVE) eqn:E; [exfalso; apply mem_in in E; cbn in H, E; repeat destruct H as [H|H]; subst; try (repeat destruct E as [E|E]; try discriminate E; destruct E); destruct H|].
    assert (mem s NEGATIVE = true) as -> by (apply mem_in; exact H). reflexivity.
  - rewrite H. reflexivity.
  - rewrite H. destruct v; try reflexivity. exfalso. eapply N. reflexivity.
Qed.

Lemma main_names n : In n (map fst (concat main_tables)) -> forall m, In m (map fst (concat main_tables)) -> upper n = upper m -> n = m.
Proof.
  assert (T : forallb (fun a => forallb (fun b => negb (upper a =? upper b) || (a =? b)) (map fst (concat main_tables))) (map fst (concat main_tables)) = true) by (vm_compute; reflexivity).
  intros I m J E. rewrite forallb_forall in T. specialize (T n I). rewrite forallb_forall in T. specialize (T m J). rewrite E, String.eqb_refl in T. cbn in T. apply String.eqb_eq. exact T.
Qed.
Lemma settable_main opf n v : In (n, v) (settable opf) -> In (n, v) (concat main_tables).
Proof.
  unfold settable, main_tables. cbn [concat]. intros I. rewrite app_nil_r. destruct opf; repeat (apply in_app_or in I as [I|I]); repeat (apply in_or_app; (left; exact I) || right); auto.
Qed.

Lemma arguments_give opf l : forall vs d, Forall2 (gives int_of float_of opf) l vs ->
  exists d', arguments int_of float_of opf (map word_of l) d = Parsed d' /\
    forall n v, In (n, v) (concat main_tables) -> forall x, oget d (upper n) = Some x -> oget d' (upper n) = Some (last_value (combine (map fst l) vs) n x).
Proof.
  induction l as [|a l IH]; intros vs d H; inversion H as [|? v ? vs' G H']; subst; [exists d; split; [reflexivity|]; intros; assumption|].
  cbn [map arguments]. rewrite (argument_gives _ _ _ d G). destruct (IH vs' (oset d (upper (fst a)) v) H') as (d' & E & Q). exists d'. split; [exact E|].
  intros n w I x X. cbn [map combine last_value]. apply (Q n w I). rewrite oget_oset.
  destruct (String.eqb_spec (fst a) n) as [->|C]; [rewrite String.eqb_refl; reflexivity|].
  destruct (String.eqb_spec (upper (fst a)) (upper n)) as [U|U]; [|exact X]. exfalso. apply C. apply main_names; auto.
  - destruct G as (df & J & _). apply (in_map fst _ _ (settable_main _ _ _ J)).
  - apply (in_map fst _ _ I).
Qed.

(** settings with proper values are all in force, the last one for each name, and no other option changes *)
Theorem C119_values_partial opf l vs : Forall2 (gives int_of float_of opf) l vs ->
  exists d, parse_options int_of float_of opf (map word_of l) = Parsed d /\
    forall n v, In (n, v) (concat main_tables) -> oget d (upper n) = Some (last_value (combine (map fst l) vs) n v).
Proof.
  intros H. destruct (arguments_give opf l vs (ppoption None []) H) as (d & E & Q). exists d. split; [exact E|]. intros n v I. apply (Q n v I).
  change (oget default_ppopt (upper n) = Some v). apply in_oget; [apply default_nodup|]. rewrite default_is. apply (in_map (fun kv => (upper (fst kv), snd kv)) _ _ I).
Qed.

(** the linear solver of Newton's method cannot be named *)
Theorem C119_text_refuted text : ~ In text (AFFIRMATIVE ++ NEGATIVE) -> parse_options int_of float_of false [("pf_lin_solver_nr", Some text)] = Crash TypeError.
Proof.
  intros N. unfold parse_options, arguments, argument. change (match_long (long_options false) (fst ("pf_lin_solver_nr", Some text))) with (Some ("pf_lin_solver_nr", ASet (OStr ""))).
  cbn [snd convert option_callback]. destruct (mem text AFFIRMATIVE) eqn:A; [exfalso; apply N, in_or_app; left; apply mem_in; exact A|].
  destruct (mem text NEGATIVE) eqn:B; [exfalso; apply N, in_or_app; right; apply mem_in; exact B|]. reflexivity.
Qed.
(** a feasibility tolerance with a fraction is rejected *)
Theorem C119_tolerance_refuted text : int_of text = None -> parse_options int_of float_of true [("pdipm_feastol", Some text)] = Exit.
Proof.
  intros N. unfold parse_options, arguments, argument. change (match_long (long_options true) (fst ("pdipm_feastol", Some text))) with (Some ("pdipm_feastol", ASet (OInt 0))).
  cbn [snd convert]. rewrite N. reflexivity.
Qed.

Lemma callback_other name v d d' n : option_callback name v d = Parsed d' -> upper name <> n -> oget d' n = oget d n.
Proof.
  intros H N. assert (exists w, d' = oset d (upper name) w) as (w & ->).
  { destruct v; cbn [option_callback] in H; [| | | |]; try (injection H as <-; eauto). destruct (mem s AFFIRMATIVE); [injection H as <-; eauto|]. destruct (mem s NEGATIVE); [injection H as <-; eauto|discriminate]. }
  rewrite oget_oset. destruct (String.eqb_spec (upper name) n); [contradiction|reflexivity].
Qed.
Lemma argument_other opf a d d' n : argument int_of float_of opf a d = Parsed d' -> (forall m v, In (m, v) (settable opf) -> upper m <> n) -> oget d' n = oget d n.
Proof.
  unfold argument. intros H N. destruct (match_long (long_options opf) (fst a)) as [(m, x)|] eqn:E; [|discriminate]. apply match_in in E. destruct x as [| | | |df].
  - discriminate.
  - destruct (snd a); [discriminate|]. injection H as <-. reflexivity.
  - destruct (snd a); [|discriminate]. injection H as <-. reflexivity.
  - destruct (snd a) as [t|]; [|discriminate]. destruct (mem t CASES); [|discriminate]. injection H as <-. reflexivity.
  - destruct (snd a) as [t|]; [|discriminate]. destruct (convert int_of float_of df t) as [v|]; [|discriminate]. apply (callback_other _ _ _ _ _ H). apply (N m df). apply long_settable. exact E.
Qed.
Lemma arguments_other opf l n : (forall m v, In (m, v) (settable opf) -> upper m <> n) -> forall d d', arguments int_of float_of opf l d = Parsed d' -> oget d' n = oget d n.
Proof.
  intros N. induction l as [|a l IH]; intros d d' H; cbn [arguments] in H; [injection H as <-; reflexivity|].
  destruct (argument int_of float_of opf a d) as [d1| |] eqn:E; try discriminate. rewrite (IH _ _ H). apply (argument_other _ _ _ _ _ E N).
Qed.

(** the optimal power flow command never runs a DC optimal power flow *)
Theorem C119_dc_refuted l d : parse_options int_of float_of true l = Parsed d ->
  oget d "PF_DC" = Some (OBool false) /\ forall have fc mk c, opf_execute have fc mk (run_options (Some d)) <> Ok (DcRun c).
Proof.
  intros H. assert (P : oget d "PF_DC" = Some (OBool false)).
  { unfold parse_options in H. rewrite (arguments_other true l "PF_DC") with (d := ppoption None []) (d' := d); [reflexivity| |exact H]. intros m v I.
    assert (T : forallb (fun o => negb (upper (fst o) =? "PF_DC")) (settable true) = true) by (vm_compute; reflexivity). rewrite forallb_forall in T.
    specialize (T _ I). cbn [fst] in T. intros E. rewrite E in T. discriminate T. }
  split; [exact P|]. intros have fc mk c. unfold opf_execute. change (run_options (Some d)) with d. rewrite (okey_some _ _ _ P). cbn [bind].
  destruct (okey d "OPF_ALG"); [cbn [bind]|discriminate]. destruct (okey d "VERBOSE"); [cbn [bind]|discriminate]. destruct (number _); [cbn [bind truth eqZ negb Z.eqb]|discriminate].
  destruct (renew_code _); [cbn [bind]|discriminate]. destruct (_ || _); [destruct (pipsopf_solver _); discriminate|]. destruct (eqZ _ _); [destruct (have _); discriminate|discriminate].
Qed.
End Main.
Print Assumptions C119_values_partial.
Print Assumptions C119_text_refuted.
Print Assumptions C119_tolerance_refuted.
Print Assumptions C119_dc_refuted.

(** ** Examples *)
Definition x_int (s : string) : option Z := if s =? "2" then Some 2%Z else if s =? "0" then Some 0%Z else None.
Definition x_float (s : string) : option optv := if s =? "1e-4" then Some (OFloat 1 (-4)) else if s =? "inf" then Some OInf else None.
Definition look (p : parsed) (n : string) : option optv := match p with Parsed d => oget d n | _ => None end.
(** pf --pf_alg=2 --pf_tol=1e-4 --pf_dc=yes --pf_dc=0 *)
Example C119_example : let p := parse_options x_int x_float false [("pf_alg", Some "2"); ("pf_tol", Some "1e-4"); ("pf_dc", Some "yes"); ("pf_dc", Some "0")] in
  map (look p) ["PF_ALG"; "PF_TOL"; "PF_DC"; "PF_MAX_IT"] = [Some (OInt 2); Some (OFloat 1 (-4)); Some (OBool false); Some (OInt 10)].
Proof. vm_compute. reflexivity. Qed.
Example C119_hypotheses : Forall2 (gives x_int x_float false) [("pf_alg", "2"); ("pf_tol", "1e-4"); ("pf_dc", "yes"); ("pf_dc", "0")] [OInt 2; OFloat 1 (-4); OBool true; OBool false].
Proof.
  repeat constructor; [exists (OInt 1)|exists (OFloat 1 (-8))|exists (OBool false)|exists (OBool false)]; (split; [cbn; tauto|]); constructor; cbn; try tauto; try reflexivity. discriminate.
Qed.
(** an abbreviation works if only one option starts with it; "pf_m" is the start of three *)
Example C119_abbreviation : look (parse_options x_int x_float false [("enf", Some "y")]) "ENFORCE_Q_LIMS" = Some (OBool true) /\ parse_options x_int x_float false [("pf_m", Some "2")] = Exit /\
  look (parse_options x_int x_float false [("pf_max_it", Some "2")]) "PF_MAX_IT" = Some (OInt 2).
Proof. vm_compute. auto. Qed.
(** naming a solver fails, and "1" is taken for True; the options of the other command are not known *)
Example C119_examples_refuted : parse_options x_int x_float false [("pf_lin_solver_nr", Some "LU3")] = Crash TypeError /\
  look (parse_options x_int x_float false [("pf_lin_solver_nr", Some "1")]) "PF_LIN_SOLVER_NR" = Some (OBool true) /\
  parse_options x_int x_float true [("pdipm_feastol", Some "1e-4")] = Exit /\ parse_options x_int x_float true [("pf_dc", Some "1")] = Exit /\
  look (parse_options x_int x_float true [("opf_violation", Some "1e-4"); ("uopf", None)]) "OPF_VIOLATION" = Some (OFloat 1 (-4)).
Proof. vm_compute. repeat split; reflexivity. Qed.
