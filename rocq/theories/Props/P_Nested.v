(** Property C129: the old value of a nested field is stored under its names. *)
From Coq Require Import Lia.
From Verif Require Import Lib.ListFacts Model.Nested.
Local Open Scope string_scope.

Section Nested.
Context {V : Type}.
Implicit Types d : dict V.

(** what is found under a list of names *)
Fixpoint at_path (t : tree V) (p : list string) : option (tree V) :=
  match p with
  | [] => Some t
  | k :: r => match t with Arr _ => None | Dict d => match get k d with Some t' => at_path t' r | None => None end end
  end.

Lemma get_put_same k (t : tree V) d : get k (put k t d) = Some t.
Proof. induction d as [|(k', t') d IH]; cbn; [rewrite String.eqb_refl; auto|]. destruct (String.eqb k k') eqn:E; cbn; rewrite E; auto. Qed.
Lemma get_put_other k k' (t : tree V) d : k <> k' -> get k (put k' t d) = get k d.
Proof.
  intros N. induction d as [|(k2, t2) d IH]; cbn.
  - destruct (String.eqb_spec k k'); congruence.
  - destruct (String.eqb_spec k' k2) as [E|E]; cbn; [subst; destruct (String.eqb_spec k k2); congruence|]. rewrite IH. reflexivity.
Qed.
Lemma prepare_kept field : forall d k t, get k d = Some t -> get k (prepare d field) = Some t.
Proof.
  induction field as [|f r IH]; intros d k t H; cbn; auto. destruct (get f d) eqn:E; [auto|]. rewrite get_put_other; auto. congruence.
Qed.
Lemma prepare_foreign field : forall d k, ~ In k field -> get k (prepare d field) = get k d.
Proof.
  induction field as [|f r IH]; intros d k N; cbn; auto. cbn in N. destruct (get f d) eqn:E; [apply IH; tauto|]. apply get_put_other. intros ->. tauto.
Qed.

(** whenever the call returns, the value is under its names ... *)
Lemma assign_found field v : forall d d', assign d field v = Ok d' -> at_path (Dict d') field = Some (Arr v).
Proof.
  induction field as [|f r IH]; intros d d' H; [discriminate|]. cbn in H. destruct r as [|f2 r].
  - injection H as <-. cbn. rewrite get_put_same. reflexivity.
  - destruct (get f d) as [[w|d1]|]; try discriminate. destruct (assign d1 (f2 :: r) v) as [d2|] eqn:E; [|discriminate]. injection H as <-.
    cbn [at_path]. rewrite get_put_same. apply (IH _ _ E).
Qed.
Theorem C129_found_partial d field v d' : store_nested d field v = Ok d' -> at_path (Dict d') field = Some (Arr v).
Proof. apply assign_found. Qed.

(** ... and every array stored before is where it was, unless it is below the new one *)
Lemma assign_kept field v : forall d d' p w, assign d field v = Ok d' -> (forall q, p <> (field ++ q)%list) ->
  at_path (Dict d) p = Some (Arr w) -> at_path (Dict d') p = Some (Arr w).
Proof.
  induction field as [|f r IH]; intros d d' p w H N P; [discriminate|]. destruct p as [|k p]; [discriminate|]. cbn in H. cbn [at_path] in P |- *. destruct r as [|f2 r].
  - injection H as <-. rewrite get_put_other; auto. intros ->. apply (N p). reflexivity.
  - destruct (get f d) as [[u|d1]|] eqn:G; try discriminate. destruct (assign d1 (f2 :: r) v) as [d2|] eqn:E; [|discriminate]. injection H as <-.
    destruct (String.eqb_spec k f) as [->|K].
    + rewrite get_put_same. rewrite G in P. apply (IH d1 d2 p w E); auto. intros q Q. apply (N q). cbn. f_equal. exact Q.
    + rewrite get_put_other; auto.
Qed.
Theorem C129_kept_partial d field v d' p w : store_nested d field v = Ok d' -> (forall q, p <> (field ++ q)%list) ->
  at_path (Dict d) p = Some (Arr w) -> at_path (Dict d') p = Some (Arr w).
Proof.
  intros H N P. apply (assign_kept _ _ _ _ _ _ H N). destruct p as [|k p]; [discriminate|]. cbn [at_path] in P |- *. destruct (get k d) eqn:G; [|discriminate]. rewrite (prepare_kept _ _ _ _ G). exact P.
Qed.

(** which calls return: the first name is new, or the dict for the value is there already *)
Lemma assign_cons f f2 r v d : assign d (f :: f2 :: r) v =
  match get f d with None => Err KeyError | Some (Arr _) => Err IndexError | Some (Dict d') => d2 <- assign d' (f2 :: r) v ;; Ok (put f (Dict d2) d) end.
Proof. reflexivity. Qed.
Lemma assign_defined field v : forall d, (exists d', assign d field v = Ok d') <-> field <> [] /\ exists d0, at_path (Dict d) (removelast field) = Some (Dict d0).
Proof.
  induction field as [|f r IH]; intros d; [split; [intros (? & ?); discriminate|tauto]|]. destruct r as [|f2 r].
  - split; [|intros _; cbn; eauto]. intros _. split; [discriminate|]. cbn. eauto.
  - change (removelast (f :: f2 :: r)) with (f :: removelast (f2 :: r)). cbn [at_path]. rewrite assign_cons. destruct (get f d) as [[u|d1]|] eqn:G.
    + split; [intros (? & ?); discriminate|]. intros (_ & d0 & H). exfalso. destruct (removelast (f2 :: r)); cbn in H; congruence.
    + split.
      * intros (d' & H). destruct (assign d1 (f2 :: r) v) as [d2|] eqn:E; [|discriminate]. split; [discriminate|]. apply (proj1 (IH d1)). eauto.
      * intros (_ & H). destruct (proj2 (IH d1)) as (d2 & E); [split; [discriminate|exact H]|]. rewrite E. cbn. eauto.
    + split; [intros (? & ?); discriminate|]. intros (_ & d0 & H). discriminate.
Qed.
Lemma prepare_new field : exists d0, at_path (Dict (prepare (V := V) [] field)) (removelast field) = Some (Dict d0).
Proof.
  induction field as [|f r (d0 & IH)]; [cbn; eauto|]. destruct r as [|f2 r]; [cbn; eauto|]. change (removelast (f :: f2 :: r)) with (f :: removelast (f2 :: r)).
  change (prepare [] (f :: f2 :: r)) with [(f, Dict (prepare (V := V) [] (f2 :: r)))]. cbn [at_path get]. rewrite String.eqb_refl. exists d0. exact IH.
Qed.
Theorem C129_defined_partial d a r v : (exists d', store_nested d (a :: r) v = Ok d') <->
  get a d = None \/ exists d0, at_path (Dict d) (removelast (a :: r)) = Some (Dict d0).
Proof.
  unfold store_nested. rewrite assign_defined. destruct r as [|b r].
  - split; [intros _; right; cbn; eauto|]. intros _. split; [discriminate|]. cbn [removelast at_path]. eauto.
  - change (removelast (a :: b :: r)) with (a :: removelast (b :: r)). cbn [at_path]. destruct (get a d) as [t|] eqn:G.
    + rewrite (prepare_kept _ _ _ _ G). split; [intros (_ & H); auto|]. intros [H|H]; [discriminate|]. split; [discriminate|exact H].
    + split; [auto|]. intros _. split; [discriminate|]. cbn [prepare]. rewrite G. rewrite get_put_same. apply (prepare_new (b :: r)).
Qed.

(** names that are not in the list are not touched at the top *)
Theorem C129_foreign_partial d field v d' k : store_nested d field v = Ok d' -> ~ In k field -> get k d' = get k d.
Proof.
  intros H N. rewrite <- (prepare_foreign field d k N). unfold store_nested in H. destruct field as [|f r]; [discriminate|]. revert H. generalize (prepare d (f :: r)). intros d1 H.
  assert (K : k <> f) by (intros ->; apply N; cbn; auto). destruct r as [|f2 r]; [injection H as <-; apply get_put_other; auto|]. rewrite assign_cons in H.
  destruct (get f d1) as [[u|d2]|]; try discriminate. destruct (assign d2 (f2 :: r) v); [|discriminate]. injection H as <-. apply get_put_other. auto.
Qed.
End Nested.
Print Assumptions C129_found_partial.
Print Assumptions C129_kept_partial.
Print Assumptions C129_defined_partial.
Print Assumptions C129_foreign_partial.

(** the second field of the reserves leaves an empty dict at the top, and a third level beside an earlier field raises *)
Definition ex_after : dict nat := [("bus", Arr 7); ("reserves", Dict [("cost", Arr 1)])].
Theorem C129_refuted :
  (exists d', store_nested ex_after ["reserves"; "zones"] 2 = Ok d' /\ get "zones" ex_after = None /\ get "zones" d' = Some (Dict [])) /\
  store_nested ex_after ["reserves"; "zone"; "req"] 2 = Err KeyError.
Proof. split; [eexists; split; [reflexivity|split; reflexivity]|reflexivity]. Qed.
Print Assumptions C129_refuted.

(** the fields of toggle_reserves.py:141-145, one after the other *)
Example C129_reserves :
  (d1 <- store_nested [("bus", Arr 7)] ["reserves"; "qty"] 1 ;; d2 <- store_nested d1 ["reserves"; "cost"] 2 ;;
   d3 <- store_nested d2 ["reserves"; "zones"] 3 ;; store_nested d3 ["reserves"; "rgens"] 4) =
  Ok [("bus", Arr 7); ("reserves", Dict [("qty", Arr 1); ("cost", Arr 2); ("zones", Arr 3); ("rgens", Arr 4)]);
      ("cost", Dict []); ("zones", Dict []); ("rgens", Dict [])].
Proof. reflexivity. Qed.
