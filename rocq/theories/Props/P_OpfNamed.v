(** Properties C08 and C10 of class opf_model, continued: one set of variables; sizes of user costs. *)
From Verif Require Import Lib.QcFacts Lib.LinAlg Lib.ListFacts Model.OpfModel Spec.OmSpec
  Proofs.LinAlgFacts Proofs.OpfModelA Proofs.OpfModelB Proofs.OpfModelC.
Local Open Scope nat_scope.

(** start values and bounds of one set: those given, or the defaults; nothing for a name that is not there *)
Theorem C08_getv_named ops m : run ops = Ok m -> distinct_names ops ->
  (forall v, In v (vars ops) -> getv m (Some (vs_name v)) =
     Ok (given (vs_v0 v) (vs_n v) (ofZ 0), given (vs_vl v) (vs_n v) NInf, given (vs_vu v) (vs_n v) PInf)) /\
  (forall nm, ~ In nm (map vs_name (vars ops)) -> getv m (Some nm) = Ok ([], [], [])).
Proof.
  intros H (N1 & _). destruct (run_blocks _ _ H) as (E1 & _). split.
  - intros v I. unfold getv. rewrite E1.
    destruct (in_split _ _ I) as (V1 & V2 & EV).
    pose proof (build_get (map vitem V1) (vitem v) (map vitem V2) empty_blocks) as G.
    replace (map vitem V1 ++ vitem v :: map vitem V2) with (map vitem (vars ops)) in G by (rewrite EV, map_app; reflexivity).
    rewrite vitem_names in G. specialize (G N1). change (iname (vitem v)) with (vs_name v) in G. rewrite G. reflexivity.
  - intros nm I. unfold getv. rewrite E1. rewrite build_other by (rewrite vitem_names; auto). reflexivity.
Qed.

(** user costs that are accepted have consistent sizes *)
Theorem C10_sizes m name cp vs m' : add_costs m name cp vs = Ok m' ->
  let nw := m_rows (c_N cp) in
  length (c_Cw cp) = nw /\ (forall H, c_H cp = Some H -> m_rows H = nw /\ m_cols H = nw) /\
  (forall v, c_dd cp = Some v \/ c_rh cp = Some v \/ c_kk cp = Some v \/ c_mm cp = Some v -> length v = nw).
Proof.
  unfold add_costs, guard. intros H. destruct (count_vars _ _) as [nv|]; [|discriminate]. cbn [bind] in H.
  destruct ((m_cols (c_N cp) =? nv) || negb (m_rows (c_N cp) =? 0)); [|discriminate]. cbn [bind] in H.
  destruct (Nat.eqb_spec (length (c_Cw cp)) (m_rows (c_N cp))) as [E1|]; [|discriminate]. cbn [bind] in H.
  destruct (match c_H cp with None => true | Some H => _ end) eqn:E2; [|discriminate]. cbn [bind] in H.
  destruct (opt_len_ok _ (c_dd cp) && _ && _ && _) eqn:E3; [|discriminate]. clear H. cbv zeta. split; [exact E1|]. split.
  - intros h Eh. rewrite Eh in E2. apply andb_prop in E2 as (A & B). apply Nat.eqb_eq in A, B. auto.
  - apply andb_prop in E3 as (E3 & D4). apply andb_prop in E3 as (E3 & D3). apply andb_prop in E3 as (D1 & D2).
    intros v [E|[E|[E|E]]]; [rewrite E in D1|rewrite E in D2|rewrite E in D3|rewrite E in D4]; apply Nat.eqb_eq; assumption.
Qed.
Print Assumptions C08_getv_named.
Print Assumptions C10_sizes.

Example C08_named_example :
  (m <- run [AddVars "Va" 2 None (Some [ofZ 0; ofZ 1]) None; AddVars "Pg" 1 (Some [ofZ 5]) None (Some [ofZ 9])] ;; getv m (Some "Pg"%string))
  = Ok ([ofZ 5], [NInf], [ofZ 9]).
Proof. reflexivity. Qed.
