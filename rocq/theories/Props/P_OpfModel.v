(** C08 (indexing), C09 (linear constraints) and C10 (user costs) of class opf_model. *)
From Verif Require Import Lib.QcFacts Lib.LinAlg Lib.ListFacts Model.OpfModel Spec.OmSpec
  Proofs.LinAlgFacts Proofs.OpfModelA Proofs.OpfModelB Proofs.OpfModelC.
Local Open Scope nat_scope.

(** ** C08 *)

(** for every kind of set: the ranges are consecutive in order of declaration, start at 0 and
    end at the total *)
Theorem C08_ranges :
  forall ops m, run ops = Ok m -> distinct_names ops ->
  consecutive (range (o_var m)) (vnames (vars ops)) 0 (getN (o_var m) None) /\
  consecutive (range (o_nln m)) (nlns ops) 0 (getN (o_nln m) None) /\
  consecutive (range (o_lin m)) (map (fun c => (ls_name c, m_rows (ls_A c))) (lins ops)) 0
              (getN (o_lin m) None) /\
  consecutive (range (o_cost m)) (map (fun c => (cs_name c, m_rows (c_N (cs_cp c)))) (costs ops)) 0
              (getN (o_cost m) None).
Proof.
  intros ops m H (N1 & N2 & N3 & N4). destruct (run_blocks _ _ H) as (E1 & E2 & E3 & E4).
  unfold getN. rewrite E1, E2, E3, E4.
  assert (S2 : names_sizes (map nitem (nlns ops)) = nlns ops).
  { unfold names_sizes. rewrite map_map. rewrite <- (map_id (nlns ops)) at 2.
    apply map_ext. intros []; reflexivity. }
  repeat split.
  - rewrite <- vitem_sizes. apply build_consecutive. rewrite vitem_names. auto.
  - rewrite <- S2 at 2. apply build_consecutive. rewrite nitem_names. auto.
  - pose proof (build_consecutive (map litem (lins ops))) as C. unfold names_sizes in C.
    rewrite litem_names, map_map in C. apply C. auto.
  - pose proof (build_consecutive (map citem (costs ops))) as C. unfold names_sizes in C.
    rewrite citem_names, map_map in C. apply C. auto.
Qed.

(** consequences of [consecutive]: every index is in the range of exactly one named set, and
    the sizes add up *)
Lemma consecutive_total rng S i j : consecutive rng S i j -> j = i + total S.
Proof.
  revert i. induction S as [|[nm n] S IH]; simpl; intros i H.
  - unfold total. simpl. lia.
  - destruct H as [_ H]. apply IH in H. unfold total in *. simpl. lia.
Qed.

Lemma consecutive_ge rng S i j nm a b :
  consecutive rng S i j -> In nm (map fst S) -> rng nm = Some (a, b) -> i <= a /\ b <= j.
Proof.
  revert i. induction S as [|[nm' n] S IH]; simpl; intros i H I R; [contradiction|].
  destruct H as [R' H]. pose proof (consecutive_total _ _ _ _ H) as T. destruct I as [->|I].
  - rewrite R' in R. injection R as <- <-. lia.
  - apply IH in H; auto. lia.
Qed.

Theorem C08_every_index_in_one_set :
  forall ops m, run ops = Ok m -> distinct_names ops ->
  forall k, k < getN (o_var m) None ->
  exists! nm, In nm (map vs_name (vars ops)) /\
    exists i1 iN, range (o_var m) nm = Some (i1, iN) /\ i1 <= k < iN.
Proof.
  intros ops m H D k Hk. destruct (C08_ranges ops m H D) as (C & _).
  destruct D as (N1 & _).
  replace (map vs_name (vars ops)) with (map fst (vnames (vars ops))) in *
    by (unfold vnames; rewrite map_map; auto).
  assert (G : forall S i j, consecutive (range (o_var m)) S i j -> NoDup (map fst S) ->
    i <= k < j -> exists! nm, In nm (map fst S) /\
    exists i1 iN, range (o_var m) nm = Some (i1, iN) /\ i1 <= k < iN);
    [|apply (G _ _ _ C N1); lia].
  clear. induction S as [|[nm n] S IH]; simpl; intros i j C N1 Hk; [lia|].
  destruct C as (R & C). inversion N1 as [|? ? NI N1']; subst.
  destruct (Nat.lt_ge_cases k (i + n)) as [L|L].
  - exists nm. split.
    + split; auto. exists i, (i + n). split; auto. lia.
    + intros nm' (I & a & b & R' & Hab). destruct I as [I|I]; auto.
      exfalso. destruct (consecutive_ge _ _ _ _ _ _ _ C I R'). lia.
  - destruct (IH (i + n) j C N1' ltac:(lia)) as (nm' & (I & E) & U).
    exists nm'. split; [split; auto|].
    intros nm'' (I' & E'). destruct I' as [<-|I'].
    + destruct E' as (a & b & R' & Hab). rewrite R in R'. injection R' as <- <-. lia.
    + apply U. split; auto.
Qed.

(** getN of a named set *)
Theorem C08_getN :
  forall ops m, run ops = Ok m -> distinct_names ops ->
  (forall v, In v (vars ops) -> getN (o_var m) (Some (vs_name v)) = vs_n v) /\
  (forall c, In c (lins ops) -> getN (o_lin m) (Some (ls_name c)) = m_rows (ls_A c)) /\
  (forall nm, ~ In nm (map vs_name (vars ops)) -> getN (o_var m) (Some nm) = 0).
Proof.
  intros ops m H (N1 & N2 & N3 & N4). destruct (run_blocks _ _ H) as (E1 & E2 & E3 & E4).
  repeat split.
  - intros v I. rewrite E1.
    destruct (in_split _ _ I) as (V1 & V2 & EV).
    pose proof (build_get (map vitem V1) (vitem v) (map vitem V2) empty_blocks) as G.
    replace (map vitem V1 ++ vitem v :: map vitem V2) with (map vitem (vars ops)) in G
      by (rewrite EV, map_app; reflexivity).
    rewrite vitem_names in G. specialize (G N1).
    unfold getN. change (iname (vitem v)) with (vs_name v) in G. rewrite G. reflexivity.
  - intros v I. rewrite E3.
    destruct (in_split _ _ I) as (V1 & V2 & EV).
    pose proof (build_get (map litem V1) (litem v) (map litem V2) empty_blocks) as G.
    replace (map litem V1 ++ litem v :: map litem V2) with (map litem (lins ops)) in G
      by (rewrite EV, map_app; reflexivity).
    rewrite litem_names in G. specialize (G N3).
    unfold getN. change (iname (litem v)) with (ls_name v) in G. rewrite G. reflexivity.
  - intros nm I. rewrite E1. unfold getN. rewrite build_other by (rewrite vitem_names; auto).
    reflexivity.
Qed.

(** initial values and bounds: those given, or the documented defaults, set after set *)
Theorem C08_getv :
  forall ops m, run ops = Ok m -> distinct_names ops ->
  getv m None =
  Ok (flat_map (fun v => given (vs_v0 v) (vs_n v) (ofZ 0)) (vars ops),
      flat_map (fun v => given (vs_vl v) (vs_n v) NInf) (vars ops),
      flat_map (fun v => given (vs_vu v) (vs_n v) PInf) (vars ops)).
Proof.
  intros ops m H (N1 & _). destruct (run_blocks _ _ H) as (E1 & _). apply getv_all; auto.
Qed.

(** ** C09 *)

Definition total_vars (ops : list op) : nat := total (vnames (vars ops)).

Theorem C09_linear_constraints :
  forall ops m, run ops = Ok m -> distinct_names ops ->
  Forall (lin_wf (vnames (vars ops))) (lins ops) ->
  getN (o_lin m) None <> 0 ->
  exists A l u, linear_constraints m = Ok (Some A, l, u) /\
    length A = getN (o_lin m) None /\
    forall x, length x = total_vars ops ->
      (between l (matvec A x) u <-> Forall (lin_holds (vnames (vars ops)) x) (lins ops)).
Proof.
  intros ops m H (N1 & N2 & N3 & N4) W NZ. destruct (run_blocks _ _ H) as (E1 & E2 & E3 & E4).
  destruct (linear_ok m (vars ops) (lins ops) N1 N3 E1 E3 W NZ) as (Bs & F & E).
  exists (concat Bs), (flat_map low (lins ops)), (flat_map upp (lins ops)). split; auto. split.
  - rewrite (concat_length _ _ _ _ F). unfold getN. rewrite E3, build_N, lsum_isum. reflexivity.
  - intros x Lx. rewrite (concat_matvec m (vars ops) _ _ x F).
    + apply between_concat. auto.
    + rewrite E1, var_total. exact Lx.
Qed.

(** with no rows there is no matrix *)
Theorem C09_no_constraints :
  forall m, getN (o_lin m) None = 0 -> linear_constraints m = Ok (None, [], []).
Proof. intros m H. unfold linear_constraints, getN in *. rewrite H. reflexivity. Qed.

(** a set declared over "all variables" (no variable sets named) breaks when variables are
    added later: the model keeps a reference to the growing list of sets *)
Definition one_row (r : vec) : mat := {| m_rows := 1; m_cols := length r; m_data := [r] |}.
Definition alias_ops : list op :=
  [AddVars "a" 2 None None None;
   AddLin "c" (one_row [1%Qc; 1%Qc]) [ofZ 0] [ofZ 1] [];
   AddVars "b" 2 None None None].

Theorem C45_all_variables_refuted :
  exists ops m, run ops = Ok m /\ distinct_names ops /\
  Forall (lin_wf (vnames (vars (firstn 2 ops)))) (lins ops) /\
  linear_constraints m = Err ValueError.
Proof.
  exists alias_ops. eexists. split; [reflexivity|]. split.
  - repeat split; repeat constructor; simpl; intuition discriminate.
  - split; [|vm_compute; reflexivity].
    constructor; [|constructor]. split; [|split; right; reflexivity].
    split; [split; [reflexivity|repeat constructor]|].
    split; [constructor|]. split; [intros ? []|reflexivity].
Qed.

(** sets declared over named variable sets keep their meaning when variables are added later *)
Lemma part_later S S' x y nm :
  In nm (map fst S) -> length x = total S -> part (S ++ S') (x ++ y) nm = part S x nm.
Proof.
  revert x. induction S as [|[k n] S IH]; simpl; intros x I Lx; [contradiction|].
  unfold total in *. simpl in Lx. destruct (String.eqb_spec nm k) as [->|NE].
  - rewrite firstn_app. replace (n - length x) with 0 by lia.
    rewrite firstn_O, app_nil_r. reflexivity.
  - destruct I as [->|I]; [contradiction|].
    rewrite skipn_app. replace (n - length x) with 0 by lia. rewrite skipn_O.
    apply IH; auto. rewrite skipn_length. lia.
Qed.

Lemma size_of_later S S' nm : In nm (map fst S) -> size_of (S ++ S') nm = size_of S nm.
Proof.
  unfold size_of. induction S as [|[k n] S IH]; simpl; intros I; [contradiction|].
  destruct (String.eqb_spec nm k) as [->|NE]; auto.
  apply IH. destruct I as [->|I]; [contradiction|auto].
Qed.

Lemma over_named S vs : vs <> [] -> over S vs = vs.
Proof. destruct vs; [contradiction|auto]. Qed.

Theorem C45_named_sets_partial :
  forall ops m nm n v0 vl vu m',
  run ops = Ok m -> run (ops ++ [AddVars nm n v0 vl vu]) = Ok m' ->
  distinct_names (ops ++ [AddVars nm n v0 vl vu]) ->
  Forall (lin_wf (vnames (vars ops))) (lins ops) ->
  Forall (fun c => ls_vs c <> []) (lins ops) ->
  getN (o_lin m) None <> 0 ->
  exists A l u A' l' u',
    linear_constraints m = Ok (Some A, l, u) /\ linear_constraints m' = Ok (Some A', l', u') /\
    forall x y, length x = total_vars ops -> length y = n ->
      (between l' (matvec A' (x ++ y)) u' <-> between l (matvec A x) u).
Proof.
  intros ops m nm n v0 vl vu m' R R' D' W NE NZ.
  set (ops' := ops ++ [AddVars nm n v0 vl vu]) in *.
  assert (EL : lins ops' = lins ops)
    by (unfold ops', lins; rewrite flat_map_app; apply app_nil_r).
  assert (EVa : vars ops' = vars ops ++
     [{| vs_name := nm; vs_n := n; vs_v0 := v0; vs_vl := vl; vs_vu := vu |}])
    by (unfold ops', vars; rewrite flat_map_app; reflexivity).
  assert (EVn : vnames (vars ops') = vnames (vars ops) ++ [(nm, n)])
    by (rewrite EVa; unfold vnames; rewrite map_app; reflexivity).
  assert (D : distinct_names ops).
  { destruct D' as (N1 & N2 & N3 & N4). repeat split.
    - rewrite EVa, map_app in N1. apply NoDup_app_l in N1. auto.
    - unfold ops', nlns in N2. rewrite flat_map_app, map_app in N2. apply NoDup_app_l in N2. auto.
    - rewrite EL in N3. auto.
    - unfold ops', costs in N4. rewrite flat_map_app, map_app in N4. apply NoDup_app_l in N4. auto. }
  assert (W' : Forall (lin_wf (vnames (vars ops'))) (lins ops')).
  { rewrite EL, EVn. rewrite Forall_forall in *. intros c I. specialize (W c I).
    specialize (NE c I). destruct W as ((WM & WD & WI & WC) & W2).
    split; auto. split; auto. split; auto. split.
    - rewrite map_app. intros z Iz. apply in_or_app. left. auto.
    - rewrite WC, !over_named by auto. f_equal. apply map_ext_in. intros z Iz. symmetry. apply size_of_later. auto. }
  assert (NZ' : getN (o_lin m') None <> 0).
  { destruct (run_blocks _ _ R) as (_ & _ & E & _). destruct (run_blocks _ _ R') as (_ & _ & E' & _).
    unfold getN in *. rewrite E'. fold ops'. rewrite EL, <- E. auto. }
  destruct (C09_linear_constraints _ _ R D W NZ) as (A & l & u & E & _ & C).
  destruct (C09_linear_constraints _ _ R' D' W' NZ') as (A' & l' & u' & E' & _ & C').
  exists A, l, u, A', l', u'. split; auto. split; auto. intros x y Lx Ly.
  rewrite C by auto. rewrite C'.
  2:{ unfold total_vars. rewrite EVn, app_length, Lx. unfold total_vars, total.
      rewrite map_app, list_sum_app. simpl. lia. }
  rewrite EL, EVn. rewrite !Forall_forall in *.
  assert (P : forall c, In c (lins ops) ->
    parts (vnames (vars ops) ++ [(nm, n)]) (x ++ y) (ls_vs c) = parts (vnames (vars ops)) x (ls_vs c)).
  { intros c I. specialize (W c I). specialize (NE c I). destruct W as ((_ & _ & WI & _) & _).
    unfold parts. rewrite !over_named by auto. apply flat_map_ext_in'.
    intros z Iz. apply part_later; auto. }
  split; intros H c I; specialize (H c I); unfold lin_holds in *; rewrite ?P in *; auto.
Qed.

(** ** C10 *)

(** the assembled cost is the sum of the documented costs of the sets, each without its dd, rh,
    kk and mm (which the model files away under the literal key "name"); querying the total
    does not change the model *)
Theorem C10_total_cost :
  forall ops m, run ops = Ok m -> distinct_names ops ->
  Forall (cost_wf (vnames (vars ops))) (costs ops) ->
  ~ In "name"%string (map cs_name (costs ops)) ->
  getN (o_cost m) None <> 0 ->
  exists m', build_cost_params m = Ok m' /\
  forall x, length x = total_vars ops ->
    compute_cost m' x None =
    Ok (m', fold_right (fun c s => (user_cost (drop_optional (cs_cp c))
              (parts (vnames (vars ops)) x (cs_vs c)) + s)%Qc) 0%Qc (costs ops)).
Proof.
  intros ops m H (N1 & N2 & N3 & N4) W NN NZ. destruct (run_blocks _ _ H) as (E1 & E2 & E3 & E4).
  destruct (compute_all m (vars ops) (costs ops) N1 N4 NN E1 E4 (run_only_name _ _ H) W)
    as (m' & B & C).
  - unfold getN in NZ. rewrite E4, build_N, csum_isum in NZ. exact NZ.
  - exists m'. split; auto. intros x Lx. apply C. rewrite E1, var_total. exact Lx.
Qed.

(** corollary: costs given only by N, Cw and H mean what is documented *)
Theorem C10_plain_costs :
  forall ops m, run ops = Ok m -> distinct_names ops ->
  Forall (cost_wf (vnames (vars ops))) (costs ops) ->
  Forall (fun c => drop_optional (cs_cp c) = cs_cp c) (costs ops) ->
  ~ In "name"%string (map cs_name (costs ops)) ->
  getN (o_cost m) None <> 0 ->
  exists m', build_cost_params m = Ok m' /\
  forall x, length x = total_vars ops ->
    compute_cost m' x None =
    Ok (m', fold_right (fun c s => (user_cost (cs_cp c)
              (parts (vnames (vars ops)) x (cs_vs c)) + s)%Qc) 0%Qc (costs ops)).
Proof.
  intros ops m H D W P NN NZ. destruct (C10_total_cost ops m H D W NN NZ) as (m' & B & C).
  exists m'. split; auto. intros x Lx. rewrite C by auto. f_equal. f_equal.
  clear - P. induction P as [|c cs Pc P IH]; simpl; auto. rewrite Pc, IH. reflexivity.
Qed.

(** the first query for one named set gives that set's cost *)
Theorem C44_first_named_query_partial :
  forall ops m, run ops = Ok m -> distinct_names ops ->
  Forall (cost_wf (vnames (vars ops))) (costs ops) ->
  ~ In "name"%string (map cs_name (costs ops)) ->
  exists m', build_cost_params m = Ok m' /\
  forall x c, length x = total_vars ops -> In c (costs ops) -> m_rows (c_N (cs_cp c)) <> 0 ->
    exists m'', compute_cost m' x (Some (cs_name c)) =
      Ok (m'', user_cost (drop_optional (cs_cp c)) (parts (vnames (vars ops)) x (cs_vs c))).
Proof.
  intros ops m H (N1 & N2 & N3 & N4) W NN. destruct (run_blocks _ _ H) as (E1 & E2 & E3 & E4).
  destruct (build_ok m (vars ops) (costs ops) N1 N4 NN E1 E4 (run_only_name _ _ H) W)
    as (Bs & _ & EB).
  eexists. split; [exact EB|]. intros x c Lx I NZ.
  apply in_split in I as (pre & suf & E).
  destruct (compute_named m (vars ops) (costs ops) N1 N4 NN E1 E4 (run_only_name _ _ H) W
              pre c suf E NZ) as (m' & EB' & C).
  rewrite EB in EB'. injection EB' as <-. apply C. rewrite E1, var_total. exact Lx.
Qed.

(** the evaluation of a parameter set is the documented function of dd, rh, kk and mm, row by
    row, for dead zones of nonnegative width *)
Theorem C10_row_function :
  forall r dd kk mm, (0 <= kk)%Qc -> w_row r dd kk mm = doc_w r dd kk mm.
Proof.
  intros r dd kk mm K. unfold w_row, doc_w.
  destruct (qc_ltb r (- kk)) eqn:A; destruct (qc_ltb kk r) eqn:B;
  destruct (qc_leb (- kk) r) eqn:C; destruct (qc_leb r kk) eqn:D; cbn [andb];
    repeat match goal with
    | H : qc_ltb _ _ = true |- _ => apply qc_ltb_lt in H
    | H : qc_ltb _ _ = false |- _ => apply qc_ltb_ge in H
    | H : qc_leb _ _ = true |- _ => apply qc_leb_le in H
    | H : qc_leb _ _ = false |- _ => apply qc_leb_gt in H
    end; try (exfalso; qc_lra);
  destruct (qc_eqb r 0) eqn:E; destruct (qc_eqb kk 0) eqn:F; cbn [andb b2q];
  destruct (qc_eqb dd 1); destruct (qc_eqb dd (zc 2)); cbn [b2q]; try ring;
    apply qc_eqb_eq in E; apply qc_eqb_eq in F; subst; try ring; exfalso; qc_lra.
Qed.

Theorem C10_eval_params :
  forall q x, Forall (fun k => 0 <= k)%Qc (q_kk q) ->
  length (q_rh q) = length (q_N q) ->
  let w := doc_ws (matvec (q_N q) x) (q_rh q) (q_dd q) (q_kk q) (q_mm q) in
  eval_params q x = (dot (matvec (q_H q) w) w / zc 2 + dot (q_Cw q) w)%Qc.
Proof.
  intros q x K L. cbn zeta. unfold eval_params.
  assert (E : forall y rh dd kk mm, Forall (fun k => 0 <= k)%Qc kk ->
    length rh = length y ->
    w_rows (map2 Qcminus y rh) dd kk mm = doc_ws y rh dd kk mm).
  { clear. unfold map2. induction y as [|a y IH]; intros [|r rh] [|d dd] [|k kk] [|m mm] F L;
      simpl in *; auto; try discriminate.
    inversion F; subst. rewrite C10_row_function by auto. rewrite IH; auto. }
  rewrite E; auto. rewrite matvec_length. auto.
Qed.

(** the optional parameters are lost: a cost (x - 1)^2 declared with rh and dd is evaluated as x *)
Definition sq_ops : list op :=
  [AddVars "x" 1 None None None;
   AddCosts "sq" {| c_N := one_row [1%Qc]; c_Cw := [1%Qc]; c_H := None;
                    c_dd := Some [zc 2]; c_rh := Some [1%Qc]; c_kk := None; c_mm := None |} []].

Definition ok_om (r : result om) : om := match r with Ok m => m | Err _ => new_om end.
Definition ok_pair (r : result (om * Qc)) : om * Qc :=
  match r with Ok p => p | Err _ => (new_om, 0%Qc) end.
Definition sq_m : om := ok_om (run sq_ops).
Definition sq_m1 : om := ok_om (build_cost_params sq_m).

Theorem C44_optional_parameters_refuted :
  exists ops m m' x c, run ops = Ok m /\ distinct_names ops /\ costs ops = [c] /\
  cost_wf (vnames (vars ops)) c /\ build_cost_params m = Ok m' /\
  (exists v, compute_cost m' x None = Ok (m', v) /\ v = zc 3) /\
  user_cost (cs_cp c) (parts (vnames (vars ops)) x (cs_vs c)) = zc 4.
Proof.
  exists sq_ops, sq_m, sq_m1, [zc 3]. eexists.
  split; [vm_compute; reflexivity|]. split.
  { split; [|split; [|split]]; repeat constructor; simpl; intuition discriminate. }
  split; [reflexivity|]. split.
  { split; [|split; [reflexivity|discriminate]].
    split; [split; [reflexivity|repeat constructor]|].
    split; [constructor|]. split; [intros ? []|reflexivity]. }
  split; [vm_compute; reflexivity|]. split.
  - exists (snd (ok_pair (compute_cost sq_m1 [zc 3] None))).
    split; [vm_compute; reflexivity|]. apply Qc_is_canon. vm_compute. reflexivity.
  - apply Qc_is_canon. vm_compute. reflexivity.
Qed.

(** queries by name change later answers: after one named query the total is different, and
    another named query fails *)
Definition two_ops : list op :=
  [AddVars "x" 1 None None None;
   AddCosts "p" {| c_N := one_row [1%Qc]; c_Cw := [1%Qc]; c_H := None;
                   c_dd := None; c_rh := None; c_kk := None; c_mm := None |} [];
   AddCosts "q" {| c_N := one_row [1%Qc]; c_Cw := [zc 10]; c_H := None;
                   c_dd := None; c_rh := None; c_kk := None; c_mm := None |} []].

Definition two_m : om := ok_om (run two_ops).
Definition two_m1 : om := ok_om (build_cost_params two_m).
Definition two_p := ok_pair (compute_cost two_m1 [1%Qc] (Some "p"%string)).
Definition two_t := ok_pair (compute_cost (fst two_p) [1%Qc] None).

Lemma qc_lit a b : (this a == this b)%Q -> a = b.
Proof. apply Qc_is_canon. Qed.

Theorem C44_queries_independent_refuted :
  exists ops m m1 m2 x, run ops = Ok m /\ build_cost_params m = Ok m1 /\
  (exists v, compute_cost m1 x None = Ok (m1, v) /\ v = zc 11) /\
  (exists v, compute_cost m1 x (Some "p"%string) = Ok (m2, v) /\ v = zc 1) /\
  (exists m3 v, compute_cost m2 x None = Ok (m3, v) /\ v = zc 1) /\
  compute_cost m2 x (Some "q"%string) = Err IndexError.
Proof.
  exists two_ops, two_m, two_m1, (fst two_p), [1%Qc].
  split; [vm_compute; reflexivity|]. split; [vm_compute; reflexivity|]. split.
  { exists (snd (ok_pair (compute_cost two_m1 [1%Qc] None))).
    split; [vm_compute; reflexivity|]. apply qc_lit. vm_compute. reflexivity. }
  split.
  { exists (snd two_p). split; [vm_compute; reflexivity|]. apply qc_lit. vm_compute. reflexivity. }
  split.
  { exists (fst two_t), (snd two_t).
    split; [vm_compute; reflexivity|]. apply qc_lit. vm_compute. reflexivity. }
  vm_compute. reflexivity.
Qed.

(** ** a concrete model: three variable sets, two constraint sets over some of them *)
Definition ex_ops : list op :=
  [AddVars "Va" 2 None None None;
   AddVars "Pg" 1 (Some [ofZ 5]) (Some [ofZ 0]) (Some [ofZ 9]);
   AddLin "lim" {| m_rows := 2; m_cols := 3; m_data := [[zc 1; zc 2; zc 3]; [zc 0; zc 1; zc 0]] |}
          [] [ofZ 7; ofZ 8] ["Pg"; "Va"]%string;
   AddNln "mis" 4;
   AddVars "y" 1 None None None;
   AddLin "cap" {| m_rows := 1; m_cols := 1; m_data := [[zc 4]] |} [ofZ 1] [] ["y"%string]].

Definition ex_m : om := ok_om (run ex_ops).
Definition ex_A : list vec :=
  match linear_constraints ex_m with Ok (Some A, _, _) => A | _ => [] end.

Example C08_C09_example :
  exists m, run ex_ops = Ok m /\ distinct_names ex_ops /\
  Forall (lin_wf (vnames (vars ex_ops))) (lins ex_ops) /\
  range (o_var m) "y" = Some (3, 4) /\
  (exists A, linear_constraints m =
     Ok (Some A, [NInf; NInf; ofZ 1], [ofZ 7; ofZ 8; PInf]) /\
     A = [[zc 2; zc 3; zc 1; zc 0]; [zc 1; zc 0; zc 0; zc 0]; [zc 0; zc 0; zc 0; zc 4]]).
Proof.
  exists ex_m. split; [vm_compute; reflexivity|]. split.
  { split; [|split; [|split]]; repeat constructor; simpl; intuition discriminate. }
  split.
  { assert (I1 : incl ["Pg"%string; "Va"%string] (map fst (vnames (vars ex_ops))))
      by (intros z; simpl; intuition).
    assert (I2 : incl ["y"%string] (map fst (vnames (vars ex_ops))))
      by (intros z; simpl; intuition).
    constructor; [|constructor; [|constructor]]; (split; [|split; auto]);
      (split; [split; [reflexivity|repeat constructor]|]); (split; [|split; auto]);
      repeat constructor; simpl; intuition discriminate. }
  split; [vm_compute; reflexivity|].
  exists ex_A. split; vm_compute; reflexivity.
Qed.

Print Assumptions C08_ranges.
Print Assumptions C08_every_index_in_one_set.
Print Assumptions C08_getN.
Print Assumptions C08_getv.
Print Assumptions C09_linear_constraints.
Print Assumptions C09_no_constraints.
Print Assumptions C45_all_variables_refuted.
Print Assumptions C45_named_sets_partial.
Print Assumptions C10_total_cost.
Print Assumptions C10_plain_costs.
Print Assumptions C10_row_function.
Print Assumptions C10_eval_params.
Print Assumptions C44_first_named_query_partial.
Print Assumptions C44_optional_parameters_refuted.
Print Assumptions C44_queries_independent_refuted.
