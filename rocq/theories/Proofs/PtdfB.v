(** PTDF and LODF: transfers and outages. *)
From Verif Require Import Lib.ListFacts Lib.Sparse Proofs.LinAlgFacts Proofs.SparseFacts
  Model.Network Spec.NetSpec Proofs.NetworkA Proofs.NetworkB Proofs.NetworkC Proofs.NetworkD
  Proofs.NetworkE Proofs.PtdfA.
Local Open Scope nat_scope.

Section PtdfB.
Context {K : Type} {F : Fld K}.
Add Ring KR : (@r_ok K _).
Add Field KF : (@f_ok K _).

Lemma net_out_inc (fl : list K -> K) branch i :
  net_out fl branch i = lsum (fun r => inc r i * fl r)%K branch.
Proof.
  unfold net_out. apply lsum_ext. intros r _. unfold inc.
  destruct (_ =? i); destruct (_ =? i); ring.
Qed.

Lemma net_out_diff bus branch Bbus Bf Pbi Pfi (V1 V2 : list K) i :
  bdc_spec bus branch Bbus Bf Pbi Pfi ->
  (net_out (flow_at V2) branch i - net_out (flow_at V1) branch i
   = mulrow Bbus V2 i - mulrow Bbus V1 i)%K.
Proof.
  intros [_ _ _ X _ _ _ _ INJ _]. rewrite !net_out_inc, !INJ, <- !lsum_sub.
  rewrite Forall_forall in X. apply lsum_ext. intros r Hr. unfold flow_at.
  rewrite !dc_flow_susc by (apply X; auto). ring.
Qed.

Lemma flow_diff bus branch Bbus Bf Pbi Pfi (V1 V2 : list K) l r :
  bdc_spec bus branch Bbus Bf Pbi Pfi -> nth_error branch l = Some r ->
  (dc_flow r V2 - dc_flow r V1 = mulrow Bf V2 l - mulrow Bf V1 l)%K.
Proof.
  intros [_ _ _ X _ _ FL _ _ _] Hr. rewrite !(FL _ _ _ Hr). rewrite Forall_forall in X.
  rewrite !dc_flow_susc by (apply X; eapply nth_error_In; eauto). ring.
Qed.

Lemma factor_transfer bus branch Bbus Bf Pbi Pfi l r h (V1 V2 : list K) :
  bdc_spec bus branch Bbus Bf Pbi Pfi -> nth_error branch l = Some r ->
  is_factor bus Bbus Bf l h ->
  lsum (fun s => nth s h 0 * (net_out (flow_at V2) branch s - net_out (flow_at V1) branch s))%K
    (seq 0 (length bus))
  = (dc_flow r V2 - dc_flow r V1)%K.
Proof.
  intros BDC Hr [_ FC]. rewrite (flow_diff _ _ _ _ _ _ _ _ _ _ BDC Hr), <- !FC, <- lsum_sub.
  apply lsum_ext. intros s _. rewrite (net_out_diff _ _ _ _ _ _ _ _ _ BDC). ring.
Qed.

(** ** outage of a branch *)
Lemma net_out_outage branch o r (V : list K) i :
  nth_error branch o = Some r -> wide BR_STATUS branch -> Forall (fun r => cell r BR_X <> 0%K) branch ->
  net_out (flow_at V) (outage branch o) i
  = (net_out (flow_at V) branch i - inc r i * dc_flow r V)%K.
Proof.
  intros Hr W X. unfold outage. rewrite (nth_error_nth _ _ _ Hr).
  rewrite !net_out_inc, (lsum_upd _ _ _ _ _ Hr). unfold wide in W.
  rewrite Forall_forall in W, X. specialize (W r (nth_error_In _ _ Hr)).
  specialize (X r (nth_error_In _ _ Hr)). unfold flow_at.
  assert (dc_flow (upd r BR_STATUS 0%K) V = 0%K) as ->.
  { unfold dc_flow. assert (cell (upd r BR_STATUS 0%K) BR_STATUS = 0%K) as ->
      by (apply nth_upd_same; auto).
    rewrite (Fdiv_def f_ok). ring. }
  ring.
Qed.

Lemma factor_inc bus Bbus Bf l h r :
  is_factor bus Bbus Bf l h -> bus_no r F_BUS < length bus -> bus_no r T_BUS < length bus ->
  lsum (fun s => nth s h 0 * inc r s)%K (seq 0 (length bus))
  = (nth (bus_no r F_BUS) h 0 - nth (bus_no r T_BUS) h 0)%K.
Proof.
  intros [L _] A B. unfold inc.
  rewrite (lsum_ext _ (fun s => (if bus_no r F_BUS =? s then nth s h 0 else 0)
                              - (if bus_no r T_BUS =? s then nth s h 0 else 0))%K).
  - rewrite lsum_sub. rewrite !(lsum_seq_single' (fun s => nth s h 0%K)) by auto. reflexivity.
  - intros s _. destruct (_ =? s); destruct (_ =? s); ring.
Qed.

(** the entries of makeLODF *)
Definition lodf_entry (branch PTDF : list (list K)) (i j : nat) : option K :=
  let hij i j := (nth (bus_no (nth j branch []) F_BUS) (nth i PTDF []) 0
                - nth (bus_no (nth j branch []) T_BUS) (nth i PTDF []) 0)%K in
  if feqb (1 - hij j j)%K 0%K then None
  else Some (if i =? j then ropp 1%K else (hij i j / (1 - hij j j))%K).

Lemma makeLODF_ok branch PTDF nb L :
  makeLODF branch PTDF nb = Ok L -> length branch = length PTDF ->
  L = map (fun i => map (lodf_entry branch PTDF i) (seq 0 (length PTDF))) (seq 0 (length PTDF)).
Proof.
  intros H LB. unfold makeLODF in H. destruct (negb _) eqn:EW; [discriminate|].
  apply negb_false_iff in EW. rewrite forallb_forall in EW.
  apply bind_ok in H as (f & Hf & H). apply bind_ok in H as (t & Ht & H).
  apply bind_ok in H as (Cft & HC & H).
  apply idxcol_ok in Hf as (_ & _ & ->). apply idxcol_ok in Ht as (_ & _ & ->).
  apply sparse_ok in HC as (_ & _ & RR & _ & ->).
  set (n := length PTDF) in *.
  assert (forall (r : list K) j, j < n -> mulrow (transp (SM nb n (zip3
     (map (fun r => bus_no r F_BUS) branch ++ map (fun r => bus_no r T_BUS) branch)
     (seq 0 n ++ seq 0 n) (repeat 1%K n ++ repeat (ropp 1%K) n)))) r j
     = (nth (bus_no (nth j branch []) F_BUS) r 0 - nth (bus_no (nth j branch []) T_BUS) r 0)%K) as M.
  { intros r j Hj. rewrite mulrow_transp. cbn [ents].
    rewrite zip3_app by (rewrite ?map_length, ?seq_length, ?repeat_length; auto).
    rewrite lsum_app.
    rewrite (lsum_zip3 _ _ _ _ n) by (rewrite ?map_length, ?seq_length, ?repeat_length; auto).
    rewrite (lsum_zip3 _ _ _ _ n) by (rewrite ?map_length, ?seq_length, ?repeat_length; auto).
    pose (g1 := fun k => nth (bus_no (nth k branch []) F_BUS) r 0%K).
    pose (g2 := fun k => (- nth (bus_no (nth k branch []) T_BUS) r 0)%K).
    rewrite (lsum_ext _ (fun k => if j =? k then g1 k else 0%K)).
    rewrite (lsum_seq_single' g1) by auto.
    rewrite (lsum_ext _ (fun k => if j =? k then g2 k else 0%K)).
    rewrite (lsum_seq_single' g2) by auto.
    - unfold g1, g2. ring.
    - intros k Hk. apply in_seq in Hk. cbn [erow ecol ev]. rewrite seq_nth by lia.
      rewrite nth_repeat_lt by lia. rewrite (nth_map_lt _ branch k _ []) by lia.
      simpl plus. rewrite Nat.eqb_sym. unfold g2. destruct (j =? k); ring.
    - intros k Hk. apply in_seq in Hk. cbn [erow ecol ev]. rewrite seq_nth by lia.
      rewrite nth_repeat_lt by lia. rewrite (nth_map_lt _ branch k _ []) by lia.
      simpl plus. rewrite Nat.eqb_sym. unfold g1. destruct (j =? k); ring. }
  injection H as <-. apply map_ext_in. intros i Hi. apply in_seq in Hi.
  apply map_ext_in. intros j Hj. apply in_seq in Hj.
  rewrite (nth_map_lt _ _ i _ []) by (rewrite map_length; unfold n in *; lia).
  rewrite (nth_map_lt _ PTDF i _ []) by (unfold n in *; lia).
  rewrite (nth_map2_d _ _ _ j 0%K 0%K) by (rewrite ?map_length, ?seq_length; lia).
  rewrite !(nth_map_lt _ (seq 0 n) j _ 0) by (rewrite seq_length; lia).
  rewrite seq_nth by lia. simpl plus.
  rewrite (nth_map_lt _ PTDF j _ []) by (unfold n in *; lia).
  rewrite !(nth_map_lt _ (seq 0 n) j _ 0) by (rewrite seq_length; lia).
  rewrite seq_nth by lia. simpl plus. rewrite !M by lia.
  unfold lodf_entry. destruct (feqb _ 0%K) eqn:E; auto. f_equal.
  destruct (Nat.eqb_spec i j); [subst|]; try ring.
Qed.
End PtdfB.
