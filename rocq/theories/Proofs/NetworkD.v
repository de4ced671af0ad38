(** The DC power flow as a whole (C15 partition, C17). *)
From Coq Require Import Permutation.
From Verif Require Import Lib.ListFacts Lib.Sparse Proofs.LinAlgFacts Proofs.SparseFacts
  Model.Network Spec.NetSpec Proofs.NetworkA Proofs.NetworkB Proofs.NetworkC.
Local Open Scope nat_scope.

Section DC.
Context {K : Type} {F : Fld K}.
Add Ring KR : (@r_ok K _).
Add Field KF : (@f_ok K _).

Lemma NoDup_app_intro {A} (l l' : list A) :
  NoDup l -> NoDup l' -> (forall x, In x l -> In x l' -> False) -> NoDup (l ++ l').
Proof.
  induction 1 as [|a l NI N IH]; simpl; intros N' D; auto. constructor.
  - rewrite in_app_iff. intros [C|C]; eauto.
  - apply IH; auto. intros x H1 H2. eapply D; eauto.
Qed.

Lemma bustypes_partition bus gen ref pv pq :
  bustypes bus gen = Ok (ref, pv, pq) -> types_ok bus ->
  Permutation (ref ++ pv ++ pq) (seq 0 (length bus)).
Proof.
  intros H T.
  assert (Permutation (find (mask bus gen m_ref) ++ find (mask bus gen m_pv) ++ find (mask bus gen m_pq))
            (seq 0 (length bus))) as P.
  { apply NoDup_Permutation.
    - apply NoDup_app_intro; [apply find_NoDup|apply NoDup_app_intro; try apply find_NoDup|].
      + intros i. apply find_disjoint_lists. unfold m_pv, m_pq. intros t g A B.
        apply andb_true_iff in A as [A ->]. apply feqb_ok in A as ->.
        rewrite orb_false_r in B. unfold PV_BUS, PQ_BUS in B. rewrite feqb_fofZ in B. discriminate.
      + intros i Hi Hj. apply in_app_or in Hj as [Hj|Hj];
          revert Hi Hj; apply find_disjoint_lists; unfold m_ref, m_pv, m_pq; intros t g A B;
          apply andb_true_iff in A as [A ->]; apply feqb_ok in A as ->.
        * apply andb_true_iff in B as [B _]. unfold REF_BUS, PV_BUS in B.
          rewrite feqb_fofZ in B. discriminate.
        * rewrite orb_false_r in B. unfold REF_BUS, PQ_BUS in B. rewrite feqb_fofZ in B. discriminate.
    - apply seq_NoDup.
    - intros i. rewrite in_seq, !in_app_iff, !in_mask. split.
      + intros [(r & Hr & _)|[(r & Hr & _)|(r & Hr & _)]]; apply nth_error_some_lt in Hr; lia.
      + intros [_ Li]. simpl in Li. destruct (nth_error_lt bus i Li) as (r & Hr).
        assert (cell r BUS_TYPE = fofZ 1 \/ cell r BUS_TYPE = fofZ 2 \/ cell r BUS_TYPE = fofZ 3) as C.
        { unfold types_ok in T. rewrite Forall_forall in T. apply T. eapply nth_error_In; eauto. }
        unfold m_ref, m_pv, m_pq, REF_BUS, PV_BUS, PQ_BUS.
        destruct (gen_on gen i) eqn:G.
        * destruct C as [C|[C|C]].
          -- right; right. exists r. rewrite C, feqb_fofZ. auto.
          -- right; left. exists r. rewrite C, feqb_fofZ. auto.
          -- left. exists r. rewrite C, feqb_fofZ. auto.
        * right; right. exists r. rewrite orb_true_r. auto. }
  destruct (bustypes_cases _ _ _ _ _ H) as [(_ & -> & -> & ->)|(p & E & -> & E' & ->)]; auto.
  rewrite E, E' in P. exact P.
Qed.

Lemma bustypes_gen bus gen ref pv pq i :
  bustypes bus gen = Ok (ref, pv, pq) -> In i ref \/ In i pv -> has_gen gen i.
Proof.
  intros H I.
  assert (In i (find (mask bus gen m_ref)) \/ In i (find (mask bus gen m_pv))) as J.
  { destruct (bustypes_cases _ _ _ _ _ H) as [(_ & -> & -> & ->)|(p & E & -> & E' & ->)]; auto.
    right. rewrite E'. destruct I as [[->|[]]|I]; simpl; auto. }
  apply gen_on_iff. destruct J as [J|J]; apply in_mask in J as (r & _ & J);
    apply andb_true_iff in J; tauto.
Qed.

(** ** the pieces of runpf_dc *)
Lemma setcol_ok j (vals : list K) t t' : setcol j vals t = Ok t' ->
  length vals = length t /\ Forall (fun r => j < length r) t /\
  t' = map2 (fun v r => upd r j v) vals t.
Proof.
  unfold setcol. destruct (Nat.eqb_spec (length vals) (length t)) as [L|]; simpl; [|discriminate].
  intros H. split; auto. revert vals L t' H. induction t as [|r t IH]; intros [|v vals] L t' H;
    simpl in *; try discriminate.
  - injection H as <-. auto.
  - apply bind_ok in H as (r' & Hr & H). apply bind_ok in H as (rs & Hrs & H).
    injection H as <-. destruct (IH vals) with (t' := rs) as [A ->]; auto.
    unfold set_checked in Hr. destruct (Nat.ltb_spec j (length r)); [|discriminate].
    injection Hr as <-. auto.
Qed.

Lemma nth_setcol j (vals : list K) t l : length vals = length t -> l < length t ->
  nth l (map2 (fun v r => upd r j v) vals t) [] = upd (nth l t []) j (nth l vals 0%K).
Proof. intros L H. apply (nth_map2_d (fun v r => upd r j v)); lia. Qed.

Lemma nth_upd_same (r : list K) j v : j < length r -> nth j (upd r j v) 0%K = v.
Proof. intros H. apply nth_error_nth. rewrite nth_error_upd_same; auto. Qed.

Lemma nth_upd_other (r : list K) j v k : j <> k -> nth k (upd r j v) 0%K = nth k r 0%K.
Proof.
  intros H. revert j k H. induction r as [|a r IH]; intros [|j] [|k] H; simpl; auto; try congruence.
Qed.

Lemma first_gen_ok (gen : list (list K)) b g :
  let on := find (map in_service gen) in
  first_gen on (map (fun r => bus_no r GEN_BUS) (filter in_service gen)) b = Ok g ->
  exists row, nth_error gen g = Some row /\ in_service row = true /\ bus_no row GEN_BUS = b /\
  forall g' row', g' < g -> nth_error gen g' = Some row' ->
    in_service row' = true -> bus_no row' GEN_BUS <> b.
Proof.
  intros on H. unfold first_gen in H. apply bind_ok in H as (k & Hk & H).
  remember (find (map (fun b0 => b0 =? b)
     (map (fun r => bus_no r GEN_BUS) (filter in_service gen)))) as m eqn:Dm.
  destruct m as [|k0 m']; simpl in Hk; [discriminate|]. injection Hk as ->.
  apply get_ok in H. destruct (nth_error_find _ _ _ _ H) as (row & Hg & Hs & Hf).
  assert (In k (find (map (fun b0 => b0 =? b) (map (fun r => bus_no r GEN_BUS) (filter in_service gen))))) as Ik
    by (rewrite <- Dm; left; auto).
  apply in_find in Ik. rewrite map_map, nth_error_map, Hf in Ik. simpl in Ik. injection Ik as Ik.
  apply Nat.eqb_eq in Ik. exists row. repeat split; auto.
  intros g' row' Lg Hg' Hs' Hb.
  (* g' is listed in [on] at some position below k *)
  assert (In g' on) as Ion.
  { apply in_find. rewrite nth_error_map, Hg'. simpl. congruence. }
  apply In_nth_error in Ion as (k' & Hk').
  destruct (nth_error_find _ _ _ _ Hk') as (row2 & Hg2 & _ & Hf2).
  rewrite Hg' in Hg2. injection Hg2 as <-.
  assert (In k' (k :: m')) as Im.
  { rewrite Dm. apply in_find. rewrite map_map, nth_error_map, Hf2.
    simpl. f_equal. apply Nat.eqb_eq. auto. }
  assert (k' < k) as Lk.
  { destruct (Nat.lt_ge_cases k' k) as [|G]; auto. exfalso.
    pose proof (find_sorted (map in_service gen)) as SS. fold on in SS.
    assert (g <= g'); [|lia].
    destruct (Nat.eq_dec k k') as [->|NE]; [rewrite H in Hk'; injection Hk' as ->; lia|].
    apply Nat.lt_le_incl. clear -SS H Hk' G NE.
    assert (k < k') as L by lia. clear G NE. revert k k' H Hk' L.
    induction SS as [|a l S IH FA]; intros [|k] [|k'] H H' L; simpl in *; try discriminate; try lia.
    - injection H as ->. rewrite Forall_forall in FA. apply FA. eapply nth_error_In; eauto.
    - apply (IH k k'); auto. lia. }
  pose proof (find_sorted (map (fun b0 => b0 =? b) (map (fun r => bus_no r GEN_BUS) (filter in_service gen)))) as SS.
  rewrite <- Dm in SS. inversion SS as [|? ? _ FA]; subst.
  destruct Im as [->|Im]; [lia|]. rewrite Forall_forall in FA. specialize (FA _ Im). lia.
Qed.
End DC.
