(** Bus types (C15). *)
From Coq Require Import Permutation Sorted.
From Verif Require Import Lib.ListFacts Lib.Sparse Proofs.LinAlgFacts Proofs.SparseFacts
  Model.Network Spec.NetSpec.
Local Open Scope nat_scope.

Lemma zlsum_nonneg {A} (f : A -> Z) l : (forall x, In x l -> 0 <= f x)%Z -> (0 <= lsum f l)%Z.
Proof.
  induction l as [|a l IH]; simpl; intros H; [lia|].
  pose proof (H a (or_introl eq_refl)). assert (0 <= lsum f l)%Z by (apply IH; auto).
  change (0 <= f a + lsum f l)%Z. lia.
Qed.

Lemma zlsum_pos {A} (f : A -> Z) l : (forall x, In x l -> 0 <= f x)%Z ->
  lsum f l <> 0%Z <-> exists x, In x l /\ f x <> 0%Z.
Proof.
  induction l as [|a l IH]; simpl; intros H.
  - split; [intros C; exfalso; apply C; reflexivity|intros (x & [] & _)].
  - change (f a + lsum f l <> 0 <-> exists x, (a = x \/ In x l) /\ f x <> 0)%Z.
    assert (0 <= lsum f l)%Z by (apply zlsum_nonneg; auto).
    pose proof (H a (or_introl eq_refl)). specialize (IH (fun x Hx => H x (or_intror Hx))).
    split.
    + intros N. destruct (Z.eq_dec (f a) 0) as [E|E].
      * destruct (proj1 IH) as (x & Hx & Hf); [lia|]. exists x; auto.
      * exists a; auto.
    + intros (x & [<-|Hx] & Hf); [lia|]. assert (lsum f l <> 0)%Z by (apply IH; eauto). lia.
Qed.

Section BusTypes.
Context {K : Type} {F : Fld K}.

Lemma fofZ_inj a b : fofZ a = fofZ b :> K -> a = b.
Proof. intros H. rewrite <- (ftrunc_ofZ a), <- (ftrunc_ofZ b), H. reflexivity. Qed.

Lemma idxcol_ok e j (t : list (list K)) c : idxcol e j t = Ok c ->
  Forall (fun r => j < length r) t /\ Forall (fun r => (0 <= ftrunc (cell r j))%Z) t /\
  c = map (fun r => bus_no r j) t.
Proof.
  unfold idxcol. intros H. apply bind_ok in H. destruct H as (v & Hv & H).
  apply col_ok in Hv. destruct Hv as [W ->]. split; auto. clear W.
  revert c H. induction t as [|r t IH]; simpl; intros c H.
  - injection H as <-; auto.
  - apply bind_ok in H. destruct H as (y & Hy & H). apply bind_ok in H.
    destruct H as (ys & Hys & H). injection H as <-. destruct (IH _ Hys) as [A ->].
    unfold to_idx in Hy. destruct (ftrunc (nth j r 0%K) <? 0)%Z eqn:E; [discriminate|].
    injection Hy as <-. apply Z.ltb_ge in E. split; auto.
Qed.

Lemma idxcol_def e j (t : list (list K)) :
  Forall (fun r => j < length r) t -> Forall (fun r => (0 <= ftrunc (cell r j))%Z) t ->
  idxcol e j t = Ok (map (fun r => bus_no r j) t).
Proof.
  intros W P. unfold idxcol. rewrite col_def by auto. simpl. clear W.
  induction P as [|r t H _ IH]; auto. simpl. rewrite IH. unfold to_idx at 1.
  unfold cell in H. apply Z.ltb_ge in H. rewrite H. reflexivity.
Qed.

(** what bustypes computes for the generator flags *)
Definition gen_on (gen : list (list K)) (i : nat) : bool :=
  existsb (fun g => in_service g && (bus_no g GEN_BUS =? i)) gen.

Lemma gen_on_iff gen i : gen_on gen i = true <-> has_gen gen i.
Proof.
  unfold gen_on, has_gen. rewrite existsb_exists. split.
  - intros (g & Hg & H). apply andb_true_iff in H. destruct H as [A B].
    apply Nat.eqb_eq in B. eauto.
  - intros (g & Hg & A & B). exists g. split; auto. rewrite A, B, Nat.eqb_refl. auto.
Qed.

Lemma count_on (gen : list (list K)) nb M i :
  sparse (map (fun s => if pos_status s then 1%Z else 0%Z)
            (map (fun r => nth GEN_STATUS r 0%K) gen))
    (map (fun r => bus_no r GEN_BUS) gen) (seq 0 (length gen)) nb (length gen) = Ok M ->
  negb (mulrow M (repeat 1%Z (length gen)) i =? 0)%Z = gen_on gen i.
Proof.
  intros H. apply sparse_ok in H. destruct H as (L1 & L2 & _ & _ & ->).
  unfold mulrow; simpl ents.
  rewrite (lsum_zip3 _ _ _ _ (length gen)) by (rewrite ?map_length, ?seq_length; auto).
  pose (f := fun g => if in_service g && (bus_no g GEN_BUS =? i) then 1%Z else 0%Z).
  rewrite (lsum_ext _ (fun k => f (nth k gen []))).
  2: { intros k Hk. apply in_seq in Hk. cbn [erow ecol ev]. rewrite map_map.
       rewrite (nth_map_lt _ gen k _ []), (nth_map_lt _ gen k _ []) by lia.
       rewrite seq_nth by lia. rewrite nth_repeat_lt by lia. unfold f, in_service, pos_status, cell.
       destruct (bus_no (nth k gen []) GEN_BUS =? i);
         [|rewrite andb_false_r; reflexivity].
       rewrite andb_true_r. destruct (fltb _ _); reflexivity. }
  rewrite <- (lsum_nth f gen []).
  assert (forall g, In g gen -> (0 <= f g)%Z) as P
    by (intros g _; unfold f; destruct (_ && _); lia).
  pose proof (zlsum_pos f gen P) as Z. destruct (gen_on gen i) eqn:E.
  - apply negb_true_iff, Z.eqb_neq, Z. unfold gen_on in E. apply existsb_exists in E.
    destruct E as (g & Hg & E). exists g. split; auto. unfold f. rewrite E. lia.
  - apply negb_false_iff, Z.eqb_eq. destruct (Z.eq_dec (lsum f gen) 0) as [->|N]; auto.
    apply Z in N. destruct N as (g & Hg & N). unfold f in N.
    destruct (in_service g && (bus_no g GEN_BUS =? i)) eqn:E'; [|congruence].
    unfold gen_on in E. assert (existsb (fun g => in_service g && (bus_no g GEN_BUS =? i)) gen = true)
      by (apply existsb_exists; eauto). congruence.
Qed.

(** the three raw masks *)
Definition mask (bus gen : list (list K)) (p : K -> bool -> bool) : list bool :=
  map2 p (map (fun r => nth BUS_TYPE r 0%K) bus) (map (gen_on gen) (seq 0 (length bus))).

Lemma in_mask bus gen p i : In i (find (mask bus gen p)) <->
  exists r, nth_error bus i = Some r /\ p (cell r BUS_TYPE) (gen_on gen i) = true.
Proof.
  rewrite in_find. unfold mask, map2. rewrite nth_error_map.
  destruct (nth_error bus i) as [r|] eqn:E.
  - assert (i < length bus) as L by (eapply nth_error_some_lt; eauto).
    assert (nth_error (combine (map (fun r => nth BUS_TYPE r 0%K) bus)
              (map (gen_on gen) (seq 0 (length bus)))) i
            = Some (cell r BUS_TYPE, gen_on gen i)) as ->.
    { rewrite (nth_error_nth' _ (0%K, false))
        by (rewrite combine_length, !map_length, seq_length; lia).
      rewrite combine_nth by (rewrite !map_length, seq_length; lia).
      rewrite (nth_map_lt _ bus i _ []) by auto.
      rewrite (nth_map_lt _ (seq 0 (length bus)) i _ 0) by (rewrite seq_length; auto).
      rewrite seq_nth by auto. rewrite (nth_error_nth _ _ _ E). reflexivity. }
    simpl. split.
    + intros H. injection H as H. eauto.
    + intros (r' & Hr & H). injection Hr as <-. rewrite H. reflexivity.
  - rewrite (proj2 (nth_error_None _ _)).
    + split; [discriminate|]. intros (r & Hr & _); discriminate.
    + apply nth_error_None in E. rewrite combine_length, map_length. lia.
Qed.

Definition m_ref := (fun (t : K) g => feqb t REF_BUS && g).
Definition m_pv := (fun (t : K) g => feqb t PV_BUS && g).
Definition m_pq := (fun (t : K) g => feqb t PQ_BUS || negb g).

Definition pick (ref pv pq : list nat) : result (list nat * list nat * list nat) :=
  match ref with
  | [] => match pv with [] => Err IndexError | p :: pv' => Ok ([p], pv', pq) end
  | _ => Ok (ref, pv, pq)
  end.

Lemma bustypes_pick bus gen r :
  bustypes bus gen = r -> wide GEN_STATUS gen -> buses_ok (length bus) GEN_BUS gen ->
  wide BUS_TYPE bus ->
  r = pick (find (mask bus gen m_ref)) (find (mask bus gen m_pv)) (find (mask bus gen m_pq)).
Proof.
  intros <- W B WB. unfold bustypes, wide, buses_ok in *.
  rewrite col_def by auto. cbn [bind].
  assert (Forall (fun r : list K => GEN_BUS < length r) gen) as W0
    by (eapply Forall_impl; [|exact W]; unfold GEN_STATUS, GEN_BUS; simpl; intros; lia).
  rewrite idxcol_def; auto.
  2: { eapply Forall_impl; [|exact B]; simpl; tauto. }
  cbn [bind].
  pose proof (sparse_def (map (fun s => if pos_status s then 1%Z else 0%Z)
     (map (fun r => nth GEN_STATUS r 0%K) gen)) (map (fun r => bus_no r GEN_BUS) gen)
     (seq 0 (length gen)) (length bus) (length gen)) as S.
  rewrite S.
  - cbn [bind].
    match goal with |- context [mulv ?M ?x] => pose proof (mulv_def M x) as Hm; set (m := M) in * end.
    rewrite Hm by (rewrite repeat_length; reflexivity). cbn [bind].
    rewrite (col_def BUS_TYPE) by auto. cbn [bind].
    assert (map (fun n => negb (n =? 0)%Z)
       (map (mulrow m (repeat 1%Z (length gen))) (seq 0 (nrows m)))
       = map (gen_on gen) (seq 0 (length bus))) as ->.
    { rewrite map_map. apply map_ext. intros i. apply (count_on gen (length bus)).
      apply S; rewrite ?map_length, ?seq_length; auto.
      - apply Forall_map. eapply Forall_impl; [|exact B]; simpl; tauto.
      - apply Forall_forall. intros k Hk. apply in_seq in Hk. lia. }
    reflexivity.
  - rewrite !map_length; auto.
  - rewrite !map_length, seq_length; auto.
  - apply Forall_map. eapply Forall_impl; [|exact B]; simpl; tauto.
  - apply Forall_forall. intros k Hk. apply in_seq in Hk. lia.
Qed.

(** success implies usable tables *)
Lemma bustypes_ok_wf bus gen r : bustypes bus gen = Ok r ->
  wide GEN_STATUS gen /\ buses_ok (length bus) GEN_BUS gen /\ wide BUS_TYPE bus.
Proof.
  unfold bustypes. intros H. apply bind_ok in H. destruct H as (st & H1 & H).
  apply bind_ok in H. destruct H as (gb & H2 & H). apply bind_ok in H.
  destruct H as (Cg & H3 & H). apply bind_ok in H. destruct H as (cnt & _ & H).
  apply bind_ok in H. destruct H as (ty & H4 & _).
  apply col_ok in H1. apply idxcol_ok in H2. apply sparse_ok in H3. apply col_ok in H4.
  destruct H2 as (_ & P & ->), H3 as (_ & _ & B & _ & _).
  split; [tauto|]. split; [|tauto]. unfold buses_ok. rewrite Forall_map in B.
  rewrite Forall_forall in *. intros g Hg. split; [apply P|apply B]; auto.
Qed.

Lemma find_disjoint_lists bus gen p q i :
  (forall t g, p t g = true -> q t g = true -> False) ->
  In i (find (mask bus gen p)) -> In i (find (mask bus gen q)) -> False.
Proof.
  intros D. rewrite !in_mask. intros (r & Hr & H) (r' & Hr' & H'). rewrite Hr in Hr'.
  injection Hr' as <-. eauto.
Qed.

Lemma feqb_fofZ a b : feqb (fofZ a : K) (fofZ b) = (a =? b)%Z.
Proof.
  destruct (a =? b)%Z eqn:E.
  - apply Z.eqb_eq in E as ->. apply feqb_ok; auto.
  - apply Z.eqb_neq in E. destruct (feqb _ _) eqn:E'; auto. apply feqb_ok in E'.
    apply fofZ_inj in E'. congruence.
Qed.

Lemma bustypes_cases bus gen ref pv pq :
  bustypes bus gen = Ok (ref, pv, pq) ->
  (ref <> [] /\ ref = find (mask bus gen m_ref) /\ pv = find (mask bus gen m_pv) /\
   pq = find (mask bus gen m_pq)) \/
  (exists p, find (mask bus gen m_ref) = [] /\ ref = [p] /\
   find (mask bus gen m_pv) = p :: pv /\ pq = find (mask bus gen m_pq)).
Proof.
  intros H. destruct (bustypes_ok_wf _ _ _ H) as (W & B & WB).
  pose proof (bustypes_pick _ _ _ H W B WB) as P. unfold pick in P.
  destruct (find (mask bus gen m_ref)) as [|a l] eqn:E.
  - destruct (find (mask bus gen m_pv)) as [|p l] eqn:E'; [discriminate|].
    right. injection P as -> -> ->. exists p; auto.
  - left. injection P as -> -> ->. repeat split; auto. discriminate.
Qed.
End BusTypes.
