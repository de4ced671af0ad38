(** A whole power flow run, in terms of the external tables: sums over reported rows. *)
From Coq Require Import Permutation.
From Verif Require Import Lib.ListFacts Model.RunPf Spec.RunSpec Proofs.SparseFacts Proofs.PfsolnA
  Proofs.TableEdit Proofs.AcPfB.
Local Open Scope nat_scope.

Section RunPfA.
Context {K : Type} {F : Fld K}.

Lemma nth_error_cell (r : list K) c v : nth_error r c = Some v -> cell r c = v.
Proof. intros H. unfold cell. apply nth_error_nth with (d := 0%K) in H. exact H. Qed.

Lemma cell_nth_error (r r' : list K) c : nth_error r c = nth_error r' c -> cell r c = cell r' c.
Proof.
  intros H. unfold cell. destruct (nth_error r c) as [v|] eqn:E.
  - rewrite (nth_error_nth _ _ _ E). symmetry in H. rewrite (nth_error_nth _ _ _ H). reflexivity.
  - symmetry in H. apply nth_error_None in E, H. rewrite !nth_overflow; auto.
Qed.

(** a sum over reported rows is the sum over the rows of the solved table *)
Lemma lsum_report (h h' : list K -> K) idx res t : NoDup idx -> length res = length idx ->
  (forall i, In i idx -> i < length t) ->
  (forall i r, nth_error t i = Some r -> ~ In i idx -> h r = 0%K) ->
  (forall k i a b, nth_error idx k = Some i -> nth_error t i = Some a -> nth_error res k = Some b -> h a = h' b) ->
  lsum h t = lsum h' res.
Proof.
  intros ND L R Z E. rewrite (lsum_nth h t []).
  transitivity (lsum (fun i => h (nth i t [])) idx).
  - rewrite <- (lsum_perm _ (filter (fun i => if in_dec Nat.eq_dec i idx then true else false) (seq 0 (length t))) idx).
    + rewrite lsum_filter. apply lsum_ext. intros i I. apply in_seq in I.
      destruct (in_dec Nat.eq_dec i idx); auto. destruct (nth_error_lt t i) as [r Hr]; [lia|].
      rewrite (nth_error_nth _ _ _ Hr). eauto.
    + apply NoDup_Permutation; auto; [apply NoDup_filter, seq_NoDup|]. intros i. rewrite filter_In, in_seq.
      destruct (in_dec Nat.eq_dec i idx); split; try tauto; try (intros [_ C]; discriminate).
      intros _. specialize (R i i0). split; [lia|auto].
  - rewrite (lsum_nth _ idx 0), (lsum_nth h' res []), L. apply lsum_ext. intros k I. apply in_seq in I.
    destruct (nth_error_lt idx k) as [i Hi]; [lia|]. rewrite (nth_error_nth _ _ _ Hi).
    destruct (nth_error_lt t i) as [a Ha]; [apply R; eapply nth_error_In; eauto|].
    destruct (nth_error_lt res k) as [b Hb]; [lia|].
    rewrite (nth_error_nth _ _ _ Ha), (nth_error_nth _ _ _ Hb). eauto.
Qed.

Lemma only_changes_refl cols (t : list (list K)) : only_changes cols t t.
Proof. split; auto. intros i r H. exists r. auto. Qed.

Lemma only_changes_trans cols (t1 t2 t3 : list (list K)) :
  only_changes cols t1 t2 -> only_changes cols t2 t3 -> only_changes cols t1 t3.
Proof.
  intros (L1 & H1) (L2 & H2). split; [congruence|]. intros i r Hr.
  destruct (H1 _ _ Hr) as (r1 & A & B & D). destruct (H2 _ _ A) as (r2 & A' & B' & D').
  exists r2. split; auto. split; [lia|]. intros j N. rewrite D', D; auto.
Qed.

(** t[ix_(rows, cols)] = 0 *)
Lemma zero_out_ok rows cols : forall t t' : list (list K), NoDup rows -> zero_out t rows cols = Ok t' ->
  length t' = length t /\
  forall i r, nth_error t i = Some r -> exists r', nth_error t' i = Some r' /\ length r' = length r /\
    forall j, cell r' j = if in_dec Nat.eq_dec i rows then
                            if in_dec Nat.eq_dec j cols then 0%K else cell r j
                          else cell r j.
Proof.
  unfold zero_out. induction cols as [|c cols IH]; intros t t' ND H.
  - cbn in H. injection H as <-. split; auto. intros i r Hr. exists r. split; auto. split; auto.
    intros j. destruct (in_dec _ i rows); auto.
  - cbn [fold_left bind] in H. destruct (set_rows t rows c (repeat 0%K (length rows))) as [t1|e] eqn:E.
    2:{ exfalso. clear -H. induction cols as [|c cols IH]; cbn [fold_left bind] in H; auto. discriminate. }
    destruct (edit_set_rows _ _ _ _ _ ND E) as (_ & L1 & H1). destruct (IH _ _ ND H) as (L2 & H2).
    split; [congruence|]. intros i r Hr. destruct (H1 _ _ Hr) as (r1 & A1 & A2 & A3).
    destruct (H2 _ _ A1) as (r2 & B1 & B2 & B3). exists r2. split; auto. split; [congruence|].
    intros j. rewrite B3, A3. destruct (in_dec Nat.eq_dec i rows) as [I|I].
    + destruct (in_dec Nat.eq_dec j cols) as [J|J].
      { destruct (in_dec Nat.eq_dec j (c :: cols)) as [|N]; auto. exfalso; apply N; right; auto. }
      destruct (Nat.eqb_spec j c) as [->|N].
      * destruct (in_dec Nat.eq_dec c (c :: cols)) as [|N]; [|exfalso; apply N; left; auto].
        destruct (posn i rows) as [p|] eqn:P; [|apply posn_none in P; contradiction]. cbn [option_map].
        rewrite nth_repeat. reflexivity.
      * destruct (in_dec Nat.eq_dec j (c :: cols)) as [[|]|]; auto; [congruence|contradiction].
    + destruct (Nat.eqb_spec j c) as [->|N]; auto.
      destruct (posn i rows) as [p|] eqn:P; auto. apply posn_some, nth_error_In in P. contradiction.
Qed.

Section Table.
Variables (bcols zcols idx off : list nat) (orig int res t1 t2 : list (list K)).
Hypothesis NDi : NoDup idx.
Hypothesis Ri : forall i, In i idx -> i < length orig.
Hypothesis Li : length int = length idx.
(** the internal rows are the original ones up to the bus columns *)
Hypothesis INT : forall k i r, nth_error idx k = Some i -> nth_error orig i = Some r ->
  exists r1, nth_error int k = Some r1 /\ length r1 = length r /\ forall j, ~ In j bcols -> cell r1 j = cell r j.
Hypothesis RES : only_changes zcols int res.
Hypothesis WB : written_back bcols idx orig res t1.

Lemma res_len : length res = length idx.
Proof. destruct RES as (L & _). congruence. Qed.

Lemma back_rows k i r b : nth_error idx k = Some i -> nth_error orig i = Some r -> nth_error res k = Some b ->
  exists a, nth_error t1 i = Some a /\ length r <= length a /\
    (forall c, In c bcols -> cell a c = cell r c) /\ (forall c, ~ In c bcols -> cell a c = cell b c) /\
    forall c, ~ In c zcols -> cell a c = cell r c.
Proof.
  intros Hk Hr Hb. destruct WB as (_ & _ & H). destruct (H _ _ _ _ Hk Hr Hb) as (a & Ha & La & Hc).
  destruct (INT _ _ _ Hk Hr) as (r1 & H1 & L1 & C1). destruct RES as (_ & HR).
  destruct (HR _ _ H1) as (b' & Hb' & L2 & C2). assert (b' = b) by congruence. subst b'.
  exists a. split; auto. split; [lia|]. split; [|split].
  - intros c I. apply cell_nth_error. rewrite Hc. destruct (in_dec Nat.eq_dec c bcols); tauto.
  - intros c I. apply cell_nth_error. rewrite Hc. destruct (in_dec Nat.eq_dec c bcols); tauto.
  - intros c I. destruct (in_dec Nat.eq_dec c bcols) as [J|J] eqn:E.
    + apply cell_nth_error. rewrite Hc, E. auto.
    + rewrite (cell_nth_error a b) by (rewrite Hc, E; auto). rewrite C2, C1; auto.
Qed.

Lemma back_other i : ~ In i idx -> nth_error t1 i = nth_error orig i.
Proof. intros N. apply WB. auto. Qed.

Lemma back_changes : only_changes zcols orig t1.
Proof.
  split; [apply WB|]. intros i r Hr. destruct (in_dec Nat.eq_dec i idx) as [I|N].
  - apply In_nth_error in I as (k & Hk). destruct (nth_error_lt res k) as [b Hb].
    { rewrite res_len. eapply nth_error_some_lt; eauto. }
    destruct (back_rows _ _ _ _ Hk Hr Hb) as (a & A & B & _ & _ & D). exists a. auto.
  - exists r. rewrite back_other; auto.
Qed.

Section Zero.
Hypothesis NDo : NoDup off.
Hypothesis OFF : forall i, In i off <-> i < length orig /\ ~ In i idx.
Hypothesis DIS : forall c, In c bcols -> ~ In c zcols.
Hypothesis Z : zero_out t1 off zcols = Ok t2.

Lemma zero_changes : only_changes zcols orig t2.
Proof.
  apply (only_changes_trans _ _ t1); [apply back_changes|]. destruct (zero_out_ok _ _ _ _ NDo Z) as (L & H).
  split; auto. intros i r Hr. destruct (H _ _ Hr) as (r' & A & B & C). exists r'. split; auto. split; [lia|].
  intros j N. rewrite C. destruct (in_dec _ i off); auto. destruct (in_dec _ j zcols); tauto.
Qed.

Lemma zero_off i r c : nth_error t2 i = Some r -> ~ In i idx -> In c zcols -> cell r c = 0%K.
Proof.
  intros Hr N I. destruct (zero_out_ok _ _ _ _ NDo Z) as (L & H). destruct WB as (L1 & _).
  pose proof (nth_error_some_lt _ _ _ Hr) as Lt. destruct (nth_error_lt t1 i) as [r1 H1]; [lia|].
  destruct (H _ _ H1) as (r' & A & _ & C). assert (r' = r) by congruence. subst r'. rewrite C.
  destruct (in_dec Nat.eq_dec i off) as [J|J].
  - destruct (in_dec Nat.eq_dec c zcols); tauto.
  - exfalso. apply J, OFF. split; [lia|auto].
Qed.

Lemma zero_on k i r a b : nth_error idx k = Some i -> nth_error orig i = Some r -> nth_error t2 i = Some a ->
  nth_error res k = Some b ->
  (forall c, In c bcols -> cell a c = cell r c) /\ (forall c, ~ In c bcols -> cell a c = cell b c).
Proof.
  intros Hk Hr Ha Hb. destruct (back_rows _ _ _ _ Hk Hr Hb) as (a1 & A1 & _ & B1 & B2 & _).
  destruct (zero_out_ok _ _ _ _ NDo Z) as (L & H). destruct (H _ _ A1) as (a' & A & _ & C).
  assert (a' = a) by congruence. subst a'.
  assert (~ In i off) as N. { intros J. apply OFF in J as [_ J]. apply J. eapply nth_error_In; eauto. }
  split; intros c I; rewrite C; (destruct (in_dec Nat.eq_dec i off); [contradiction|]); auto.
Qed.
End Zero.
End Table.
End RunPfA.
