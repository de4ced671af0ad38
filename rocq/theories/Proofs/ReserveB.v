(** The rows, bounds and costs that reserves add to the problem. *)
From Verif Require Import Lib.ListFacts Model.Reserves Spec.ReserveSpec Proofs.SparseFacts Proofs.FldFacts
  Proofs.OrdFacts Proofs.BlockFacts Proofs.PipsF Proofs.ReserveA.
Local Open Scope nat_scope.

Section B.
Context {K : Type} {F : Fld K}.
Add Field KF : (@f_ok K F).

Lemma gather_inv {A} (l : list A) idx vals d : gather l idx = Ok vals ->
  vals = map (fun i => nth i l d) idx /\ forall i, In i idx -> i < length l.
Proof.
  intros H.
  assert (I : forall k i, nth_error idx k = Some i -> nth_error vals k = Some (nth i l d) /\ i < length l).
  { intros k i Hk. pose proof (gather_nth _ _ _ _ _ H Hk) as E.
    destruct (nth_error_lt vals k) as [x Hx]; [rewrite (gather_length _ _ _ H); eapply nth_error_some_lt; eauto|].
    rewrite Hx in E. symmetry in E. split; [|eapply nth_error_some_lt; eauto]. rewrite Hx. f_equal. symmetry. apply nth_error_nth. auto. }
  split.
  - apply nth_error_ext. intros k. rewrite nth_error_map. destruct (nth_error idx k) as [i|] eqn:E; cbn.
    + apply I. auto.
    + apply nth_error_None in E. apply nth_error_None. rewrite (gather_length _ _ _ H). auto.
  - intros i Hi. apply In_nth_error in Hi as (k & Hk). apply (I k i Hk).
Qed.

Lemma wf_zerom a b : wf (zerom (K := K) a b).
Proof. constructor. Qed.
Lemma mulrow_zerom a b x i : mulrow (zerom (K := K) a b) x i = 0%K.
Proof. reflexivity. Qed.

Lemma mulrow_pick igr ng (M : smat K) x m k : sparse (repeat 1%K (length igr)) (seq 0 (length igr)) igr (length igr) ng = Ok M ->
  nth_error igr m = Some k -> mulrow M x m = nth k x 0%K.
Proof.
  intros H Hk. apply sparse_ok in H as (_ & _ & _ & _ & ->). unfold mulrow. cbn [ents].
  assert (m < length igr) as L by (eapply nth_error_some_lt; eauto).
  rewrite (lsum_zip3 _ _ _ _ (length igr)) by (rewrite ?seq_length, ?repeat_length; auto).
  rewrite (lsum_ext _ (fun j => if m =? j then nth (nth j igr 0) x 0%K else 0%K)).
  - rewrite lsum_seq_single' by auto. rewrite (nth_error_nth _ _ _ Hk). auto.
  - intros j Hj. apply in_seq in Hj. cbn. rewrite seq_nth by lia. cbn. rewrite (Nat.eqb_sym m j).
    destruct (j =? m); auto. rewrite nth_repeat_lt by lia. ring.
Qed.

(** the weights of the zones *)
Definition zone_rows (nrz ngr : nat) (zr : list (list K)) : smat K :=
  SM nrz ngr (flat_map (fun iz => zip3 (repeat (fst iz) ngr) (seq 0 ngr) (snd iz)) (combine (seq 0 nrz) zr)).

Lemma wf_zone_rows ngr zr : wf (zone_rows (length zr) ngr zr).
Proof.
  unfold wf, zone_rows. cbn [ents nrows ncols]. apply Forall_forall. intros e He. apply in_flat_map in He as ((i & z) & Hz & He).
  apply in_combine_l, in_seq in Hz. cbn [fst snd] in He. apply zip3_in in He as (A & B).
  apply repeat_spec in A. apply in_seq in B. lia.
Qed.

Lemma mulrow_zone ngr zr x i z : nth_error zr i = Some z -> (forall w, In w zr -> length w = ngr) ->
  mulrow (zone_rows (length zr) ngr zr) x i = lsum (fun m => nth m z 0 * nth m x 0)%K (seq 0 ngr).
Proof.
  intros Hz L. unfold mulrow, zone_rows. cbn [ents]. rewrite lsum_flat_map.
  assert (i < length zr) as Li by (eapply nth_error_some_lt; eauto).
  rewrite (lsum_ext _ (fun iz => if i =? fst iz then lsum (fun m => nth m (snd iz) 0 * nth m x 0)%K (seq 0 ngr) else 0%K)).
  - rewrite (lsum_combine _ _ _ 0 []) by (rewrite seq_length; auto). rewrite seq_length.
    rewrite (lsum_ext _ (fun j => if i =? j then lsum (fun m => nth m (nth j zr []) 0 * nth m x 0)%K (seq 0 ngr) else 0%K)).
    + rewrite lsum_seq_single' by auto. rewrite (nth_error_nth _ _ _ Hz). auto.
    + intros j Hj. apply in_seq in Hj. cbn [fst snd]. rewrite seq_nth by lia. auto.
  - intros (j & w) Hw. cbn [fst snd]. apply in_combine_r in Hw. specialize (L w Hw).
    rewrite (lsum_zip3 _ _ _ _ ngr) by (rewrite ?repeat_length, ?seq_length; auto).
    destruct (Nat.eqb_spec i j) as [->|N].
    + apply lsum_ext. intros m Hm. apply in_seq in Hm. cbn. rewrite nth_repeat_lt by lia. rewrite Nat.eqb_refl, seq_nth by lia. auto.
    + apply lsum_zero. intros m Hm. apply in_seq in Hm. cbn. rewrite nth_repeat_lt by lia.
      destruct (Nat.eqb_spec j i); auto. congruence.
Qed.

Variables (B : K) (nb : nat) (gen : list (list K)) (req : list K) (ri : rint (K := K)) (U : user (K := K)) (Cw : list K).
Notation ng := (length gen).
Notation igr := (ri_igr ri).
Notation ngr := (length (ri_igr ri)).
Notation nrz := (length (ri_zones ri)).

Record formed (A : smat K) : Prop := {
  fo_A : u_A U = Some A;
  fo_shape : shaped (ngr + nrz) (nb + ng + ngr) A;
  fo_igr : forall k, In k igr -> k < ng;
  fo_unit : forall v m k, length v = nb + ng + ngr -> nth_error igr m = Some k ->
    row_val A v m = (nth (nb + k) v 0 + nth (nb + ng + m) v 0)%K;
  fo_zone : forall v i w, length v = nb + ng + ngr -> nth_error (ri_zones ri) i = Some w ->
    row_val A v (ngr + i) = lsum (fun m => nth (nth m igr 0%nat) w 0 * nth (nb + ng + m) v 0)%K (seq 0 ngr);
  fo_l : u_l U = repeat ENeg ngr ++ map (fun a => EFin (a / B)%K) req;
  fo_u : u_u U = map (fun k => EFin (cell (nth k gen []) PMAX / B)%K) igr ++ repeat EPos nrz;
  fo_zl : u_zl U = repeat (EFin 0%K) ngr;
  fo_zu : u_zu U = map (fun k => rmax B (cell (nth k gen []) RAMP_10)
      (match ri_qty ri with Some w => Some (nth k w 0%K) | None => None end)) igr;
  fo_qty : forall w k, ri_qty ri = Some w -> In k igr -> k < length w;
  fo_zones : forall w k, In w (ri_zones ri) -> In k igr -> k < length w;
  fo_cost : forall k, In k igr -> k < length (ri_cost ri);
  fo_Cw : Cw = map (fun k => nth k (ri_cost ri) 0 * B)%K igr }.

Lemma res_formulation_ok : res_formulation B nb gen req ri = Ok (U, Cw) -> B <> 0%K /\ exists A, formed A.
Proof.
  unfold res_formulation. intros H. apply bind_ok in H as (rows & H1 & H). apply bind_ok in H as (ramp & H2 & H).
  apply bind_ok in H as (qty & H3 & H). destruct (feqb B 0%K) eqn:EB; [discriminate|].
  apply bind_ok in H as (Sg & H4 & H). apply bind_ok in H as (Ar & H5 & H). apply bind_ok in H as (pmax & H6 & H).
  apply bind_ok in H as (c & H7 & H). apply bind_ok in H as (zr & H8 & H). apply bind_ok in H as (A1 & H9 & H).
  apply bind_ok in H as (A2 & H10 & H). apply bind_ok in H as (A & H11 & H).
  assert (BN : B <> 0%K). { intros X. apply (@feqb_ok K F) in X. congruence. }
  split; auto. exists A.
  assert (EU : U = User (Some A) (repeat ENeg ngr ++ map EFin (map (fun a => a / B)%K req))
     (map EFin (map (fun a => a / B)%K pmax) ++ repeat EPos nrz) (repeat (EFin 0%K) ngr) (map2 (rmax B) ramp qty)) by congruence.
  assert (EC : Cw = map (fun a => a * B)%K c) by congruence. clear H.
  destruct (gather_inv _ _ _ [] H1) as (-> & Ig). destruct (gather_inv _ _ _ 0%K H7) as (Ec & Ic).
  apply col_ok in H2 as (_ & ->). apply col_ok in H6 as (_ & ->).
  assert (Lz : length zr = nrz) by (apply mapM_length in H8; auto).
  assert (Hzr : forall i w, nth_error (ri_zones ri) i = Some w -> nth_error zr i = Some (map (fun k => nth k w 0%K) igr) /\
     forall k, In k igr -> k < length w).
  { intros i w Hw. destruct (mapM_nth _ _ _ _ _ H8 Hw) as (y & Hy & Hyi). destruct (gather_inv _ _ _ 0%K Hy) as (-> & I). auto. }
  assert (Wzr : forall w, In w zr -> length w = ngr).
  { intros w Hw. apply In_nth_error in Hw as (i & Hi). destruct (nth_error_lt (ri_zones ri) i) as [w0 Hw0].
    { rewrite <- Lz. eapply nth_error_some_lt; eauto. }
    destruct (Hzr _ _ Hw0) as (E & _). assert (w = map (fun k => nth k w0 0%K) igr) as -> by congruence. apply map_length. }
  set (Az := SM nrz ngr _) in H10. assert (EAz : Az = zone_rows (length zr) ngr zr) by (rewrite Lz; reflexivity).
  assert (WAz : wf Az) by (rewrite EAz; apply wf_zone_rows).
  destruct (hstackm_ok _ _ _ H5) as (E51 & E52 & E53). destruct (hstackm_ok _ _ _ H9) as (E91 & E92 & E93).
  destruct (hstackm_ok _ _ _ H10) as (E101 & E102 & E103). destruct (vstackm_ok _ _ _ H11) as (E111 & E112 & E113).
  assert (nrows Sg = ngr /\ ncols Sg = ng) as (RSg & CSg) by (apply sparse_ok in H4 as (_ & _ & _ & _ & ->); auto).
  pose proof (wf_hstackm _ _ _ (sparse_wf _ _ _ _ _ _ H4) (wf_eyem ngr) H5) as WAr.
  pose proof (wf_hstackm _ _ _ (wf_zerom ngr nb) WAr H9) as WA1.
  pose proof (wf_hstackm _ _ _ (wf_zerom nrz (nb + ng)) WAz H10) as WA2.
  pose proof (wf_vstackm _ _ _ WA1 WA2 H11) as WA.
  assert (R1 : nrows A1 = ngr) by (rewrite E92; reflexivity).
  assert (NR : nrows A = ngr + nrz) by (rewrite E112, R1, E102; reflexivity).
  assert (NC : ncols A = nb + ng + ngr).
  { rewrite E113, E93, E53, CSg. cbn [ncols zerom eyem]. lia. }
  assert (SPLIT : forall v : list K, length v = nb + ng + ngr -> exists a b c, v = a ++ b ++ c /\ length a = nb /\ length b = ng /\ length c = ngr).
  { intros v L. exists (firstn nb v), (firstn ng (skipn nb v)), (skipn ng (skipn nb v)).
    rewrite firstn_skipn, firstn_skipn. split; auto. rewrite skipn_length, !firstn_length, !skipn_length. lia. }
  constructor.
  - rewrite EU. reflexivity.
  - split; auto. split; auto. rewrite <- NR, <- NC. exact WA.
  - auto.
  - intros v m k L Hk. rewrite row_val_mulrow by auto.
    assert (m < ngr) as Lm by (eapply nth_error_some_lt; eauto).
    rewrite (mulrow_vstackm _ _ _ _ _ WA1 H11), R1. destruct (Nat.ltb_spec m ngr); [|lia].
    destruct (SPLIT v L) as (a & b & c' & -> & La & Lb & Lc).
    rewrite (mulrow_hstackm _ _ _ _ _ _ (wf_zerom ngr nb) La H9), mulrow_zerom.
    rewrite (mulrow_hstackm _ _ _ b c' _ (sparse_wf _ _ _ _ _ _ H4) (eq_trans Lb (eq_sym CSg)) H5).
    rewrite (mulrow_pick igr ng Sg b m k H4 Hk), mulrow_eyem by auto.
    assert (k < ng) as Lk by (apply Ig; eapply nth_error_In; eauto).
    rewrite app_nth2, app_nth1, app_nth2, app_nth2 by lia.
    replace (nb + k - length a) with k by lia. replace (nb + ng + m - length a - length b) with m by lia. ring.
  - intros v i w L Hw. rewrite row_val_mulrow by auto.
    rewrite (mulrow_vstackm _ _ _ _ _ WA1 H11), R1. destruct (Nat.ltb_spec (ngr + i) ngr); [lia|].
    replace (ngr + i - ngr) with i by lia.
    destruct (SPLIT v L) as (a & b & c' & -> & La & Lb & Lc). rewrite app_assoc.
    assert (length (a ++ b) = nb + ng) as Lab by (rewrite app_length; lia).
    rewrite (mulrow_hstackm _ _ _ (a ++ b) c' _ (wf_zerom nrz (nb + ng)) Lab H10), mulrow_zerom, EAz.
    destruct (Hzr _ _ Hw) as (Ez & Iz).
    rewrite (mulrow_zone ngr zr _ _ _ Ez Wzr).
    match goal with |- (0 + ?s)%K = _ => assert ((0 + s = s)%K) as -> by ring end.
    apply lsum_ext. intros m Hm. apply in_seq in Hm. rewrite app_nth2, Lab by lia.
    replace (nb + ng + m - (nb + ng)) with m by lia. f_equal.
    rewrite (nth_map_lt _ igr m _ 0) by lia. auto.
  - rewrite EU. cbn [u_l]. rewrite map_map. reflexivity.
  - rewrite EU. cbn [u_u]. rewrite !map_map. reflexivity.
  - rewrite EU. reflexivity.
  - rewrite EU. cbn [u_zu]. rewrite map_map. destruct (ri_qty ri) as [w|].
    + apply bind_ok in H3 as (y & Hy & H3). destruct (gather_inv _ _ _ 0%K Hy) as (-> & I).
      assert (qty = map Some (map (fun i => nth i w 0%K) igr)) as -> by congruence. rewrite map_map.
      unfold map2. clear. induction igr; cbn; f_equal; auto.
    + assert (qty = repeat None ngr) as -> by congruence. unfold map2. clear. induction igr; cbn; f_equal; auto.
  - intros w k Ew. rewrite Ew in H3. apply bind_ok in H3 as (y & Hy & H3). destruct (gather_inv _ _ _ 0%K Hy) as (_ & I). auto.
  - intros w k Hw. apply In_nth_error in Hw as (i & Hi). apply (Hzr _ _ Hi).
  - auto.
  - rewrite EC, Ec, map_map. reflexivity.
Qed.
End B.
