(** Load totals and load scaling. *)
From Verif Require Import Lib.ListFacts Model.Loads Spec.LoadSpec
  Proofs.SparseFacts Proofs.FldFacts Proofs.NetworkA Proofs.NetworkC Proofs.NetworkD Proofs.PfsolnA Proofs.OpfLinA Proofs.OpfLinB
  Proofs.BlockFacts Proofs.MatFacts.
Local Open Scope nat_scope.

Section LoadsA.
Context {K : Type} {F : Fld K}.
Add Field KF : (@f_ok K F).
Variable bool_neg : bool.

(** ** positions of buses *)
Lemma fold_upd_len (ps : list (nat * nat)) : forall e : list nat, length (fold_left (fun e p => upd e (fst p) (snd p)) ps e) = length e.
Proof. induction ps as [|q ps IH]; intros e; simpl; auto. rewrite IH. apply upd_length. Qed.
Lemma fold_upd_other (ps : list (nat * nat)) n : forall e : list nat, ~ In n (map fst ps) ->
  nth_error (fold_left (fun e p => upd e (fst p) (snd p)) ps e) n = nth_error e n.
Proof.
  induction ps as [|q ps IH]; intros e H; simpl; auto. simpl in H. rewrite IH by tauto.
  apply nth_error_upd_other. tauto.
Qed.
Lemma fold_upd_at (ps : list (nat * nat)) : forall (e : list nat) n i, NoDup (map fst ps) -> In (n, i) ps -> n < length e ->
  nth_error (fold_left (fun e p => upd e (fst p) (snd p)) ps e) n = Some i.
Proof.
  induction ps as [|q ps IH]; intros e n i ND I L; simpl in *; [tauto|]. apply NoDup_cons_iff in ND as (N1 & N2).
  destruct I as [->|I].
  - rewrite fold_upd_other by exact N1. simpl. apply nth_error_upd_same. auto.
  - apply IH; auto. rewrite upd_length. auto.
Qed.
Lemma maxn_ge l m : maxn l = Ok m -> forall n, In n l -> n <= m.
Proof.
  destruct l as [|z t]; [discriminate|]. cbn. intros H; injection H as <-.
  assert (G : forall t z, z <= fold_left Nat.max t z /\ forall n, In n t -> n <= fold_left Nat.max t z).
  { clear. induction t as [|a t IH]; intros z; simpl; [split; [lia|tauto]|].
    destruct (IH (Nat.max z a)) as (A & B). split; [lia|]. intros n [->|I]; auto. lia. }
  destruct (G t z) as (A & B). intros n [->|I]; auto.
Qed.
Lemma fst_combine {A B} (l : list A) : forall l' : list B, length l = length l' -> map fst (combine l l') = l.
Proof. induction l as [|a l IH]; intros [|b l'] H; simpl in *; try lia; auto. f_equal. auto. Qed.
Lemma e2i_ok bus e2i : make_e2i bus = Ok e2i -> numbered bus ->
  forall i r, nth_error bus i = Some r -> nth_error e2i (bus_no r BUS_I) = Some i.
Proof.
  unfold make_e2i. intros H ND i r Hr. apply bind_ok in H as (i2e & HI & H). apply bind_ok in H as (mx & HM & H). injection H as <-.
  apply idxcol_ok in HI as (_ & _ & ->).
  assert (nth_error (map (fun r => bus_no r BUS_I) bus) i = Some (bus_no r BUS_I)) as E by (rewrite nth_error_map, Hr; reflexivity).
  pose proof (nth_error_some_lt _ _ _ Hr) as Li.
  apply fold_upd_at.
  - rewrite fst_combine by (rewrite map_length, seq_length; auto). exact ND.
  - apply (nth_error_In _ i). rewrite nth_error_combine, E. rewrite (nth_error_nth' _ 0) by (rewrite seq_length; lia).
    rewrite seq_nth by lia. reflexivity.
  - cbn [length]. rewrite repeat_length. apply Nat.lt_succ_r. apply (maxn_ge _ _ HM). eapply nth_error_In; eauto.
Qed.

Lemma sits_unique bus g i0 r : numbered bus -> nth_error bus i0 = Some r -> bus_no r BUS_I = bus_no g GEN_BUS ->
  forall i, i < length bus -> sits_at bus g i = (i =? i0).
Proof.
  intros ND Hr E i Hi. unfold sits_at. destruct (nth_error_lt bus i Hi) as (r' & Hr'). rewrite (nth_error_nth _ _ _ Hr').
  destruct (Nat.eqb_spec i i0) as [->|N].
  - apply Nat.eqb_eq. congruence.
  - apply Nat.eqb_neq. intros E'. apply N. unfold numbered in ND. rewrite NoDup_nth_error in ND. apply ND.
    + rewrite map_length. auto.
    + rewrite !nth_error_map, Hr, Hr'. cbn. congruence.
Qed.
Lemma find_single (p : nat -> bool) i0 : forall n, i0 < n -> (forall i, i < n -> p i = (i =? i0)) -> List.find p (seq 0 n) = Some i0.
Proof.
  intros n L H. destruct (List.find p (seq 0 n)) as [i|] eqn:E.
  - apply find_some in E as (I & Hp). apply in_seq in I. rewrite H in Hp by lia. apply Nat.eqb_eq in Hp. congruence.
  - exfalso. pose proof (find_none _ _ E i0 ltac:(apply in_seq; lia)) as Hp. rewrite H, Nat.eqb_refl in Hp by lia. discriminate.
Qed.

(** ** masks and zones *)
Lemma load_mask_ok gen m : load_mask gen = Ok m -> m = map disp_load gen.
Proof.
  unfold load_mask. intros H. apply bind_ok in H as (ld & Hl & H). apply bind_ok in H as (st & Hs & H). injection H as <-.
  apply col_ok in Hs as (_ & ->).
  assert (ld = map (fun g => fltb (cell g PMIN) 0%K && feqb (cell g PMAX) 0%K) gen) as ->.
  { eapply mapM_inv; [|exact Hl]. intros g y _ Hg. unfold isload in Hg. apply bind_ok in Hg as (lo & H1 & Hg).
    apply bind_ok in Hg as (hi & H2 & Hg). injection Hg as <-. apply get_ok in H1, H2.
    unfold cell. rewrite (nth_error_nth _ _ _ H1), (nth_error_nth _ _ _ H2). reflexivity. }
  unfold map2. induction gen as [|g gen IH]; auto. cbn [map combine fst snd]. f_equal. apply IH.
  cbn in Hl. apply bind_ok in Hl as (y & _ & Hl). apply bind_ok in Hl as (ys & Hys & Hl). injection Hl as _ <-. exact Hys.
Qed.
Lemma sum_at_ok {A} (p : A -> bool) (lz : list A) d v s : sum_at v (find (map p lz)) = Ok s ->
  s = lsum (fun i => if p (nth i lz d) then nth i v 0%K else 0%K) (seq 0 (length lz)).
Proof.
  unfold sum_at. intros H. apply bind_ok in H as (w & Hw & H). injection H as <-.
  apply (gather_all _ _ _ 0%K) in Hw as ->. rewrite lsum_map. rewrite (find_filter p d), lsum_filter. reflexivity.
Qed.

(** ** dispatchable loads by bus *)
Lemma neg_mul_ok bus gen e2i Cld v w : make_e2i bus = Ok e2i -> make_Cld bus gen (map disp_load gen) e2i = Ok Cld ->
  neg_mul bool_neg Cld v = Ok w -> numbered bus -> placed bus gen ->
  length w = length bus /\
  forall zone : nat -> bool, lsum (fun i => if zone i then nth i w 0%K else 0%K) (seq 0 (length bus)) = disp_sum bus gen zone (fun k => (- nth k v 0)%K).
Proof.
  intros HE HC HN ND PL. unfold make_Cld in HC. apply bind_ok in HC as (gbus & HG & HC). apply bind_ok in HC as (rows & HR & HC).
  apply idxcol_ok in HG as (_ & _ & ->). pose proof (gather_length _ _ _ HR) as LR. rewrite map_length in LR.
  unfold neg_mul in HN. destruct bool_neg; [|discriminate].
  apply sparse_ok in HC as (L1 & L2 & _ & _ & ->). unfold mulv in HN. cbn [ncols mapm nrows] in HN.
  destruct (Nat.eqb_spec (length v) (length gen)) as [LV|]; [|discriminate]. injection HN as <-.
  split; [rewrite map_length, seq_length; auto|]. intros zone. unfold disp_sum.
  rewrite (lsum_ext _ (fun i => lsum (fun k => if zone i && (nth k rows 0 =? i) then (- ((if disp_load (nth k gen []) then 1 else 0) * nth k v 0))%K else 0%K) (seq 0 (length gen)))).
  2:{ intros i Hi. apply in_seq in Hi. rewrite (nth_map_lt _ _ _ _ 0) by (rewrite seq_length; lia). rewrite seq_nth by lia. cbn [plus].
      destruct (zone i); cbn [andb]; [|rewrite lsum_0; reflexivity].
      change (mulrow (mapm ropp (SM (length bus) (length gen) (zip3 rows (seq 0 (length gen)) (map (fun b : bool => if b then 1%K else 0%K) (map disp_load gen))))) v i
        = lsum (fun k => if nth k rows 0 =? i then (- ((if disp_load (nth k gen []) then 1 else 0) * nth k v 0))%K else 0%K) (seq 0 (length gen))).
      rewrite mulrow_opp. unfold mulrow. cbn [ents]. rewrite (lsum_zip3 _ _ _ _ (length gen)) by (rewrite ?seq_length, ?map_length; auto).
      rewrite <- lsum_opp. apply lsum_ext. intros k Hk. apply in_seq in Hk. cbn [erow ecol ev].
      rewrite map_map, (nth_map_lt _ _ _ _ []) by lia. rewrite seq_nth by lia. cbn [plus].
      destruct (nth k rows 0 =? i); ring. }
  rewrite lsum_swap. apply lsum_ext. intros k Hk. apply in_seq in Hk. cbv zeta.
  destruct (disp_load (nth k gen [])) eqn:ED.
  - destruct (nth_error_lt gen k) as (g & Hg); [lia|]. rewrite (nth_error_nth _ _ _ Hg) in *.
    pose proof (PL g (nth_error_In _ _ Hg) ED) as I. apply in_map_iff in I as (r & E & I). apply In_nth_error in I as (i0 & Hr).
    assert (nth k rows 0 = i0) as ->.
    { apply nth_error_nth. rewrite (gather_nth _ _ _ k (bus_no g GEN_BUS) HR) by (rewrite nth_error_map, Hg; reflexivity).
      rewrite <- E. apply (e2i_ok bus e2i HE ND i0 r Hr). }
    apply lsum_ext. intros i Hi. apply in_seq in Hi. rewrite (sits_unique bus g i0 r ND Hr E) by lia. rewrite (Nat.eqb_sym i).
    destruct (zone i && (i0 =? i)); ring.
  - apply lsum_zero. intros i _. destruct (zone i && _); ring.
Qed.
End LoadsA.
