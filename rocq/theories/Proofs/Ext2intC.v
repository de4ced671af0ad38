(** The backward conversion. *)
From Coq Require Import Permutation Sorted Lia.
From Verif Require Import Lib.Num Lib.ListFacts Model.Idx Model.Ext2int Spec.CaseSpec
  Proofs.Ext2intA Proofs.Ext2intB.

Section Cells.
Context {Ty : Type} {CC : Cell Ty}.
Local Notation num := Ty.
Local Notation row := (list Ty).
Local Notation table := (list (list Ty)).
Local Notation umat := (umat_of Ty).
Local Notation tabs := (tabs_of Ty).
Local Notation order := (order_of Ty).
Local Notation ppc := (ppc_of Ty).

Definition unf (i2e : list num) (c : nat) (r : row) : row :=
  match unrenum_row i2e c r with Ok x => x | Err _ => r end.

Section Backward.
Variable argsort : list Z -> list nat.
Hypothesis Has : argsort_spec argsort.
Variable p : ppc.
Hypothesis W : wf_case p.
Variables (q : ppc) (o : order) (i2eZ : list Z) (sb gon ge sg sl sa : list nat).
Hypothesis C : conv argsort p q o i2eZ sb gon ge sg sl sa.
Variables (bus' gen' br' : table).
Hypothesis Sb : same_shape [BUS_I] (p_bus q) bus'.
Hypothesis Sg : same_shape [GEN_BUS] (p_gen q) gen'.
Hypothesis Sl : same_shape [F_BUS; T_BUS] (p_branch q) br'.

Let F : internal_form p q sb sg sl sa.
Proof. exact (cv_form _ _ _ _ _ _ _ _ _ _ _ C). Qed.

Lemma same_shape_get cols (t t' : table) k r' : same_shape cols t t' -> nth_error t' k = Some r' ->
  exists r, nth_error t k = Some r /\ length r' = length r
    /\ forall c, In c cols -> nth_error r' c = nth_error r c.
Proof.
  intros [Hl H] Hk. destruct (nth_error_lt t k) as [r Hr].
  { rewrite <- Hl. eapply nth_error_some_lt; eauto. }
  exists r; split; auto. apply (H k); auto.
Qed.

Lemma i2e_at k z : stands_for p sb k z -> nth_error (map ofZ i2eZ) k = Some (ofZ z).
Proof.
  intros H. apply (cv_i2eZ _ _ _ _ _ _ _ _ _ _ _ C) in H. rewrite nth_error_map, H. auto.
Qed.

Lemma bus_row_ok k r' : nth_error bus' k = Some r' -> exists i r z,
  nth_error sb k = Some i /\ nth_error (p_bus p) i = Some r /\
  nth_error r BUS_I = Some (ofZ z) /\ length r' = length r /\
  unrenum_row (map ofZ i2eZ) BUS_I r' = Ok (upd r' BUS_I (ofZ z)).
Proof.
  intros Hk. destruct (same_shape_get _ _ _ _ _ Sb Hk) as (r1 & Hr1 & Hl & Hc).
  destruct (nth_error_lt sb k) as [i Hi].
  { rewrite <- (if_bus_len _ _ _ _ _ _ F). eapply nth_error_some_lt; eauto. }
  assert (bus_in_service p i) as (r & Hr & _).
  { apply (proj1 (if_sb _ _ _ _ _ _ F)). eapply nth_error_In; eauto. }
  destruct (wf_bus_num _ W _ _ Hr) as (z & _ & Hz).
  rewrite (if_bus _ _ _ _ _ _ F _ _ _ Hi Hr) in Hr1. injection Hr1 as <-.
  rewrite upd_length in Hl.
  exists i, r, z. do 4 (split; auto).
  apply (unrenum_row_ok _ _ _ k).
  - rewrite Hc by (left; auto). apply nth_error_upd_same. eapply nth_error_some_lt; eauto.
  - apply i2e_at. exists i; split; auto. exists r; auto.
Qed.

Lemma gen_row_ok k r' : nth_error gen' k = Some r' -> exists i r z,
  nth_error sg k = Some i /\ nth_error (p_gen p) i = Some r /\
  nth_error r GEN_BUS = Some (ofZ z) /\ length r' = length r /\
  unrenum_row (map ofZ i2eZ) GEN_BUS r' = Ok (upd r' GEN_BUS (ofZ z)).
Proof.
  intros Hk. destruct (same_shape_get _ _ _ _ _ Sg Hk) as (r1 & Hr1 & Hl & Hc).
  destruct (nth_error_lt sg k) as [i Hi].
  { rewrite <- (if_gen_len _ _ _ _ _ _ F). eapply nth_error_some_lt; eauto. }
  assert (gen_in_service p i) as (r & s & Hr & _ & _ & z & b & Hz & Hb & Hs).
  { apply (if_sg _ _ _ _ _ _ F). eapply nth_error_In; eauto. }
  apply (proj1 (if_sb _ _ _ _ _ _ F)) in Hs. apply In_nth_error in Hs as [kb Hkb].
  assert (Hst : stands_for p sb kb z) by (exists b; auto).
  rewrite (if_gen _ _ _ _ _ _ F _ _ _ _ _ Hi Hr Hz Hst) in Hr1. injection Hr1 as <-.
  rewrite upd_length in Hl.
  exists i, r, z. do 4 (split; auto).
  apply (unrenum_row_ok _ _ _ kb).
  - rewrite Hc by (left; auto). apply nth_error_upd_same. eapply nth_error_some_lt; eauto.
  - apply i2e_at; auto.
Qed.

Lemma br_row_ok k r' : nth_error br' k = Some r' -> exists i r zf zt,
  nth_error sl k = Some i /\ nth_error (p_branch p) i = Some r /\
  nth_error r F_BUS = Some (ofZ zf) /\ nth_error r T_BUS = Some (ofZ zt) /\
  length r' = length r /\
  unrenum_row (map ofZ i2eZ) F_BUS r' = Ok (upd r' F_BUS (ofZ zf)) /\
  unrenum_row (map ofZ i2eZ) T_BUS (upd r' F_BUS (ofZ zf)) =
     Ok (upd (upd r' F_BUS (ofZ zf)) T_BUS (ofZ zt)).
Proof.
  intros Hk. destruct (same_shape_get _ _ _ _ _ Sl Hk) as (r1 & Hr1 & Hl & Hc).
  destruct (nth_error_lt sl k) as [i Hi].
  { rewrite <- (if_br_len _ _ _ _ _ _ F). eapply nth_error_some_lt; eauto. }
  assert (branch_in_service p i)
    as (r & Hr & _ & (zf & b & Hz & Hb & Hs) & (zt & b2 & Hz2 & Hb2 & Hs2)).
  { apply (proj1 (if_sl _ _ _ _ _ _ F)). eapply nth_error_In; eauto. }
  apply (proj1 (if_sb _ _ _ _ _ _ F)) in Hs. apply In_nth_error in Hs as [kf Hkf].
  apply (proj1 (if_sb _ _ _ _ _ _ F)) in Hs2. apply In_nth_error in Hs2 as [kt Hkt].
  assert (Hst : stands_for p sb kf zf) by (exists b; auto).
  assert (Hst2 : stands_for p sb kt zt) by (exists b2; auto).
  rewrite (if_br _ _ _ _ _ _ F _ _ _ _ _ _ _ Hi Hr Hz Hz2 Hst Hst2) in Hr1.
  injection Hr1 as <-.
  rewrite !upd_length in Hl.
  exists i, r, zf, zt. do 5 (split; auto). split.
  - apply (unrenum_row_ok _ _ _ kf); [|apply i2e_at; auto].
    rewrite Hc by (left; auto). rewrite nth_error_upd_other by discriminate.
    apply nth_error_upd_same. eapply nth_error_some_lt; eauto.
  - apply (unrenum_row_ok _ _ _ kt); [|apply i2e_at; auto].
    rewrite nth_error_upd_other by discriminate.
    rewrite Hc by (right; left; auto).
    apply nth_error_upd_same. rewrite upd_length. eapply nth_error_some_lt; eauto.
Qed.

(** the permutation used for the generators *)
Lemma grows_ok : exists grows, gather gen' (o_gen_i2e o) = Ok grows /\
  length gon = length grows /\
  (forall k j i, nth_error ge k = Some j -> nth_error sg k = Some i ->
     nth_error gon j = Some i /\ nth_error grows j = nth_error gen' k) /\
  (forall r, In r grows -> exists k, nth_error gen' k = Some r).
Proof.
  pose proof (cv_ge _ _ _ _ _ _ _ _ _ _ _ C) as [_ Hp].
  pose proof (cv_gi _ _ _ _ _ _ _ _ _ _ _ C) as Hgi.
  pose proof (cv_sg _ _ _ _ _ _ _ _ _ _ _ C) as Hsg.
  pose proof (perm_seq_length _ _ Hp) as Hlge.
  assert (Hlg : length gen' = length gon).
  { rewrite (proj1 Sg), (if_gen_len _ _ _ _ _ _ F), (gather_length _ _ _ Hsg); auto. }
  destruct (Has (map Z.of_nat ge)) as [Hq _]. rewrite map_length, Hlge in Hq.
  rewrite <- Hgi in Hq.
  destruct (gather_ok gen' (o_gen_i2e o)) as (grows & Hg).
  { intros i Hi. rewrite Hlg. eapply perm_seq_lt; eauto. }
  exists grows. split; auto. split.
  { rewrite (gather_length _ _ _ Hg). symmetry. eapply perm_seq_length; eauto. }
  split.
  - intros k j i Hk Hi. rewrite (gather_nth _ _ _ _ _ Hsg Hk) in Hi. split; auto.
    pose proof (argsort_inverse argsort ge _ k j Has Hp Hk) as Hinv. rewrite <- Hgi in Hinv.
    apply (gather_nth _ _ _ _ _ Hg Hinv).
  - intros r Hr. apply In_nth_error in Hr as [j Hj].
    destruct (nth_error_lt (o_gen_i2e o) j) as [k Hk].
    { rewrite <- (gather_length _ _ _ Hg). eapply nth_error_some_lt; eauto. }
    exists k. rewrite <- (gather_nth _ _ _ _ _ Hg Hk); auto.
Qed.

Theorem int2ext_back :
  exists r, int2ext (with_results q bus' gen' br') = Ok r /\
    written_back [BUS_I] sb (p_bus p) bus' (p_bus r) /\
    written_back [GEN_BUS] sg (p_gen p) gen' (p_gen r) /\
    written_back [F_BUS; T_BUS] sl (p_branch p) br' (p_branch r) /\
    p_gencost r = p_gencost p /\ p_areas r = drop_empty_areas (p_areas p) /\
    p_A r = p_A p /\ p_N r = p_N p /\
    exists o', p_order r = Some o' /\ o_state o' = StateE /\
      o_gen_off o' = o_gen_off o /\ o_br_off o' = o_br_off o.
Proof.
  pose proof C as C'; destruct C' as [c_order c_state c_form c_ext c_i2e c_i2eZ c_sb c_gon c_ge c_gi c_sg c_sl c_sa
                 c_gc c_A c_N c_goff c_loff].
  destruct c_gon as (c_gon & c_gonl & c_goni). destruct c_ge as (c_ge & c_gep).
  unfold int2ext. cbn [with_results p_order]. rewrite c_order, c_state.
  unfold int2ext_body. rewrite c_ext. cbn [of_option bind with_results p_gencost p_areas p_A p_N
    p_bus p_gen p_branch x_gencost x_areas x_A x_N x_bus x_gen x_branch].
  assert (R : forall A (cur saved : option A), (cur = None <-> saved = None) ->
                restore cur saved = Ok saved).
  { intros A [a|] [b|] H; simpl; auto; [destruct H as [_ H]; discriminate (H eq_refl)|
      destruct H as [H _]; discriminate (H eq_refl)]. }
  assert (HarN : p_areas q = None <-> drop_empty_areas (p_areas p) = None).
  { pose proof (if_areas _ _ _ _ _ _ F) as Ha. destruct (p_areas p) as [[|a0 a]|]; simpl.
    - tauto.
    - destruct Ha as (_ & _ & a' & -> & _). split; discriminate.
    - tauto. }
  rewrite !R by auto. cbn [bind].
  rewrite c_sb, c_sl, c_gon, c_i2e.
  (* bus *)
  destruct (if_sb _ _ _ _ _ _ F) as ((Nsb & Isb) & _).
  assert (Lsb : length sb = length bus').
  { rewrite (proj1 Sb), (if_bus_len _ _ _ _ _ _ F); auto. }
  assert (Rsb : forall i, In i sb -> i < length (p_bus p)).
  { intros i Hi. apply Isb in Hi as (r & Hr & _). eapply nth_error_some_lt; eauto. }
  destruct (wf_bus_rect _ W) as (wb & Hwb & Fwb).
  rewrite (put_rows_ok _ _ _ wb); auto.
  2:{ apply Forall_forall. intros r' Hr'. apply In_nth_error in Hr' as [k Hk].
      destruct (bus_row_ok _ _ Hk) as (i & r & z & _ & Hr & _ & -> & _).
      rewrite Forall_forall in Fwb. apply Fwb. eapply nth_error_In; eauto. }
  cbn [bind].
  (* branch *)
  destruct (if_sl _ _ _ _ _ _ F) as ((Nsl & Isl) & _).
  assert (Lsl : length sl = length br').
  { rewrite (proj1 Sl), (if_br_len _ _ _ _ _ _ F); auto. }
  assert (Rsl : forall i, In i sl -> i < length (p_branch p)).
  { intros i Hi. apply Isl in Hi as (r & Hr & _). eapply nth_error_some_lt; eauto. }
  destruct (wf_br_rect _ W) as (wl & Hwl & Fwl).
  rewrite (put_rows_ok _ _ _ wl); auto.
  2:{ apply Forall_forall. intros r' Hr'. apply In_nth_error in Hr' as [k Hk].
      destruct (br_row_ok _ _ Hk) as (i & r & zf & zt & _ & Hr & _ & _ & -> & _).
      rewrite Forall_forall in Fwl. apply Fwl. eapply nth_error_In; eauto. }
  cbn [bind].
  (* gen *)
  destruct grows_ok as (grows & Hgrows & Lg & Hgk & Hgin). rewrite Hgrows. cbn [bind].
  destruct c_gonl as (Ngon & Igon).
  assert (Rgon : forall i, In i gon -> i < length (p_gen p)).
  { intros i Hi. apply Igon in Hi as (r & s & Hr & _). eapply nth_error_some_lt; eauto. }
  destruct (wf_gen_rect _ W) as (wg & Hwg & Fwg).
  rewrite (put_rows_ok _ _ _ wg); auto.
  2:{ apply Forall_forall. intros r' Hr'. apply Hgin in Hr' as [k Hk].
      destruct (gen_row_ok _ _ Hk) as (i & r & z & _ & Hr & _ & -> & _).
      rewrite Forall_forall in Fwg. apply Fwg. eapply nth_error_In; eauto. }
  cbn [bind].
  set (i2e := map ofZ i2eZ) in *.
  (* areas *)
  assert (HA : exists ar1, opt_map (fun a => put_rows a (o_areas_on o)
                 (match p_areas q with Some r => r | None => [] end))
                 (drop_empty_areas (p_areas p)) = Ok ar1 /\
               opt_map (fun a => unrenum i2e PRICE_REF_BUS a (o_areas_on o)) ar1 =
               Ok (drop_empty_areas (p_areas p))).
  { pose proof (if_areas _ _ _ _ _ _ F) as Ha.
    destruct (p_areas p) as [[|a0 a]|] eqn:EA; try (exists None; split; reflexivity).
    destruct Ha as ((Nsa & Isa) & _ & a' & Ea' & La' & Ha').
    unfold drop_empty_areas. set (aa := a0 :: a) in *.
    assert (Hne : p_areas q <> None) by (rewrite Ea'; discriminate).
    rewrite (c_sa Hne), Ea'. cbn [opt_map].
    assert (Rsa : forall i, In i sa -> i < length aa).
    { intros i Hi. apply Isa in Hi as (r & Hr & _). eapply nth_error_some_lt; eauto. }
    assert (Hrow : forall k r', nth_error a' k = Some r' -> exists i r z b,
       nth_error sa k = Some i /\ nth_error aa i = Some r /\ stands_for p sb b z /\
       nth_error r PRICE_REF_BUS = Some (ofZ z) /\ r' = upd r PRICE_REF_BUS (ofN b)).
    { intros k r' Hk. destruct (nth_error_lt sa k) as [i Hi].
      { rewrite <- La'. eapply nth_error_some_lt; eauto. }
      destruct (proj1 (Isa i) (nth_error_In _ _ Hi)) as (r & Hr & z & ib & Hz & Hb & Hs).
      apply Isb in Hs. apply In_nth_error in Hs as [b Hkb].
      assert (Hst : stands_for p sb b z) by (exists ib; auto).
      rewrite (Ha' _ _ _ _ _ Hi Hr Hz Hst) in Hk. injection Hk as <-.
      exists i, r, z, b. auto. }
    destruct (wf_areas_rect _ W _ EA) as (wa & _ & Fwa).
    rewrite (put_rows_ok _ _ _ wa); auto.
    2:{ apply Forall_forall. intros r' Hr'. apply In_nth_error in Hr' as [k Hk].
        destruct (Hrow _ _ Hk) as (i & r & z & b & _ & Hr & _ & _ & ->). rewrite upd_length.
        rewrite Forall_forall in Fwa. apply Fwa. eapply nth_error_In; eauto. }
    cbn [bind]. eexists; split; [reflexivity|]. cbn [opt_map].
    rewrite (unrenum_scatter _ _ _ _ _ (unf i2e PRICE_REF_BUS)); auto.
    2:{ intros r' Hr'. apply In_nth_error in Hr' as [k Hk].
        destruct (Hrow _ _ Hk) as (i & r & z & b & _ & Hr & Hst & Hz & ->).
        unfold unf. rewrite (unrenum_row_ok _ _ _ b (ofZ z)); auto.
        - apply nth_error_upd_same. eapply nth_error_some_lt; eauto.
        - apply i2e_at; auto. }
    cbn [bind]. do 2 f_equal. 
    rewrite (scatter_gather aa sa); auto.
    destruct (gather_ok aa sa Rsa) as (v & Hv). rewrite Hv. f_equal.
    apply nth_error_ext; intros k. rewrite nth_error_map.
    destruct (nth_error a' k) as [r'|] eqn:E; simpl.
    - destruct (Hrow _ _ E) as (i & r & z & b & Hi & Hr & Hst & Hz & ->).
      rewrite (gather_nth _ _ _ _ _ Hv Hi), Hr. f_equal.
      unfold unf. rewrite (unrenum_row_ok _ _ _ b (ofZ z)).
      + rewrite upd_upd. symmetry. apply upd_self; auto.
      + apply nth_error_upd_same. eapply nth_error_some_lt; eauto.
      + apply i2e_at; auto.
    - apply nth_error_None in E. apply nth_error_None. rewrite (gather_length _ _ _ Hv). lia. }
  destruct HA as (ar1 & HA1 & HA2). rewrite HA1. cbn [bind].
  rewrite (unrenum_scatter _ _ _ _ _ (unf i2e BUS_I)); auto.
  2:{ intros r' Hr'. apply In_nth_error in Hr' as [k Hk]. unfold unf.
      destruct (bus_row_ok _ _ Hk) as (i & r & z & _ & _ & _ & _ & H). unfold i2e. rewrite H; auto. }
  cbn [bind].
  rewrite (unrenum_scatter _ _ _ _ _ (unf i2e F_BUS)); auto.
  2:{ intros r' Hr'. apply In_nth_error in Hr' as [k Hk]. unfold unf.
      destruct (br_row_ok _ _ Hk) as (i & r & zf & zt & _ & _ & _ & _ & _ & H & _).
      unfold i2e. rewrite H; auto. }
  cbn [bind].
  rewrite (unrenum_scatter _ _ _ _ _ (unf i2e T_BUS)); auto.
  3:{ intros r' Hr'. apply in_map_iff in Hr' as (r'' & <- & Hr').
      apply In_nth_error in Hr' as [k Hk]. unfold unf.
      destruct (br_row_ok _ _ Hk) as (i & r & zf & zt & _ & _ & _ & _ & _ & H & H2).
      unfold i2e. rewrite H, H2; auto. }
  2:{ rewrite map_length; auto. }
  cbn [bind].
  rewrite (unrenum_scatter _ _ _ _ _ (unf i2e GEN_BUS)); auto.
  2:{ intros r' Hr'. apply Hgin in Hr' as [k Hk]. unfold unf.
      destruct (gen_row_ok _ _ Hk) as (i & r & z & _ & _ & _ & _ & H). unfold i2e. rewrite H; auto. }
  cbn [bind]. rewrite HA2. cbn [bind].
  eexists; split; [reflexivity|]. cbn [p_bus p_gen p_branch p_gencost p_areas p_A p_N p_order].
  split; [|split; [|split; [|repeat split; auto; eexists; repeat split; reflexivity]]].
  - (* bus *)
    split; [apply scatter_length|]. split; [intros; apply scatter_other; auto|].
    intros k i r0 r Hk Hr0 Hr. destruct (bus_row_ok _ _ Hr) as (i' & r0' & z & Hi' & Hr0' & Hz & Hl & H).
    assert (i' = i) by congruence; subst i'. assert (r0' = r0) by congruence; subst r0'.
    exists (upd r BUS_I (ofZ z)). split; [|split; [apply upd_length|]].
    + apply (scatter_at _ _ _ k); auto; [|eapply nth_error_some_lt; eauto]. rewrite nth_error_map, Hr. simpl. unfold unf.
      unfold i2e; rewrite H; auto.
    + intros c. rewrite nth_error_upd. destruct (in_dec Nat.eq_dec c [BUS_I]) as [[<-|[]]|Hn].
      * rewrite Nat.eqb_refl. rewrite Hz. apply nth_error_some_lt in Hz.
        destruct (Nat.ltb_spec BUS_I (length r)); auto; lia.
      * destruct (Nat.eqb_spec BUS_I c); auto. subst; exfalso; apply Hn; left; auto.
  - (* gen *)
    split; [apply scatter_length|].
    assert (Hsgon : forall i, In i sg <-> In i gon).
    { intros i. rewrite Igon. apply (if_sg _ _ _ _ _ _ F). }
    split; [intros; apply scatter_other; rewrite <- Hsgon; auto|].
    intros k i r0 r Hk Hr0 Hr. destruct (gen_row_ok _ _ Hr) as (i' & r0' & z & Hi' & Hr0' & Hz & Hl & H).
    assert (i' = i) by congruence; subst i'. assert (r0' = r0) by congruence; subst r0'.
    exists (upd r GEN_BUS (ofZ z)). split; [|split; [apply upd_length|]].
    + destruct (nth_error_lt ge k) as [j Hj].
      { rewrite <- (gather_length _ _ _ c_sg). eapply nth_error_some_lt; eauto. }
      destruct (Hgk _ _ _ Hj Hk) as (Hgj & Hgr).
      apply (scatter_at _ _ _ j); auto.
      * rewrite nth_error_map, Hgr, Hr. simpl. unfold unf. unfold i2e; rewrite H; auto.
      * apply Rgon. eapply nth_error_In; eauto.
    + intros c. rewrite nth_error_upd. destruct (in_dec Nat.eq_dec c [GEN_BUS]) as [[<-|[]]|Hn].
      * rewrite Nat.eqb_refl. rewrite Hz. apply nth_error_some_lt in Hz.
        destruct (Nat.ltb_spec GEN_BUS (length r)); auto; lia.
      * destruct (Nat.eqb_spec GEN_BUS c); auto. subst; exfalso; apply Hn; left; auto.
  - (* branch *)
    split; [apply scatter_length|]. split; [intros; apply scatter_other; auto|].
    intros k i r0 r Hk Hr0 Hr.
    destruct (br_row_ok _ _ Hr) as (i' & r0' & zf & zt & Hi' & Hr0' & Hzf & Hzt & Hl & H1 & H2).
    assert (i' = i) by congruence; subst i'. assert (r0' = r0) by congruence; subst r0'.
    exists (upd (upd r F_BUS (ofZ zf)) T_BUS (ofZ zt)).
    split; [|split; [rewrite !upd_length; auto|]].
    + apply (scatter_at _ _ _ k); auto; [|eapply nth_error_some_lt; eauto]. rewrite !nth_error_map, Hr. simpl. unfold unf.
      unfold i2e; rewrite H1, H2; auto.
    + intros c. rewrite !nth_error_upd, !upd_length.
      pose proof (nth_error_some_lt _ _ _ Hzf). pose proof (nth_error_some_lt _ _ _ Hzt).
      destruct (in_dec Nat.eq_dec c [F_BUS; T_BUS]) as [[<-|[<-|[]]]|Hn].
      * destruct (Nat.eqb_spec T_BUS F_BUS) as [E|_]; [discriminate|].
        rewrite Nat.eqb_refl. rewrite Hzf.
        destruct (Nat.ltb_spec F_BUS (length r)); auto; lia.
      * rewrite Nat.eqb_refl. rewrite Hzt.
        destruct (Nat.ltb_spec T_BUS (length r)); auto; lia.
      * destruct (Nat.eqb_spec T_BUS c); [subst; exfalso; apply Hn; right; left; auto|].
        destruct (Nat.eqb_spec F_BUS c); [subst; exfalso; apply Hn; left; auto|]. auto.
Qed.
End Backward.

Lemma same_shape_refl cols (t : table) : same_shape cols t t.
Proof. split; auto. intros k r r' H1 H2. assert (r = r') by congruence. subst; auto. Qed.

Lemma with_results_same (q : ppc) : with_results q (p_bus q) (p_gen q) (p_branch q) = q.
Proof. destruct q; reflexivity. Qed.

(** nothing changes when the solver writes nothing *)
Lemma written_back_id cols idx (orig res t' : table) :
  (forall k i r0, nth_error idx k = Some i -> nth_error orig i = Some r0 ->
     exists r, nth_error res k = Some r /\ length r = length r0 /\
       forall c, ~ In c cols -> nth_error r c = nth_error r0 c) ->
  (forall i, In i idx -> i < length orig) ->
  written_back cols idx orig res t' -> t' = orig.
Proof.
  intros Hres Hr (Hl & Hoff & Hon). apply nth_error_ext; intros i.
  destruct (in_dec Nat.eq_dec i idx) as [Hin|Hni]; [|auto].
  pose proof (Hr _ Hin) as Hlt. apply In_nth_error in Hin as [k Hk].
  destruct (nth_error_lt orig i Hlt) as [r0 Hr0].
  destruct (Hres _ _ _ Hk Hr0) as (r & Hrk & Hlen & Hc).
  destruct (Hon _ _ _ _ Hk Hr0 Hrk) as (r' & Hr' & Hlr & Hcc).
  rewrite Hr', Hr0. f_equal. apply nth_error_ext; intros c. rewrite Hcc.
  destruct (in_dec Nat.eq_dec c cols); auto.
Qed.

Lemma round_trip argsort (p q : ppc) (o : order) i2eZ sb gon ge sg sl sa :
  argsort_spec argsort -> wf_case p -> conv argsort p q o i2eZ sb gon ge sg sl sa ->
  exists r, int2ext q = Ok r /\ p_bus r = p_bus p /\ p_gen r = p_gen p /\
    p_branch r = p_branch p /\ p_gencost r = p_gencost p /\
    p_areas r = drop_empty_areas (p_areas p) /\ p_A r = p_A p /\ p_N r = p_N p.
Proof.
  intros Has W C. pose proof (cv_form _ _ _ _ _ _ _ _ _ _ _ C) as F.
  destruct (int2ext_back argsort Has p W q o i2eZ sb gon ge sg sl sa C _ _ _
              (same_shape_refl _ _) (same_shape_refl _ _) (same_shape_refl _ _))
    as (r & Hr & Hb & Hg & Hl & Hgc & Har & HA & HN & _).
  rewrite with_results_same in Hr. exists r. split; auto.
  destruct (if_sb _ _ _ _ _ _ F) as ((_ & Isb) & _).
  destruct (if_sl _ _ _ _ _ _ F) as ((_ & Isl) & _).
  destruct (if_sg _ _ _ _ _ _ F) as (_ & Isg).
  split; [|split; [|split; [|auto]]].
  - eapply written_back_id; [| |exact Hb].
    + intros k i r0 Hk H0. eexists; split; [eapply (if_bus _ _ _ _ _ _ F); eauto|].
      split; [apply upd_length|]. intros c Hc. apply nth_error_upd_other.
      intros E; apply Hc; left; auto.
    + intros i Hi. apply Isb in Hi as (r0 & H0 & _). eapply nth_error_some_lt; eauto.
  - eapply written_back_id; [| |exact Hg].
    + intros k i r0 Hk H0.
      destruct (proj1 (Isg i) (nth_error_In _ _ Hk)) as (r1 & s & H1 & _ & _ & z & b & Hz & Hbz & Hs).
      assert (r1 = r0) by congruence; subst r1.
      apply Isb in Hs. apply In_nth_error in Hs as [kb Hkb].
      eexists; split; [eapply (if_gen _ _ _ _ _ _ F); eauto; exists b; eauto|].
      split; [apply upd_length|]. intros c Hc. apply nth_error_upd_other.
      intros E; apply Hc; left; auto.
    + intros i Hi. apply Isg in Hi as (r0 & s & H0 & _). eapply nth_error_some_lt; eauto.
  - eapply written_back_id; [| |exact Hl].
    + intros k i r0 Hk H0.
      destruct (proj1 (Isl i) (nth_error_In _ _ Hk))
        as (r1 & H1 & _ & (z & b & Hz & Hbz & Hs) & (z2 & b2 & Hz2 & Hbz2 & Hs2)).
      assert (r1 = r0) by congruence; subst r1.
      apply Isb in Hs. apply In_nth_error in Hs as [kb Hkb].
      apply Isb in Hs2. apply In_nth_error in Hs2 as [kb2 Hkb2].
      eexists; split.
      { eapply (if_br _ _ _ _ _ _ F); eauto; [exists b|exists b2]; eauto. }
      split; [rewrite !upd_length; auto|]. intros c Hc.
      assert (F_BUS <> c /\ T_BUS <> c) as [E1 E2].
      { split; intros E; apply Hc; [left|right; left]; auto. }
      rewrite !nth_error_upd_other; auto.
    + intros i Hi. apply Isl in Hi as (r0 & H0 & _). eapply nth_error_some_lt; eauto.
Qed.
End Cells.
