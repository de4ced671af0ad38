(** State machine and user data (e2i_data / i2e_data). *)
From Coq Require Import Permutation Sorted Lia.
From Verif Require Import Lib.Num Lib.ListFacts Model.Idx Model.Ext2int Spec.CaseSpec
  Proofs.Ext2intA Proofs.Ext2intB Proofs.Ext2intC.

Section Cells.
Context {Ty : Type} {CC : Cell Ty}.
Local Notation num := Ty.
Local Notation row := (list Ty).
Local Notation table := (list (list Ty)).
Local Notation umat := (umat_of Ty).
Local Notation tabs := (tabs_of Ty).
Local Notation order := (order_of Ty).
Local Notation ppc := (ppc_of Ty).

Lemma ext2int_unfold argsort (p : ppc) : in_ext_state p -> ext2int argsort p = ext2int_body argsort p.
Proof.
  unfold in_ext_state, ext2int. destruct (p_order p) as [o|]; auto. intros ->; auto.
Qed.

Lemma drop_idem (a : option table) : drop_empty_areas (drop_empty_areas a) = drop_empty_areas a.
Proof. destruct a as [[|]|]; reflexivity. Qed.

Lemma body_same argsort (p r : ppc) : same_case p r ->
  ext2int_body argsort r = ext2int_body argsort p.
Proof.
  intros (Hb & Hg & Hl & Hc & Ha & HA & HN). unfold ext2int_body.
  rewrite Hb, Hg, Hl, Hc, Ha, HA, HN, drop_idem. reflexivity.
Qed.

Lemma wf_same (p r : ppc) : same_case p r -> wf_case p -> wf_case r.
Proof.
  intros (Hb & Hg & Hl & Hc & Ha & HA & HN) W.
  assert (Hat : forall z i, bus_at r z i <-> bus_at p z i).
  { intros z i. unfold bus_at. rewrite Hb. tauto. }
  assert (Hnm : forall c x z, names_bus p c x z -> names_bus r c x z).
  { intros c x z (H & i & Hi). split; auto. exists i. apply Hat; auto. }
  assert (Har : forall a, p_areas r = Some a -> p_areas p = Some a).
  { intros a E. rewrite Ha in E. destruct (p_areas p) as [[|]|]; simpl in E; congruence. }
  constructor; rewrite ?Hb, ?Hg, ?Hl, ?Hc, ?HA, ?HN; try apply W.
  - intros a E. apply (wf_areas_rect _ W). auto.
  - intros z i j H1 H2. apply Hat in H1, H2. apply (wf_bus_distinct _ W z); auto.
  - intros x Hx. destruct (wf_gen_bus _ W _ Hx) as (z & Hz); eauto.
  - intros x Hx. destruct (wf_br_bus _ W _ Hx) as ((z & Hz) & (z' & Hz')). split; eauto.
  - intros a x Hx Hin. destruct (wf_area_bus _ W _ _ (Har _ Hx) Hin) as (z & Hz); eauto.
Qed.

Section S.
Variable argsort : list Z -> list nat.
Hypothesis Has : argsort_spec argsort.

Lemma one_cycle (p : ppc) : wf_case p -> in_ext_state p ->
  exists q r, ext2int argsort p = Ok q /\ int2ext q = Ok r /\ same_case p r /\ in_ext_state r.
Proof.
  intros W E. rewrite ext2int_unfold by auto.
  destruct (ext2int_conv argsort Has p W) as (q & o & i2eZ & sb & gon & ge & sg & sl & sa & Hq & C).
  destruct (round_trip _ _ _ _ _ _ _ _ _ _ _ Has W C) as (r & Hr & H).
  destruct (int2ext_back argsort Has p W q o i2eZ sb gon ge sg sl sa C _ _ _
              (same_shape_refl _ _) (same_shape_refl _ _) (same_shape_refl _ _))
    as (r' & Hr' & _ & _ & _ & _ & _ & _ & _ & o' & Ho' & Hst & _).
  rewrite with_results_same in Hr'. assert (r' = r) by congruence; subst r'.
  exists q, r. repeat split; auto; try apply H. unfold in_ext_state. rewrite Ho'. auto.
Qed.

Lemma same_case_trans (p q r : ppc) : same_case p q -> same_case q r -> same_case p r.
Proof.
  intros (H1 & H2 & H3 & H4 & H5 & H6 & H7) (K1 & K2 & K3 & K4 & K5 & K6 & K7).
  repeat split; try congruence. rewrite K5, H5. apply drop_idem.
Qed.

Lemma many_cycles n : forall p : ppc, wf_case p -> in_ext_state p ->
  exists r, cycles argsort (S n) p = Ok r /\ same_case p r /\ in_ext_state r.
Proof.
  induction n as [|n IH]; intros p W E;
    destruct (one_cycle p W E) as (q & r & Hq & Hr & Hs & Er); cbn [cycles]; unfold cycle;
    rewrite Hq; cbn [bind]; rewrite Hr; cbn [bind].
  - exists r; auto.
  - destruct (IH r (wf_same _ _ Hs W) Er) as (r2 & H2 & Hs2 & E2). exists r2.
    split; [exact H2|]. split; auto. eapply same_case_trans; eauto.
Qed.

(** ** user data *)
Variable p : ppc.
Hypothesis W : wf_case p.
Variables (q : ppc) (o : order) (i2eZ : list Z) (sb gon ge sg sl sa : list nat).
Hypothesis C : conv argsort p q o i2eZ sb gon ge sg sl sa.

Let F : internal_form p q sb sg sl sa.
Proof. exact (cv_form _ _ _ _ _ _ _ _ _ _ _ C). Qed.

Lemma src_range k i : In i (src sb sg sl k) -> i < int_len p k.
Proof.
  destruct k; simpl; intros Hi.
  - apply (proj1 (if_sb _ _ _ _ _ _ F)) in Hi as (r & Hr & _). eapply nth_error_some_lt; eauto.
  - apply (if_sg _ _ _ _ _ _ F) in Hi as (r & s & Hr & _). eapply nth_error_some_lt; eauto.
  - apply (proj1 (if_sl _ _ _ _ _ _ F)) in Hi as (r & Hr & _). eapply nth_error_some_lt; eauto.
Qed.

Lemma src_NoDup k : NoDup (src sb sg sl k).
Proof.
  destruct k; simpl.
  - apply (if_sb _ _ _ _ _ _ F). - apply (if_sg _ _ _ _ _ _ F). - apply (if_sl _ _ _ _ _ _ F).
Qed.

Lemma e2i_idx_src k : e2i_idx o k = Ok (src sb sg sl k).
Proof.
  destruct C as [c_order c_state c_form c_ext c_i2e c_i2eZ c_sb cv_gon0 cv_ge0 cv_gi0 cv_sg0 c_sl c_sa
      c_gc c_A c_N c_goff c_loff]. destruct cv_gon0 as (E1 & _), cv_ge0 as (E2 & _).
  destruct k; simpl; rewrite ?E1, ?E2; auto; f_equal; auto.
Qed.

Lemma e2i_single_ok {A} k (v : list A) : length v = int_len p k ->
  exists w, e2i_single o k v = Ok w /\ length w = length (src sb sg sl k) /\
    forall j i, nth_error (src sb sg sl k) j = Some i -> nth_error w j = nth_error v i.
Proof.
  intros Hl. unfold e2i_single. rewrite e2i_idx_src. cbn [bind].
  destruct (gather_ok v (src sb sg sl k)) as (w & Hw).
  { intros i Hi. rewrite Hl. apply src_range; auto. }
  exists w. split; auto. split; [eapply gather_length; eauto|].
  intros; eapply gather_nth; eauto.
Qed.

Lemma i2e_single_ok {A} k (w old : list A) :
  length w = length (src sb sg sl k) -> length old = int_len p k ->
  exists v, i2e_single o k w old = Ok v /\ length v = length old /\
    (forall i, ~ In i (src sb sg sl k) -> nth_error v i = nth_error old i) /\
    (forall j i, nth_error (src sb sg sl k) j = Some i -> nth_error v i = nth_error w j).
Proof.
  intros Hw Ho. pose proof C as C'. destruct C' as [c_order c_state c_form c_ext c_i2e c_i2eZ c_sb cv_gon0 cv_ge0 cv_gi0 cv_sg0 c_sl c_sa
      c_gc c_A c_N c_goff c_loff].
  destruct cv_gon0 as (E1 & (Ng & Ig) & _), cv_ge0 as (E2 & Hp).
  unfold i2e_single.
  assert (HX : forall k', k' <> OGen -> k = k' -> status_on o k' = src sb sg sl k' ->
     exists v, scatter_checked old (status_on o k') w = Ok v /\ length v = length old /\
    (forall i, ~ In i (src sb sg sl k') -> nth_error v i = nth_error old i) /\
    (forall j i, nth_error (src sb sg sl k') j = Some i -> nth_error v i = nth_error w j)).
  { intros k' _ <- Es. rewrite Es.
    rewrite scatter_checked_ok; [|auto|intros i Hi; rewrite Ho; apply src_range; auto].
    eexists; split; [reflexivity|]. split; [apply scatter_length|].
    split; [intros; apply scatter_other; auto|].
    intros j i Hj. destruct (nth_error_lt w j) as [x Hx].
    { rewrite Hw. eapply nth_error_some_lt; eauto. }
    rewrite Hx. apply (scatter_at _ _ _ j); auto; [apply src_NoDup|].
    rewrite Ho. apply src_range. eapply nth_error_In; eauto. }
  destruct k; cbn [bind].
  - apply (HX OBus); auto; discriminate.
  - clear HX. pose proof (perm_seq_length _ _ Hp) as Hlge.
    simpl in Hw. rewrite (gather_length _ _ _ cv_sg0), Hlge in Hw.
    destruct (Has (map Z.of_nat ge)) as [Hq _]. rewrite map_length, Hlge in Hq.
    rewrite <- cv_gi0 in Hq.
    destruct (gather_ok w (o_gen_i2e o)) as (g & Hg).
    { intros i Hi. rewrite Hw. eapply perm_seq_lt; eauto. }
    rewrite Hg; cbn [bind]. simpl status_on. rewrite E1.
    assert (Hlg : length gon = length g).
    { rewrite (gather_length _ _ _ Hg). symmetry; eapply perm_seq_length; eauto. }
    assert (Hr : forall i, In i gon -> i < length old).
    { intros i Hi. rewrite Ho. simpl. apply Ig in Hi as (r & s & Hr & _).
      eapply nth_error_some_lt; eauto. }
    rewrite scatter_checked_ok by auto.
    eexists; split; [reflexivity|]. split; [apply scatter_length|]. split.
    + intros i Hi. apply scatter_other. intros Hin. apply Hi. simpl.
      apply (if_sg _ _ _ _ _ _ F). apply Ig; auto.
    + simpl. intros k i Hk. destruct (nth_error_lt ge k) as [j Hj].
      { rewrite <- (gather_length _ _ _ cv_sg0). eapply nth_error_some_lt; eauto. }
      rewrite (gather_nth _ _ _ _ _ cv_sg0 Hj) in Hk.
      pose proof (argsort_inverse argsort ge _ k j Has Hp Hj) as Hinv. rewrite <- cv_gi0 in Hinv.
      rewrite <- (gather_nth _ _ _ _ _ Hg Hinv).
      destruct (nth_error_lt g j) as [x Hx].
      { rewrite <- Hlg. eapply nth_error_some_lt; eauto. }
      rewrite Hx. apply (scatter_at _ _ _ j); auto. apply Hr. eapply nth_error_In; eauto.
  - apply (HX OBranch); auto; discriminate.
Qed.

Lemma int_len_src k : int_len q k = length (src sb sg sl k).
Proof.
  destruct k; simpl; [apply (if_bus_len _ _ _ _ _ _ F)|apply (if_gen_len _ _ _ _ _ _ F)|
    apply (if_br_len _ _ _ _ _ _ F)].
Qed.

Lemma i2e_e2i {A} k (v w : list A) : length v = int_len p k ->
  e2i_single o k v = Ok w -> i2e_single o k w v = Ok v.
Proof.
  intros Hl Hw. destruct (e2i_single_ok k v Hl) as (w' & Hw' & Hwl & Hwn).
  rewrite Hw in Hw'; injection Hw' as <-.
  destruct (i2e_single_ok k w v Hwl Hl) as (v' & Hv' & Hvl & Hoff & Hon). rewrite Hv'. f_equal.
  apply nth_error_ext; intros i. destruct (in_dec Nat.eq_dec i (src sb sg sl k)) as [Hi|Hi]; auto.
  apply In_nth_error in Hi as [j Hj]. rewrite (Hon _ _ Hj). auto.
Qed.

Lemma gather_block {A} (pre blk post : list A) :
  gather (pre ++ blk ++ post) (seq (length pre) (length blk)) = Ok blk.
Proof.
  rewrite gather_firstn by (rewrite !app_length; lia). f_equal.
  rewrite skipn_app, skipn_all, Nat.sub_diag. simpl.
  rewrite firstn_app, Nat.sub_diag, firstn_all. simpl. apply app_nil_r.
Qed.

Definition extT := {| x_bus := p_bus p; x_gen := p_gen p; x_branch := p_branch p;
              x_gencost := p_gencost p; x_areas := drop_empty_areas (p_areas p);
              x_A := p_A p; x_N := p_N p |}.

Lemma ext_len_p k : ext_len extT k = int_len p k.
Proof. destruct k; reflexivity. Qed.

Lemma e2i_multi_blocks {A} (blocks : list (okind * list A)) (ws : list (list A)) rest : forall pre,
  Forall2 (fun b w => length (snd b) = int_len p (fst b) /\
                      e2i_single o (fst b) (snd b) = Ok w) blocks ws ->
  e2i_multi o extT (map fst blocks) (length pre) (pre ++ concat (map snd blocks) ++ rest)
   = Ok (concat ws ++ rest).
Proof.
  revert ws; induction blocks as [|[k b] blocks IH]; intros ws pre H; inversion H as [|? w ? ws' Hb Hr];
    subst; simpl.
  - f_equal. rewrite skipn_app, skipn_all, Nat.sub_diag. reflexivity.
  - destruct Hb as [Hl Hw]. simpl in *. rewrite ext_len_p, <- Hl.
    rewrite <- app_assoc, gather_block. cbn [bind]. rewrite Hw; cbn [bind].
    replace (length pre + length b) with (length (pre ++ b)) by apply app_length.
    replace (pre ++ b ++ concat (map snd blocks) ++ rest)
      with ((pre ++ b) ++ concat (map snd blocks) ++ rest) by (rewrite <- app_assoc; auto).
    rewrite (IH ws' (pre ++ b)) by auto. cbn [bind]. rewrite <- app_assoc. auto.
Qed.

Lemma i2e_multi_blocks {A} (blocks : list (okind * (list A * list A))) (vs : list (list A))
  rest orest : forall pre opre,
  Forall2 (fun b v => length (fst (snd b)) = length (src sb sg sl (fst b)) /\
                      length (snd (snd b)) = int_len p (fst b) /\
                      i2e_single o (fst b) (fst (snd b)) (snd (snd b)) = Ok v) blocks vs ->
  i2e_multi o extT q (map fst blocks) (length opre) (length pre)
     (pre ++ concat (map (fun b => fst (snd b)) blocks) ++ rest)
     (opre ++ concat (map (fun b => snd (snd b)) blocks) ++ orest)
   = Ok (concat vs ++ rest).
Proof.
  revert vs; induction blocks as [|[k [b ob]] blocks IH]; intros vs pre opre H;
    inversion H as [|? v ? vs' Hb Hr]; subst; simpl.
  - f_equal. rewrite skipn_app, skipn_all, Nat.sub_diag. reflexivity.
  - destruct Hb as (Hl & Hol & Hw). simpl in *. rewrite ext_len_p, <- Hol, int_len_src, <- Hl.
    rewrite <- !app_assoc, !gather_block. cbn [bind]. rewrite Hw; cbn [bind].
    replace (length pre + length b) with (length (pre ++ b)) by apply app_length.
    replace (length opre + length ob) with (length (opre ++ ob)) by apply app_length.
    replace (pre ++ b ++ concat (map (fun b => fst (snd b)) blocks) ++ rest)
      with ((pre ++ b) ++ concat (map (fun b => fst (snd b)) blocks) ++ rest)
      by (rewrite <- app_assoc; auto).
    replace (opre ++ ob ++ concat (map (fun b => snd (snd b)) blocks) ++ orest)
      with ((opre ++ ob) ++ concat (map (fun b => snd (snd b)) blocks) ++ orest)
      by (rewrite <- app_assoc; auto).
    rewrite (IH vs' (pre ++ b) (opre ++ ob)) by auto. cbn [bind]. rewrite <- ?app_assoc. auto.
Qed.
End S.
End Cells.
