(** Reserves, their multipliers and prices, back in the numbering of the case. *)
From Verif Require Import Lib.ListFacts Model.Reserves Spec.ReserveSpec Proofs.SparseFacts Proofs.FldFacts
  Proofs.OrdFacts Proofs.Ext2intA Proofs.Ext2intB Proofs.Ext2intD Proofs.ReserveA.
Local Open Scope nat_scope.

Lemma nth_error_combine {A B} (u : list A) : forall (v : list B) i a b,
  nth_error u i = Some a -> nth_error v i = Some b -> nth_error (combine u v) i = Some (a, b).
Proof. induction u; intros [|b0 v] [|i] a' b' H1 H2; cbn in *; try discriminate; auto. congruence. Qed.

Section C.
Context {K : Type} {F : Fld K}.
Add Field KF : (@f_ok K F).
Variable argsort : list Z -> list nat.
Hypothesis Has : argsort_spec argsort.
Variables (p q : ppc_of K) (o : order_of K) (i2eZ : list Z) (sb gon ge sg sl sa : list nat).
Hypothesis C : conv argsort p q o i2eZ sb gon ge sg sl sa.
Notation n := (length (p_gen p)).
Variables (R : reserves (K := K)) (igr0 : list nat) (ri : rint (K := K)).
Hypothesis ED : ext2int_done p o sg R igr0 ri.
Notation igr := (ri_igr ri).
Notation ngr := (length (ri_igr ri)).
Notation nrz := (length (ri_zones ri)).

Lemma sg_service j : In j sg <-> gen_in_service p j.
Proof. apply (if_sg _ _ _ _ _ _ (cv_form _ _ _ _ _ _ _ _ _ _ _ C)). Qed.

Lemma provides_at j : provides p (rs_zones R) j <-> exists m k, nth_error igr m = Some k /\ nth_error sg k = Some j.
Proof.
  split.
  - intros (S & P). apply sg_service in S. apply In_nth_error in S as (k & Hk).
    assert (In k igr) as I by (apply (ed_in _ _ _ _ _ _ ED); eauto).
    apply In_nth_error in I as (m & Hm). eauto.
  - intros (m & k & Hm & Hk). split; [apply sg_service; eapply nth_error_In; eauto|].
    apply nth_error_In in Hm. apply (ed_in _ _ _ _ _ _ ED) in Hm as (j' & Hj & P). congruence.
Qed.

Lemma igr_lt k : In k igr -> k < length sg.
Proof. intros I. apply (ed_in _ _ _ _ _ _ ED) in I as (j & Hj & _). eapply nth_error_some_lt; eauto. Qed.

(** [w] has the values [f] of the units with reserves *)
Definition spread (f : nat -> K) (w : list K) : Prop :=
  length w = n /\ (forall m k j, nth_error igr m = Some k -> nth_error sg k = Some j -> nth j w 0%K = f m) /\
  forall j, ~ provides p (rs_zones R) j -> nth j w 0%K = 0%K.

Lemma ext_ok {A} (d : A) v w0 w : scatter_checked (repeat d (length sg)) igr v = Ok w0 ->
  i2e_single o OGen w0 (repeat d n) = Ok w -> length v = ngr -> length w = n /\
  (forall m k j, nth_error igr m = Some k -> nth_error sg k = Some j -> nth_error w j = nth_error v m) /\
  forall j, ~ provides p (rs_zones R) j -> nth j w d = d.
Proof.
  intros H1 H2 L. rewrite scatter_checked_ok in H1; auto.
  2:{ intros i Hi. rewrite repeat_length. apply igr_lt; auto. }
  assert (w0 = scatter (repeat d (length sg)) igr v) as E by congruence. clear H1.
  assert (length w0 = length sg) as L0 by (rewrite E, scatter_length, repeat_length; auto).
  destruct (i2e_single_ok _ Has _ _ _ _ _ _ _ _ _ _ C OGen w0 (repeat d n)) as (w' & Hw & Lw & Off & On);
    [cbn; auto|rewrite repeat_length; reflexivity|].
  assert (w' = w) by congruence. subst w'. rewrite repeat_length in Lw. split; auto. cbn [src] in *.
  split.
  - intros m k j Hm Hk. rewrite (On _ _ Hk), E. assert (k < length sg) by (eapply nth_error_some_lt; eauto).
    destruct (nth_error_lt v m) as [a Ha]; [rewrite L; eapply nth_error_some_lt; eauto|].
    rewrite Ha. apply (scatter_at _ _ _ m); auto; [apply (ed_nodup _ _ _ _ _ _ ED)|rewrite repeat_length; auto].
  - intros j NP. destruct (in_dec Nat.eq_dec j sg) as [I|I].
    + apply In_nth_error in I as (k & Hk). assert (k < length sg) by (eapply nth_error_some_lt; eauto).
      assert (~ In k igr) as NI.
      { intros Ik. apply In_nth_error in Ik as (m & Hm). apply NP. apply provides_at. eauto. }
      apply nth_error_nth. rewrite (On _ _ Hk), E, scatter_other by auto. apply nth_error_repeat. auto.
    + destruct (Nat.lt_ge_cases j n).
      * apply nth_error_nth. rewrite (Off _ I). apply nth_error_repeat. auto.
      * apply nth_overflow. lia.
Qed.

Lemma spread_ok v w0 w : scatter_checked (repeat 0%K (length sg)) igr v = Ok w0 ->
  i2e_single o OGen w0 (repeat 0%K n) = Ok w -> length v = ngr -> spread (fun m => nth m v 0%K) w.
Proof.
  intros H1 H2 L. destruct (ext_ok 0%K v w0 w H1 H2 L) as (A & B & D). split; auto. split; auto.
  intros m k j Hm Hk. specialize (B _ _ _ Hm Hk).
  destruct (nth_error_lt v m) as [a Ha]; [rewrite L; eapply nth_error_some_lt; eauto|].
  rewrite Ha in B. rewrite (nth_error_nth _ _ _ B), (nth_error_nth _ _ _ Ha). auto.
Qed.

Lemma nth_slice_K (l : list K) a b m : m < b - a -> nth m (slice a b l) 0%K = nth (a + m) l 0%K.
Proof.
  intros L. assert (nth_error (slice a b l) m = nth_error l (a + m)) as E.
  { rewrite nth_slice. destruct (Nat.ltb_spec m (b - a)); auto. lia. }
  destruct (nth_error l (a + m)) as [v|] eqn:E2.
  - rewrite (nth_error_nth _ _ _ E), (nth_error_nth _ _ _ E2). auto.
  - apply nth_error_None in E, E2. rewrite !nth_overflow by auto. auto.
Qed.

Variables (B : K) (zl zu : list (ext K)) (Cw x ml mu ll lu : list K) (rr : rres (K := K)).
Notation N := (length lu).

Record returned : Prop := {
  rt_zones : rr_zones rr = rs_zones R;
  rt_cost : rr_cost rr = rs_cost R;
  rt_qty : rr_qty rr = rs_qty R;
  rt_R : spread (fun m => nth (length x - ngr + m) x 0 * B)%K (rr_R rr);
  rt_mu_l : spread (fun m => nth (length ml - ngr + m) ml 0 / B)%K (rr_mu_l rr);
  rt_mu_u : spread (fun m => nth (length mu - ngr + m) mu 0 / B)%K (rr_mu_u rr);
  rt_mu_p : spread (fun m => nth (N - nrz - ngr + m) lu 0 / B)%K (rr_mu_Pmax rr);
  rt_rmax : (forall m k j e, nth_error igr m = Some k -> nth_error sg k = Some j -> nth_error zu m = Some e ->
     nth_error (rr_Rmax rr) j = Some (ext_scale B e)) /\
     forall j, ~ provides p (rs_zones R) j -> nth j (rr_Rmax rr) (EFin 0%K) = EFin 0%K;
  rt_prc : length (rr_prc rr) = n /\ (forall j, j < n -> provider (rs_zones R) j ->
     nth j (rr_prc rr) 0%K = (lsum (fun i => if nonzero (nth j (nth i (rs_zones R) []) 0) then nth (N - nrz + i) ll 0 else 0)
        (seq 0 nrz) / B)%K) /\ forall j, ~ provider (rs_zones R) j -> nth j (rr_prc rr) 0%K = 0%K;
  rt_total : rr_totalcost rr = lsum (fun m => nth m Cw 0 * nth (length x - ngr + m) x 0)%K (seq 0 ngr) }.

Lemma lastv_len (v : list K) : ngr <= length v -> length (slice (length v - ngr) (length v) v) = ngr.
Proof. intros. rewrite slice_length. lia. Qed.

Lemma scaled (g : K -> K) v m : m < length v -> nth m (map g v) 0%K = g (nth m v 0%K).
Proof. intros. apply nth_map_lt. auto. Qed.

(** the data come back as they were given, and units that provide no reserves have none *)
Lemma data_back : res_int2ext o n B R igr0 ri zl zu Cw x ml mu ll lu = Ok rr ->
  rr_zones rr = rs_zones R /\ rr_cost rr = rs_cost R /\ rr_qty rr = rs_qty R /\
  length (rr_R rr) = n /\ forall j, ~ provides p (rs_zones R) j -> nth j (rr_R rr) 0%K = 0%K.
Proof.
  intros H.
  assert (LCO : length (ri_cost ri) = length sg) by (apply (ed_cost _ _ _ _ _ _ ED)).
  unfold res_int2ext in H. rewrite LCO in H.
  apply bind_ok in H as (zones & H1 & H). apply bind_ok in H as (cost & H2 & H).
  apply bind_ok in H as (qty & H3 & H). destruct (feqb B 0%K); [discriminate|].
  apply bind_ok in H as (r & H4 & H). apply bind_ok in H as (rmin & _ & H). apply bind_ok in H as (rmin' & H5 & H).
  apply bind_ok in H as (rmax' & H6 & H). apply bind_ok in H as (mul & H7 & H). apply bind_ok in H as (muu & H8 & H).
  apply bind_ok in H as (mup & H9 & H). apply bind_ok in H as (prc & H10 & H). apply bind_ok in H as (prc' & H11 & H).
  assert (rr = RRes zones cost qty r rmin' rmax' mul muu mup prc' (dotv Cw (slice (length x - ngr) (length x) x))) as E by congruence.
  clear H.
  assert (EZ : zones = rs_zones R).
  { apply nth_error_ext. intros i. destruct (nth_error (rs_zones R) i) as [z|] eqn:Ez.
    - destruct (ed_zones _ _ _ _ _ _ ED _ _ Ez) as (w & Hw & E2 & _).
      assert (nth_error (combine (ri_zones ri) (rs_zones R)) i = Some (w, z)) as Hc.
      { apply nth_error_combine; auto. }
      destruct (mapM_nth _ _ _ _ _ H1 Hc) as (y & Hy & Hyi). cbn [fst snd] in Hy.
      rewrite (i2e_e2i _ Has _ _ _ _ _ _ _ _ _ _ C OGen z w) in Hy; [congruence| |auto].
      cbn. apply (ed_wide _ _ _ _ _ _ ED). eapply nth_error_In; eauto.
    - apply nth_error_None in Ez. apply nth_error_None. apply mapM_length in H1. rewrite H1, combine_length. lia. }
  assert (SH : length (rs_cost R) = n -> (length (rs_cost R) <? n) = false) by (intros ->; apply Nat.ltb_irrefl).
  destruct (ed_cost _ _ _ _ _ _ ED) as (_ & LCC & ECC & _).
  assert (SH2 : (length (rs_cost R) <? n) = false -> length (rs_cost R) = n).
  { intros X. apply Nat.ltb_ge in X. destruct LCC as [|LL]; auto.
    pose proof (find_length_split (rgens n (rs_zones R))) as SP. rewrite rgens_length in SP. lia. }
  assert (ECO : cost = rs_cost R).
  { destruct (length (rs_cost R) <? n) eqn:S; [congruence|]. specialize (SH2 eq_refl).
    rewrite (i2e_e2i _ Has _ _ _ _ _ _ _ _ _ _ C OGen (rs_cost R) (ri_cost ri)) in H2; auto. congruence. }
  assert (EQ : qty = rs_qty R).
  { pose proof (ed_qty _ _ _ _ _ _ ED) as Q. destruct (rs_qty R) as [v|], (ri_qty ri) as [w|]; try contradiction; [|congruence].
    destruct Q as ((_ & _ & EV & _) & LV). destruct (length (rs_cost R) <? n) eqn:S; [congruence|]. specialize (SH2 eq_refl).
    assert (length v = n) as Lv by congruence. specialize (EV Lv).
    rewrite (i2e_e2i _ Has _ _ _ _ _ _ _ _ _ _ C OGen v w) in H3 by auto. cbn [bind] in H3. congruence. }
  rewrite E. cbn [rr_zones rr_cost rr_qty rr_R]. do 3 (split; [auto|]).
  apply bind_ok in H4 as (w0 & Q1 & Q2).
  assert (length (map (fun a => a * B)%K (slice (length x - ngr) (length x) x)) = ngr) as LS.
  { unfold scatter_checked in Q1. destruct (Nat.eqb_spec ngr (length (map (fun a => a * B)%K (slice (length x - ngr) (length x) x)))); [auto|].
    discriminate. }
  destruct (spread_ok _ _ _ Q1 Q2 LS) as (X1 & _ & X3). auto.
Qed.

Lemma res_int2ext_ok : res_int2ext o n B R igr0 ri zl zu Cw x ml mu ll lu = Ok rr ->
  ngr <= length x -> ngr <= length ml -> ngr <= length mu -> nrz + ngr <= N -> length ll = N -> length Cw = ngr ->
  length zu = ngr -> returned.
Proof.
  intros H Lx Lml Lmu LN Lll LC Lzu. pose proof H as H'.
  assert (LCO : length (ri_cost ri) = length sg) by (apply (ed_cost _ _ _ _ _ _ ED)).
  unfold res_int2ext in H. rewrite LCO in H.
  apply bind_ok in H as (zones & H1 & H). apply bind_ok in H as (cost & H2 & H).
  apply bind_ok in H as (qty & H3 & H). destruct (feqb B 0%K); [discriminate|].
  apply bind_ok in H as (r & H4 & H). apply bind_ok in H as (rmin & _ & H). apply bind_ok in H as (rmin' & H5 & H).
  apply bind_ok in H as (rmax' & H6 & H). apply bind_ok in H as (mul & H7 & H). apply bind_ok in H as (muu & H8 & H).
  apply bind_ok in H as (mup & H9 & H). apply bind_ok in H as (prc & H10 & H). apply bind_ok in H as (prc' & H11 & H).
  assert (rr = RRes zones cost qty r rmin' rmax' mul muu mup prc' (dotv Cw (slice (length x - ngr) (length x) x))) as E by congruence.
  clear H.
  destruct (data_back H') as (EZ & ECO & EQ & _). rewrite E in EZ, ECO, EQ. cbn [rr_zones rr_cost rr_qty] in EZ, ECO, EQ.
  assert (SP : forall (v w : list K) (g : K -> K) a b, (w0 <- scatter_checked (repeat 0%K (length sg)) igr (map g (slice a b v)) ;;
       i2e_single o OGen w0 (repeat 0%K n)) = Ok w -> b - a = ngr -> b <= length v ->
       spread (fun m => g (nth (a + m) v 0%K)) w).
  { intros v w g a b HH Lab Lb. apply bind_ok in HH as (w0 & Q1 & Q2).
    assert (length (slice a b v) = ngr) as LS by (rewrite slice_length; lia).
    destruct (spread_ok _ _ _ Q1 Q2) as (X1 & X2 & X3); [rewrite map_length; auto|].
    split; auto. split; auto. intros m k j Hm Hk. rewrite (X2 _ _ _ Hm Hk).
    assert (m < ngr) by (eapply nth_error_some_lt; eauto).
    cbv beta. rewrite scaled by lia. f_equal. apply nth_slice_K. lia. }
  constructor; rewrite ?E; cbn [rr_zones rr_cost rr_qty rr_R rr_mu_l rr_mu_u rr_mu_Pmax rr_Rmax rr_prc rr_totalcost]; auto.
  - apply (SP x r (fun a => a * B)%K (length x - ngr) (length x)); auto; lia.
  - apply (SP ml mul (fun a => a / B)%K (length ml - ngr) (length ml)); auto; lia.
  - apply (SP mu muu (fun a => a / B)%K (length mu - ngr) (length mu)); auto; lia.
  - apply (SP lu mup (fun a => a / B)%K (N - nrz - ngr) (N - nrz)); auto; lia.
  - apply bind_ok in H6 as (w0 & Q1 & Q2).
    destruct (ext_ok (EFin 0%K) _ _ _ Q1 Q2) as (X1 & X2 & X3); [rewrite map_length; auto|]. split; auto.
    intros m k j e Hm Hk He. rewrite (X2 _ _ _ Hm Hk), nth_error_map, He. reflexivity.
  - assert (I0 : forall j, In j igr0 <-> j < n /\ provider (rs_zones R) j).
    { intros j. rewrite (ed_igr0 _ _ _ _ _ _ ED). apply in_rgens. }
    rewrite scatter_checked_ok in H11.
    2: apply mapM_length in H10; auto.
    2:{ intros i Hi. rewrite repeat_length. apply I0 in Hi. tauto. }
    assert (prc' = scatter (repeat 0%K n) igr0 prc) as EP by congruence.
    assert (ND0 : NoDup igr0) by (rewrite (ed_igr0 _ _ _ _ _ _ ED); apply find_NoDup).
    split; [rewrite EP, scatter_length, repeat_length; auto|]. split.
    + intros j J P. assert (In j igr0) as I by (apply I0; auto). apply In_nth_error in I as (m & Hm).
      destruct (mapM_nth _ _ _ _ _ H10 Hm) as (a & Ha & Hp). apply bind_ok in Ha as (ps & Hps & Ha).
      assert (nth_error prc' j = Some a) as E3.
      { rewrite EP. apply (scatter_at _ _ _ m); auto. rewrite repeat_length. auto. }
      rewrite (nth_error_nth _ _ _ E3). assert (a = (lsum (fun v => v) ps / B)%K) as -> by congruence. f_equal.
      subst zones. set (zp := slice (N - nrz) N ll) in *.
      assert (length zp = nrz) as Lzp by (unfold zp; rewrite slice_length; lia).
      assert (length (combine (rs_zones R) zp) = nrz) as Lcb.
      { rewrite combine_length, Lzp, (ed_zones_len _ _ _ _ _ _ ED). lia. }
      rewrite (lsum_nth _ _ 0%K). rewrite (mapM_length _ _ _ Hps), Lcb. apply lsum_ext. intros i Hi. apply in_seq in Hi.
      destruct (nth_error_lt (rs_zones R) i) as [z Hz]; [rewrite <- (ed_zones_len _ _ _ _ _ _ ED); lia|].
      destruct (nth_error_lt zp i) as [b Hb]; [lia|].
      assert (nth_error (combine (rs_zones R) zp) i = Some (z, b)) as Hc by (apply nth_error_combine; auto).
      destruct (mapM_nth _ _ _ _ _ Hps Hc) as (y & Hy & Hyi). cbn [fst snd] in Hy. apply bind_ok in Hy as (c & Hc2 & Hy).
      apply get_ok in Hc2. rewrite (nth_error_nth _ _ _ Hyi), (nth_error_nth _ _ _ Hz), (nth_error_nth _ _ _ Hc2).
      assert (y = if nonzero c then b else 0%K) as -> by congruence.
      assert (nth (N - nrz + i) ll 0%K = b) as ->; auto.
      rewrite <- nth_slice_K with (b := N) by lia. fold zp. apply nth_error_nth. auto.
    + intros j NP. assert (~ In j igr0) as NI by (rewrite I0; tauto).
      destruct (Nat.lt_ge_cases j n).
      * apply nth_error_nth. rewrite EP, scatter_other by auto. apply nth_error_repeat. auto.
      * apply nth_overflow. rewrite EP, scatter_length, repeat_length. auto.
  - unfold dotv. rewrite (lsum_combine _ _ _ 0%K 0%K) by (rewrite slice_length; lia). rewrite LC. apply lsum_ext.
    intros m Hm. apply in_seq in Hm. cbn [fst snd]. f_equal. apply nth_slice_K. lia.
Qed.
End C.
