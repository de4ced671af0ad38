(** The AC optimal power flow: start of the solver, columns of the generator outputs. *)
From Coq Require Sorting.Sorted.
From Verif Require Import Lib.ListFacts Model.AcOpf Spec.AcOptSpec Spec.PipsRun Proofs.LinAlgFacts Proofs.SparseFacts
  Proofs.FldFacts Proofs.OrdFacts Proofs.NetworkA Proofs.NetworkE Proofs.OpfLinA Proofs.OpfLinB
  Proofs.PipsB Proofs.PipsF Proofs.PipsG Proofs.DcOpfA Proofs.DcOpfB Proofs.DcOpfC Proofs.DcOpfD Proofs.DcOpfE Proofs.DcOpfF Proofs.PipsD Proofs.DcOpfH Proofs.DcOpfJ Proofs.AcCostC
  Proofs.AcOptA Proofs.AcOptB Proofs.AcOptE.
Local Open Scope nat_scope.

Section AcOptF.
Context {K : Type} {F : Fld K}.
Add Field KF : (@f_ok K F).
Variables (sin_ cos_ : K -> K) (atan2 norm2 : K -> K -> K).
Variables (ign : bool) (B : K) (bus gen branch gencost : list (list K)) (U : user (K := K)).
Notation nb := (length bus).
Notation ng := (length gen).
Notation ny := (length (multi_rows ng gencost)).
Variables (o : acom (K := K)) (ih ilo ivl iang : list nat).
Hypothesis S : ac_spec sin_ cos_ atan2 norm2 ign B bus gen branch gencost U o ih ilo ivl iang.
Notation nx := (c_nx o).

Lemma nth_error_at {A} (l : list A) i n x d : nth_error l i = Some x -> n = i -> nth n l d = x.
Proof. intros H ->. apply nth_error_nth; auto. Qed.
Ltac skip_blocks := repeat (rewrite app_nth2 by (rewrite ?map_length, ?repeat_length; lia); rewrite ?map_length, ?repeat_length).

Lemma ac_start_ok x0 : ac_start o bus = Ok x0 ->
  (exists i r, nth_error bus i = Some r /\ cell r BUS_TYPE = fofZ 3 /\
     (forall i' r', i' < i -> nth_error bus i' = Some r' -> cell r' BUS_TYPE <> fofZ 3) /\
     forall n, n < nb -> nth n x0 0%K = degrees (cell r VA)) /\
  (forall i r, nth_error bus i = Some r -> nth (nb + i) x0 0%K = ((cell r VMIN + cell r VMAX) / fofZ 2)%K) /\
  (forall k g, nth_error gen k = Some g ->
     ac_output nb x0 k = ((cell g PMIN / B + cell g PMAX / B) / fofZ 2)%K /\
     ac_output nb x0 (ng + k) = ((cell g QMIN / B + cell g QMAX / B) / fofZ 2)%K) /\
  (forall j, j < ny -> exists i c, In i (multi_rows ng gencost) /\ c = cell (nth i gencost []) (NCOST + 2 * npoints (nth i gencost [])) /\
     (forall i', In i' (multi_rows ng gencost) -> le (cell (nth i' gencost []) (NCOST + 2 * npoints (nth i' gencost []))) c) /\
     nth (nb + nb + ng + ng + j) x0 0%K = (c + fabs c / fofZ 10)%K) /\
  (forall k a b, k < ac_user_vars nb ng (u_A U) -> lower (u_zl U) k = EFin a -> upper (u_zu U) k = EFin b ->
     nth (nb + nb + ng + ng + ny + k) x0 0%K = ((a + b) / fofZ 2)%K).
Proof.
  intros H. pose proof (ac_start_length _ _ _ _ _ _ _ _ _ _ _ o ih ilo ivl iang S x0 H) as Lx. unfold ac_start in H.
  destruct (c_lengths _ _ _ _ _ _ _ _ _ _ _ o ih ilo ivl iang S) as (L1 & L2 & _).
  pose proof (ac_nx_eq _ _ _ _ _ _ _ _ _ _ _ o ih ilo ivl iang S) as NX.
  apply bind_ok in H as (ms & Hm & H). apply bind_ok in H as (x & Hx & H). apply bind_ok in H as (ty & Hty & H).
  apply bind_ok in H as (rb & Hrb & H). apply bind_ok in H as (va & Hva & H). apply bind_ok in H as (a & Ha & H).
  rewrite (as_nb _ _ _ _ _ _ _ _ _ _ _ _ _ _ _ _ S), (as_ng _ _ _ _ _ _ _ _ _ _ _ _ _ _ _ _ S), (as_ny _ _ _ _ _ _ _ _ _ _ _ _ _ _ _ _ S) in H.
  apply ewise_ok in Hm as (_ & ->). pose proof (mapM_length _ _ _ Hx) as Lx'. rewrite map2_length in Lx'.
  assert (length x = nx) as Lxx by lia. clear Lx'.
  set (x1 := repeat (a * (fpi / fofZ 180))%K nb ++ skipn nb x) in H.
  assert (length x1 = nx) as Lx1. { unfold x1. rewrite app_length, repeat_length, skipn_length. lia. }
  assert (forall n, n < nb -> nth n x1 0%K = degrees a) as A1.
  { intros n Hn. unfold x1. rewrite app_nth1 by (rewrite repeat_length; auto). rewrite nth_repeat_lt by auto.
    unfold degrees. assert ((fofZ 180 : K) <> 0%K) by (apply fofZ_nz; lia). field. auto. }
  assert (forall n a b, nb <= n -> n < nx -> lower (c_xmin o) n = EFin a -> upper (c_xmax o) n = EFin b ->
            nth n x1 0%K = ((a + b) / fofZ 2)%K) as A2.
  { intros n a0 b0 Hn Hn' E1 E2. unfold x1. rewrite app_nth2 by (rewrite repeat_length; lia). rewrite repeat_length.
    rewrite PipsG.nth_skipn_d. replace (nb + (n - nb)) with n by lia.
    unfold lower, upper in E1, E2. rewrite bound_nth in E1, E2.
    destruct (mapM_nth _ _ _ n (EFin a0, EFin b0) Hx) as (y & Hy & Hy').
    - unfold map2. rewrite nth_error_map. rewrite (nth_error_nth' _ (ENeg, EPos)) by (rewrite combine_length; lia).
      rewrite combine_nth by lia. rewrite E1, E2. reflexivity.
    - cbn in Hy. injection Hy as <-. apply (nth_error_nth _ _ 0%K) in Hy'. exact Hy'. }
  assert (forall n, n < nb + nb + ng + ng \/ nb + nb + ng + ng + ny <= n -> nth n x0 0%K = nth n x1 0%K) as KEEP.
  { intros n Hn. destruct (Nat.eqb_spec ny 0) as [E0|E0]; [injection H as <-; reflexivity|].
    apply bind_ok in H as (m & _ & H). apply bind_ok in H as (rows & _ & H). apply bind_ok in H as (c & _ & H).
    injection H as <-. destruct Hn as [Hn|Hn].
    - rewrite app_nth1 by (rewrite firstn_length; lia). apply PipsG.nth_firstn_lt. auto.
    - rewrite app_nth2 by (rewrite firstn_length; lia). rewrite firstn_length.
      rewrite app_nth2 by (rewrite repeat_length; lia). rewrite repeat_length. rewrite PipsG.nth_skipn_d. f_equal. lia. }
  split; [|split; [|split; [|split]]].
  - apply of_option_ok in Ha. 
    destruct rb as [|r rb]; [cbn in Hva; injection Hva as <-; discriminate|].
    set (fd := find _) in Hrb. destruct fd as [|i fd'] eqn:Efd; [cbn in Hrb; discriminate|].
    pose proof (gather_nth _ _ _ 0 i Hrb eq_refl) as G0. cbn in G0. symmetry in G0.
    exists i, r. split; auto.
    assert (forall i' r', nth_error bus i' = Some r' -> nth_error ty i' = Some (cell r' BUS_TYPE)) as TY.
    { intros i' r' Hr'. unfold col in Hty. destruct (mapM_nth _ _ _ _ _ Hty Hr') as (y & Hy & ->). f_equal.
      apply get_cell in Hy. auto. }
    split; [|split].
    + assert (In i (find (map (fun t => feqb t REF_BUS) ty))) as II by (fold fd; rewrite Efd; simpl; auto).
      apply in_find in II. rewrite nth_error_map, (TY _ _ G0) in II. cbn in II. injection II as II. apply feqb_ok in II. exact II.
    + intros i' r' Hi' Hr' E. pose proof (find_sorted (map (fun t => feqb t REF_BUS) ty)) as SS. fold fd in SS. rewrite Efd in SS.
      apply Sorting.Sorted.StronglySorted_inv in SS as (_ & SS).
      assert (In i' (i :: fd')) as II.
      { rewrite <- Efd. unfold fd. apply in_find. rewrite nth_error_map, (TY _ _ Hr'). cbn. f_equal. apply feqb_ok. exact E. }
      destruct II as [->|II]; [lia|]. rewrite Forall_forall in SS. specialize (SS _ II). lia.
    + intros n Hn. rewrite KEEP by lia. rewrite A1 by auto. f_equal.
      unfold col in Hva. destruct (mapM_nth _ _ _ 0 r Hva eq_refl) as (y & Hy & Hy'). apply get_cell in Hy. congruence.
  - intros i r Hr. pose proof (nth_error_some_lt _ _ _ Hr) as Hi. rewrite KEEP by lia. apply A2; try lia.
    + unfold lower. rewrite bound_nth, (as_xmin _ _ _ _ _ _ _ _ _ _ _ _ _ _ _ _ S). skip_blocks.
      rewrite app_nth1 by (rewrite map_length; lia). rewrite (nth_map_lt _ _ _ _ []) by lia. rewrite (nth_error_at _ _ _ _ _ Hr) by lia. auto.
    + unfold upper. rewrite bound_nth, (as_xmax _ _ _ _ _ _ _ _ _ _ _ _ _ _ _ _ S). skip_blocks.
      rewrite app_nth1 by (rewrite map_length; lia). rewrite (nth_map_lt _ _ _ _ []) by lia. rewrite (nth_error_at _ _ _ _ _ Hr) by lia. auto.
  - intros k g Hg. pose proof (nth_error_some_lt _ _ _ Hg) as Hk. unfold ac_output. split; (rewrite KEEP by lia; apply A2; try lia).
    + unfold lower. rewrite bound_nth, (as_xmin _ _ _ _ _ _ _ _ _ _ _ _ _ _ _ _ S). skip_blocks.
      rewrite app_nth1 by (rewrite map_length; lia). rewrite (nth_map_lt _ _ _ _ []) by lia. rewrite (nth_error_at _ _ _ _ _ Hg) by lia. auto.
    + unfold upper. rewrite bound_nth, (as_xmax _ _ _ _ _ _ _ _ _ _ _ _ _ _ _ _ S). skip_blocks.
      rewrite app_nth1 by (rewrite map_length; lia). rewrite (nth_map_lt _ _ _ _ []) by lia. rewrite (nth_error_at _ _ _ _ _ Hg) by lia. auto.
    + unfold lower. rewrite bound_nth, (as_xmin _ _ _ _ _ _ _ _ _ _ _ _ _ _ _ _ S). skip_blocks.
      rewrite app_nth1 by (rewrite map_length; lia). rewrite (nth_map_lt _ _ _ _ []) by lia. rewrite (nth_error_at _ _ _ _ _ Hg) by lia. auto.
    + unfold upper. rewrite bound_nth, (as_xmax _ _ _ _ _ _ _ _ _ _ _ _ _ _ _ _ S). skip_blocks.
      rewrite app_nth1 by (rewrite map_length; lia). rewrite (nth_map_lt _ _ _ _ []) by lia. rewrite (nth_error_at _ _ _ _ _ Hg) by lia. auto.
  - intros j Hj. destruct (Nat.eqb_spec ny 0) as [E0|E0]; [lia|].
    apply bind_ok in H as (m & Hmo & H). apply bind_ok in H as (rows & Hrows & H). apply bind_ok in H as (c & Hc & H).
    injection H as <-.
    assert (forall i, In i (find (map is_pwl m)) <-> In i (multi_rows ng gencost)) as FD.
    { intros i. rewrite <- (as_pwl _ _ _ _ _ _ _ _ _ _ _ _ _ _ _ _ S). rewrite in_find, nth_error_map. unfold pwl_rows. rewrite filter_In, in_seq.
      pose proof (mapM_length _ _ _ Hmo) as LM. split.
      - intros HI. destruct (nth_error m i) as [q|] eqn:Eq; [|discriminate]. cbn in HI. injection HI as HI.
        pose proof (nth_error_some_lt _ _ _ Eq). split; [lia|].
        destruct (nth_error_lt (c_gencost o) i) as (r & Hr); [lia|]. destruct (mapM_nth _ _ _ _ _ Hmo Hr) as (y & Hy & Hy').
        apply get_cell in Hy. rewrite (nth_error_nth _ _ _ Hr).
        assert (y = q) as <- by congruence. subst y. exact HI.
      - intros (Hi & HI). destruct (nth_error_lt (c_gencost o) i) as (r & Hr); [lia|]. destruct (mapM_nth _ _ _ _ _ Hmo Hr) as (y & Hy & Hy').
        rewrite Hy'. cbn. f_equal. apply get_cell in Hy. rewrite (nth_error_nth _ _ _ Hr) in HI. subst y. exact HI. }
    assert (forall k i, nth_error (find (map is_pwl m)) k = Some i ->
        nth_error c k = Some (cell (nth i gencost []) (NCOST + 2 * npoints (nth i gencost [])))) as CK.
    { intros k i Hk. pose proof (gather_nth _ _ _ _ _ Hrows Hk) as G.
      pose proof (proj1 (FD i) (nth_error_In _ _ Hk)) as IM.
      pose proof (nth_error_some_lt _ _ _ Hk) as Lk. rewrite <- (gather_length _ _ _ Hrows) in Lk.
      destruct (nth_error_lt rows k Lk) as (r & Hr). rewrite Hr in G. symmetry in G.
      destruct (mapM_nth _ _ _ _ _ Hc Hr) as (y & Hy & ->). f_equal.
      rewrite <- (as_same _ _ _ _ _ _ _ _ _ _ _ _ _ _ _ _ S i IM). rewrite (nth_error_nth _ _ _ G).
      unfold last_cost in Hy. apply bind_ok in Hy as (q & Hq & Hy). apply bind_ok in Hy as (n & Hn & Hy).
      destruct (feqb q (fofZ (Z.of_nat n))) eqn:Fq; [|discriminate]. apply feqb_ok in Fq. apply of_option_ok in Hy.
      apply get_cell in Hq. subst q. assert (npoints r = n) as ->. { unfold npoints. rewrite Fq, ftrunc_ofZ. lia. }
      unfold cell. apply (nth_error_nth _ _ 0%K) in Hy. congruence. }
    assert (c <> []) as CN.
    { intros ->. destruct (multi_rows ng gencost) as [|i l] eqn:E; [cbn in E0; lia|].
      assert (In i (find (map is_pwl m))) as II by (apply FD; simpl; auto). apply In_nth_error in II as (k & Hk).
      pose proof (CK k i Hk) as X. destruct k; discriminate. }
    assert (length c = length (find (map is_pwl m))) as LC. { rewrite (mapM_length _ _ _ Hc). apply (gather_length _ _ _ Hrows). }
    pose proof (maxh_in c CN) as MI. apply In_nth_error in MI as (k & Hk).
    destruct (nth_error_lt (find (map is_pwl m)) k) as (i & Hi). { rewrite <- LC. eapply nth_error_some_lt; eauto. }
    pose proof (CK k i Hi) as CI.
    exists i, (maxh c). split; [apply FD; eapply nth_error_In; eauto|]. split; [congruence|]. split.
    + intros i' Hi'. apply FD in Hi'. apply In_nth_error in Hi' as (k' & Hk'). apply maxh_ge. eapply nth_error_In. apply CK. exact Hk'.
    + rewrite app_nth2 by (rewrite firstn_length; lia). rewrite firstn_length, Lx1.
      rewrite app_nth1 by (rewrite repeat_length; lia). rewrite nth_repeat_lt by lia.
      unfold dec. change (10 ^ Z.of_nat 1)%Z with 10%Z. assert ((fofZ 10 : K) <> 0%K) by (apply fofZ_nz; lia). rewrite fofZ_1. field. auto.
  - intros k a0 b0 Hk E1 E2. rewrite KEEP by lia. apply A2; try lia.
    + unfold lower at 1. rewrite bound_nth, (as_xmin _ _ _ _ _ _ _ _ _ _ _ _ _ _ _ _ S). skip_blocks.
      rewrite (nth_map_lt _ _ _ _ 0) by (rewrite seq_length; lia). rewrite seq_nth by lia. rewrite <- E1. f_equal. lia.
    + unfold upper at 1. rewrite bound_nth, (as_xmax _ _ _ _ _ _ _ _ _ _ _ _ _ _ _ _ S). skip_blocks.
      rewrite (nth_map_lt _ _ _ _ 0) by (rewrite seq_length; lia). rewrite seq_nth by lia. rewrite <- E2. f_equal. lia.
Qed.

(** ** the column of a generator output *)
Lemma angles_unit_far j : nb <= j -> angles nb (PipsD.unit (K := K) nx j) = angles nb (repeat 0%K nx).
Proof.
  intros Hj. pose proof (nx_big _ _ _ _ _ _ _ _ _ _ _ o ih ilo ivl iang S) as NX. unfold angles.
  apply nth_ext with (d := 0%K) (d' := 0%K); [rewrite !firstn_length, unit_length, repeat_length; auto|].
  intros i Hi. rewrite firstn_length in Hi. rewrite !PipsG.nth_firstn_lt by lia. rewrite nth_unit_ne, nth_repeat by lia. reflexivity.
Qed.
Section Gen.
Variables (k : nat) (g : list K).
Hypothesis Hg : nth_error gen k = Some g.
Hypothesis NU : u_A U = None.
Hypothesis SG : segmented (nth k gencost []) = false.
Hypothesis (CU : ~ cuts_upper g) (CL : ~ cuts_lower g) (VL : ~ var_load g).

Lemma free_rows j R : j = nb + nb + k \/ j = nb + nb + (ng + k) ->
  In R (pqh_rows norm2 B bus gen ih ++ pql_rows norm2 B bus gen ilo ++ vl_rows sin_ cos_ atan2 B bus gen ivl
      ++ ang_rows bus branch iang ++ acy_rows B bus gen (c_gencost o) ++ acu_rows (nb + nb + ng + ng) ny U) -> coef nx j R = 0%K.
Proof.
  intros Hj. pose proof (nth_error_some_lt _ _ _ Hg) as Hk. unfold acu_rows. rewrite NU. rewrite app_nil_r, !in_app_iff.
  assert (PQ : forall idx lo up p q, (forall i, In i idx -> exists g', nth_error gen i = Some g' /\ (cuts_upper g' \/ cuts_lower g' \/ var_load g')) ->
    In R (pq_rows bus gen idx lo up p q) -> coef nx j R = 0%K).
  { intros idx lo up p q HI H. unfold pq_rows in H. apply in_map_iff in H as (i & <- & Hi). apply HI in Hi as (g' & Hg' & HC).
    pose proof (nth_error_some_lt _ _ _ Hg') as Hi'.
    assert (i <> k) as NE by (intros ->; assert (g' = g) as -> by congruence; tauto).
    unfold coef. cbn [snd]. unfold ac_output. rewrite !nth_repeat, !nth_unit_ne by lia. ring. }
  intros [H|[H|[H|[H|H]]]].
  - eapply PQ; [|exact H]. intros i Hi. apply (as_ih _ _ _ _ _ _ _ _ _ _ _ _ _ _ _ _ S) in Hi as (g' & ? & ?). eauto.
  - eapply PQ; [|exact H]. intros i Hi. apply (as_il _ _ _ _ _ _ _ _ _ _ _ _ _ _ _ _ S) in Hi as (g' & ? & ?). eauto.
  - eapply PQ; [|exact H]. intros i Hi. apply (as_ivl _ _ _ _ _ _ _ _ _ _ _ _ _ _ _ _ S) in Hi as (g' & ? & ?). eauto.
  - unfold ang_rows in H. apply in_map_iff in H as (p & <- & _). unfold coef. cbn [snd]. rewrite angles_unit_far by lia. ring.
  - unfold acy_rows in H. apply in_flat_map in H as ((q & i) & Hq & H). apply in_map_iff in H as (t & <- & _).
    unfold coef. cbn [snd fst]. unfold ac_output.
    unfold ypairs in Hq. apply in_combine_r in Hq. rewrite (as_pwl _ _ _ _ _ _ _ _ _ _ _ _ _ _ _ _ S) in Hq.
    unfold multi_rows in Hq. apply filter_In in Hq as (Hi & Hq). apply in_seq in Hi.
    assert (i <> k) as NE by (intros ->; congruence).
    rewrite !nth_repeat, !nth_unit_ne by lia. ring.
Qed.
Lemma free_column j : j = nb + nb + k \/ j = nb + nb + (ng + k) -> forall i, i < nrows (c_A o) -> at_ (c_A o) i j = 0%K.
Proof.
  intros Hj i Hi. pose proof (as_desc _ _ _ _ _ _ _ _ _ _ _ _ _ _ _ _ S) as D.
  pose proof (nth_error_some_lt _ _ _ Hg) as Hk. pose proof (nx_big _ _ _ _ _ _ _ _ _ _ _ o ih ilo ivl iang S) as NX.
  pose proof (desc_gsum _ _ _ _ _ (fun i' c _ _ => if i' =? i then c else 0)%K j D ltac:(lia)) as E.
  rewrite gsum_zero in E.
  - rewrite <- E. symmetry. rewrite (lsum_ext _ (fun i' => if i =? i' then at_ (c_A o) i' j else 0%K)).
    + rewrite lsum_seq_single' by auto. reflexivity.
    + intros i' _. rewrite Nat.eqb_sym. reflexivity.
  - intros i' R HR. rewrite (free_rows j R Hj HR). destruct (i' =? i); reflexivity.
Qed.
End Gen.
End AcOptF.
