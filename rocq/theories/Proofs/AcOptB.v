(** The linear part of the AC optimal power flow problem set up by the code is the intended one. *)
From Verif Require Import Lib.ListFacts Model.AcOpf Spec.AcOptSpec Proofs.LinAlgFacts Proofs.SparseFacts
  Proofs.BlockFacts Proofs.FldFacts Proofs.OrdFacts Proofs.NetworkA Proofs.NetworkB Proofs.NetworkE Proofs.PipsF
  Proofs.OpfLinA Proofs.OpfLinB Proofs.DcOpfA Proofs.DcOpfB Proofs.DcOpfC Proofs.DcOpfD Proofs.AcOptA.
Local Open Scope nat_scope.

Section AcOptB.
Context {K : Type} {F : Fld K}.
Add Field KF : (@f_ok K F).
Variables (sin_ cos_ : K -> K) (atan2 norm2 : K -> K -> K).
Variables (ign : bool) (B : K) (bus gen branch gencost : list (list K)) (U : user (K := K)).
Notation nb := (length bus).
Notation ng := (length gen).
Notation ny := (length (multi_rows ng gencost)).
Notation g_ i := (nth i gen []).

Record ac_spec (o : acom) (ih il ivl iang : list nat) : Prop := {
  as_B : B <> 0%K;
  as_nb : c_nb o = nb; as_ng : c_ng o = ng; as_ny : c_ny o = ny;
  as_nz : c_nz o = ac_user_vars nb ng (u_A U);
  as_ih : forall i, In i ih <-> exists g, nth_error gen i = Some g /\ cuts_upper g;
  as_il : forall i, In i il <-> exists g, nth_error gen i = Some g /\ cuts_lower g;
  as_hn : Forall (fun i => hn norm2 (g_ i) <> 0%K) ih;
  as_ln : Forall (fun i => ln_ norm2 (g_ i) <> 0%K) il;
  as_ivl : forall i, In i ivl <-> exists g, nth_error gen i = Some g /\ var_load g;
  as_iang : forall p, In p iang <-> ign = false /\ exists r, nth_error branch p = Some r /\ angle_limited r;
  as_npqh : c_npqh o = length ih; as_npql : c_npql o = length il; as_nvl : c_nvl o = length ivl;
  as_nang : c_nang o = length iang;
  as_gc : mapM pwl1_row gencost = Ok (c_gencost o);
  as_gclen : length (c_gencost o) = ng;
  as_gbus : buses_ok nb GEN_BUS gen;
  as_pwl : pwl_rows (c_gencost o) = multi_rows ng gencost;
  as_same : forall i, In i (multi_rows ng gencost) -> nth i (c_gencost o) [] = nth i gencost [];
  as_desc : desc (c_nx o) (c_A o) (c_l o) (c_u o)
    (pqh_rows norm2 B bus gen ih ++ pql_rows norm2 B bus gen il ++ vl_rows sin_ cos_ atan2 B bus gen ivl
      ++ ang_rows bus branch iang ++ acy_rows B bus gen (c_gencost o) ++ acu_rows (nb + nb + ng + ng) ny U);
  as_xmin : c_xmin o = map (ref_bound ENeg) bus ++ map (fun r => EFin (cell r VMIN)) bus
      ++ map (fun g => EFin (cell g PMIN / B)%K) gen ++ map (fun g => EFin (cell g QMIN / B)%K) gen
      ++ repeat ENeg ny ++ map (lower (u_zl U)) (seq 0 (ac_user_vars nb ng (u_A U)));
  as_xmax : c_xmax o = map (ref_bound EPos) bus ++ map (fun r => EFin (cell r VMAX)) bus
      ++ map (fun g => EFin (cell g PMAX / B)%K) gen ++ map (fun g => EFin (cell g QMAX / B)%K) gen
      ++ repeat EPos ny ++ map (upper (u_zu U)) (seq 0 (ac_user_vars nb ng (u_A U))) }.

Lemma ac_setup_idx o : length gencost = ng -> (forall M, u_A U = Some M -> wf M) ->
  ac_setup sin_ cos_ atan2 norm2 ign B bus gen branch gencost U = Ok o -> exists ih il ivl iang, ac_spec o ih il ivl iang /\
    (exists Ah uh AUl, makeApq norm2 B gen = Ok (Ah, uh, AUl, (ih, il))) /\
    (exists A l u, makeAang ign branch nb = Ok (A, l, u, iang)).
Proof.
  intros LC WU H. unfold ac_setup in H. cbv zeta in H.
  apply bind_ok in H as (gc & Hgc & H).
  assert (firstn ng gencost = gencost) as FN by (rewrite <- LC; apply firstn_all).
  destruct (cost_rows gen gencost gc) as (LG & PW & SM); [rewrite FN; auto|rewrite FN; auto|].
  apply bind_ok in H as (ty & Hty & H). apply bind_ok in H as (gbus & Hgb & H). apply bind_ok in H as (_u1 & Hgg & H).
  apply bind_ok in H as (va & Hva & H). destruct (feqb B 0%K) eqn:EB; [discriminate|]. apply feqb_false in EB.
  apply bind_ok in H as (pmin & Hpmin & H). apply bind_ok in H as (pmax & Hpmax & H).
  apply bind_ok in H as (qmin & Hqmin & H). apply bind_ok in H as (qmax & Hqmax & H).
  apply bind_ok in H as ((((Avl & lvl) & uvl) & ivl) & Hvl & H).
  apply bind_ok in H as ((((Ah & uh) & (Al & ul)) & (ih & il)) & Hpq & H).
  apply bind_ok in H as (vmin & Hvmin & H). apply bind_ok in H as (vmax & Hvmax & H).
  apply bind_ok in H as ((((Aang & lang) & uang) & iang) & Hang & H).
  apply bind_ok in H as (m & Hm & H). pose proof (pwl_find _ _ Hm) as EM.
  apply bind_ok in H as ((Ay & by_) & Hy & H).
  apply bind_ok in H as (_u2 & G1 & H). apply bind_ok in H as (_u3 & G2 & H).
  apply bind_ok in H as (A1 & HA1 & H). apply bind_ok in H as (A2 & HA2 & H). apply bind_ok in H as (A3 & HA3 & H).
  apply bind_ok in H as (A4 & HA4 & H). apply bind_ok in H as (A5 & HA5 & H). injection H as <-.
  apply col_ok in Hty as (_ & ->). apply idxcol_ok in Hgb as (_ & GB & ->). apply col_ok in Hva as (_ & ->).
  apply col_ok in Hpmin as (_ & ->). apply col_ok in Hpmax as (_ & ->). apply col_ok in Hqmin as (_ & ->).
  apply col_ok in Hqmax as (_ & ->). apply col_ok in Hvmin as (_ & ->). apply col_ok in Hvmax as (_ & ->).
  rewrite EM, PW in *.
  set (nu := nb + nb + ng + ng) in *.
  set (nz := match u_A U with Some A => ncols A - nu | None => 0 end) in *.
  set (nx := nu + ny + nz) in *.
  assert (NX : nu <= nx) by (unfold nx; lia).
  destruct (apq_desc sin_ cos_ atan2 norm2 B bus gen nx NX _ _ _ _ _ _ Hpq) as (D1 & D2 & IH & IL & HN & LN & LU & LL).
  destruct (vl_desc sin_ cos_ atan2 B bus gen nx NX _ _ _ _ Hvl) as (D3 & IV).
  assert (NX' : nb + ng <= nx) by (unfold nx, nu; lia).
  pose proof (ang_desc bus gen branch nx NX' _ _ _ _ _ Hang) as D4.
  assert (NX2 : nu + length (pwl_rows gc) <= nx) by (rewrite PW; unfold nx; lia).
  pose proof (acy_desc B bus gen nx NX gc Ay by_ LG Hy NX2) as D5.
  assert (NZ : nz = ac_user_vars nb ng (u_A U)) by (unfold nz, ac_user_vars; destruct (u_A U); auto).
  exists ih, il, ivl, iang. split; [|split; eauto].
  constructor; cbn [c_nb c_ng c_ny c_nz c_npqh c_npql c_nvl c_nang c_gencost c_A c_l c_u c_xmin c_xmax]; auto.
  - exact (proj1 (proj2 (proj2 (proj2 (proj2 (proj2 (makeAang_rows _ _ _ _ _ _ _ Hang))))))).
  - unfold buses_ok. rewrite Forall_forall in *. intros g Hg. split; auto.
    assert (In (bus_no g GEN_BUS) (map (fun r => bus_no r GEN_BUS) gen)) as I by (apply in_map_iff; eauto).
    apply In_nth_error in I as (k & Hk).
    destruct (nth_error_lt _u1 k) as (b & Hb).
    { rewrite (gather_length _ _ _ Hgg). eapply nth_error_some_lt; eauto. }
    pose proof (gather_nth _ _ _ _ _ Hgg Hk) as E. rewrite Hb in E. symmetry in E. eapply nth_error_some_lt; eauto.
  - unfold c_nx. cbn [c_nb c_ng c_ny c_nz]. fold nu. fold nx.
    pose proof (desc_vstack _ _ _ _ _ _ _ _ _ _ D1 D2 HA1) as E1. pose proof (desc_vstack _ _ _ _ _ _ _ _ _ _ E1 D3 HA2) as E2.
    pose proof (desc_vstack _ _ _ _ _ _ _ _ _ _ E2 D4 HA3) as E3. pose proof (desc_vstack _ _ _ _ _ _ _ _ _ _ E3 D5 HA4) as E4.
    destruct (u_A U) as [M|] eqn:EU.
    + destruct (_ && _) eqn:GE in G1; [|discriminate]. apply andb_true_iff in GE as (GE & GE3). apply andb_true_iff in GE as (GE1 & GE2).
      apply Nat.leb_le in GE1. apply Nat.eqb_eq in GE2. apply Nat.eqb_eq in GE3.
      pose proof (acu_desc nu ny U M nz EU (WU M eq_refl) GE1 eq_refl GE2 GE3) as D6.
      pose proof (desc_vstack _ _ _ _ _ _ _ _ _ _ E4 D6 HA5) as E5. rewrite <- !app_assoc in E5. exact E5.
    + injection HA5 as <-. rewrite <- !app_assoc in E4. unfold acu_rows. rewrite EU, !app_nil_r. exact E4.
  - destruct (_ && _) eqn:GE in G2; [|discriminate]. apply andb_true_iff in GE as (GE1 & GE2). apply Nat.eqb_eq in GE1.
    rewrite (def_bounds_map _ _ _ GE1), NZ, !map_map, map2_map. f_equal.
    apply map_ext. intros r. unfold ref_bound, REF_BUS, cell.
    destruct (feqb _ _); auto. f_equal. unfold degrees. assert ((fofZ 180 : K) <> 0%K) by (apply fofZ_nz; lia). field. auto.
  - destruct (_ && _) eqn:GE in G2; [|discriminate]. apply andb_true_iff in GE as (GE1 & GE2). apply Nat.eqb_eq in GE2.
    rewrite (def_bounds_map _ _ _ GE2), NZ, !map_map, map2_map. f_equal.
    apply map_ext. intros r. unfold ref_bound, REF_BUS, cell.
    destruct (feqb _ _); auto. f_equal. unfold degrees. assert ((fofZ 180 : K) <> 0%K) by (apply fofZ_nz; lia). field. auto.
Qed.

Lemma ac_setup_ok o : length gencost = ng -> (forall M, u_A U = Some M -> wf M) ->
  ac_setup sin_ cos_ atan2 norm2 ign B bus gen branch gencost U = Ok o -> exists ih il ivl iang, ac_spec o ih il ivl iang.
Proof. intros L W H. destruct (ac_setup_idx o L W H) as (ih & il & ivl & iang & S & _). eauto. Qed.

(** every row and variable of the assembled problem *)
Variable o : acom (K := K).
Variables (ih il ivl iang : list nat).
Hypothesis S : ac_spec o ih il ivl iang.
Definition ac_rows (Q : ext K -> ext K -> K -> Prop) (x : list K) : Prop :=
  (forall k, k < nrows (c_A o) -> Q (lower (c_l o) k) (upper (c_u o) k) (row_val (c_A o) x k)) /\
  (forall j, j < c_nx o -> Q (lower (c_xmin o) j) (upper (c_xmax o) j) (nth j x 0%K)).

Lemma ac_nx_eq : c_nx o = nb + nb + ng + ng + ny + ac_user_vars nb ng (u_A U).
Proof. unfold c_nx. rewrite (as_nb _ _ _ _ _ S), (as_ng _ _ _ _ _ S), (as_ny _ _ _ _ _ S), (as_nz _ _ _ _ _ S). reflexivity. Qed.

Notation OP x k := (ac_output nb x k).
Lemma ac_rows_ok Q x : length x = c_nx o -> ac_rows Q x <->
  (forall k g, nth_error gen k = Some g -> cuts_upper g ->
     Q ENeg (EFin (h_rhs g / hn norm2 g / B)%K)
       ((cell g QC1MAX - cell g QC2MAX) / hn norm2 g * OP x k + (cell g PC2 - cell g PC1) / hn norm2 g * OP x (ng + k))%K) /\
  (forall k g, nth_error gen k = Some g -> cuts_lower g ->
     Q ENeg (EFin (l_rhs g / ln_ norm2 g / B)%K)
       ((cell g QC2MIN - cell g QC1MIN) / ln_ norm2 g * OP x k + (cell g PC1 - cell g PC2) / ln_ norm2 g * OP x (ng + k))%K) /\
  (forall k g, nth_error gen k = Some g -> var_load g ->
     Q (EFin 0%K) (EFin 0%K) (sin_ (pf_angle atan2 B g) * OP x k + - cos_ (pf_angle atan2 B g) * OP x (ng + k))%K) /\
  (ign = false -> forall r, In r branch -> angle_limited r ->
     Q (ang_bound ENeg (cell r ANGMIN)) (ang_bound EPos (cell r ANGMAX)) (angle_diff r (angles nb x))) /\
  (forall j i a b, nth_error (multi_rows ng gencost) j = Some i ->
     In (a, b) (combine (bpts (nth i gencost [])) (tl (bpts (nth i gencost [])))) ->
     Q ENeg (EFin (seg_b B (a, b))) (seg_m B (a, b) * OP x i + - (1) * nth (nb + nb + ng + ng + j) x 0)%K) /\
  (forall M i, u_A U = Some M -> i < nrows M ->
     Q (lower (u_l U) i) (upper (u_u U) i) (row_val M (without_y (nb + nb + ng + ng) ny x) i)) /\
  (forall i r, nth_error bus i = Some r -> Q (ref_bound ENeg r) (ref_bound EPos r) (nth i x 0%K)) /\
  (forall i r, nth_error bus i = Some r -> Q (EFin (cell r VMIN)) (EFin (cell r VMAX)) (nth (nb + i) x 0%K)) /\
  (forall k g, nth_error gen k = Some g -> Q (EFin (cell g PMIN / B)%K) (EFin (cell g PMAX / B)%K) (OP x k)) /\
  (forall k g, nth_error gen k = Some g -> Q (EFin (cell g QMIN / B)%K) (EFin (cell g QMAX / B)%K) (OP x (ng + k))) /\
  (forall j, j < ny -> Q ENeg EPos (nth (nb + nb + ng + ng + j) x 0%K)) /\
  (forall k, k < ac_user_vars nb ng (u_A U) ->
     Q (lower (u_zl U) k) (upper (u_zu U) k) (nth (nb + nb + ng + ng + ny + k) x 0%K)).
Proof.
  intros Lx. unfold ac_rows. rewrite (desc_all Q _ _ _ _ _ x (as_desc _ _ _ _ _ S) Lx).
  rewrite !Forall_app.
  assert ((forall j, j < c_nx o -> Q (lower (c_xmin o) j) (upper (c_xmax o) j) (nth j x 0%K)) <->
    (forall i r, nth_error bus i = Some r -> Q (ref_bound ENeg r) (ref_bound EPos r) (nth i x 0%K)) /\
    (forall i r, nth_error bus i = Some r -> Q (EFin (cell r VMIN)) (EFin (cell r VMAX)) (nth (nb + i) x 0%K)) /\
    (forall k g, nth_error gen k = Some g -> Q (EFin (cell g PMIN / B)%K) (EFin (cell g PMAX / B)%K) (OP x k)) /\
    (forall k g, nth_error gen k = Some g -> Q (EFin (cell g QMIN / B)%K) (EFin (cell g QMAX / B)%K) (OP x (ng + k))) /\
    (forall j, j < ny -> Q ENeg EPos (nth (nb + nb + ng + ng + j) x 0%K)) /\
    (forall k, k < ac_user_vars nb ng (u_A U) ->
       Q (lower (u_zl U) k) (upper (u_zu U) k) (nth (nb + nb + ng + ng + ny + k) x 0%K))) as ->.
  { rewrite (as_xmin _ _ _ _ _ S), (as_xmax _ _ _ _ _ S).
    pose (Q' := fun lo up j => Q lo up (nth j x 0%K)).
    set (nz := ac_user_vars nb ng (u_A U)) in *.
    assert (forall P P' R : Prop, (P <-> P') -> ((R /\ P) <-> (R /\ P'))) as CONJ by tauto.
    etransitivity.
    { apply (bounds_app' Q' (c_nx o) nb (nb + (ng + (ng + (ny + nz))))); rewrite ?map_length; auto.
      - rewrite !app_length, !map_length, repeat_length, seq_length. reflexivity.
      - rewrite ac_nx_eq. unfold nz. lia. }
    etransitivity.
    { apply CONJ. apply (bounds_app' (fun lo up j => Q' lo up (nb + j)) (nb + (ng + (ng + (ny + nz)))) nb (ng + (ng + (ny + nz)))); rewrite ?map_length; auto.
      rewrite !app_length, !map_length, repeat_length, seq_length. reflexivity. }
    etransitivity.
    { apply CONJ. apply CONJ. apply (bounds_app' (fun lo up j => Q' lo up (nb + (nb + j))) (ng + (ng + (ny + nz))) ng (ng + (ny + nz))); rewrite ?map_length; auto.
      rewrite !app_length, !map_length, repeat_length, seq_length. reflexivity. }
    etransitivity.
    { apply CONJ. apply CONJ. apply CONJ. apply (bounds_app' (fun lo up j => Q' lo up (nb + (nb + (ng + j)))) (ng + (ny + nz)) ng (ny + nz)); rewrite ?map_length; auto.
      rewrite !app_length, !map_length, repeat_length, seq_length. reflexivity. }
    etransitivity.
    { apply CONJ. apply CONJ. apply CONJ. apply CONJ. apply (bounds_app' (fun lo up j => Q' lo up (nb + (nb + (ng + (ng + j))))) (ny + nz) ny nz); rewrite ?repeat_length; auto.
      rewrite map_length, seq_length. reflexivity. }
    pose proof (bounds_map (fun lo up j => Q' lo up (nb + (nb + (ng + (ng + (ny + j)))))) (lower (u_zl U)) (upper (u_zu U)) (seq 0 nz)) as BZ.
    rewrite seq_length in BZ. cbv beta in BZ.
    rewrite (bounds_map Q' (ref_bound ENeg) (ref_bound EPos) bus).
    rewrite (bounds_map (fun lo up j => Q' lo up (nb + j)) (fun r => EFin (cell r VMIN)) (fun r => EFin (cell r VMAX)) bus).
    rewrite (bounds_map (fun lo up j => Q' lo up (nb + (nb + j))) (fun g => EFin (cell g PMIN / B)%K) (fun g => EFin (cell g PMAX / B)%K) gen).
    rewrite (bounds_map (fun lo up j => Q' lo up (nb + (nb + (ng + j)))) (fun g => EFin (cell g QMIN / B)%K) (fun g => EFin (cell g QMAX / B)%K) gen).
    etransitivity; [apply CONJ; apply CONJ; apply CONJ; apply CONJ; apply CONJ; exact BZ|].
    unfold Q'.
    assert ((forall j, j < ny -> Q (lower (repeat ENeg ny) j) (upper (repeat EPos ny) j) (nth (nb + (nb + (ng + (ng + j)))) x 0%K)) <->
            (forall j, j < ny -> Q ENeg EPos (nth (nb + nb + ng + ng + j) x 0%K))) as ->.
    { unfold lower, upper. split; intros H j Hj; specialize (H j Hj); rewrite !bound_nth in *; rewrite !nth_repeat in *;
        rewrite <- ?Nat.add_assoc in *; exact H. }
    assert ((forall j a, nth_error (seq 0 nz) j = Some a ->
               Q (lower (u_zl U) a) (upper (u_zu U) a) (nth (nb + (nb + (ng + (ng + (ny + j))))) x 0%K)) <->
            (forall k, k < nz -> Q (lower (u_zl U) k) (upper (u_zu U) k) (nth (nb + nb + ng + ng + ny + k) x 0%K))) as ->.
    { split.
      - intros H k Hk. specialize (H k k). rewrite <- !Nat.add_assoc. apply H. rewrite seq_nth_error by auto. reflexivity.
      - intros H j a Ha. pose proof (nth_error_some_lt _ _ _ Ha) as Lj. rewrite seq_length in Lj.
        rewrite seq_nth_error in Ha by auto. injection Ha as <-. cbn [Nat.add]. rewrite !Nat.add_assoc. apply H. auto. }
    assert ((forall j a, nth_error gen j = Some a ->
        Q (EFin (cell a PMIN / B)%K) (EFin (cell a PMAX / B)%K) (nth (nb + (nb + j)) x 0%K)) <->
      (forall k g, nth_error gen k = Some g -> Q (EFin (cell g PMIN / B)%K) (EFin (cell g PMAX / B)%K) (OP x k))) as ->.
    { unfold ac_output. split; intros H k g Hg; specialize (H k g Hg); rewrite <- ?Nat.add_assoc in *; exact H. }
    assert ((forall j a, nth_error gen j = Some a ->
        Q (EFin (cell a QMIN / B)%K) (EFin (cell a QMAX / B)%K) (nth (nb + (nb + (ng + j))) x 0%K)) <->
      (forall k g, nth_error gen k = Some g -> Q (EFin (cell g QMIN / B)%K) (EFin (cell g QMAX / B)%K) (OP x (ng + k)))) as ->.
    { unfold ac_output. split; intros H k g Hg; specialize (H k g Hg); rewrite <- ?Nat.add_assoc in *; exact H. }
    tauto. }
  assert (forall idx (cut : list K -> Prop) lo up p q,
    (forall i, In i idx <-> exists g, nth_error gen i = Some g /\ cut g) ->
    (Forall (fun r => Q (rlo r) (rup r) (snd r x))
       (pq_rows bus gen idx (fun i => lo (g_ i)) (fun i => up (g_ i)) (fun i => p (g_ i)) (fun i => q (g_ i))) <->
     (forall k g, nth_error gen k = Some g -> cut g -> Q (lo g) (up g) (p g * OP x k + q g * OP x (ng + k))%K))) as PQ.
  { intros idx cut lo up p q HI. unfold pq_rows. rewrite Forall_map_iff. unfold rlo, rup. cbn [fst snd]. split.
    - intros H k g Hg HC. specialize (H k ltac:(apply HI; eauto)). rewrite (nth_error_nth _ _ _ Hg) in H. exact H.
    - intros H k Hk. apply HI in Hk as (g & Hg & HC). rewrite (nth_error_nth _ _ _ Hg). auto. }
  unfold pqh_rows, pql_rows, vl_rows.
  rewrite (PQ ih cuts_upper (fun _ => ENeg) (fun g => EFin (h_rhs g / hn norm2 g / B)%K) (fun g => (cell g QC1MAX - cell g QC2MAX) / hn norm2 g)%K
    (fun g => (cell g PC2 - cell g PC1) / hn norm2 g)%K (as_ih _ _ _ _ _ S)).
  rewrite (PQ il cuts_lower (fun _ => ENeg) (fun g => EFin (l_rhs g / ln_ norm2 g / B)%K) (fun g => (cell g QC2MIN - cell g QC1MIN) / ln_ norm2 g)%K
    (fun g => (cell g PC1 - cell g PC2) / ln_ norm2 g)%K (as_il _ _ _ _ _ S)).
  rewrite (PQ ivl var_load (fun _ => EFin 0%K) (fun _ => EFin 0%K) (fun g => sin_ (pf_angle atan2 B g))
    (fun g => - cos_ (pf_angle atan2 B g))%K (as_ivl _ _ _ _ _ S)).
  assert (Forall (fun r => Q (rlo r) (rup r) (snd r x)) (ang_rows bus branch iang) <->
    (ign = false -> forall r, In r branch -> angle_limited r ->
     Q (ang_bound ENeg (cell r ANGMIN)) (ang_bound EPos (cell r ANGMAX)) (angle_diff r (angles nb x)))) as ->.
  { unfold ang_rows. rewrite Forall_map_iff. unfold rlo, rup. cbn [fst snd].
    pose proof (as_iang _ _ _ _ _ S) as IA. split.
    - intros H IG r Hr HA. apply In_nth_error in Hr as (p & Hp). specialize (H p ltac:(apply IA; eauto)).
      rewrite (nth_error_nth _ _ _ Hp) in H. exact H.
    - intros H p Hp. apply IA in Hp as (IG & r & Hp & HA). rewrite (nth_error_nth _ _ _ Hp).
      apply H; auto. eapply nth_error_In; eauto. }
  assert (Forall (fun r => Q (rlo r) (rup r) (snd r x)) (acy_rows B bus gen (c_gencost o)) <->
   (forall j i a b, nth_error (multi_rows ng gencost) j = Some i ->
     In (a, b) (combine (bpts (nth i gencost [])) (tl (bpts (nth i gencost [])))) ->
     Q ENeg (EFin (seg_b B (a, b))) (seg_m B (a, b) * OP x i + - (1) * nth (nb + nb + ng + ng + j) x 0)%K)) as ->.
  { unfold acy_rows. rewrite Forall_flat_map, Forall_forall.
    pose proof (as_pwl _ _ _ _ _ S) as PW. pose proof (as_same _ _ _ _ _ S) as SM. split.
    - intros H j i a b Hj Hab. specialize (H (j, i)). cbn [fst snd] in H. rewrite in_ypairs, PW in H. specialize (H Hj).
      rewrite Forall_map_iff in H. specialize (H (a, b)). unfold rlo, rup in H. cbn [fst snd] in H. apply H.
      unfold segs. rewrite SM by (eapply nth_error_In; eauto). exact Hab.
    - intros H (j, i) Hj. cbn [fst snd]. rewrite in_ypairs, PW in Hj. rewrite Forall_map_iff. intros (a, b) Hab.
      unfold rlo, rup. cbn [fst snd]. apply H; auto. unfold segs in Hab. rewrite SM in Hab by (eapply nth_error_In; eauto). exact Hab. }
  assert (Forall (fun r => Q (rlo r) (rup r) (snd r x)) (acu_rows (nb + nb + ng + ng) ny U) <->
    (forall M i, u_A U = Some M -> i < nrows M ->
       Q (lower (u_l U) i) (upper (u_u U) i) (row_val M (without_y (nb + nb + ng + ng) ny x) i))) as ->.
  { unfold acu_rows. destruct (u_A U) as [M|].
    - rewrite Forall_map_iff. unfold rlo, rup. cbn [fst snd]. setoid_rewrite in_seq. split.
      + intros H M' i E' Hi. injection E' as <-. apply H. lia.
      + intros H i Hi. apply H; auto. lia.
    - split; [discriminate|constructor]. }
  tauto.
Qed.

Section Point.
Variables E L : K -> Prop.
Hypothesis HEL : forall d, E d <-> L d /\ L (- d)%K.
Theorem ac_linear_ok x : length x = c_nx o ->
  (ac_rows (inside L) x <->
   ac_linear E L sin_ cos_ atan2 norm2 ign B bus gen branch gencost (u_A U) (u_l U) (u_u U) (u_zl U) (u_zu U) x).
Proof.
  intros Lx. rewrite ac_rows_ok by auto. pose proof (as_B _ _ _ _ _ S) as NB.
  assert (HNZ : forall k g, nth_error gen k = Some g -> cuts_upper g -> hn norm2 g <> 0%K).
  { intros k g Hg HC. pose proof (as_hn _ _ _ _ _ S) as Q. rewrite Forall_forall in Q.
    rewrite <- (nth_error_nth _ _ [] Hg). apply Q. apply (as_ih _ _ _ _ _ S). eauto. }
  assert (LNZ : forall k g, nth_error gen k = Some g -> cuts_lower g -> ln_ norm2 g <> 0%K).
  { intros k g Hg HC. pose proof (as_ln _ _ _ _ _ S) as Q. rewrite Forall_forall in Q.
    rewrite <- (nth_error_nth _ _ [] Hg). apply Q. apply (as_il _ _ _ _ _ S). eauto. }
  assert ((forall k g, nth_error gen k = Some g -> cuts_upper g ->
     inside L ENeg (EFin (h_rhs g / hn norm2 g / B)%K)
       ((cell g QC1MAX - cell g QC2MAX) / hn norm2 g * OP x k + (cell g PC2 - cell g PC1) / hn norm2 g * OP x (ng + k))%K) <->
    (forall k g, nth_error gen k = Some g -> cuts_upper g ->
      L (over_upper norm2 g (B * OP x k, B * OP x (ng + k)) / B)%K)) as ->.
  { assert (forall k g, hn norm2 g <> 0%K -> (over_upper norm2 g (B * OP x k, B * OP x (ng + k)) / B)%K =
      ((cell g QC1MAX - cell g QC2MAX) / hn norm2 g * OP x k + (cell g PC2 - cell g PC1) / hn norm2 g * OP x (ng + k)
        - h_rhs g / hn norm2 g / B)%K) as EQ.
    { intros k g N. unfold over_upper, left_of. cbn [fst snd]. fold (hn norm2 g). unfold h_rhs. field. auto. }
    unfold inside. split; intros H k g Hg HC; specialize (H k g Hg HC); rewrite (EQ k g (HNZ k g Hg HC)) in *; tauto. }
  assert ((forall k g, nth_error gen k = Some g -> cuts_lower g ->
     inside L ENeg (EFin (l_rhs g / ln_ norm2 g / B)%K)
       ((cell g QC2MIN - cell g QC1MIN) / ln_ norm2 g * OP x k + (cell g PC1 - cell g PC2) / ln_ norm2 g * OP x (ng + k))%K) <->
    (forall k g, nth_error gen k = Some g -> cuts_lower g ->
      L (under_lower norm2 g (B * OP x k, B * OP x (ng + k)) / B)%K)) as ->.
  { assert (forall k g, ln_ norm2 g <> 0%K -> (under_lower norm2 g (B * OP x k, B * OP x (ng + k)) / B)%K =
      ((cell g QC2MIN - cell g QC1MIN) / ln_ norm2 g * OP x k + (cell g PC1 - cell g PC2) / ln_ norm2 g * OP x (ng + k)
        - l_rhs g / ln_ norm2 g / B)%K) as EQ.
    { intros k g N. unfold under_lower, left_of. cbn [fst snd]. fold (ln_ norm2 g). unfold l_rhs. field. auto. }
    unfold inside. split; intros H k g Hg HC; specialize (H k g Hg HC); rewrite (EQ k g (LNZ k g Hg HC)) in *; tauto. }
  assert ((forall k g, nth_error gen k = Some g -> var_load g ->
     inside L (EFin 0%K) (EFin 0%K) (sin_ (pf_angle atan2 B g) * OP x k + - cos_ (pf_angle atan2 B g) * OP x (ng + k))%K) <->
    (forall k g, nth_error gen k = Some g -> var_load g ->
     E (off_line sin_ cos_ (pf_angle atan2 B g) (OP x k) (OP x (ng + k))))) as ->.
  { assert (forall k g, (sin_ (pf_angle atan2 B g) * OP x k + - cos_ (pf_angle atan2 B g) * OP x (ng + k) - 0)%K
      = off_line sin_ cos_ (pf_angle atan2 B g) (OP x k) (OP x (ng + k))) as EQ by (intros; unfold off_line; ring).
    split; intros H k g Hg HC; specialize (H k g Hg HC); rewrite (inside_eq E L HEL), EQ in *; exact H. }
  assert ((forall r, In r branch -> angle_limited r ->
     inside L (ang_bound ENeg (cell r ANGMIN)) (ang_bound EPos (cell r ANGMAX)) (angle_diff r (angles nb x))) <->
    (forall r, In r branch -> angle_limited r ->
    (cell r ANGMIN <> 0%K -> L (degrees (cell r ANGMIN) - angle_diff r (angles nb x))%K) /\
    (cell r ANGMAX <> 0%K -> L (angle_diff r (angles nb x) - degrees (cell r ANGMAX))%K))) as AN.
  { assert (forall r, inside L (ang_bound ENeg (cell r ANGMIN)) (ang_bound EPos (cell r ANGMAX)) (angle_diff r (angles nb x)) <->
      (cell r ANGMIN <> 0%K -> L (degrees (cell r ANGMIN) - angle_diff r (angles nb x))%K) /\
      (cell r ANGMAX <> 0%K -> L (angle_diff r (angles nb x) - degrees (cell r ANGMAX))%K)) as EQ.
    { intros r. unfold inside, ang_bound, degrees.
      destruct (feqb (cell r ANGMIN) 0%K) eqn:E1; [apply feqb_ok in E1|apply feqb_false in E1];
      (destruct (feqb (cell r ANGMAX) 0%K) eqn:E2; [apply feqb_ok in E2|apply feqb_false in E2]); tauto. }
    split; intros H r Hr HA; apply EQ; auto. }
  assert ((forall j i a b, nth_error (multi_rows ng gencost) j = Some i ->
     In (a, b) (combine (bpts (nth i gencost [])) (tl (bpts (nth i gencost [])))) ->
     inside L ENeg (EFin (seg_b B (a, b))) (seg_m B (a, b) * OP x i + - (1) * nth (nb + nb + ng + ng + j) x 0)%K) <->
    (forall j i a b, nth_error (multi_rows ng gencost) j = Some i ->
     In (a, b) (combine (bpts (nth i gencost [])) (tl (bpts (nth i gencost [])))) ->
    L (chord a b (B * OP x i) - nth (nb + nb + ng + ng + j) x 0)%K)) as ->.
  { assert (forall i j a b, (seg_m B (a, b) * OP x i + - (1) * nth (nb + nb + ng + ng + j) x 0 - seg_b B (a, b)
       = chord a b (B * OP x i) - nth (nb + nb + ng + ng + j) x 0)%K) as EQ
      by (intros; unfold seg_m, seg_b, chord; cbn [fst snd]; ring).
    unfold inside. split; intros H j i a b Hj Hab; specialize (H j i a b Hj Hab); rewrite EQ in *; tauto. }
  assert ((forall i r, nth_error bus i = Some r -> inside L (ref_bound ENeg r) (ref_bound EPos r) (nth i x 0%K)) <->
    (forall i r, nth_error bus i = Some r -> cell r BUS_TYPE = fofZ 3 -> E (nth i x 0 - degrees (cell r VA))%K)) as ->.
  { assert (forall r v, inside L (ref_bound ENeg r) (ref_bound EPos r) v <-> (cell r BUS_TYPE = fofZ 3 -> E (v - degrees (cell r VA))%K)) as EQ.
    { intros r v. unfold ref_bound. destruct (feqb (cell r BUS_TYPE) (fofZ 3)) eqn:E1; [apply feqb_ok in E1|apply feqb_false in E1].
      - rewrite (inside_eq E L HEL). tauto.
      - unfold inside. tauto. }
    split; intros H i r Hr; apply EQ; auto. }
  assert ((forall j, j < ny -> inside L ENeg EPos (nth (nb + nb + ng + ng + j) x 0%K)) <-> True) as -> by (unfold inside; tauto).
  split.
  - intros (H1 & H2 & H3 & H4 & H5 & H6 & H7 & H8 & H9 & H10 & _ & H11). constructor; auto.
    intros IG. apply AN. auto.
  - intros [H1 H2 H3 H4 H5 H6 H7 H8 H9 H10 H11]. split; [exact H5|]. split; [exact H6|]. split; [exact H7|].
    split; [intros IG; apply AN; auto|]. split; [exact H9|]. split; [exact H10|]. split; [exact H2|]. split; [exact H1|].
    split; [exact H3|]. split; [exact H4|]. split; [exact I|exact H11].
Qed.
End Point.
End AcOptB.
