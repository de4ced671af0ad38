(** The DC optimal power flow problem: inversion of the set-up and equivalence with the intended
    problem. *)
From Verif Require Import Lib.ListFacts Model.DcOpf Spec.DcSpec Proofs.LinAlgFacts Proofs.SparseFacts
  Proofs.BlockFacts Proofs.FldFacts Proofs.OrdFacts Proofs.NetworkA Proofs.NetworkB Proofs.PipsF
  Proofs.NetworkE Proofs.OpfLinA Proofs.OpfLinB Proofs.DcOpfA Proofs.DcOpfB.
Local Open Scope nat_scope.

Section DcOpfC.
Context {K : Type} {F : Fld K}.
Add Field KF : (@f_ok K F).

Definition ref_bound (d : ext K) (r : list K) : ext K :=
  if feqb (cell r BUS_TYPE) (fofZ 3) then EFin (degrees (cell r VA)) else d.

Variables (ign : bool) (B : K) (bus gen branch gencost : list (list K)) (U : user (K := K)).
Notation nb := (length bus).
Notation ng := (length gen).
Notation ny := (length (multi_rows ng gencost)).

Record setup_spec (o : dcom) (Bb : smat K) (Pbi : list K) : Prop := {
  ss_bdc : bdc_spec bus branch Bb (d_Bf o) Pbi (d_Pfinj o);
  ss_B : B <> 0%K;
  ss_nb : d_nb o = nb; ss_ng : d_ng o = ng; ss_ny : d_ny o = ny;
  ss_nz : d_nz o = user_vars nb ng (u_A U);
  ss_nl2 : d_nl2 o = length (d_il o);
  ss_il : forall p, In p (d_il o) <-> exists r, nth_error branch p = Some r /\ flow_limited r;
  ss_il_nodup : NoDup (d_il o);
  ss_iang : forall p, In p (d_iang o) <-> ign = false /\ exists r, nth_error branch p = Some r /\ angle_limited r;
  ss_gc : mapM pwl1_row (firstn ng gencost) = Ok (d_gencost o);
  ss_gclen : length (d_gencost o) = ng;
  ss_gbus : buses_ok nb GEN_BUS gen;
  ss_pwl : pwl_rows (d_gencost o) = multi_rows ng gencost;
  ss_same : forall i, In i (multi_rows ng gencost) -> nth i (d_gencost o) [] = nth i gencost [];
  ss_desc : desc (d_nx o) (d_A o) (d_l o) (d_u o)
    (mis_rows B bus gen branch Pbi ++ pf_rows B bus branch (d_Pfinj o) (d_il o)
      ++ pt_rows B bus branch (d_Pfinj o) (d_il o) ++ ang_rows bus branch (d_iang o)
      ++ y_rows B bus gen (d_gencost o) ++ user_rows nb ng ny U);
  ss_xmin : d_xmin o = map (ref_bound ENeg) bus ++ map (fun g => EFin (cell g PMIN / B)%K) gen ++ repeat ENeg ny
              ++ map (lower (u_zl U)) (seq 0 (user_vars nb ng (u_A U)));
  ss_xmax : d_xmax o = map (ref_bound EPos) bus ++ map (fun g => EFin (cell g PMAX / B)%K) gen ++ repeat EPos ny
              ++ map (upper (u_zu U)) (seq 0 (user_vars nb ng (u_A U))) }.

Lemma pcost_ok gc0 : pcost_rows ng gencost = Ok gc0 -> gc0 = firstn ng gencost /\ length gc0 = ng.
Proof.
  unfold pcost_rows. destruct (Nat.eqb_spec (length gencost) ng) as [E|_].
  - intros H. injection H as <-. rewrite <- E, firstn_all. auto.
  - destruct (Nat.eqb_spec (length gencost) (2 * ng)); [|discriminate]. intros H. injection H as <-.
    rewrite firstn_length. split; auto. lia.
Qed.

Lemma cost_rows gc : length (firstn ng gencost) = ng -> mapM pwl1_row (firstn ng gencost) = Ok gc ->
  length gc = ng /\ pwl_rows gc = multi_rows ng gencost /\
  forall i, In i (multi_rows ng gencost) -> nth i gc [] = nth i gencost [].
Proof.
  intros L H. pose proof (mapM_length _ _ _ H) as LG. rewrite L in LG.
  assert (forall i, i < ng -> pwl1_row (nth i gencost []) = Ok (nth i gc [])) as R.
  { intros i Hi. destruct (nth_error_lt (firstn ng gencost) i) as (r & Hr); [lia|].
    destruct (mapM_nth _ _ _ _ _ H Hr) as (y & Hy & Hn). rewrite (nth_error_nth _ _ _ Hn).
    rewrite <- (nth_firstn_lt ng) by auto. rewrite (nth_error_nth _ _ _ Hr). auto. }
  split; auto. split.
  - unfold pwl_rows, multi_rows. rewrite LG. apply filter_ext_in. intros i Hi. apply in_seq in Hi.
    apply (pwl1_ok _ _ (R i ltac:(lia))).
  - intros i Hi. unfold multi_rows in Hi. apply filter_In in Hi as (Hi & S). apply in_seq in Hi.
    destruct (pwl1_ok _ _ (R i ltac:(lia))) as (_ & E & _). exact (E S).
Qed.

Lemma dc_setup_ok o : (forall M, u_A U = Some M -> wf M) ->
  dc_setup ign B bus gen branch gencost U = Ok o -> exists Bb Pbi, setup_spec o Bb Pbi.
Proof.
  intros WU H. unfold dc_setup in H. cbv zeta in H.
  apply bind_ok in H as (gc0 & H0 & H). apply pcost_ok in H0 as (-> & LG0).
  apply bind_ok in H as (gc & Hgc & H). destruct (cost_rows gc LG0 Hgc) as (LG & PW & SM).
  apply bind_ok in H as (ty & Hty & H). apply bind_ok in H as (gbus & Hgb & H). apply bind_ok in H as (_u1 & Hgg & H).
  apply bind_ok in H as (va & Hva & H). destruct (feqb B 0%K) eqn:EB; [discriminate|]. apply feqb_false in EB.
  apply bind_ok in H as (pmin & Hpmin & H). apply bind_ok in H as (pmax & Hpmax & H).
  apply bind_ok in H as ((((Bb & Bf) & Pbi) & Pfi) & HBdc & H). apply makeBdc_ok in HBdc.
  apply bind_ok in H as (negCg & HC & H). apply bind_ok in H as (Amis & HA & H).
  apply bind_ok in H as (pd & Hpd & H). apply bind_ok in H as (gs & Hgs & H).
  apply bind_ok in H as (rate & Hrate & H). apply bind_ok in H as (ra & Hra & H). apply bind_ok in H as (pfi & Hpfi & H).
  apply bind_ok in H as ((((Aang & lang) & uang) & iang) & Hang & H).
  apply bind_ok in H as (m & Hm & H). pose proof (pwl_find _ _ Hm) as EM.
  apply bind_ok in H as ((Ay & by_) & Hy & H). apply bind_ok in H as (Afl & Hfl & H).
  apply bind_ok in H as (_u2 & G1 & H). apply bind_ok in H as (_u3 & G2 & H).
  apply bind_ok in H as (A1 & HA1 & H). apply bind_ok in H as (A2 & HA2 & H). apply bind_ok in H as (A3 & HA3 & H).
  apply bind_ok in H as (A4 & HA4 & H). apply bind_ok in H as (A5 & HA5 & H). injection H as <-.
  apply col_ok in Hty as (_ & ->). apply idxcol_ok in Hgb as (_ & GB & ->). apply col_ok in Hva as (_ & ->).
  apply col_ok in Hpmin as (_ & ->). apply col_ok in Hpmax as (_ & ->). apply col_ok in Hpd as (_ & ->).
  apply col_ok in Hgs as (_ & ->). apply col_ok in Hrate as (_ & ->).
  rewrite EM, PW in *. set (il := find _) in *.
  set (nz := match option_map (dc_cols nb ng) (u_A U) with Some A => ncols A - (nb + ng) | None => 0 end) in *.
  set (nx := nb + ng + ny + nz) in *.
  assert (NZ : nz = user_vars nb ng (u_A U) /\ (forall M, u_A U = Some M -> nb + ng <= ncols (dc_cols nb ng M))).
  { unfold nz, user_vars. destruct (u_A U) as [M|] eqn:EU; cbn [option_map] in *; [|split; [auto|discriminate]].
    destruct (dc_cols_ok nb ng M (WU M eq_refl)) as (_ & _ & C & _). rewrite C.
    destruct (_ && _) eqn:GE in G1; [|discriminate]. apply andb_true_iff in GE as (GE & _). apply andb_true_iff in GE as (GE & _).
    apply Nat.leb_le in GE. split.
    - destruct (ac_sized nb ng M); lia.
    - intros M' E. injection E as <-. auto. }
  destruct NZ as (NZ & NCU).
  assert (NX : nb + ng <= nx) by (unfold nx; lia).
  exists Bb, Pbi. constructor; cbn [d_Bf d_Pfinj d_nb d_ng d_ny d_nz d_nl2 d_il d_iang d_gencost d_A d_l d_u d_xmin d_xmax]; auto.
  - intros p. unfold il. rewrite map_map. rewrite find_mask. unfold flow_limited, limited.
    split; intros (r & Hr & HL); exists r; split; auto.
    + apply andb_true_iff in HL as (L1 & L2). split; [|exact L2]. apply negb_true_iff in L1. apply feqb_false in L1. exact L1.
    + destruct HL as (L1 & L2). apply andb_true_iff. split; [|exact L2]. apply negb_true_iff. apply feqb_false. exact L1.
  - apply find_NoDup.
  - exact (proj1 (proj2 (proj2 (proj2 (proj2 (proj2 (makeAang_rows _ _ _ _ _ _ _ Hang))))))).
  - apply sparse_ok in HC as (_ & _ & GR & _). unfold buses_ok. rewrite Forall_map in GR. rewrite Forall_forall in *.
    intros g Hg. split; auto.
  - unfold d_nx. cbn [d_nb d_ng d_ny d_nz]. fold nx.
    pose proof (mis_desc B bus gen branch Bb Bf Pbi Pfi nx HBdc NX _ _ _ HC HA eq_refl) as D1.
    pose proof (pf_desc B bus gen branch Bb Bf Pbi Pfi nx HBdc NX il Afl ra pfi Hfl Hra Hpfi) as D2.
    pose proof (pt_desc B bus gen branch Bb Bf Pbi Pfi nx HBdc NX il Afl ra pfi Hfl Hra Hpfi) as D3.
    pose proof (ang_desc bus gen branch nx NX _ _ _ _ _ Hang) as D4.
    assert (nb + ng + length (pwl_rows gc) <= nx) as NX' by (rewrite PW; unfold nx; lia).
    pose proof (y_desc B bus gen nx NX gc Ay by_ LG Hy NX') as D5.
    pose proof (desc_vstack _ _ _ _ _ _ _ _ _ _ D1 D2 HA1) as E1. pose proof (desc_vstack _ _ _ _ _ _ _ _ _ _ E1 D3 HA2) as E2.
    pose proof (desc_vstack _ _ _ _ _ _ _ _ _ _ E2 D4 HA3) as E3. pose proof (desc_vstack _ _ _ _ _ _ _ _ _ _ E3 D5 HA4) as E4.
    destruct (u_A U) as [M|] eqn:EU; cbn [option_map] in *.
    + destruct (_ && _) eqn:GE in G1; [|discriminate]. apply andb_true_iff in GE as (GE & GE3). apply andb_true_iff in GE as (GE1 & GE2).
      apply Nat.eqb_eq in GE2. apply Nat.eqb_eq in GE3.
      pose proof (user_desc nb ng ny U M nz EU (WU M eq_refl) (NCU M eq_refl) eq_refl GE2 GE3) as D6.
      pose proof (desc_vstack _ _ _ _ _ _ _ _ _ _ E4 D6 HA5) as E5. rewrite <- !app_assoc in E5. exact E5.
    + injection HA5 as <-. rewrite <- !app_assoc in E4. unfold user_rows. rewrite EU, !app_nil_r. exact E4.
  - destruct (_ && _) eqn:GE in G2; [|discriminate]. apply andb_true_iff in GE as (GE1 & GE2). apply Nat.eqb_eq in GE1.
    rewrite (def_bounds_map _ _ _ GE1), map_map, map2_map, map_map, NZ. f_equal; [|rewrite map_map; reflexivity]. apply map_ext. intros r. unfold ref_bound, REF_BUS, cell.
    destruct (feqb _ _); auto. f_equal. unfold degrees. assert ((fofZ 180 : K) <> 0%K) by (apply fofZ_nz; lia). field. auto.
  - destruct (_ && _) eqn:GE in G2; [|discriminate]. apply andb_true_iff in GE as (GE1 & GE2). apply Nat.eqb_eq in GE2.
    rewrite (def_bounds_map _ _ _ GE2), map_map, map2_map, map_map, NZ. f_equal; [|rewrite map_map; reflexivity]. apply map_ext. intros r. unfold ref_bound, REF_BUS, cell.
    destruct (feqb _ _); auto. f_equal. unfold degrees. assert ((fofZ 180 : K) <> 0%K) by (apply fofZ_nz; lia). field. auto.
Qed.
End DcOpfC.
