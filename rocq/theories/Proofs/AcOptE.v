(** The solver applied to the AC optimal power flow. *)
From Verif Require Import Lib.ListFacts Model.AcOpf Spec.AcOptSpec Spec.PipsRun Proofs.LinAlgFacts Proofs.SparseFacts
  Proofs.BlockFacts Proofs.MatFacts Proofs.FldFacts Proofs.OrdFacts Proofs.NetworkA Proofs.NetworkC Proofs.NetworkD Proofs.YbusA
  Proofs.PipsF Proofs.PipsG Proofs.AcPfA Proofs.OpfLinB Proofs.AcCostB Proofs.AcCostC Proofs.AcConA Proofs.AcConB
  Proofs.DcOpfA Proofs.DcOpfC Proofs.DcOpfD Proofs.DcOpfE Proofs.DcOpfH Proofs.AcOptA Proofs.AcOptB Proofs.AcOptC Proofs.AcOptD.
Local Open Scope nat_scope.

Section AcOptE.
Context {K : Type} {F : Fld K}.
Add Field KF : (@f_ok K F).
Variables (cis : K -> cpx K) (cabs : cpx K -> K) (sin_ cos_ : K -> K) (atan2 norm2 : K -> K -> K).
Variables (ign : bool) (lim : flow_lim) (B : K) (bus gen branch gencost : list (list K)) (U : user (K := K)).
Notation nb := (length bus).
Notation ng := (length gen).
Notation ny := (length (multi_rows ng gencost)).
Variables (o : acom (K := K)) (ih ilo ivl iang : list nat).
Hypothesis S : ac_spec sin_ cos_ atan2 norm2 ign B bus gen branch gencost U o ih ilo ivl iang.
Notation lin E L x := (ac_linear E L sin_ cos_ atan2 norm2 ign B bus gen branch gencost (u_A U) (u_l U) (u_u U) (u_zl U) (u_zu U) x).

Lemma c_lengths : length (c_xmin o) = c_nx o /\ length (c_xmax o) = c_nx o /\
  length (c_l o) = nrows (c_A o) /\ length (c_u o) = nrows (c_A o) /\ wf (c_A o) /\ ncols (c_A o) = c_nx o.
Proof.
  destruct S. destruct as_desc as (W & N & C & E1 & E2 & _). rewrite as_xmin, as_xmax.
  assert (c_nx o = nb + nb + ng + ng + ny + ac_user_vars nb ng (u_A U)) as NX by (eapply ac_nx_eq; exact S).
  rewrite !app_length, !map_length, !repeat_length, !seq_length.
  split; [lia|]. split; [lia|]. rewrite E1, E2, !map_length. auto.
Qed.
Lemma ac_start_length x0 : ac_start o bus = Ok x0 -> length x0 = c_nx o.
Proof.
  intros H. unfold ac_start in H. destruct c_lengths as (L1 & L2 & _).
  apply bind_ok in H as (ms & Hm & H). apply bind_ok in H as (x & Hx & H). apply bind_ok in H as (ty & _ & H).
  apply bind_ok in H as (rb & _ & H). apply bind_ok in H as (va & _ & H). apply bind_ok in H as (a & _ & H).
  apply ewise_ok in Hm as (_ & ->). apply mapM_length in Hx. rewrite map2_length in Hx.
  assert (length x = c_nx o) as Lx by lia. unfold c_nx in *.
  destruct (c_ny o =? 0).
  - injection H as <-. rewrite app_length, repeat_length, skipn_length. lia.
  - apply bind_ok in H as (m & _ & H). apply bind_ok in H as (rows & _ & H). apply bind_ok in H as (c & _ & H).
    injection H as <-. rewrite !app_length, !repeat_length, firstn_length, skipn_length, app_length, repeat_length, skipn_length. lia.
Qed.
Lemma ac_ordered : ac_limits_ordered ign B bus gen branch (u_A U) (u_l U) (u_u U) (u_zl U) (u_zu U) ->
  bounds_ordered (c_nx o) (nrows (c_A o)) (c_l o) (c_u o) (c_xmin o) (c_xmax o).
Proof.
  intros (H0 & H1 & H2 & H3 & H4).
  pose proof (ac_rows_ok _ _ _ _ _ _ _ _ _ _ _ o ih ilo ivl iang S (fun lo up _ => ordered lo up) (repeat 0%K (c_nx o)) (repeat_length _ _)) as (_ & A).
  enough (ac_rows o (fun lo up _ => ordered lo up) (repeat 0%K (c_nx o))) as (A1 & A2) by (split; auto).
  apply A. split; [|split; [|split; [|split; [|split; [|split; [|split; [|split; [|split; [|split; [|split]]]]]]]]]]; cbn; auto.
  - intros k g _ _. apply le_refl.
  - intros E r Hr HL. specialize (H2 E r Hr HL). unfold ang_bound.
    destruct (feqb (cell r ANGMIN) 0%K) eqn:Q1, (feqb (cell r ANGMAX) 0%K) eqn:Q2; cbn; auto.
    apply feqb_false in Q1. apply feqb_false in Q2. auto.
  - intros i r Hr. unfold ref_bound. destruct (feqb _ _); cbn; auto. apply le_refl.
  - intros i r Hr. apply H0. eapply nth_error_In; eauto.
  - intros k g Hg. apply H1. eapply nth_error_In; eauto.
  - intros k g Hg. apply H1. eapply nth_error_In; eauto.
Qed.
Definition some_rows (A : smat K) : option (smat K) := if nrows A =? 0 then None else Some A.
Lemma rows_some (A : smat K) : rows_of (some_rows A) = nrows A.
Proof. unfold some_rows. destruct (Nat.eqb_spec (nrows A) 0); cbn; auto. Qed.
Lemma ac_inside t x : ac_limits_ordered ign B bus gen branch (u_A U) (u_l U) (u_u U) (u_zl U) (u_zu U) ->
  Forall moderate (c_l o ++ c_u o ++ c_xmin o ++ c_xmax o) -> length x = c_nx o ->
  linear_to t (c_nx o) (some_rows (c_A o)) (c_l o) (c_u o) (c_xmin o) (c_xmax o) x ->
  lin (equal_to t) (excess_to t) x.
Proof.
  intros OR MO Lx (H1 & H2). rewrite !Forall_app in MO. destruct MO as (M1 & M2 & M3 & M4).
  destruct (ac_ordered OR) as (O1 & O2).
  apply (ac_linear_ok _ _ _ _ _ _ _ _ _ _ _ o ih ilo ivl iang S (equal_to t) (excess_to t) (tol_sides t) x Lx).
  assert (forall (b : list (ext K)) i, Forall moderate b -> moderate (lower b i) /\ moderate (upper b i)) as MB.
  { intros b i HF. unfold lower, upper. rewrite !bound_nth. rewrite Forall_forall in HF.
    split; (destruct (lt_dec i (length b)); [apply HF; apply nth_In; auto|rewrite nth_overflow by lia; cbn; auto]). }
  split.
  - intros k Hk. rewrite rows_some in H2. specialize (H2 k Hk). unfold some_rows in H2.
    destruct (Nat.eqb_spec (nrows (c_A o)) 0); [lia|].
    apply meets_inside; [auto|apply MB; auto|apply MB; auto|exact H2].
  - intros j Hj. apply meets_inside; [auto|apply MB; auto|apply MB; auto|exact (H1 j Hj)].
Qed.

(** ** the network constraints *)
Variables (Ybus Yf Yt Yfl Ytl : smat (cpx K)) (cp : gcostp (K := K)) (rate : list K).
Hypothesis made : makeYbus cis B bus branch = Ok (Ybus, Yf, Yt).
Hypothesis Hrate : col RATE_A branch = Ok rate.
Notation il := (find (map limited rate)).
Hypothesis (Hfl : rowsel Yf il = Ok Yfl) (Htl : rowsel Yt il = Ok Ytl).
Notation D := (AcData B bus gen branch (c_gencost o) (c_ny o) cp).
Notation P := (ac_problem cis cabs D lim Ybus Yfl Ytl il).

Lemma il_ok p : In p il <-> exists r, nth_error branch p = Some r /\ flow_limited r.
Proof.
  apply col_ok in Hrate as (_ & ->). rewrite map_map, find_mask. unfold flow_limited, limited.
  split; intros (r & Hr & HL); exists r; split; auto.
  - apply andb_true_iff in HL as (L1 & L2). split; [|exact L2]. apply negb_true_iff in L1. apply feqb_false in L1. exact L1.
  - destruct HL as (L1 & L2). apply andb_true_iff. split; [|exact L2]. apply negb_true_iff. apply feqb_false. exact L1.
Qed.
Lemma sz_rows (M M' : smat (cpx K)) : sz M (length branch) nb -> rowsel M il = Ok M' -> sz M' (length il) nb.
Proof.
  intros (W & N & C) H. split; [exact (wf_rowsel _ _ _ W H)|]. apply rowsel_ok in H as (_ & -> & ->). auto.
Qed.
Lemma fits_sz (M : smat (cpx K)) r c : sz M r c -> fits r c M.
Proof. intros (W & N & C). split; auto. split; auto. unfold wf in W. rewrite N, C in W. exact W. Qed.
Lemma brow_ok p l r : nth_error il p = Some l -> nth_error branch l = Some r -> brow D il p = r.
Proof.
  intros Hp Hr. unfold brow. cbn [a_branch]. rewrite (nth_error_nth _ _ _ Hp). apply nth_error_nth; auto.
Qed.
Lemma brows_in r : In r (brows D il) -> In r branch /\ flow_limited r.
Proof.
  unfold brows. cbn [a_branch]. intros I. apply in_map_iff in I as (l & <- & I). apply il_ok in I as (r & Hr & HL).
  rewrite (nth_error_nth _ _ _ Hr). split; auto. eapply nth_error_In; eauto.
Qed.
Lemma shape_ok x r : opf_consfcn cis cabs D lim Ybus Yfl Ytl il x = Ok r -> con_shape D Ybus Yfl Ytl il.
Proof.
  intros H. destruct (consfcn_tables _ _ _ _ _ _ _ _ _ _ H) as (NB & WB & WG). cbn [a_base a_bus a_gen] in *.
  pose proof (makeYbus_ok _ _ _ _ _ _ _ made) as YS.
  constructor; cbn [a_base a_bus a_gen a_branch]; auto.
  - exact (as_gbus _ _ _ _ _ _ _ _ _ _ _ _ _ _ _ _ S).
  - apply fits_sz. exact (ys_Ybus _ _ _ _ _ _ _ YS).
  - apply fits_sz. eapply sz_rows; [exact (ys_Yf _ _ _ _ _ _ _ YS)|exact Hfl].
  - apply fits_sz. eapply sz_rows; [exact (ys_Yt _ _ _ _ _ _ _ YS)|exact Htl].
  - apply Forall_forall. intros p I. apply il_ok in I as (r0 & Hr & _). eapply nth_error_some_lt; eauto.
  - unfold wide. apply Forall_forall. intros r0 I. apply brows_in in I as (I & _).
    pose proof Hrate as HR. apply col_ok in HR as (W & _). rewrite Forall_forall in W. auto.
  - unfold buses_ok. apply Forall_forall. intros r0 I. apply brows_in in I as (I & _).
    pose proof (ys_from _ _ _ _ _ _ _ YS) as Q. unfold buses_ok in Q. rewrite Forall_forall in Q. auto.
  - unfold buses_ok. apply Forall_forall. intros r0 I. apply brows_in in I as (I & _).
    pose proof (ys_to _ _ _ _ _ _ _ YS) as Q. unfold buses_ok in Q. rewrite Forall_forall in Q. auto.
  - apply Forall_forall. intros r0 I. apply brows_in in I as (_ & I). apply I.
Qed.
Lemma nx_big : nb + nb + ng + ng <= c_nx o.
Proof. pose proof (ac_nx_eq _ _ _ _ _ _ _ _ _ _ _ o ih ilo ivl iang S). lia. Qed.
Lemma problem_shaped : well_shaped (c_nx o) (nb + nb) (length il + length il) P.
Proof.
  constructor.
  - intros x f df Lx H. cbn [p_f ac_problem] in H. apply costfcn_length in H. congruence.
  - intros x hn gn dhn dgn Lx H. unfold nonlinear_at in H. cbn [p_gh ac_problem] in H.
    apply bind_ok in H as (r & Hr & H). assert (length il <> 0) as NL by (destruct il; [discriminate|cbn; lia]).
    assert (r = (hn, gn, dhn, dgn)) as -> by (destruct il; [discriminate|injection H as ->; auto]). clear H.
    match type of Hr with opf_consfcn _ _ _ _ Ybus Yfl Ytl _ _ = _ => idtac end.
    pose proof (shape_ok _ _ Hr) as CS. pose proof nx_big as NX.
    rewrite (consfcn_head cis cabs D lim Ybus Yfl Ytl il x CS) in Hr by (cbn [a_bus a_gen]; lia).
    apply bind_ok in Hr as ((dh & dg) & HD & Hr). injection Hr as <- <- -> ->.
    pose proof (makeYbus_ok _ _ _ _ _ _ _ made) as YS.
    destruct (con_derivs_sz cabs D lim Ybus Yfl Ytl il (length x) (ac_volt cis nb x) dhn dgn) as (HH & G & -> & -> & SH & SG); auto;
      cbn [a_bus a_gen] in *; auto.
    + exact (ys_Ybus _ _ _ _ _ _ _ YS).
    + eapply sz_rows; [exact (ys_Yf _ _ _ _ _ _ _ YS)|exact Hfl].
    + eapply sz_rows; [exact (ys_Yt _ _ _ _ _ _ _ YS)|exact Htl].
    + unfold ac_volt. rewrite map_length, seq_length. auto.
    + lia.
    + unfold hvals, gvals. cbn [a_bus a_gen]. rewrite !app_length, !map_length, !seq_length. split; auto. split; auto.
      rewrite Lx in SH, SG.
      assert (forall (M : smat K) r c, sz M r c -> shaped r c M) as SS.
      { intros M r0 c (W & N & C). split; auto. split; auto. unfold wf in W. rewrite N, C in W. exact W. }
      cbn [jacobian]. split; apply SS; auto.
Qed.

(** values of the constraints within tolerances are the physical statement *)
Lemma network_ok E L x h g dh dg : nb + nb + ng + ng <= length x ->
  opf_consfcn cis cabs D lim Ybus Yfl Ytl il x = Ok (h, g, dh, dg) ->
  Forall E g -> Forall L h ->
  let V := ac_volt cis nb x in
  ac_network E L cis lim B bus gen branch (cur branch Yf V) (cur branch Yt V) x.
Proof.
  intros LX H HG HH V. pose proof (shape_ok _ _ H) as CS.
  destruct (consfcn_values cis cabs D lim Ybus Yfl Ytl il x h g dh dg CS ltac:(cbn [a_bus a_gen]; lia) H) as (-> & ->).
  unfold gvals in HG. cbn [a_bus a_gen a_base] in HG. apply Forall_app in HG as (G1 & G2).
  assert (LV : length V = nb) by (unfold V, ac_volt; rewrite map_length, seq_length; auto).
  assert (NTH : forall {T} (Q : T -> Prop) f n, Forall Q (map f (seq 0 n)) -> forall i, i < n -> Q (f i)).
  { intros T Q f n HF i Hi. rewrite Forall_forall in HF. apply HF. apply in_map. apply in_seq. lia. }
  constructor.
  - intros i r Hr. pose proof (nth_error_some_lt _ _ _ Hr) as Li. pose proof (NTH _ _ _ _ G1 i Li) as Q.
    unfold p_balance in Q. fold V in Q. rewrite (nth_error_nth _ _ _ Hr) in Q. fold V.
    rewrite (drawn_ok cis B bus branch Ybus Yf Yt made V i LV Li). exact Q.
  - intros i r Hr. pose proof (nth_error_some_lt _ _ _ Hr) as Li. pose proof (NTH _ _ _ _ G2 i Li) as Q.
    unfold q_balance in Q. fold V in Q. rewrite (nth_error_nth _ _ _ Hr) in Q. fold V.
    rewrite (drawn_ok cis B bus branch Ybus Yf Yt made V i LV Li). exact Q.
  - intros l r Hr HL. fold V. pose proof (nth_error_some_lt _ _ _ Hr) as Ll.
    assert (In l il) as I by (apply il_ok; eauto). apply In_nth_error in I as (p & Hp).
    pose proof (nth_error_some_lt _ _ _ Hp) as Lp. pose proof (brow_ok p l r Hp Hr) as EB.
    unfold hvals in HH. cbn [a_bus a_gen a_base] in HH. apply Forall_app in HH as (H1 & H2).
    pose proof (NTH _ _ _ _ H1 p Lp) as Q1. pose proof (NTH _ _ _ _ H2 p Lp) as Q2. cbv beta in Q1, Q2.
    unfold overflow in Q1, Q2. rewrite EB in Q1, Q2. fold V in Q1, Q2.
    pose proof (makeYbus_ok _ _ _ _ _ _ _ made) as YS.
    assert (C : forall M M' : smat (cpx K), sz M (length branch) nb -> rowsel M il = Ok M' -> bus_current M' V p = nth l (cur branch M V) 0%K).
    { intros M M' SM HM. destruct (sz_rows _ _ SM HM) as (W & N & CC).
      rewrite nth_cur by exact Ll. rewrite <- (mulrow_rowsel M M' _ V p l HM Hp). rewrite (mulrow_at M' V p W). reflexivity. }
    unfold end_sq in Q1, Q2. rewrite (C _ _ (ys_Yf _ _ _ _ _ _ _ YS) Hfl) in Q1. rewrite (C _ _ (ys_Yt _ _ _ _ _ _ _ YS) Htl) in Q2.
    cbv zeta. split; [exact Q1|exact Q2].
Qed.
End AcOptE.
