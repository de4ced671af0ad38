(** Convexity of the DC OPF objective, and how near its solution is to the optimum. *)
From Verif Require Import Lib.ListFacts Model.DcOpf Spec.DcSpec Spec.PipsRun Proofs.LinAlgFacts Proofs.SparseFacts
  Proofs.BlockFacts Proofs.FldFacts Proofs.OrdFacts Proofs.NetworkA Proofs.NetworkB Proofs.PipsF
  Proofs.NetworkE Proofs.OpfLinA Proofs.OpfLinB Proofs.DcOpfA Proofs.DcOpfB Proofs.DcOpfC Proofs.DcOpfD Proofs.DcOpfF
  Proofs.PipsD Proofs.PipsG Proofs.PipsH Proofs.DcOpfG Proofs.DcOpfE Proofs.DcOpfH.
Local Open Scope nat_scope.

Section DcOpfI.
Context {K : Type} {F : Fld K}.
Add Field KF : (@f_ok K F).

Lemma half_nn (a : K) : le 0%K (a + a)%K -> le 0%K a.
Proof.
  intros H. apply not_lt. intros C. apply pos_opp in C. pose proof (add_pos _ _ C C) as P.
  replace (- a + - a)%K with (- (a + a))%K in P by ring. apply pos_opp in P. eapply lt_not_le; eauto.
Qed.

Lemma nth_opp (d : list K) i : nth i (map ropp d) 0%K = (- nth i d 0)%K.
Proof.
  destruct (lt_dec i (length d)).
  - rewrite (nth_map_lt _ _ _ _ 0%K) by auto. reflexivity.
  - rewrite !nth_overflow by (rewrite ?map_length; lia). ring.
Qed.

Notation quad n H d := (qform n H (repeat 0%K n) d).

Lemma qform_opp n (H : smat K) c d :
  qform n H c (map ropp d) = (quad n H d - lsum (fun i => nth i c 0 * nth i d 0)%K (seq 0 n))%K.
Proof.
  unfold qform.
  rewrite (lsum_ext (fun i => nth i (map ropp d) 0 * _)%K
     (fun i => nth i d 0 * lsum (fun j => at_ H i j * nth j d 0) (seq 0 n))%K).
  2:{ intros i _. rewrite nth_opp.
      rewrite (lsum_ext (fun j => at_ H i j * nth j (map ropp d) 0)%K (fun j => - (at_ H i j * nth j d 0))%K)
        by (intros; rewrite nth_opp; ring).
      rewrite lsum_opp. ring. }
  rewrite (lsum_ext (fun i => nth i c 0 * nth i (map ropp d) 0)%K (fun i => - (nth i c 0 * nth i d 0))%K)
    by (intros; rewrite nth_opp; ring).
  rewrite lsum_opp. rewrite (lsum_zero (fun i => nth i (repeat 0 n) 0 * nth i d 0)%K). { ring. }
  intros i Hi. apply in_seq in Hi. rewrite nth_repeat_lt by lia. ring.
Qed.
Lemma qform_quad n (H : smat K) c d :
  qform n H c d = (quad n H d + lsum (fun i => nth i c 0 * nth i d 0)%K (seq 0 n))%K.
Proof.
  unfold qform. rewrite (lsum_zero (fun i => nth i (repeat 0 n) 0 * nth i d 0)%K). { ring. }
  intros i Hi. apply in_seq in Hi. rewrite nth_repeat_lt by lia. ring.
Qed.
Lemma qform_zero n (H : smat K) c : qform n H c (repeat 0%K n) = 0%K.
Proof.
  unfold qform. rewrite !lsum_zero; [ring| |].
  - intros i Hi. apply in_seq in Hi. rewrite nth_repeat_lt by lia. ring.
  - intros i Hi. apply in_seq in Hi. rewrite nth_repeat_lt by lia. ring.
Qed.
Lemma quad_opp n (H : smat K) d : quad n H (map ropp d) = quad n H d.
Proof.
  rewrite qform_opp. rewrite lsum_zero; [ring|].
  intros i Hi. apply in_seq in Hi. rewrite nth_repeat_lt by lia. ring.
Qed.

(** ** convex parts *)
Lemma horner_low (cs : list K) p : length cs <= 3 ->
  (length cs = 3 -> le 0%K (nth 0 cs 0%K)) ->
  le (horner cs 0 + horner cs 0)%K (horner cs p + horner cs (- p))%K.
Proof.
  intros L H. unfold horner. apply le_sub.
  destruct cs as [|a [|b [|c [|e cs]]]]; cbn [fold_left] in *.
  - replace (0 + 0 - (0 + 0))%K with (0 : K)%K by ring. apply le_refl.
  - match goal with |- le _ ?e => replace e with (0 : K)%K by ring end. apply le_refl.
  - match goal with |- le _ ?e => replace e with (0 : K)%K by ring end. apply le_refl.
  - match goal with |- le _ ?e => replace e with (a * (p * p) + a * (p * p))%K by ring end.
    assert (le 0%K (a * (p * p))%K) as Q by (apply mul_nn; [apply H; auto|apply sq_nn]). apply add_nn; auto.
  - simpl in L. lia.
Qed.
Lemma cost_convex (r : list K) p : quad_rising r ->
  le (low_order_cost r 0 + low_order_cost r 0)%K (low_order_cost r p + low_order_cost r (- p))%K.
Proof.
  intros QR. unfold low_order_cost, row_cost. destruct (cost_is 1 r) eqn:E1; cbn [orb].
  - unfold chord. apply le_sub. match goal with |- le _ ?e => replace e with (0 : K)%K by ring end. apply le_refl.
  - destruct (cost_is 2 r) eqn:E2; cbn [andb].
    + destruct (feqb (cell r NCOST) (fofZ 2)) eqn:N2, (feqb (cell r NCOST) (fofZ 3)) eqn:N3; cbn [orb]; try apply le_refl.
      * apply feqb_ok in N2, N3. apply horner_low.
        -- unfold coeffs. rewrite firstn_length. unfold npoints. rewrite N2, ftrunc_ofZ. change (Z.to_nat 2) with 2. lia.
        -- unfold coeffs. rewrite firstn_length. unfold npoints. rewrite N2, ftrunc_ofZ. change (Z.to_nat 2) with 2. lia.
      * apply feqb_ok in N2. apply horner_low.
        -- unfold coeffs. rewrite firstn_length. unfold npoints. rewrite N2, ftrunc_ofZ. change (Z.to_nat 2) with 2. lia.
        -- unfold coeffs. rewrite firstn_length. unfold npoints. rewrite N2, ftrunc_ofZ. change (Z.to_nat 2) with 2. lia.
      * apply feqb_ok in N3. apply horner_low.
        -- unfold coeffs. rewrite firstn_length. unfold npoints. rewrite N3, ftrunc_ofZ. change (Z.to_nat 3) with 3. lia.
        -- intros _. specialize (QR E2 N3). unfold coeffs, npoints. rewrite N3, ftrunc_ofZ. change (Z.to_nat 3) with 3.
           assert (forall (v : list K), nth 0 (firstn 3 (skipn COST v)) 0%K = nth COST v 0%K) as ->; [|exact QR].
           intros v. rewrite PipsG.nth_firstn_lt by lia. rewrite PipsG.nth_skipn_d. f_equal.
    + apply le_refl.
Qed.

Lemma gen_convex B nb ng (gencost : list (list K)) n d : length d = n -> 
  (forall i, i < ng -> quad_rising (nth i gencost [])) ->
  le (gen_cost_by low_order_cost B nb ng gencost (repeat 0%K n) + gen_cost_by low_order_cost B nb ng gencost (repeat 0%K n))%K
     (gen_cost_by low_order_cost B nb ng gencost d + gen_cost_by low_order_cost B nb ng gencost (map ropp d))%K.
Proof.
  intros Ld QR. unfold gen_cost_by.
  assert (forall y0 c0 y1 c1 y2 c2 : K, le (y0 + y0)%K (y1 + y2)%K -> le (c0 + c0)%K (c1 + c2)%K ->
     le (y0 + c0 + (y0 + c0))%K (y1 + c1 + (y2 + c2))%K) as SW.
  { intros y0 c0 y1 c1 y2 c2 Q1 Q2. pose proof (add_le _ _ _ _ Q1 Q2) as Q.
    replace (y0 + c0 + (y0 + c0))%K with (y0 + y0 + (c0 + c0))%K by ring.
    replace (y1 + c1 + (y2 + c2))%K with (y1 + y2 + (c1 + c2))%K by ring. exact Q. }
  apply SW; rewrite <- !lsum_add; apply lsum_le.
  - intros j _. rewrite nth_opp. assert (nth (nb + ng + j) (repeat (0 : K)%K n) 0%K = 0%K) as -> by apply nth_repeat.
    apply le_sub. match goal with |- le _ ?e => replace e with (0 : K)%K by ring end. apply le_refl.
  - intros i Hi. apply in_seq in Hi. cbv zeta. destruct (segmented _); [apply le_refl|].
    unfold output. rewrite nth_opp. assert (nth (nb + i) (repeat (0 : K)%K n) 0%K = 0%K) as -> by apply nth_repeat.
    replace (B * 0)%K with (0 : K)%K by ring. replace (B * - nth (nb + i) d 0)%K with (- (B * nth (nb + i) d 0))%K by ring.
    apply cost_convex. apply QR. lia.
Qed.

Lemma row_val_opp (M : smat K) d i : row_val M (map ropp d) i = (- row_val M d i)%K.
Proof. unfold row_val. rewrite <- lsum_opp. apply lsum_ext. intros j _. rewrite nth_opp. ring. Qed.
Lemma row_val_zero (M : smat K) n i : row_val M (repeat 0%K n) i = 0%K.
Proof. unfold row_val. apply lsum_zero. intros j _. rewrite nth_repeat. ring. Qed.

Lemma user_convex (N H : smat K) Cw rh mm n d :
  shaped (nrows N) (nrows N) H -> sym_mat H -> length Cw = nrows N ->
  (forall w, length w = nrows N -> le 0%K (quad (nrows N) H w)) ->
  le (user_cost N H Cw rh mm (repeat 0%K n) + user_cost N H Cw rh mm (repeat 0%K n))%K
     (user_cost N H Cw rh mm d + user_cost N H Cw rh mm (map ropp d))%K.
Proof.
  intros (S1 & S2 & S3) SY LC PS. unfold user_cost. set (nw := nrows N) in *.
  assert (wf H) as W. { unfold wf. rewrite S1, S2. exact S3. }
  set (e := map (fun i => nth i mm 0 * row_val N d i)%K (seq 0 nw)).
  set (w0 := user_w N rh mm (repeat 0%K n)).
  assert (length e = nw) as Le by (unfold e; rewrite map_length, seq_length; auto).
  assert (length w0 = nw) as L0 by (unfold w0, user_w; rewrite map_length, seq_length; auto).
  assert (user_w N rh mm d = map2 radd w0 e) as ->.
  { unfold w0, user_w, e. rewrite map2_map. apply map_ext. intros i. rewrite row_val_zero. ring. }
  assert (user_w N rh mm (map ropp d) = map2 radd w0 (map ropp e)) as ->.
  { unfold w0, user_w, e. rewrite map_map, map2_map. apply map_ext. intros i. rewrite row_val_zero, row_val_opp. ring. }
  rewrite !(qform_step H Cw nw w0) by (rewrite ?map_length; auto).
  rewrite quad_opp.
  rewrite (lsum_ext (fun j => (row_val H w0 j + nth j Cw 0) * nth j (map ropp e) 0)%K
    (fun j => - ((row_val H w0 j + nth j Cw 0) * nth j e 0))%K) by (intros; rewrite nth_opp; ring).
  rewrite lsum_opp. apply le_sub.
  match goal with |- le _ ?z => replace z with (quad nw H e + quad nw H e)%K by ring end.
  apply add_nn; apply PS; auto.
Qed.

(** ** the run *)
Variables (ign : bool) (B : K) (bus gen branch gencost : list (list K)) (U : user (K := K)).
Notation nb := (length bus).
Notation ng := (length gen).
Notation ny := (length (multi_rows ng gencost)).
Variables (o : dcom (K := K)) (Bb : smat K) (Pbi : list K).
Hypothesis S : setup_spec ign B bus gen branch gencost U o Bb Pbi.
Variable cp : costp (K := K).
Hypothesis WN : shaped (nrows (k_N cp)) (d_nx o) (k_N cp).
Hypothesis WH : shaped (nrows (k_N cp)) (nrows (k_N cp)) (k_H cp).
Hypothesis SH : sym_mat (k_H cp).

Lemma objective_convex HH CC C0 : dc_objective B o cp = Ok (HH, CC, C0) ->
  (forall i, i < ng -> quad_rising (nth i gencost [])) ->
  (forall w, length w = nrows (k_N cp) -> le 0%K (quad (nrows (k_N cp)) (k_H cp) w)) ->
  forall d, length d = d_nx o -> le 0%K (quad (d_nx o) HH d).
Proof.
  intros HO QR PS d Ld.
  destruct (objective_ok _ _ _ _ _ _ _ _ _ _ S cp HH CC C0 WN WH SH HO) as (LC & _ & _ & _ & _ & _ & _ & _ & V).
  pose proof (V d Ld) as V1. pose proof (V (map ropp d) ltac:(rewrite map_length; auto)) as V2.
  pose proof (V (repeat 0%K (d_nx o)) (repeat_length _ _)) as V3.
  rewrite qform_quad in V1. rewrite qform_opp in V2. rewrite qform_zero in V3.
  pose proof (gen_convex B nb ng gencost (d_nx o) d Ld QR) as G.
  pose proof (user_convex (k_N cp) (k_H cp) (k_Cw cp) (k_rh cp) (k_mm cp) (d_nx o) d WH SH LC PS) as UC.
  apply half_nn. apply le_sub in G, UC. pose proof (add_nn _ _ G UC) as T.
  set (q := quad (d_nx o) HH d) in *. set (cd := lsum _ _) in V1, V2.
  set (g0 := gen_cost_by low_order_cost B nb ng gencost (repeat 0%K (d_nx o))) in *.
  set (g1 := gen_cost_by low_order_cost B nb ng gencost d) in *.
  set (g2 := gen_cost_by low_order_cost B nb ng gencost (map ropp d)) in *.
  set (u0 := user_cost _ _ _ _ _ (repeat 0%K (d_nx o))) in *.
  set (u1 := user_cost _ _ _ _ _ d) in *. set (u2 := user_cost _ _ _ _ _ (map ropp d)) in *.
  set (c := inner (k_Cw cp) _) in *.
  replace (q + q)%K with ((q + cd + C0) + (q - cd + C0) - ((0 + C0) + (0 + C0)))%K by ring.
  rewrite V1, V2, V3. match goal with |- le _ ?z => match type of T with le _ ?t => replace z with t by ring end end. exact T.
Qed.

Lemma qp_f_total (H : smat K) c n y : wf H -> nrows H = n -> ncols H = n -> length c = n -> length y = n ->
  exists f df, qp_f H c y = Ok (f, df).
Proof.
  intros W N C Lc Ly. unfold qp_f.
  assert (forall M : smat K, wf M -> ncols M = n -> mulv M y = Ok (rowsv M y)) as MV.
  { intros M WM CM. unfold mulv. rewrite Ly, CM, Nat.eqb_refl. reflexivity. }
  rewrite (MV (transp H)) by (auto using wf_transp). cbn [bind].
  unfold ewise. rewrite rowsv_length. cbn [nrows transp]. rewrite C, Ly, Nat.eqb_refl. cbn [bind].
  rewrite Lc, Nat.eqb_refl. cbn [bind]. rewrite MV by auto. cbn [bind]. rewrite rowsv_length, N, Nat.eqb_refl. cbn [bind]. eauto.
Qed.

Lemma inside_meets lo up v : clear_cut lo up -> inside no_excess lo up v -> meets lo up v.
Proof.
  intros CC (H1 & H2). unfold meets.
  assert (tight lo up \/ ~ tight lo up) as [T|T].
  { unfold tight. destruct lo, up; auto. unfold le. destruct (fltb _ _); [right; discriminate|left; auto]. }
  - left. split; auto. rewrite (CC T) in *. destruct up as [b| |]; try (destruct T; fail); try contradiction.
    unfold no_excess in *. f_equal. apply le_antisym.
    + apply le_sub. replace (v - b)%K with (- (b - v))%K by ring. apply nn_opp in H1. exact H1.
    + apply le_sub. replace (b - v)%K with (- (v - b))%K by ring. apply nn_opp in H2. exact H2.
  - right. split; auto. unfold no_excess, lower_ok, upper_ok in *. destruct lo as [a| |], up as [b| |]; try contradiction; split; auto.
    + right. apply le_sub. replace (v - a)%K with (- (a - v))%K by ring. apply nn_opp in H1. exact H1.
    + right. apply le_sub. replace (b - v)%K with (- (v - b))%K by ring. apply nn_opp in H2. exact H2.
    + right. apply le_sub. replace (v - a)%K with (- (a - v))%K by ring. apply nn_opp in H1. exact H1.
    + right. apply le_sub. replace (b - v)%K with (- (v - b))%K by ring. apply nn_opp in H2. exact H2.
Qed.

Lemma clear_inf lo up : (forall a, lo <> EFin a) \/ (forall a, up <> EFin a) -> clear_cut lo up.
Proof. intros [H|H] T; destruct lo, up; cbn in T; try contradiction; exfalso; eapply H; eauto. Qed.
Lemma clear_rows : limits_clear ign B bus gen branch (u_A U) (u_l U) (u_u U) (u_zl U) (u_zu U) ->
  (forall k, k < nrows (d_A o) -> clear_cut (lower (d_l o) k) (upper (d_u o) k)) /\
  (forall j, j < d_nx o -> clear_cut (lower (d_xmin o) j) (upper (d_xmax o) j)).
Proof.
  intros (H1 & H2 & H3 & H4).
  pose proof (all_rows_ok _ _ _ _ _ _ _ _ _ _ S (fun lo up _ => clear_cut lo up) (repeat 0%K (d_nx o)) (repeat_length _ _)) as (_ & A).
  enough (all_rows o (fun lo up _ => clear_cut lo up) (repeat 0%K (d_nx o))) as (A1 & A2) by (split; auto).
  apply A. assert (forall e : ext K, clear_cut ENeg e) as N1 by (intros e; apply clear_inf; left; discriminate).
  assert (forall e : ext K, clear_cut e EPos) as N2 by (intros e; apply clear_inf; right; discriminate).
  split; [|split; [|split; [|split; [|split; [|split; [|split; [|split]]]]]]]; auto.
  - intros i _ _. reflexivity.
  - intros E r Hr HL. specialize (H2 E r Hr HL). unfold ang_bound.
    destruct (feqb (cell r ANGMIN) 0%K) eqn:Q1, (feqb (cell r ANGMAX) 0%K) eqn:Q2; auto.
    apply feqb_false in Q1. apply feqb_false in Q2. auto.
  - intros i r Hr. unfold ref_bound. destruct (feqb _ _); auto. intros _. reflexivity.
  - intros k g Hg. apply H1. eapply nth_error_In; eauto.
Qed.
End DcOpfI.
