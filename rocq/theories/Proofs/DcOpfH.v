(** The solver applied to the assembled problem. *)
From Verif Require Import Lib.ListFacts Model.DcOpf Spec.DcSpec Spec.PipsRun Proofs.LinAlgFacts Proofs.SparseFacts
  Proofs.BlockFacts Proofs.FldFacts Proofs.OrdFacts Proofs.NetworkA Proofs.NetworkB Proofs.PipsF
  Proofs.NetworkE Proofs.OpfLinA Proofs.OpfLinB Proofs.DcOpfA Proofs.DcOpfB Proofs.DcOpfC Proofs.DcOpfD Proofs.DcOpfF
  Proofs.PipsD Proofs.PipsG Proofs.DcOpfG Proofs.DcOpfE.
Local Open Scope nat_scope.

Section DcOpfH.
Context {K : Type} {F : Fld K}.
Add Field KF : (@f_ok K F).

(** ** the quadratic objective *)
Lemma qp_f_ok (H : smat K) c n x f df : wf H -> nrows H = n -> ncols H = n -> length c = n ->
  qp_f H c x = Ok (f, df) ->
  length x = n /\ f = qform n H c x /\ length df = n /\
  forall j, j < n -> nth j df 0%K = (row_val H x j + nth j c 0)%K.
Proof.
  intros W N C Lc E. unfold qp_f in E.
  apply bind_ok in E as (xH & E1 & E). apply bind_ok in E as (q & E2 & E). apply bind_ok in E as (p & E3 & E).
  apply bind_ok in E as (Hx & E4 & E). apply bind_ok in E as (d & E5 & E). injection E as <- <-.
  apply mulv_rowsv in E1 as (L1 & ->). apply ewise_ok in E2 as (L2 & ->). apply ewise_ok in E3 as (L3 & ->).
  apply mulv_rowsv in E4 as (L4 & ->). apply ewise_ok in E5 as (L5 & ->).
  assert (length x = n) as Lx by congruence. split; auto.
  split; [|split].
  - rewrite qform_inner by auto. rewrite half_dec. fold (half : K).
    assert (forall a b : list K, lsum (fun v => v) (map2 rmul a b) = inner a b) as LI.
    { intros a b. unfold map2, inner. rewrite lsum_map. apply lsum_ext. intros (y, w) _. reflexivity. }
    rewrite !LI. f_equal. f_equal. rewrite inner_comm.
    rewrite (inner_comm x (rowsv H x)). symmetry. apply adjoint; auto; congruence.
  - rewrite map2_length, rowsv_length. lia.
  - intros j Hj. rewrite (nth_map2_d _ _ _ _ 0%K 0%K) by (rewrite ?rowsv_length; lia).
    rewrite nth_rowsv, row_val_mulrow by (auto; lia). reflexivity.
Qed.
Lemma qform_step (H : smat K) c n x d : wf H -> nrows H = n -> ncols H = n -> sym_mat H -> length c = n ->
  length x = n -> length d = n ->
  (qform n H c (map2 radd x d) = qform n H c x + lsum (fun j => (row_val H x j + nth j c 0) * nth j d 0) (seq 0 n)
     + qform n H (repeat 0 n) d)%K.
Proof.
  intros W N C SY Lc Lx Ld. rewrite !qform_inner by (rewrite ?map2_length, ?repeat_length; auto; lia). fold (half : K).
  assert (lsum (fun j => (row_val H x j + nth j c 0) * nth j d 0)%K (seq 0 n) = (inner (rowsv H x) d + inner c d)%K) as ->.
  { rewrite !inner_nth by (rewrite ?rowsv_length; congruence). rewrite rowsv_length, Lc, N, <- lsum_add. apply lsum_ext.
    intros j Hj. apply in_seq in Hj. rewrite nth_rowsv, row_val_mulrow by (auto; lia). ring. }
  assert (forall a b e : list K, length a = length b -> length a = length e -> inner (map2 radd a b) e = (inner a e + inner b e)%K) as IA.
  { induction a as [|a0 a IH]; intros [|b0 b] [|e0 e] Q1 Q2; try discriminate; try reflexivity.
    - unfold inner; simpl; ring.
    - specialize (IH b e ltac:(simpl in *; lia) ltac:(simpl in *; lia)). unfold inner, map2 in *. simpl. rewrite IH. ring. }
  assert (rowsv H (map2 radd x d) = map2 radd (rowsv H x) (rowsv H d)) as ->.
  { unfold rowsv. rewrite map2_map. apply map_ext. intros i. unfold mulrow. rewrite <- lsum_add. apply lsum_ext.
    intros e He. destruct (erow e =? i); [|ring]. unfold wf in W. rewrite Forall_forall in W. destruct (W e He).
    rewrite (nth_map2_d _ _ _ _ 0%K 0%K) by lia. ring. }
  rewrite IA by (rewrite ?map2_length, ?rowsv_length; lia).
  rewrite (inner_comm x), (inner_comm d), !IA by (rewrite ?rowsv_length; lia).
  rewrite inner_0. rewrite (inner_comm c), IA by lia.
  rewrite !(inner_comm _ c). rewrite (inner_comm (rowsv H d) x), (inner_sym H n x d) by auto.
  rewrite (inner_comm (rowsv H x) x), (inner_comm (rowsv H d) d), (inner_comm d (rowsv H x)).
  pose proof (two_nz : (fofZ 2 : K) <> 0%K) as T2. unfold half.
  assert ((fofZ 2 : K) = 1 + 1)%K as E2 by (change 2%Z with (1 + 1)%Z; rewrite fofZ_add, fofZ_1; reflexivity).
  rewrite E2 in *. field. auto.
Qed.
Lemma qp_shaped (H : smat K) c n : wf H -> nrows H = n -> ncols H = n -> length c = n -> well_shaped n 0 0 (qp H c).
Proof.
  intros W N C Lc. constructor.
  - intros x f df _ E. apply (qp_f_ok H c n) in E; auto. apply E.
  - intros x hn gn dhn dgn _ (-> & -> & -> & ->). cbn. auto.
Qed.

(** ** tolerances *)
Lemma exact_sides (d : K) : equal_ d <-> no_excess d /\ no_excess (- d)%K.
Proof.
  unfold equal_, no_excess. split.
  - intros ->. split; [apply le_refl|]. assert (- 0 = (0 : K))%K as -> by ring. apply le_refl.
  - intros (A & B). apply le_antisym; auto. apply nn_opp in B. assert (- - d = d)%K as E by ring. rewrite E in B. auto.
Qed.
Lemma tol_sides (t d : K) : equal_to t d <-> excess_to t d /\ excess_to t (- d)%K.
Proof.
  unfold equal_to, excess_to, fabs.
  assert (- - d = d)%K as OO by ring.
  destruct (fltb d 0%K) eqn:E.
  - split; [|tauto]. intros H. split; auto.
    apply lt_trans with 0%K; auto. apply (lt_trans _ (- d)%K); auto. apply pos_opp. exact E.
  - split; [|tauto]. intros H. split; auto.
    apply le_lt_trans with d; auto. apply le_trans with 0%K; [|exact E]. apply nn_opp. rewrite OO. exact E.
Qed.
Lemma meets_inside t lo up v : ordered lo up -> moderate lo -> moderate up -> meets_to t lo up v ->
  inside (excess_to t) lo up v.
Proof.
  intros OR M1 M2 [(T & b & -> & Hb)|(_ & H1 & H2)].
  - destruct lo as [a| |]; try contradiction. cbn in OR, T. apply tol_sides in Hb as (B1 & B2). unfold excess_to in *. cbn.
    assert (- (v - b) = b - v)%K as E by ring. rewrite E in B2. split; auto. apply le_lt_trans with (b - v)%K; auto.
    apply le_sub. assert (b - v - (a - v) = b - a)%K as -> by ring. apply le_sub in OR. exact OR.
  - assert (forall a c : K, lt (fabs a) c -> lt a c /\ lt (- c) a)%K as FB.
    { intros a c Q. apply tol_sides in Q as (Q1 & Q2). unfold excess_to in *. split; auto.
      apply opp_lt in Q2. assert (- - a = a)%K as E by ring. rewrite E in Q2. exact Q2. }
    split.
    + destruct lo as [a| |]; auto. cbn in M1, H1. unfold excess_to.
      destruct H1 as [H1|H1].
      * exfalso. apply FB in M1 as (_ & M1). eapply lt_not_le; eauto.
      * apply lt_sub. apply lt_sub in H1. assert (t - (a - v) = v + t - a)%K as -> by ring. exact H1.
    + destruct up as [b| |]; auto. cbn in M2, H2. unfold excess_to. destruct H2 as [H2|H2].
      * exfalso. apply FB in M2 as (M2 & _). eapply lt_not_le; eauto.
      * apply lt_sub. apply lt_sub in H2. assert (t - (v - b) = b + t - v)%K as -> by ring. exact H2.
Qed.

(** ** the run *)
Variables (ign : bool) (B : K) (bus gen branch gencost : list (list K)) (U : user (K := K)).
Notation nb := (length bus).
Notation ng := (length gen).
Notation ny := (length (multi_rows ng gencost)).
Variables (o : dcom (K := K)) (Bb : smat K) (Pbi : list K).
Hypothesis S : setup_spec ign B bus gen branch gencost U o Bb Pbi.

Lemma d_lengths : length (d_xmin o) = d_nx o /\ length (d_xmax o) = d_nx o /\
  length (d_l o) = nrows (d_A o) /\ length (d_u o) = nrows (d_A o) /\ wf (d_A o) /\ ncols (d_A o) = d_nx o.
Proof.
  rewrite (nx_eq _ _ _ _ _ _ _ _ _ _ S). rewrite (ss_xmin _ _ _ _ _ _ _ _ _ _ S), (ss_xmax _ _ _ _ _ _ _ _ _ _ S).
  destruct (ss_desc _ _ _ _ _ _ _ _ _ _ S) as (W & N & C & E1 & E2 & _).
  rewrite !app_length, !map_length, !repeat_length, !seq_length.
  split; [lia|]. split; [lia|]. rewrite E1, E2, !map_length. split; auto. split; auto. split; auto.
  rewrite C. apply (nx_eq _ _ _ _ _ _ _ _ _ _ S).
Qed.
Lemma start_length x0 : dc_start o bus = Ok x0 -> length x0 = d_nx o.
Proof.
  intros H. unfold dc_start in H. destruct d_lengths as (L1 & L2 & _).
  apply bind_ok in H as (ms & Hm & H). apply bind_ok in H as (x & Hx & H). apply bind_ok in H as (ty & _ & H).
  apply bind_ok in H as (rb & _ & H). apply bind_ok in H as (va & _ & H). apply bind_ok in H as (a & _ & H).
  apply ewise_ok in Hm as (_ & ->). apply mapM_length in Hx. rewrite map2_length in Hx.
  assert (length x = d_nx o) as Lx by lia. unfold d_nx in *.
  destruct (d_ny o =? 0).
  - injection H as <-. rewrite app_length, repeat_length, skipn_length. lia.
  - apply bind_ok in H as (m & _ & H). apply bind_ok in H as (rows & _ & H). apply bind_ok in H as (c & _ & H).
    injection H as <-. rewrite !app_length, !repeat_length, firstn_length, skipn_length, app_length, repeat_length, skipn_length. lia.
Qed.

Lemma ordered_rows : limits_ordered ign B bus gen branch (u_A U) (u_l U) (u_u U) (u_zl U) (u_zu U) ->
  bounds_ordered (d_nx o) (nrows (d_A o)) (d_l o) (d_u o) (d_xmin o) (d_xmax o).
Proof.
  intros (H1 & H2 & H3 & H4).
  pose proof (all_rows_ok _ _ _ _ _ _ _ _ _ _ S (fun lo up _ => ordered lo up) (repeat 0%K (d_nx o)) (repeat_length _ _)) as (_ & A).
  enough (all_rows o (fun lo up _ => ordered lo up) (repeat 0%K (d_nx o))) as (A1 & A2) by (split; auto).
  apply A. split; [|split; [|split; [|split; [|split; [|split; [|split; [|split]]]]]]]; cbn; auto.
  - intros i _. apply le_refl.
  - intros E r Hr HL. specialize (H2 E r Hr HL). unfold ang_bound.
    destruct (feqb (cell r ANGMIN) 0%K) eqn:Q1, (feqb (cell r ANGMAX) 0%K) eqn:Q2; cbn; auto.
    apply feqb_false in Q1. apply feqb_false in Q2. auto.
  - intros i r Hr. unfold ref_bound. destruct (feqb _ _); cbn; auto. apply le_refl.
  - intros k g Hg. apply H1. eapply nth_error_In; eauto.
Qed.
Lemma inside_rows t x : limits_ordered ign B bus gen branch (u_A U) (u_l U) (u_u U) (u_zl U) (u_zu U) ->
  Forall moderate (d_l o ++ d_u o ++ d_xmin o ++ d_xmax o) -> length x = d_nx o ->
  linear_to t (d_nx o) (Some (d_A o)) (d_l o) (d_u o) (d_xmin o) (d_xmax o) x ->
  dc_point (equal_to t) (excess_to t) ign B bus gen branch gencost (u_A U) (u_l U) (u_u U) (u_zl U) (u_zu U) x.
Proof.
  intros OR MO Lx (H1 & H2). rewrite !Forall_app in MO. destruct MO as (M1 & M2 & M3 & M4).
  destruct (ordered_rows OR) as (O1 & O2).
  apply (dc_point_ok (equal_to t) (excess_to t) (tol_sides t) _ _ _ _ _ _ _ _ _ _ S x Lx).
  assert (forall (b : list (ext K)) i, Forall moderate b -> moderate (lower b i) /\ moderate (upper b i)) as MB.
  { intros b i HF. unfold lower, upper. rewrite !bound_nth. rewrite Forall_forall in HF.
    split; (destruct (lt_dec i (length b)); [apply HF; apply nth_In; auto|rewrite nth_overflow by lia; cbn; auto]). }
  split.
  - intros k Hk. apply meets_inside; [auto|apply MB; auto|apply MB; auto|exact (H2 k Hk)].
  - intros j Hj. apply meets_inside; [auto|apply MB; auto|apply MB; auto|exact (H1 j Hj)].
Qed.
End DcOpfH.
