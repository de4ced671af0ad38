(** opf_model: user costs. *)
From Verif Require Import Lib.QcFacts Lib.LinAlg Lib.ListFacts Model.OpfModel Spec.OmSpec
  Proofs.LinAlgFacts Proofs.OpfModelA Proofs.OpfModelB.
Local Open Scope nat_scope.

(** ** the literal key *)
Definition only_name (d : dict vec) : Prop := forall k, k <> "name"%string -> dget d k = None.

Lemma only_name_set d o : only_name d -> only_name (dset_opt d "name" o).
Proof.
  intros H k Hk. destruct o; simpl; auto. rewrite dget_dset.
  destruct (String.eqb_spec k "name"); auto. contradiction.
Qed.

Lemma run_only_name_from ops m m' :
  foldM step ops m = Ok m' ->
  only_name (o_dd m) -> only_name (o_rh m) -> only_name (o_kk m) -> only_name (o_mm m) ->
  only_name (o_dd m') /\ only_name (o_rh m') /\ only_name (o_kk m') /\ only_name (o_mm m').
Proof.
  revert m. induction ops as [|o ops IH]; intros m H H1 H2 H3 H4; simpl in H.
  - injection H as <-. auto.
  - apply bind_ok in H as (m1 & E & H).
    assert (K : only_name (o_dd m1) /\ only_name (o_rh m1) /\ only_name (o_kk m1) /\
                only_name (o_mm m1)).
    { destruct o; simpl in E.
      - injection E as <-. auto.
      - injection E as <-. auto.
      - unfold add_lin in E. apply bind_ok in E as (? & _ & E). injection E as <-. auto.
      - unfold add_costs in E. repeat (apply bind_ok in E as (? & _ & E)). injection E as <-.
        simpl. repeat split; apply only_name_set; auto. }
    destruct K as (K1 & K2 & K3 & K4). apply (IH m1); auto.
Qed.

Lemma run_only_name ops m :
  run ops = Ok m ->
  only_name (o_dd m) /\ only_name (o_rh m) /\ only_name (o_kk m) /\ only_name (o_mm m).
Proof. intros H. eapply run_only_name_from; eauto; intros k Hk; reflexivity. Qed.

(** ** assembly *)
Definition cN (c : cset) := c_N (cs_cp c).
Definition crows (c : cset) : nat := m_rows (cN c).
Definition csum (cs : list cset) : nat := list_sum (map crows cs).

Lemma csum_isum cs : isum (map citem cs) = csum cs.
Proof. unfold isum, csum. rewrite map_map. reflexivity. Qed.

(** rows of the block-diagonal H *)
Definition hrows (nw off : nat) (c : cset) : list vec :=
  match c_H (cs_cp c) with
  | None => repeat (repeat 0%Qc nw) (crows c)
  | Some h => map (fun s => repeat 0%Qc off ++ s ++ repeat 0%Qc (nw - (off + crows c)))
                  (m_data h)
  end.
Fixpoint hblocks (nw off : nat) (cs : list cset) : list vec :=
  match cs with
  | [] => []
  | c :: cs' => hrows nw off c ++ hblocks nw (off + crows c) cs'
  end.

Definition fill (d : dict vec) (name : string) (e : entry cdata) (v : vec) : result vec :=
  match dget d name with
  | None => Ok v
  | Some x => assign v (e_i1 e) (e_iN e - e_i1 e) x
  end.

Definition cost_step (m : om) (q : params) (name : string) : result params :=
  e <- of_option KeyError (dget (b_idx (o_cost m)) name) ;;
  if e_N e =? 0 then Ok q
  else
    let n := e_iN e - e_i1 e in
    Ni <- mapM (spread m (resolve m (k_vs (e_data e)))) (m_data (k_N (e_data e))) ;;
    Cw <- assign (q_Cw q) (e_i1 e) n (k_Cw (e_data e)) ;;
    let H := match k_H (e_data e) with
             | None => q_H q
             | Some h => put (q_H q) (e_i1 e)
                 (map2 (fun r s => put r (e_i1 e) s)
                       (slice (e_i1 e) (e_iN e) (q_H q)) (m_data h))
             end in
    dd <- fill (o_dd m) name e (q_dd q) ;;
    rh <- fill (o_rh m) name e (q_rh q) ;;
    kk <- fill (o_kk m) name e (q_kk q) ;;
    mm <- fill (o_mm m) name e (q_mm q) ;;
    Ok {| q_N := put (q_N q) (e_i1 e) Ni; q_Cw := Cw; q_H := H;
          q_dd := dd; q_rh := rh; q_kk := kk; q_mm := mm |}.

Lemma map_repeat {A B} (f : A -> B) a n : map f (repeat a n) = repeat (f a) n.
Proof. induction n; simpl; auto. f_equal. auto. Qed.

Lemma map2_repeat {A B C} (f : A -> B -> C) a l :
  map2 f (repeat a (length l)) l = map (f a) l.
Proof. unfold map2. induction l; simpl; auto. f_equal. auto. Qed.

Lemma put_zeros nw off s :
  off + length s <= nw ->
  put (repeat 0%Qc nw) off s = repeat 0%Qc off ++ s ++ repeat 0%Qc (nw - (off + length s)).
Proof.
  intros H. unfold put.
  replace nw with (off + (length s + (nw - (off + length s)))) at 1 2 by lia.
  rewrite !repeat_app. f_equal.
  - rewrite firstn_app, repeat_length, Nat.sub_diag, firstn_O, app_nil_r.
    rewrite firstn_all2 by (rewrite repeat_length; lia). auto.
  - f_equal. rewrite skipn_app, skipn_all2 by (rewrite repeat_length; lia).
    rewrite repeat_length. simpl.
    replace (off + length s - off) with (length s) by lia.
    rewrite skipn_app, skipn_all2 by (rewrite repeat_length; lia).
    rewrite repeat_length, Nat.sub_diag. reflexivity.
Qed.

Lemma gather_slice {A} (l : list A) i n :
  i + n <= length l -> gather l (seq i n) = Ok (slice i (i + n) l).
Proof.
  revert i. induction n as [|n IH]; intros i H.
  - unfold slice. replace (i + 0 - i) with 0 by lia. reflexivity.
  - simpl seq. unfold gather. cbn [mapM]. unfold get at 1.
    destruct (nth_error_lt l i ltac:(lia)) as (a & Ea). rewrite Ea. cbn [of_option bind].
    fold (gather l (seq (S i) n)). rewrite IH by lia. cbn [bind]. f_equal.
    apply nth_error_ext. intros [|j].
    + rewrite nth_slice. destruct (Nat.ltb_spec 0 (i + S n - i)); try lia.
      rewrite Nat.add_0_r. auto.
    + rewrite (nth_slice _ l i).
      change (nth_error (slice (S i) (S i + n) l) j = (if S j <? i + S n - i then nth_error l (i + S j) else None)).
      rewrite nth_slice.
      destruct (Nat.ltb_spec j (S i + n - S i)); destruct (Nat.ltb_spec (S j) (i + S n - i));
        try lia; auto.
      replace (S i + j) with (i + S j) by lia. reflexivity.
Qed.

Lemma slice_mid {A} (a b c : list A) :
  slice (length a) (length a + length b) (a ++ b ++ c) = b.
Proof.
  rewrite slice_app_r by lia. rewrite Nat.sub_diag.
  replace (length a + length b - length a) with (length b) by lia.
  rewrite slice_app_l by lia. apply slice_whole. lia.
Qed.

Section Cost.
Variable m : om.
Variable V : list vset.
Variable L : list cset.
Hypothesis ND : NoDup (map vs_name V).
Hypothesis NDL : NoDup (map cs_name L).
Hypothesis NN : ~ In "name"%string (map cs_name L).
Hypothesis EV : o_var m = build (map vitem V) empty_blocks.
Hypothesis EL : o_cost m = build (map citem L) empty_blocks.
Hypothesis ON : only_name (o_dd m) /\ only_name (o_rh m) /\ only_name (o_kk m) /\
                only_name (o_mm m).
Let S := vnames V.
Hypothesis WF : Forall (cost_wf S) L.
Let nw := csum L.

Definition cspread_of (c : cset) (B : list vec) : Prop :=
  length B = crows c /\ Forall (fun r => length r = b_N (o_var m)) B /\
  forall x, length x = b_N (o_var m) -> matvec B x = matvec (m_data (cN c)) (parts S x (cs_vs c)).

Definition mk (N : list vec) (Cw : vec) (H : list vec) : params :=
  {| q_N := N; q_Cw := Cw; q_H := H; q_dd := repeat 1%Qc nw; q_rh := repeat 0%Qc nw;
     q_kk := repeat 0%Qc nw; q_mm := repeat 1%Qc nw |}.

Lemma cost_entry pre c suf :
  L = pre ++ c :: suf ->
  dget (b_idx (o_cost m)) (cs_name c) =
  Some {| e_i1 := csum pre; e_iN := csum pre + crows c; e_N := crows c;
          e_data := {| k_N := cN c; k_Cw := c_Cw (cs_cp c); k_H := c_H (cs_cp c);
                       k_vs := to_varsets (cs_vs c) |} |}.
Proof.
  intros E.
  pose proof (build_get (map citem pre) (citem c) (map citem suf) empty_blocks) as G.
  replace (map citem pre ++ citem c :: map citem suf) with (map citem L) in G
    by (rewrite E, map_app; reflexivity).
  rewrite citem_names in G. specialize (G NDL). rewrite <- EL, csum_isum in G. exact G.
Qed.

Lemma hrows_length off c : cost_wf S c -> length (hrows nw off c) = crows c.
Proof.
  intros (_ & _ & HH). unfold hrows. destruct (c_H (cs_cp c)) as [h|].
  - rewrite map_length. destruct (HH h eq_refl) as ((LH & _) & RH & _). unfold crows, cN. lia.
  - apply repeat_length.
Qed.

Lemma cost_loop suf : forall pre N Cw H,
  L = pre ++ suf -> length N = csum pre -> length Cw = csum pre -> length H = csum pre ->
  exists Bs, Forall2 cspread_of suf Bs /\
    foldM (cost_step m) (map cs_name suf)
      (mk (N ++ repeat (repeat 0%Qc (b_N (o_var m))) (csum suf))
          (Cw ++ repeat 0%Qc (csum suf)) (H ++ repeat (repeat 0%Qc nw) (csum suf)))
    = Ok (mk (N ++ concat Bs) (Cw ++ flat_map (fun c => c_Cw (cs_cp c)) suf)
             (H ++ hblocks nw (csum pre) suf)).
Proof.
  induction suf as [|c suf IH]; intros pre N Cw H E LN LC LH.
  - exists []. split; auto.
  - assert (Wc : cost_wf S c).
    { eapply Forall_forall; eauto. rewrite E. apply in_or_app. right. left. auto. }
    assert (NM : cs_name c <> "name"%string).
    { intros C. apply NN. rewrite E, map_app. apply in_or_app. right. left. auto. }
    cbn [map foldM]. unfold cost_step at 1. rewrite (cost_entry pre c suf E).
    cbn [of_option bind e_N e_i1 e_iN e_data k_N k_Cw k_H k_vs].
    destruct (spread_mat m V ND EV (cN c) (cs_vs c)) as (B & EB & LB & FB & HB); [apply Wc|].
    assert (SB : cspread_of c B) by (repeat split; auto).
    assert (HC : length (c_Cw (cs_cp c)) = crows c) by apply Wc.
    assert (LP : csum (pre ++ [c]) = csum pre + crows c).
    { unfold csum. rewrite map_app, list_sum_app. simpl. lia. }
    assert (LT : csum pre + crows c + csum suf = nw).
    { unfold nw. rewrite E. unfold csum. rewrite map_app, list_sum_app. simpl. lia. }
    assert (LR := hrows_length (csum pre) c Wc).
    fold (crows c) in LB.
    replace (csum (c :: suf)) with (crows c + csum suf) by reflexivity.
    set (n := crows c) in *.
    cbn [hblocks flat_map concat].
    destruct (Nat.eqb_spec n 0) as [Z|Z].
    + assert (B = []) by (apply length_zero_iff_nil; lia). subst B.
      assert (Zc : c_Cw (cs_cp c) = []) by (apply length_zero_iff_nil; lia).
      assert (Zh : hrows nw (csum pre) c = []) by (apply length_zero_iff_nil; lia).
      destruct (IH (pre ++ [c]) N Cw H) as (Bs & F & R); try (rewrite <- app_assoc; auto; fail);
        try lia.
      exists ([] :: Bs). split; [constructor; auto|].
      rewrite Zc, Zh. cbn [bind app concat].
      rewrite LP in R. change (crows c) with n. rewrite Z in *. rewrite Nat.add_0_r in *. exact R.
    + rewrite EB. cbn [bind].
      replace (csum pre + n - csum pre) with n by lia.
      cbn [q_Cw q_H q_N q_dd q_rh q_kk q_mm mk].
      rewrite assign_ok by auto. cbn [bind]. unfold fill.
      destruct ON as (O1 & O2 & O3 & O4).
      rewrite O1, O2, O3, O4 by auto. cbn [bind].
      rewrite !put_append_at by auto.
      assert (EH : match c_H (cs_cp c) with
        | Some h => put (H ++ repeat (repeat 0%Qc nw) (n + csum suf)) (csum pre)
            (map2 (fun (r s : vec) => put r (csum pre) s)
               (slice (csum pre) (csum pre + n)
                  (H ++ repeat (repeat 0%Qc nw) (n + csum suf))) (m_data h))
        | None => H ++ repeat (repeat 0%Qc nw) (n + csum suf)
        end = (H ++ hrows nw (csum pre) c) ++ repeat (repeat 0%Qc nw) (csum suf)).
      { unfold hrows. fold n. destruct Wc as (_ & _ & HH).
        destruct (c_H (cs_cp c)) as [h|].
        - destruct (HH h eq_refl) as ((Lh & Fh) & Rh & Ch).
          change (m_rows (c_N (cs_cp c))) with n in *.
          rewrite slice_app_r by lia. rewrite LH, Nat.sub_diag.
          replace (csum pre + n - csum pre) with (0 + n) by lia.
          rewrite slice_of_repeat by lia.
          replace n with (length (m_data h)) at 2 by lia.
          rewrite map2_repeat.
          rewrite put_append_at by (rewrite ?map_length; lia).
          f_equal. f_equal. apply map_ext_in. intros s Is.
          eapply Forall_forall in Fh; eauto.
          rewrite put_zeros by lia. rewrite Fh, Ch. reflexivity.
        - rewrite repeat_app, app_assoc. reflexivity. }
      rewrite EH.
      destruct (IH (pre ++ [c]) (N ++ B) (Cw ++ c_Cw (cs_cp c)) (H ++ hrows nw (csum pre) c))
        as (Bs & F & R); try (rewrite <- app_assoc; auto; fail);
        try (rewrite app_length; lia).
      exists (B :: Bs). split; [constructor; auto|].
      etransitivity; [exact R|]. rewrite LP. cbn [concat]. rewrite <- !app_assoc. reflexivity.
Qed.

Lemma build_ok :
  exists Bs, Forall2 cspread_of L Bs /\
    build_cost_params m =
    Ok (with_params m (mk (concat Bs) (flat_map (fun c => c_Cw (cs_cp c)) L) (hblocks nw 0 L))).
Proof.
  destruct (cost_loop L [] [] [] []) as (Bs & F & R); auto.
  exists Bs. split; auto. unfold build_cost_params.
  fold fill. fold (cost_step m).
  assert (EO : b_order (o_cost m) = map cs_name L)
    by (rewrite EL, build_order, citem_names; reflexivity).
  assert (EN : b_N (o_cost m) = csum L) by (rewrite EL, build_N, csum_isum; reflexivity).
  rewrite EO, EN.
  match goal with |- bind ?e _ = _ => replace e with
    (Ok (mk (concat Bs) (flat_map (fun c => c_Cw (cs_cp c)) L) (hblocks nw 0 L)))
    by (symmetry; exact R) end.
  reflexivity.
Qed.

(** ** evaluation *)
Lemma w_row_default r : w_row r 1 0 1 = r.
Proof.
  unfold w_row.
  assert (E2 : qc_eqb 1 (zc 2) = false).
  { apply qc_eqb_neq. intros C. apply (zc_inj 1 2) in C. discriminate. }
  rewrite E2, (qc_eqb_refl 1), (qc_eqb_refl 0), andb_true_r.
  destruct (qc_ltb r (-0)) eqn:A; destruct (qc_eqb r 0) eqn:B; destruct (qc_ltb 0 r) eqn:C;
    unfold b2q; try ring;
    repeat match goal with
    | H : qc_ltb _ _ = true |- _ => apply qc_ltb_lt in H
    | H : qc_ltb _ _ = false |- _ => apply qc_ltb_ge in H
    | H : qc_eqb _ _ = true |- _ => apply qc_eqb_eq in H
    | H : qc_eqb _ _ = false |- _ => apply qc_eqb_neq in H
    end; try (exfalso; qc_lra).
  exfalso. apply B. qc_lra.
Qed.

Lemma doc_w_default r : doc_w (r - 0) 1 0 1 = r.
Proof.
  unfold doc_w.
  assert (E2 : qc_eqb 1 (zc 2) = false).
  { apply qc_eqb_neq. intros C. apply (zc_inj 1 2) in C. discriminate. }
  rewrite E2, (qc_eqb_refl 1).
  destruct (qc_leb (-0) (r - 0)) eqn:A; destruct (qc_leb (r - 0) 0) eqn:B;
    destruct (qc_ltb (r - 0) (-0)); destruct (qc_ltb 0 (r - 0)); simpl; try ring;
    apply qc_leb_le in A; apply qc_leb_le in B;
    assert (r = 0%Qc) by qc_lra; subst r; ring.
Qed.

Lemma w_rows_default r : w_rows r (repeat 1%Qc (length r)) (repeat 0%Qc (length r))
                                (repeat 1%Qc (length r)) = r.
Proof. induction r; simpl; auto. rewrite w_row_default, IHr. auto. Qed.

Lemma doc_ws_default y : doc_ws y (repeat 0%Qc (length y)) (repeat 1%Qc (length y))
                         (repeat 0%Qc (length y)) (repeat 1%Qc (length y)) = y.
Proof. induction y; simpl; auto. rewrite doc_w_default, IHy. auto. Qed.

Lemma map2_minus_zero y : map2 Qcminus y (repeat 0%Qc (length y)) = y.
Proof.
  unfold map2. induction y; simpl; auto. rewrite IHy. f_equal. ring.
Qed.

(** y of one cost set: its own N times its own variables *)
Definition cy (x : vec) (c : cset) : vec := matvec (m_data (cN c)) (parts S x (cs_vs c)).

Lemma cy_length x c : cost_wf S c -> length (cy x c) = crows c.
Proof. intros (((LN & _) & _) & _). unfold cy. rewrite matvec_length. exact LN. Qed.

Lemma user_cost_default c x :
  cost_wf S c ->
  user_cost (drop_optional (cs_cp c)) (parts S x (cs_vs c)) =
  ((match c_H (cs_cp c) with None => 0%Qc
    | Some H => dot (cy x c) (matvec (m_data H) (cy x c)) end) / zc 2
   + dot (c_Cw (cs_cp c)) (cy x c))%Qc.
Proof.
  intros W. unfold user_cost, drop_optional. cbn [c_N c_Cw c_H c_dd c_rh c_kk c_mm opt_vec].
  change (matvec (m_data (c_N (cs_cp c))) (parts S x (cs_vs c))) with (cy x c).
  replace (m_rows (c_N (cs_cp c))) with (length (cy x c)) by (apply cy_length; auto).
  rewrite doc_ws_default. reflexivity.
Qed.

Lemma eval_mk N Cw H x :
  length N = nw ->
  eval_params (mk N Cw H) x =
  (dot (matvec H (matvec N x)) (matvec N x) / zc 2 + dot Cw (matvec N x))%Qc.
Proof.
  intros LN. unfold eval_params, mk. cbn [q_N q_Cw q_H q_dd q_rh q_kk q_mm].
  assert (E : nw = length (matvec N x)) by (rewrite matvec_length; auto).
  rewrite E. rewrite map2_minus_zero, w_rows_default. reflexivity.
Qed.

Lemma ccat cs Bs x :
  Forall2 cspread_of cs Bs -> length x = b_N (o_var m) ->
  matvec (concat Bs) x = flat_map (cy x) cs /\ length (concat Bs) = csum cs.
Proof.
  intros F Lx. induction F as [|c B cs Bs (H1 & _ & H) F (IH1 & IH2)]; simpl; auto.
  rewrite matvec_app, H, IH1, app_length, IH2, H1 by auto. split; auto.
Qed.

Definition hy (x : vec) (c : cset) : vec :=
  match c_H (cs_cp c) with
  | None => repeat 0%Qc (crows c)
  | Some h => matvec (m_data h) (cy x c)
  end.

Lemma flat_cy_length x cs : Forall (cost_wf S) cs -> length (flat_map (cy x) cs) = csum cs.
Proof.
  intros W. induction W; simpl; auto. rewrite app_length, IHW, cy_length by auto. reflexivity.
Qed.

Lemma hblocks_mul x cs : forall off wp,
  Forall (cost_wf S) cs -> length wp = off -> off + csum cs = nw ->
  matvec (hblocks nw off cs) (wp ++ flat_map (cy x) cs) = flat_map (hy x) cs.
Proof.
  induction cs as [|c cs IH]; intros off wp W Lw Ln; simpl; auto.
  inversion W as [|? ? Wc W']; subst. 
  replace (csum (c :: cs)) with (crows c + csum cs) in Ln by reflexivity.
  assert (Ly := cy_length x c Wc).
  rewrite matvec_app. f_equal.
  - unfold hrows, hy. destruct Wc as (_ & _ & HH). destruct (c_H (cs_cp c)) as [h|].
    + destruct (HH h eq_refl) as ((Lh & Fh) & Rh & Ch).
      unfold matvec. rewrite map_map. apply map_ext_in. intros s Is.
      eapply Forall_forall in Fh; eauto.
      rewrite dot_app by apply repeat_length.
      rewrite dot_app by (unfold crows, cN in *; lia).
      rewrite !dot_zero. ring.
    + unfold matvec. clear. induction (crows c) as [|k IHk]; simpl; auto.
      rewrite IHk, dot_zero. reflexivity.
  - rewrite app_assoc. apply IH; auto.
    + rewrite app_length. lia.
    + lia.
Qed.

Definition sum_costs (f : cset -> Qc) (cs : list cset) : Qc :=
  fold_right (fun c s => (f c + s)%Qc) 0%Qc cs.

Lemma total_eval x cs :
  Forall (cost_wf S) cs ->
  (dot (flat_map (hy x) cs) (flat_map (cy x) cs) / zc 2
   + dot (flat_map (fun c => c_Cw (cs_cp c)) cs) (flat_map (cy x) cs))%Qc
  = sum_costs (fun c => user_cost (drop_optional (cs_cp c)) (parts S x (cs_vs c))) cs.
Proof.
  assert (N2 : zc 2 <> 0%Qc) by (intros C; apply (zc_inj 2 0) in C; discriminate).
  intros W. induction W as [|c cs Wc W IH]; simpl.
  - field. auto.
  - rewrite user_cost_default by auto. rewrite <- IH.
    assert (Ly := cy_length x c Wc).
    rewrite !dot_app.
    + unfold hy at 1. destruct (c_H (cs_cp c)) as [h|].
      * rewrite (dot_comm (cy x c)). field. auto.
      * rewrite dot_zero. field. auto.
    + destruct Wc as (_ & LC & _). rewrite Ly. exact LC.
    + rewrite Ly. unfold hy. destruct Wc as (_ & _ & HH).
      destruct (c_H (cs_cp c)) as [h|]; [|apply repeat_length].
      rewrite matvec_length. destruct (HH h eq_refl) as ((Lh & _) & Rh & _).
      unfold crows, cN. lia.
Qed.

Lemma compute_all :
  nw <> 0 ->
  exists m', build_cost_params m = Ok m' /\
  forall x, length x = b_N (o_var m) ->
    compute_cost m' x None =
    Ok (m', sum_costs (fun c => user_cost (drop_optional (cs_cp c)) (parts S x (cs_vs c))) L).
Proof.
  intros NZ. destruct build_ok as (Bs & F & E).
  eexists. split; [exact E|]. intros x Lx. unfold compute_cost, get_cost_params.
  cbn [with_params o_params of_option bind].
  destruct (ccat L Bs x F Lx) as (EN & LN).
  cbn [mk q_N]. rewrite LN. fold nw. destruct (Nat.eqb_spec nw 0); [contradiction|].
  f_equal. f_equal. fold nw in LN. fold (mk (concat Bs) (flat_map (fun c => c_Cw (cs_cp c)) L) (hblocks nw 0 L)).
  rewrite (eval_mk (concat Bs)) by auto. rewrite EN.
  pose proof (hblocks_mul x L 0 [] WF eq_refl eq_refl) as HM. simpl app in HM.
  rewrite HM. apply total_eval. auto.
Qed.

(** ** the first named query *)
Lemma hblocks_app off a b :
  hblocks nw off (a ++ b) = hblocks nw off a ++ hblocks nw (off + csum a) b.
Proof.
  revert off. induction a as [|c a IH]; intros off; simpl.
  - f_equal. unfold csum. simpl. lia.
  - rewrite IH, <- app_assoc. do 2 f_equal. replace (csum (c :: a)) with (crows c + csum a)
      by reflexivity. f_equal. lia.
Qed.

Lemma hblocks_length off cs :
  Forall (cost_wf S) cs -> length (hblocks nw off cs) = csum cs.
Proof.
  intros W. revert off. induction W; intros off; simpl; auto.
  rewrite app_length, IHW, hrows_length by auto. reflexivity.
Qed.

Lemma compute_named pre c suf :
  L = pre ++ c :: suf -> crows c <> 0 ->
  exists m', build_cost_params m = Ok m' /\
  forall x, length x = b_N (o_var m) ->
    exists m'', compute_cost m' x (Some (cs_name c)) =
    Ok (m'', user_cost (drop_optional (cs_cp c)) (parts S x (cs_vs c))).
Proof.
  intros E NZ. destruct build_ok as (Bs & F & EB).
  eexists. split; [exact EB|]. intros x Lx.
  assert (F' := F). rewrite E in F'. apply Forall2_app_inv_l in F' as (B1 & B2 & F1 & F2 & EBs).
  inversion F2 as [|? Bc ? B3 SB F3]; subst B2. clear F2.
  pose proof WF as W'. rewrite E in W'. apply Forall_app in W' as (W1 & W2).
  inversion W2 as [|? ? Wc W3]; subst.
  destruct (ccat _ _ x F1 Lx) as (_ & L1).
  assert (LT : csum pre + crows c + csum suf = nw).
  { unfold nw. rewrite E. unfold csum. rewrite map_app, list_sum_app. simpl. lia. }
  unfold compute_cost, get_cost_params.
  cbn [with_params o_params of_option bind o_cost].
  rewrite (cost_entry pre c suf E). cbn [e_N e_i1 e_iN].
  destruct (Nat.eqb_spec (crows c) 0) as [Z0|_]; [contradiction|].
  replace (csum pre + crows c - csum pre) with (crows c) by lia.
  set (n := crows c) in *.
  cbn [mk q_N q_Cw q_H q_dd q_rh q_kk q_mm].
  assert (LB : length Bc = n) by apply SB.
  assert (LCw : forall cs, Forall (cost_wf S) cs ->
                length (flat_map (fun c => c_Cw (cs_cp c)) cs) = csum cs).
  { intros cs W. induction W as [|c0 cs Wc0 W IH]; simpl; auto.
    rewrite app_length, IH. destruct Wc0 as (_ & -> & _). reflexivity. }
  assert (HCw : length (c_Cw (cs_cp c)) = n) by apply Wc.
  rewrite concat_app. cbn [concat].
  rewrite (gather_slice (concat B1 ++ Bc ++ concat B3)) by (rewrite !app_length; lia).
  assert (LL : length (flat_map (fun c => c_Cw (cs_cp c)) L) = nw) by (rewrite LCw; auto).
  rewrite (gather_slice (flat_map _ L)) by lia.
  rewrite !gather_slice by (rewrite repeat_length; lia).
  cbn [bind].
  replace (slice (csum pre) (csum pre + n) (concat B1 ++ Bc ++ concat B3)) with Bc
    by (rewrite <- L1, <- LB; symmetry; apply slice_mid).
  replace (slice (csum pre) (csum pre + n) (flat_map (fun c => c_Cw (cs_cp c)) L))
    with (c_Cw (cs_cp c))
    by (rewrite E, flat_map_app; cbn [flat_map]; rewrite <- (LCw pre W1), <- HCw;
        symmetry; apply slice_mid).
  rewrite !slice_of_repeat by lia.
  assert (EH : map (slice (csum pre) (csum pre + n))
                   (slice (csum pre) (csum pre + n) (hblocks nw 0 L)) =
               match c_H (cs_cp c) with None => repeat (repeat 0%Qc n) n
                                      | Some h => m_data h end).
  { rewrite E, hblocks_app. cbn [hblocks]. simpl (0 + csum pre).
    pose proof (hblocks_length 0 pre W1) as Lp.
    pose proof (hrows_length (csum pre) c Wc) as Lh. fold n in Lh.
    replace (slice (csum pre) (csum pre + n)
        (hblocks nw 0 pre ++ hrows nw (csum pre) c ++ hblocks nw (csum pre + crows c) suf))
      with (hrows nw (csum pre) c)
      by (rewrite <- Lp at 2; rewrite <- Lp at 2; rewrite <- Lh; symmetry; apply slice_mid).
    unfold hrows. fold n. destruct Wc as (_ & _ & HH). destruct (c_H (cs_cp c)) as [h|].
    - destruct (HH h eq_refl) as ((LLh & Fh) & Rh & Ch).
      rewrite map_map. rewrite <- (map_id (m_data h)) at 2. apply map_ext_in.
      intros s Is. eapply Forall_forall in Fh; eauto.
      assert (Ls : length s = n) by (unfold n, crows, cN; lia).
      pose proof (slice_mid (repeat 0%Qc (csum pre)) s (repeat 0%Qc (nw - (csum pre + n)))) as SM.
      rewrite repeat_length, Ls in SM. exact SM.
    - rewrite map_repeat. f_equal. apply slice_of_repeat. lia. }
  rewrite EH. cbn [q_N]. rewrite LB.
  destruct (Nat.eqb_spec n 0) as [Z0|_]; [contradiction|].
  eexists. f_equal. f_equal.
  unfold eval_params. cbn [q_N q_Cw q_H q_dd q_rh q_kk q_mm].
  destruct SB as (_ & _ & SB). rewrite SB by auto. fold (cy x c).
  assert (Ly := cy_length x c Wc). fold n in Ly.
  rewrite <- Ly, map2_minus_zero, w_rows_default.
  rewrite user_cost_default by auto. f_equal. f_equal.
  destruct (c_H (cs_cp c)) as [h|]; [apply dot_comm|].
  rewrite Ly. unfold matvec. clear - n. rewrite map_repeat, dot_zero. apply dot_zero.
Qed.
End Cost.
