(** opf_model: index bookkeeping, and assembly of rows. *)
From Verif Require Import Lib.QcFacts Lib.LinAlg Lib.ListFacts Model.OpfModel Spec.OmSpec
  Proofs.LinAlgFacts.

(** ** dicts *)
Lemma dget_dset {D} (d : dict D) k v k' :
  dget (dset d k v) k' = if String.eqb k' k then Some v else dget d k'.
Proof.
  induction d as [|[k0 v0] d IH]; simpl.
  - destruct (String.eqb k' k); auto.
  - destruct (String.eqb_spec k k0); simpl.
    + subst. destruct (String.eqb_spec k' k0); auto.
    + rewrite IH. destruct (String.eqb_spec k' k0); auto.
      destruct (String.eqb_spec k' k); auto. congruence.
Qed.

(** ** blocks built from a history *)
Section Blocks.
Context {D : Type}.
Definition item := (string * nat * D)%type.
Definition iname (i : item) : string := fst (fst i).
Definition isize (i : item) : nat := snd (fst i).
Definition idata (i : item) : D := snd i.

Definition add_item (b : blocks D) (i : item) : blocks D :=
  add_block b (iname i) (isize i) (idata i).
Definition build (h : list item) (b : blocks D) : blocks D := fold_left add_item h b.

Definition isum (h : list item) : nat := list_sum (map isize h).

Lemma isum_app h1 h2 : isum (h1 ++ h2) = isum h1 + isum h2.
Proof. unfold isum. rewrite map_app, list_sum_app. reflexivity. Qed.

Lemma build_N h b : b_N (build h b) = b_N b + isum h.
Proof.
  revert b. induction h as [|i h IH]; intros b; simpl; [unfold isum; simpl; lia|].
  rewrite IH. simpl. unfold isum. simpl. lia.
Qed.

Lemma build_order h b : b_order (build h b) = b_order b ++ map iname h.
Proof.
  revert b. induction h as [|i h IH]; intros b; simpl; [rewrite app_nil_r; auto|].
  rewrite IH. simpl. rewrite <- app_assoc. reflexivity.
Qed.

Lemma build_other h b nm :
  ~ In nm (map iname h) -> dget (b_idx (build h b)) nm = dget (b_idx b) nm.
Proof.
  revert b. induction h as [|i h IH]; intros b H; simpl; auto.
  rewrite IH by (intros C; apply H; right; auto).
  simpl. rewrite dget_dset. destruct (String.eqb_spec nm (iname i)); auto.
  exfalso. apply H. left. auto.
Qed.

Lemma build_get pre i suf b :
  NoDup (map iname (pre ++ i :: suf)) ->
  dget (b_idx (build (pre ++ i :: suf) b)) (iname i) =
  Some {| e_i1 := b_N b + isum pre; e_iN := b_N b + isum pre + isize i; e_N := isize i;
          e_data := idata i |}.
Proof.
  intros H. unfold build. rewrite fold_left_app. simpl. fold (build pre b).
  fold (build suf (add_item (build pre b) i)).
  rewrite build_other.
  - simpl. rewrite dget_dset, String.eqb_refl, build_N. reflexivity.
  - rewrite map_app in H. simpl in H. apply NoDup_remove_2 in H.
    intros C. apply H. apply in_or_app. right. exact C.
Qed.

Definition names_sizes (h : list item) : list (string * nat) :=
  map (fun i => (iname i, isize i)) h.

Lemma names_sizes_total h : total (names_sizes h) = isum h.
Proof. unfold total, names_sizes, isum. rewrite map_map. reflexivity. Qed.

Lemma build_consecutive_from pre suf :
  NoDup (map iname (pre ++ suf)) ->
  consecutive (range (build (pre ++ suf) empty_blocks)) (names_sizes suf) (isum pre)
              (isum (pre ++ suf)).
Proof.
  revert pre. induction suf as [|i suf IH]; intros pre H; simpl.
  - rewrite app_nil_r. reflexivity.
  - split.
    + unfold range. rewrite build_get by auto. simpl. reflexivity.
    + replace (pre ++ i :: suf) with ((pre ++ [i]) ++ suf) in * by (rewrite <- app_assoc; auto).
      replace (isum pre + isize i) with (isum (pre ++ [i])).
      * apply IH. auto.
      * rewrite isum_app. unfold isum. simpl. lia.
Qed.

Lemma build_consecutive h :
  NoDup (map iname h) ->
  consecutive (range (build h empty_blocks)) (names_sizes h) 0 (b_N (build h empty_blocks)).
Proof. intros H. rewrite build_N. apply (build_consecutive_from [] h H). Qed.
End Blocks.

(** ** histories *)
Definition vitem (v : vset) : @item vdata :=
  (vs_name v, vs_n v, {| v_0 := default (vs_v0 v) (vs_n v) (ofZ 0);
                         v_l := default (vs_vl v) (vs_n v) NInf;
                         v_u := default (vs_vu v) (vs_n v) PInf |}).
Definition nitem (p : string * nat) : @item unit := (fst p, snd p, tt).
Definition litem (c : lset) : @item ldata :=
  (ls_name c, m_rows (ls_A c),
   {| l_A := ls_A c; l_l := default (Some (ls_l c)) (m_rows (ls_A c)) NInf;
      l_u := default (Some (ls_u c)) (m_rows (ls_A c)) PInf; l_vs := to_varsets (ls_vs c) |}).
Definition citem (c : cset) : @item cdata :=
  (cs_name c, m_rows (c_N (cs_cp c)),
   {| k_N := c_N (cs_cp c); k_Cw := c_Cw (cs_cp c); k_H := c_H (cs_cp c);
      k_vs := to_varsets (cs_vs c) |}).

Lemma step_blocks m o m' :
  step m o = Ok m' ->
  o_var m' = build (map vitem (vars [o])) (o_var m) /\
  o_nln m' = build (map nitem (nlns [o])) (o_nln m) /\
  o_lin m' = build (map litem (lins [o])) (o_lin m) /\
  o_cost m' = build (map citem (costs [o])) (o_cost m).
Proof.
  destruct o; simpl; intros H.
  - injection H as <-. repeat split; auto.
  - injection H as <-. repeat split; auto.
  - unfold add_lin in H. apply bind_ok in H as (nv & _ & H). injection H as <-.
    repeat split; auto.
  - unfold add_costs in H. repeat (apply bind_ok in H as (? & _ & H)). injection H as <-.
    repeat split; auto.
Qed.

Lemma run_blocks_from ops m m' :
  foldM step ops m = Ok m' ->
  o_var m' = build (map vitem (vars ops)) (o_var m) /\
  o_nln m' = build (map nitem (nlns ops)) (o_nln m) /\
  o_lin m' = build (map litem (lins ops)) (o_lin m) /\
  o_cost m' = build (map citem (costs ops)) (o_cost m).
Proof.
  revert m. induction ops as [|o ops IH]; intros m H; simpl in H.
  - injection H as <-. repeat split; auto.
  - apply bind_ok in H as (m1 & H1 & H). apply step_blocks in H1 as (E1 & E2 & E3 & E4).
    apply IH in H as (F1 & F2 & F3 & F4).
    rewrite F1, F2, F3, F4, E1, E2, E3, E4. unfold build.
    rewrite <- !fold_left_app, <- !map_app.
    unfold vars, nlns, lins, costs. simpl. rewrite !app_nil_r. auto.
Qed.

Lemma run_blocks ops m :
  run ops = Ok m ->
  o_var m = build (map vitem (vars ops)) empty_blocks /\
  o_nln m = build (map nitem (nlns ops)) empty_blocks /\
  o_lin m = build (map litem (lins ops)) empty_blocks /\
  o_cost m = build (map citem (costs ops)) empty_blocks.
Proof. intros H. exact (run_blocks_from _ _ _ H). Qed.

Lemma vitem_names V : map iname (map vitem V) = map vs_name V.
Proof. rewrite map_map. reflexivity. Qed.
Lemma litem_names L : map iname (map litem L) = map ls_name L.
Proof. rewrite map_map. reflexivity. Qed.
Lemma citem_names L : map iname (map citem L) = map cs_name L.
Proof. rewrite map_map. reflexivity. Qed.
Lemma nitem_names L : map iname (map nitem L) = map fst L.
Proof. rewrite map_map. reflexivity. Qed.
Lemma vitem_sizes V : names_sizes (map vitem V) = vnames V.
Proof. unfold names_sizes. rewrite map_map. reflexivity. Qed.

Lemma default_given o n d : default o n d = given o n d.
Proof. destruct o as [[|]|]; reflexivity. Qed.

(** ** the part of [x] belonging to a named set is the slice of its index range *)
Lemma part_split V1 v V2 x :
  ~ In (fst v) (map fst V1) ->
  part (V1 ++ v :: V2) x (fst v) = slice (total V1) (total V1 + snd v) x.
Proof.
  revert x. induction V1 as [|[nm n] V1 IH]; intros x H.
  - simpl. destruct v as [nm n]. simpl. rewrite String.eqb_refl.
    unfold slice, total. simpl. rewrite Nat.sub_0_r. reflexivity.
  - simpl. destruct (String.eqb_spec (fst v) nm).
    + exfalso. apply H. left. auto.
    + rewrite IH by (intros C; apply H; right; auto).
      unfold slice. rewrite skipn_skipn. f_equal; [unfold total; simpl; lia|].
      f_equal. unfold total. simpl. lia.
Qed.

Lemma size_of_split V1 v V2 :
  ~ In (fst v) (map fst V1) -> size_of (V1 ++ v :: V2) (fst v) = snd v.
Proof.
  unfold size_of. induction V1 as [|[nm n] V1 IH]; intros H; simpl.
  - rewrite String.eqb_refl. reflexivity.
  - destruct (String.eqb_spec (fst v) nm).
    + exfalso. apply H. left. auto.
    + apply IH. intros C. apply H. right. auto.
Qed.

(** everything about one declared variable set *)
Lemma var_entry V nm :
  NoDup (map vs_name V) -> In nm (map vs_name V) ->
  let b := build (map vitem V) empty_blocks in
  exists V1 v V2 e, V = V1 ++ v :: V2 /\ vs_name v = nm /\
    dget (b_idx b) nm = Some e /\ e_i1 e = total (vnames V1) /\
    e_iN e = total (vnames V1) + vs_n v /\ e_N e = vs_n v /\
    e_data e = idata (vitem v) /\
    size_of (vnames V) nm = vs_n v /\
    total (vnames V1) + vs_n v <= b_N b /\
    forall x, part (vnames V) x nm = slice (e_i1 e) (e_iN e) x.
Proof.
  intros ND I b. apply in_map_iff in I as (v & <- & I).
  apply in_split in I as (V1 & V2 & ->).
  assert (NI : ~ In (vs_name v) (map vs_name V1)).
  { rewrite map_app in ND. simpl in ND. apply NoDup_remove_2 in ND.
    intros C. apply ND. apply in_or_app. auto. }
  assert (NI' : ~ In (fst (vs_name v, vs_n v)) (map fst (vnames V1))).
  { unfold vnames. rewrite map_map. exact NI. }
  exists V1, v, V2.
  assert (S1 : isum (map vitem V1) = total (vnames V1)).
  { rewrite <- (vitem_sizes V1), names_sizes_total. reflexivity. }
  assert (G := build_get (map vitem V1) (vitem v) (map vitem V2) empty_blocks).
  replace (map vitem V1 ++ vitem v :: map vitem V2) with (map vitem (V1 ++ v :: V2)) in G
    by (rewrite map_app; reflexivity).
  rewrite vitem_names in G. specialize (G ND). rewrite S1 in G.
  eexists. repeat split; try (exact G); try reflexivity.
  - unfold vnames. rewrite map_app. simpl.
    exact (size_of_split (vnames V1) (vs_name v, vs_n v) (vnames V2) NI').
  - subst b. rewrite build_N, map_app, isum_app, S1. unfold isum. simpl. change (isize (vitem v)) with (vs_n v). lia.
  - intros x. cbn [e_i1 e_iN].
    unfold vnames. rewrite map_app. simpl.
    exact (part_split (vnames V1) (vs_name v, vs_n v) (vnames V2) x NI').
Qed.

Lemma var_total V : b_N (build (map vitem V) empty_blocks) = total (vnames V).
Proof. rewrite build_N, <- names_sizes_total, vitem_sizes. reflexivity. Qed.

(** ranges of different sets do not overlap *)
Lemma var_disjoint V nm nm' e e' :
  NoDup (map vs_name V) -> nm <> nm' ->
  dget (b_idx (build (map vitem V) empty_blocks)) nm = Some e ->
  dget (b_idx (build (map vitem V) empty_blocks)) nm' = Some e' ->
  e_iN e <= e_i1 e' \/ e_iN e' <= e_i1 e.
Proof.
  intros ND NE G G'.
  assert (M : forall n0 e0, dget (b_idx (build (map vitem V) empty_blocks)) n0 = Some e0 ->
              In n0 (map vs_name V)).
  { intros n0 e0 G0. destruct (in_dec String.string_dec n0 (map vs_name V)); auto.
    rewrite build_other in G0 by (rewrite vitem_names; auto). discriminate. }
  destruct (var_entry V nm ND (M _ _ G)) as (V1 & v & V2 & e1 & EV & En & G1 & I1 & IN & _).
  destruct (var_entry V nm' ND (M _ _ G')) as (W1 & w & W2 & e2 & EW & En' & G2 & J1 & JN & _).
  replace e with e1 by congruence. replace e' with e2 by congruence.
  rewrite I1, IN, J1, JN.
  assert (Tot : forall A B, total (vnames (A ++ B)) = total (vnames A) + total (vnames B)).
  { intros. unfold total, vnames. rewrite !map_app, list_sum_app. reflexivity. }
  assert (TotC : forall a A, total (vnames (a :: A)) = vs_n a + total (vnames A)) by reflexivity.
  rewrite EV in EW.
  destruct (Nat.lt_trichotomy (length V1) (length W1)) as [L|[L|L]].
  - left. assert (exists t, W1 = V1 ++ v :: t) as (t & ->).
    { exists (skipn (S (length V1)) W1).
      transitivity (firstn (length W1) (V1 ++ v :: V2)).
      - rewrite EW, firstn_app, Nat.sub_diag, firstn_all, firstn_O, app_nil_r. auto.
      - assert (H : firstn (S (length V1)) W1 = V1 ++ [v]).
        { transitivity (firstn (S (length V1)) (V1 ++ v :: V2)).
          - rewrite EW, firstn_app. replace (S (length V1) - length W1) with 0 by lia.
            rewrite firstn_O, app_nil_r. auto.
          - rewrite firstn_app. replace (S (length V1) - length V1) with 1 by lia.
            rewrite (@firstn_all2 _ _ V1) by lia. reflexivity. }
        rewrite EW, firstn_app, Nat.sub_diag, firstn_all, firstn_O, app_nil_r.
        rewrite <- (firstn_skipn (S (length V1)) W1) at 1. rewrite H, <- app_assoc. auto. }
    rewrite Tot, TotC. lia.
  - exfalso. apply NE. rewrite <- En, <- En'. f_equal.
    assert (H : nth_error (V1 ++ v :: V2) (length V1) = nth_error (W1 ++ w :: W2) (length W1))
      by (rewrite EW, L; auto).
    rewrite !nth_error_app2, !Nat.sub_diag in H by lia. simpl in H. congruence.
  - right. assert (exists t, V1 = W1 ++ w :: t) as (t & ->).
    { exists (skipn (S (length W1)) V1).
      assert (H : firstn (S (length W1)) V1 = W1 ++ [w]).
        { transitivity (firstn (S (length W1)) (W1 ++ w :: W2)).
          - rewrite <- EW, firstn_app. replace (S (length W1) - length V1) with 0 by lia.
            rewrite firstn_O, app_nil_r. auto.
          - rewrite firstn_app. replace (S (length W1) - length W1) with 1 by lia.
            rewrite (@firstn_all2 _ _ W1) by lia. reflexivity. }
        rewrite <- (firstn_skipn (S (length W1)) V1) at 1. rewrite H, <- app_assoc. auto. }
    rewrite Tot, TotC. lia.
Qed.

(** ** spreading a row over the full set of variables *)
Lemma assign_ok {A} (dst : list A) i n seg :
  length seg = n -> assign dst i n seg = Ok (put dst i seg).
Proof.
  intros H. unfold assign. destruct seg as [|a [|b seg]].
  - rewrite H, Nat.eqb_refl. auto.
  - simpl in H. subst n. reflexivity.
  - rewrite H, Nat.eqb_refl. auto.
Qed.

Definition spread_step (m : om) (r : vec) (st : vec * nat) (v : string) : result (vec * nat) :=
  let '(row, kN) := st in
  e <- of_option KeyError (dget (b_idx (o_var m)) v) ;;
  let k1 := kN in
  let kN := kN + e_N e in
  row' <- assign row (e_i1 e) (e_iN e - e_i1 e) (slice k1 kN r) ;;
  Ok (row', kN).

Section Spread.
Variable m : om.
Variable V : list vset.
Hypothesis ND : NoDup (map vs_name V).
Hypothesis EV : o_var m = build (map vitem V) empty_blocks.
Let S := vnames V.

Definition zero_on (row : vec) (nm : string) : Prop :=
  exists e, dget (b_idx (o_var m)) nm = Some e /\
            slice (e_i1 e) (e_iN e) row = repeat 0%Qc (e_N e).

Lemma spread_loop r vs : forall row kN,
  NoDup vs -> incl vs (map vs_name V) ->
  (forall nm, In nm vs -> zero_on row nm) ->
  length row = b_N (o_var m) ->
  kN + list_sum (map (size_of S) vs) <= length r ->
  exists row', foldM (spread_step m r) vs (row, kN)
                 = Ok (row', kN + list_sum (map (size_of S) vs)) /\
    length row' = b_N (o_var m) /\
    forall x, length x = b_N (o_var m) ->
      dot row' x = (dot row x +
        dot (slice kN (kN + list_sum (map (size_of S) vs)) r) (flat_map (part S x) vs))%Qc.
Proof.
  induction vs as [|v vs IH]; intros row kN NDv I Z L Hr.
  - exists row. simpl. rewrite Nat.add_0_r. repeat split; auto.
    intros x _. rewrite dot_nil_r. ring.
  - assert (Iv : In v (map vs_name V)) by (apply I; left; auto).
    destruct (var_entry V v ND Iv) as (V1 & w & V2 & e & _ & _ & G & I1 & IN & IS & _ & SZ & Le & P).
    rewrite <- EV in G, Le. fold S in SZ, P.
    cbn [map list_sum fold_right] in Hr |- *. fold (list_sum (map (size_of S) vs)) in *.
    rewrite SZ in *.
    assert (Ln : e_iN e - e_i1 e = vs_n w) by lia.
    set (seg := slice kN (kN + vs_n w) r).
    assert (Ls : length seg = vs_n w) by (apply slice_slice_length; lia).
    set (row1 := put row (e_i1 e) seg).
    assert (L1 : length row1 = b_N (o_var m)) by (unfold row1; rewrite put_length; lia).
    inversion NDv as [|? ? NI NDv']; subst.
    destruct (IH row1 (kN + vs_n w) NDv') as (row' & E & L' & Dx).
    + intros y Hy. apply I. right. auto.
    + intros nm Hn. destruct (Z nm (or_intror Hn)) as (e2 & G2 & Z2).
      exists e2. split; auto. unfold row1. rewrite slice_put_other; auto; [lia|].
      rewrite EV in G, G2.
      destruct (var_disjoint V v nm e e2 ND) as [D|D]; auto.
      * intros ->. auto.
      * rewrite Ls. right. lia.
    + auto.
    + lia.
    + exists row'. split; [|split; auto].
      * cbn [foldM]. unfold spread_step at 1. rewrite G. cbn [of_option bind].
        rewrite IS, Ln, assign_ok by exact Ls. cbn [bind]. fold seg row1.
        rewrite E. f_equal. f_equal. lia.
      * intros x Lx. rewrite Dx by auto. cbn [flat_map].
        pose proof (dot_put row (e_i1 e) seg x) as DP. fold row1 in DP.
        rewrite Ls in DP. replace (e_i1 e + vs_n w) with (e_iN e) in DP by lia.
        destruct (Z v (or_introl eq_refl)) as (e2 & G2 & Z2).
        replace e2 with e in Z2 by congruence.
        rewrite Z2, dot_zero in DP. rewrite P.
        rewrite (Nat.add_assoc kN), <- Nat.add_assoc, slice_add.
        rewrite dot_app.
        -- fold seg. rewrite Qcplus_assoc. rewrite Qcplus_0_r in DP. rewrite <- DP by lia.
           rewrite (Nat.add_assoc kN). auto.
        -- rewrite slice_length, slice_length. lia.
Qed.

Lemma spread_ok vs r :
  NoDup vs -> incl vs (map vs_name V) -> length r = list_sum (map (size_of S) vs) ->
  exists row, spread m vs r = Ok row /\ length row = b_N (o_var m) /\
    forall x, length x = b_N (o_var m) -> dot row x = dot r (flat_map (part S x) vs).
Proof.
  intros NDv I L.
  destruct (spread_loop r vs (repeat 0%Qc (b_N (o_var m))) 0) as (row & E & Lr & Dx); auto.
  - intros nm Hn. apply I in Hn.
    destruct (var_entry V nm ND Hn) as (V1 & w & V2 & e & _ & _ & G & I1 & IN & IS & _ & _ & Le & _).
    rewrite <- EV in G, Le.
    exists e. split; auto. rewrite IN, I1, IS. apply slice_of_repeat. lia.
  - apply repeat_length.
  - lia.
  - exists row. split; [|split; auto].
    + unfold spread. fold (spread_step m r). rewrite E. reflexivity.
    + intros x Lx. rewrite Dx by auto. rewrite dot_zero, Qcplus_0_l. f_equal.
      apply slice_whole. lia.
Qed.

Lemma over_facts vs :
  NoDup vs -> incl vs (map fst S) ->
  resolve m (to_varsets vs) = over S vs /\ NoDup (over S vs) /\
  incl (over S vs) (map vs_name V).
Proof.
  intros N I. assert (F : map fst S = map vs_name V) by (unfold S, vnames; rewrite map_map; auto).
  unfold resolve, to_varsets, over. destruct vs as [|v vs].
  - rewrite EV, build_order, vitem_names, F. simpl. repeat split; auto. apply incl_refl.
  - rewrite <- F. auto.
Qed.

(** a whole matrix *)
Lemma spread_mat A vs :
  columns_ok S A vs ->
  exists B, mapM (spread m (resolve m (to_varsets vs))) (m_data A) = Ok B /\
    length B = m_rows A /\ Forall (fun r => length r = b_N (o_var m)) B /\
    forall x, length x = b_N (o_var m) -> matvec B x = matvec (m_data A) (parts S x vs).
Proof.
  intros ((Lr & Fr) & N & I & C).
  destruct (over_facts vs N I) as (-> & No & Io).
  unfold parts. rewrite <- Lr. clear Lr.
  assert (G : forall rows, Forall (fun r => length r = m_cols A) rows ->
    exists B, mapM (spread m (over S vs)) rows = Ok B /\ length B = length rows /\
      Forall (fun r => length r = b_N (o_var m)) B /\
      forall x, length x = b_N (o_var m) ->
        matvec B x = matvec rows (flat_map (part S x) (over S vs))).
  { intros rows F. induction F as [|r rows Hr F IH].
    - exists []. repeat split; auto.
    - destruct IH as (B & E & LB & FB & HB).
      destruct (spread_ok (over S vs) r) as (row & Er & Lr & Dr); auto; [congruence|].
      exists (row :: B). simpl. rewrite Er, E. simpl. repeat split; auto.
      intros x Lx. rewrite HB, Dr by auto. auto. }
  exact (G _ Fr).
Qed.
End Spread.
