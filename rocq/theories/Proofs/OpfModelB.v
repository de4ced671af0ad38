(** opf_model: assembled linear constraints, bounds and costs. *)
From Verif Require Import Lib.QcFacts Lib.LinAlg Lib.ListFacts Model.OpfModel Spec.OmSpec
  Proofs.LinAlgFacts Proofs.OpfModelA.

(** ** linear constraints *)
Definition low (c : lset) : list num := given (Some (ls_l c)) (m_rows (ls_A c)) NInf.
Definition upp (c : lset) : list num := given (Some (ls_u c)) (m_rows (ls_A c)) PInf.

Lemma low_length S c : lin_wf S c -> length (low c) = m_rows (ls_A c).
Proof.
  intros (_ & [H|H] & _); unfold low, given.
  - rewrite H. apply repeat_length.
  - destruct (ls_l c); auto. rewrite repeat_length. auto.
Qed.
Lemma upp_length S c : lin_wf S c -> length (upp c) = m_rows (ls_A c).
Proof.
  intros (_ & _ & [H|H]); unfold upp, given.
  - rewrite H. apply repeat_length.
  - destruct (ls_u c); auto. rewrite repeat_length. auto.
Qed.

Definition lin_step (m : om) (st : list vec * list num * list num) (name : string) :=
  let '(A, l, u) := st in
  e <- of_option KeyError (dget (b_idx (o_lin m)) name) ;;
  if e_N e =? 0 then Ok st
  else
    Ai <- mapM (spread m (resolve m (l_vs (e_data e)))) (m_data (l_A (e_data e))) ;;
    l' <- assign l (e_i1 e) (e_iN e - e_i1 e) (l_l (e_data e)) ;;
    u' <- assign u (e_i1 e) (e_iN e - e_i1 e) (l_u (e_data e)) ;;
    Ok (put A (e_i1 e) Ai, l', u').

Section Lin.
Variable m : om.
Variable V : list vset.
Variable L : list lset.
Hypothesis ND : NoDup (map vs_name V).
Hypothesis NDL : NoDup (map ls_name L).
Hypothesis EV : o_var m = build (map vitem V) empty_blocks.
Hypothesis EL : o_lin m = build (map litem L) empty_blocks.
Let S := vnames V.
Hypothesis WF : Forall (lin_wf S) L.

(** [B] is the matrix of [c] spread over all variables *)
Definition spread_of (c : lset) (B : list vec) : Prop :=
  length B = m_rows (ls_A c) /\ Forall (fun r => length r = b_N (o_var m)) B /\
  forall x, length x = b_N (o_var m) -> matvec B x = matvec (m_data (ls_A c)) (parts S x (ls_vs c)).

Definition lsum (cs : list lset) : nat := list_sum (map (fun c => m_rows (ls_A c)) cs).

Lemma lsum_isum cs : isum (map litem cs) = lsum cs.
Proof. unfold isum, lsum. rewrite map_map. reflexivity. Qed.

Lemma lin_loop suf : forall pre A l u z,
  L = pre ++ suf -> length A = lsum pre -> length l = lsum pre -> length u = lsum pre ->
  exists Bs, Forall2 spread_of suf Bs /\
    foldM (lin_step m) (map ls_name suf)
      (A ++ repeat z (lsum suf), l ++ repeat NInf (lsum suf), u ++ repeat PInf (lsum suf))
    = Ok (A ++ concat Bs, l ++ flat_map low suf, u ++ flat_map upp suf).
Proof.
  induction suf as [|c suf IH]; intros pre A l u z E LA Ll Lu.
  - exists []. split; auto.
  - assert (Wc : lin_wf S c).
    { eapply Forall_forall; eauto. rewrite E. apply in_or_app. right. left. auto. }
    pose proof (build_get (map litem pre) (litem c) (map litem suf) empty_blocks) as G.
    replace (map litem pre ++ litem c :: map litem suf) with (map litem L) in G
      by (rewrite E, map_app; reflexivity).
    rewrite litem_names in G. specialize (G NDL). rewrite <- EL, lsum_isum in G.
    cbn [map foldM]. unfold lin_step at 1.
    change (iname (litem c)) with (ls_name c) in G. rewrite G.
    cbn [of_option bind e_N e_i1 e_iN e_data b_N empty_blocks].
    change (isize (litem c)) with (m_rows (ls_A c)).
    change (idata (litem c)) with {| l_A := ls_A c; l_l := default (Some (ls_l c)) (m_rows (ls_A c)) NInf;
      l_u := default (Some (ls_u c)) (m_rows (ls_A c)) PInf; l_vs := to_varsets (ls_vs c) |}.
    cbn [l_A l_l l_u l_vs].
    rewrite !default_given. fold (low c) (upp c).
    destruct (spread_mat m V ND EV (ls_A c) (ls_vs c)) as (B & EB & LB & FB & HB); [apply Wc|].
    assert (SB : spread_of c B) by (repeat split; auto).
    assert (Hl := low_length _ _ Wc). assert (Hu := upp_length _ _ Wc).
    set (n := m_rows (ls_A c)) in *.
    replace (lsum (c :: suf)) with (n + lsum suf) by reflexivity.
    assert (LP : lsum (pre ++ [c]) = lsum pre + n).
    { unfold lsum. rewrite map_app, list_sum_app. simpl. fold n. lia. }
    destruct (Nat.eqb_spec n 0) as [Z|Z].
    + assert (B = []) by (apply length_zero_iff_nil; lia). subst B.
      assert (low c = []) as Zl by (apply length_zero_iff_nil; lia).
      assert (upp c = []) as Zu by (apply length_zero_iff_nil; lia).
      rewrite Z. simpl plus.
      destruct (IH (pre ++ [c]) A l u z) as (Bs & F & R).
      * rewrite <- app_assoc. auto.
      * lia.
      * lia.
      * lia.
      * exists ([] :: Bs). split; [constructor; auto|].
        cbn [bind]. rewrite R. simpl. rewrite Zl, Zu. reflexivity.
    + rewrite EB. cbn [bind].
      replace (0 + lsum pre + n - (0 + lsum pre)) with n by lia.
      rewrite !assign_ok by auto. cbn [bind]. simpl plus.
      rewrite !put_append_at by auto.
      destruct (IH (pre ++ [c]) (A ++ B) (l ++ low c) (u ++ upp c) z) as (Bs & F & R).
      * rewrite <- app_assoc. auto.
      * rewrite app_length. lia.
      * rewrite app_length. lia.
      * rewrite app_length. lia.
      * exists (B :: Bs). split; [constructor; auto|].
        etransitivity; [exact R|]. simpl. rewrite <- !app_assoc. reflexivity.
Qed.

Lemma linear_ok :
  b_N (o_lin m) <> 0 ->
  exists Bs, Forall2 spread_of L Bs /\
    linear_constraints m = Ok (Some (concat Bs), flat_map low L, flat_map upp L).
Proof.
  intros NZ. unfold linear_constraints.
  destruct (Nat.eqb_spec (b_N (o_lin m)) 0); [contradiction|].
  assert (EN : b_N (o_lin m) = lsum L) by (rewrite EL, build_N, lsum_isum; reflexivity).
  destruct (lin_loop L [] [] [] [] (repeat 0%Qc (b_N (o_var m)))) as (Bs & F & R); auto.
  exists Bs. split; auto.
  fold (lin_step m).
  assert (EO : b_order (o_lin m) = map ls_name L)
    by (rewrite EL, build_order, litem_names; reflexivity).
  rewrite EO, EN. simpl app in R. fold (lin_step m) in R |- *.
  match goal with |- bind ?e _ = _ => replace e with
    (Ok (concat Bs, flat_map low L, flat_map upp L)) by (symmetry; exact R) end.
  reflexivity.
Qed.

Lemma concat_matvec cs Bs x :
  Forall2 spread_of cs Bs -> length x = b_N (o_var m) ->
  matvec (concat Bs) x
  = flat_map (fun c => matvec (m_data (ls_A c)) (parts S x (ls_vs c))) cs.
Proof.
  intros F Lx. induction F as [|c B cs Bs (_ & _ & H) F IH]; simpl; auto.
  rewrite matvec_app, H, IH by auto. auto.
Qed.

Lemma concat_length cs Bs :
  Forall2 spread_of cs Bs -> length (concat Bs) = lsum cs.
Proof.
  intros F. induction F as [|c B cs Bs (H & _) F IH]; simpl; auto.
  rewrite app_length, IH, H. reflexivity.
Qed.
End Lin.

Lemma Forall2_app_iff {A B} (P : A -> B -> Prop) l1 l2 r1 r2 :
  length l1 = length r1 ->
  Forall2 P (l1 ++ l2) (r1 ++ r2) <-> Forall2 P l1 r1 /\ Forall2 P l2 r2.
Proof.
  intros H. split.
  - revert r1 H. induction l1 as [|a l1 IH]; intros [|b r1] H F; simpl in *; try discriminate; auto.
    inversion F; subst. destruct (IH r1) as [F1 F2]; auto.
  - intros [F1 F2]. apply Forall2_app; auto.
Qed.

Lemma between_concat S x cs :
  Forall (lin_wf S) cs ->
  between (flat_map low cs)
          (flat_map (fun c => matvec (m_data (ls_A c)) (parts S x (ls_vs c))) cs)
          (flat_map upp cs)
  <-> Forall (lin_holds S x) cs.
Proof.
  intros W. induction W as [|c cs Wc W IH]; simpl.
  - split; [constructor|]. intros _. split; constructor.
  - assert (Hl := low_length _ _ Wc). assert (Hu := upp_length _ _ Wc).
    assert (Hm : length (matvec (m_data (ls_A c)) (parts S x (ls_vs c))) = m_rows (ls_A c)).
    { rewrite matvec_length. apply Wc. }
    unfold between. rewrite !Forall2_app_iff by lia.
    unfold between in IH.
    split.
    + intros ((A1 & A2) & B1 & B2). constructor; [split; auto|]. apply IH. auto.
    + intros F. inversion F as [|? ? (A & B) F']; subst. apply IH in F' as (C & D). auto.
Qed.

Lemma flat_map_ext_in' {A B} (f g : A -> list B) l :
  (forall a, In a l -> f a = g a) -> flat_map f l = flat_map g l.
Proof.
  intros H. induction l as [|a l IH]; simpl; auto. f_equal.
  - apply H. left. auto.
  - apply IH. intros b Hb. apply H. right. auto.
Qed.

(** ** getv *)
Lemma getv_loop b nms : forall v0 vl vu,
  (forall nm, In nm nms -> exists e, dget (b_idx b) nm = Some e) ->
  foldM (fun (st : list num * list num * list num) nm =>
        let '(v0, vl, vu) := st in
        e <- of_option KeyError (dget (b_idx b) nm) ;;
        Ok (v0 ++ v_0 (e_data e), vl ++ v_l (e_data e), vu ++ v_u (e_data e)))
    nms (v0, vl, vu)
  = Ok (v0 ++ flat_map (fun nm => match dget (b_idx b) nm with
                                  | Some e => v_0 (e_data e) | None => [] end) nms,
        vl ++ flat_map (fun nm => match dget (b_idx b) nm with
                                  | Some e => v_l (e_data e) | None => [] end) nms,
        vu ++ flat_map (fun nm => match dget (b_idx b) nm with
                                  | Some e => v_u (e_data e) | None => [] end) nms).
Proof.
  induction nms as [|nm nms IH]; intros v0 vl vu H; simpl.
  - rewrite !app_nil_r. reflexivity.
  - destruct (H nm (or_introl eq_refl)) as (e & ->). simpl.
    rewrite IH by (intros; apply H; right; auto). rewrite <- !app_assoc. reflexivity.
Qed.

Lemma getv_all m V :
  NoDup (map vs_name V) -> o_var m = build (map vitem V) empty_blocks ->
  getv m None = Ok (flat_map (fun v => given (vs_v0 v) (vs_n v) (ofZ 0)) V,
                    flat_map (fun v => given (vs_vl v) (vs_n v) NInf) V,
                    flat_map (fun v => given (vs_vu v) (vs_n v) PInf) V).
Proof.
  intros ND EV. unfold getv. rewrite EV, build_order, vitem_names. simpl app.
  rewrite getv_loop.
  - rewrite !flat_map_concat_map, !map_map, <- !flat_map_concat_map. simpl.
    assert (G : forall v, In v V -> exists e,
        dget (b_idx (build (map vitem V) empty_blocks)) (vs_name v) = Some e /\
        e_data e = idata (vitem v)).
    { intros v I. apply in_split in I as (V1 & V2 & ->).
      pose proof (build_get (map vitem V1) (vitem v) (map vitem V2) empty_blocks) as G.
      replace (map vitem V1 ++ vitem v :: map vitem V2) with (map vitem (V1 ++ v :: V2)) in G
        by (rewrite map_app; reflexivity).
      rewrite vitem_names in G. specialize (G ND). eexists. split; [exact G|]. reflexivity. }
    f_equal. f_equal; [f_equal|]; apply flat_map_ext_in'; intros v I;
      destruct (G v I) as (e & -> & ->); simpl; apply default_given.
  - intros nm I. destruct (var_entry V nm ND I) as (_ & _ & _ & e & _ & _ & G & _). eauto.
Qed.
