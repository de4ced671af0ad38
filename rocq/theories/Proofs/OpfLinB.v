(** Convex costs; the rows of makeAang, makeAvl and makeApq. *)
From Verif Require Import Lib.ListFacts Model.OpfLin Spec.OpfSpec Proofs.LinAlgFacts Proofs.SparseFacts
  Proofs.FldFacts Proofs.OrdFacts Proofs.NetworkA Proofs.NetworkB Proofs.BlockFacts Proofs.MatFacts Proofs.PipsF
  Proofs.OpfLinA.
Local Open Scope nat_scope.

Section OpfLinB.
Context {K : Type} {F : Fld K}.
Add Field KF : (@f_ok K F).

(** ** convexity *)
Lemma chord_next (a b c : K * K) p : fst a <> fst b -> 
  (chord b c p = chord a b p + (slope b c - slope a b) * (p - fst b))%K.
Proof.
  intros N. unfold chord. replace (snd b)%K with (snd a + slope a b * (fst b - fst a))%K; [ring|].
  unfold slope. field. intros C. apply N. transitivity (fst b - (fst b - fst a))%K; [ring|rewrite C; ring].
Qed.

Lemma convex_left pts : forall a b p c d, convex_from a (b :: pts) -> le p (fst b) ->
  In (c, d) (combine (a :: b :: pts) (b :: pts)) -> le (chord c d p) (chord a b p).
Proof.
  induction pts as [|b' pts IH]; intros a b p c d H Hp Hin.
  - destruct Hin as [E|[]]. injection E as <- <-. apply le_refl.
  - destruct H as (H1 & H2 & H3). destruct Hin as [E|Hin]; [injection E as <- <-; apply le_refl|].
    apply le_trans with (chord b b' p).
    + apply IH; auto. destruct H3 as (H3 & _). eapply lt_le. eapply le_lt_trans; eauto.
    + rewrite (chord_next a) by (apply lt_ne; auto). apply le_sub.
      replace (chord a b p - (chord a b p + (slope b b' - slope a b) * (p - fst b)))%K
        with ((slope b b' - slope a b) * (fst b - p))%K by ring.
      apply mul_nn; apply (proj1 (le_sub _ _)); auto.
Qed.

Lemma convex_max pts : forall a p c d, convex_from a pts ->
  In (c, d) (combine (a :: pts) pts) -> le (chord c d p) (interp a pts p).
Proof.
  induction pts as [|b pts IH]; intros a p c d H Hin; [destruct Hin|].
  destruct pts as [|b' pts].
  - destruct Hin as [E|[]]. injection E as <- <-. apply le_refl.
  - cbn [interp]. destruct (fltb p (fst b)) eqn:E.
    + eapply convex_left; eauto. apply lt_le; auto.
    + destruct H as (H1 & H2 & H3). destruct Hin as [E'|Hin]; [|apply IH; auto].
      injection E' as <- <-. apply le_trans with (chord b b' p); [|apply IH; simpl; auto].
      rewrite (chord_next a b b') by (apply lt_ne; auto). apply le_sub.
      replace (chord a b p + (slope b b' - slope a b) * (p - fst b) - chord a b p)%K
        with ((slope b b' - slope a b) * (p - fst b))%K by ring.
      apply mul_nn; apply (proj1 (le_sub _ _)); auto.
Qed.

Lemma interp_chord pts : forall a p, pts <> [] ->
  exists c d, In (c, d) (combine (a :: pts) pts) /\ interp a pts p = chord c d p.
Proof.
  induction pts as [|b pts IH]; intros a p H; [congruence|]. destruct pts as [|b' pts].
  - exists a, b. simpl. auto.
  - cbn [interp]. destruct (fltb p (fst b)).
    + exists a, b. simpl; auto.
    + destruct (IH b p) as (c & d & H1 & H2); [discriminate|]. exists c, d. split; auto. right. exact H1.
Qed.

Lemma above_interp a pts (p y : K) : convex_from a pts -> pts <> [] ->
  (above (a :: pts) p y <-> le (interp a pts p) y).
Proof.
  intros H N. unfold above. cbn [tl]. split.
  - intros H1. destruct (interp_chord pts a p N) as (c & d & H2 & ->). auto.
  - intros H1 c d H2. eapply le_trans; [|exact H1]. apply convex_max; auto.
Qed.

(** ** matrices with two entries per row *)
Lemma one_ent (ds : list K) c n nr nc x p : length ds = n -> length c = n -> p < n ->
  mulrow (SM nr nc (zip3 (seq 0 n) c ds)) x p = (nth p ds 0 * nth (nth p c O) x 0)%K.
Proof.
  intros L1 L2 Hp. unfold mulrow. cbn [ents]. rewrite (lsum_zip3 _ _ _ _ n) by (rewrite ?seq_length; auto).
  cbn [erow ecol ev].
  rewrite (lsum_ext _ (fun k => if k =? p then nth k ds 0 * nth (nth k c O) x 0 else 0)%K).
  - rewrite (lsum_seq_single (fun k => nth k ds 0 * nth (nth k c O) x 0)%K 0 n p). cbn [Nat.leb Nat.add andb].
    replace (p <? n) with true by (symmetry; apply Nat.ltb_lt; auto). reflexivity.
  - intros k Hk. apply in_seq in Hk. rewrite seq_nth by lia. reflexivity.
Qed.

Lemma two_ents (ds es : list K) c1 c2 n nc A : length ds = n -> length es = n -> length c1 = n -> length c2 = n ->
  sparse (ds ++ es) (seq 0 n ++ seq 0 n) (c1 ++ c2) n nc = Ok A ->
  wf A /\ nrows A = n /\ ncols A = nc /\ Forall (fun c => c < nc) (c1 ++ c2) /\
  forall x p, p < n -> row_val A x p = (nth p ds 0 * nth (nth p c1 O) x 0 + nth p es 0 * nth (nth p c2 O) x 0)%K.
Proof.
  intros L1 L2 L3 L4 H. pose proof (sparse_wf _ _ _ _ _ _ H) as W.
  apply sparse_ok in H as (_ & _ & _ & HC & ->). split; auto. split; auto. split; auto. split; auto. intros x p Hp.
  rewrite row_val_mulrow by auto. rewrite zip3_app by (rewrite ?seq_length; lia). rewrite mulrow_app.
  f_equal; apply one_ent; auto.
Qed.

Lemma nth_error_map2 {A B C} (f : A -> B -> C) u v i a b : nth_error u i = Some a -> nth_error v i = Some b ->
  nth_error (map2 f u v) i = Some (f a b).
Proof.
  intros H1 H2. unfold map2. rewrite nth_error_map, nth_error_combine, H1, H2. reflexivity.
Qed.

(** ** selected rows *)
Lemma find_mask {A} (f : A -> bool) l i : In i (find (map f l)) <-> exists r, nth_error l i = Some r /\ f r = true.
Proof. rewrite in_find, nth_error_map_iff. reflexivity. Qed.

Lemma gather_all {A} (l : list A) idx rows (d : A) : gather l idx = Ok rows -> rows = map (fun i => nth i l d) idx.
Proof.
  unfold gather. intros H. eapply mapM_inv; [|exact H]. intros i y _ Hy. apply get_ok in Hy.
  symmetry. apply nth_error_nth. auto.
Qed.

(** ** makeAang *)
Lemma ang_limited_iff r : ang_limited (cell r ANGMIN) (cell r ANGMAX) = true <-> angle_limited r.
Proof.
  unfold ang_limited, angle_limited, lt. rewrite orb_true_iff, !andb_true_iff, !negb_true_iff.
  assert (forall a : K, feqb a 0%K = false <-> a <> 0%K) as E.
  { intros a. split; intros H.
    - intros C. apply feqb_ok in C. congruence.
    - destruct (feqb a 0%K) eqn:Q; auto. apply feqb_ok in Q. tauto. }
  rewrite !E. tauto.
Qed.

Lemma makeAang_rows ign branch nb A l u iang : makeAang ign branch nb = Ok (A, l, u, iang) ->
  wf A /\ nrows A = length iang /\ ncols A = nb /\ length l = nrows A /\ length u = nrows A /\
  (forall i, In i iang <-> ign = false /\ exists r, nth_error branch i = Some r /\ angle_limited r) /\
  NoDup iang /\
  forall p i r, nth_error iang p = Some i -> nth_error branch i = Some r ->
    (forall Va, row_val A Va p = angle_diff r Va) /\
    nth p l ENeg = ang_bound ENeg (cell r ANGMIN) /\ nth p u EPos = ang_bound EPos (cell r ANGMAX).
Proof.
  unfold makeAang. destruct ign.
  { intros H. injection H as <- <- <- <-. cbn. split; [constructor|]. do 4 (split; [reflexivity|]). split; [|split; [constructor|]].
    - intros i. split; [intros []|]. intros (C & _); discriminate.
    - intros [|p] i r C; discriminate. }
  intros H. apply bind_ok in H as (lo & Hlo & H). apply bind_ok in H as (hi & Hhi & H). cbv zeta in H.
  apply col_ok in Hlo as (_ & ->). apply col_ok in Hhi as (_ & ->).
  assert (map2 ang_limited (map (fun r : list K => nth ANGMIN r 0%K) branch)
            (map (fun r : list K => nth ANGMAX r 0%K) branch)
          = map (fun r => ang_limited (cell r ANGMIN) (cell r ANGMAX)) branch) as EM
    by (rewrite map2_map; reflexivity).
  rewrite EM in H. clear EM. set (iy := find _) in H.
  assert (forall i, In i iy <-> exists r, nth_error branch i = Some r /\ angle_limited r) as HI.
  { intros i. unfold iy. rewrite find_mask. split; intros (r & H1 & H2); exists r; split; auto; apply ang_limited_iff; auto. }
  assert (NoDup iy) as ND by apply find_NoDup. clearbody iy.
  apply bind_ok in H as (rows & Hr & H). pose proof (gather_length _ _ _ Hr) as LR.
  destruct (length iy =? 0) eqn:E0.
  - apply Nat.eqb_eq in E0. injection H as <- <- <- <-. destruct iy; [|discriminate]. cbn.
    split; [constructor|]. do 4 (split; [reflexivity|]). split; [|split; [constructor|]].
    + intros i. split; [intros []|]. intros (_ & C). apply HI in C. destruct C.
    + intros [|p] i r C; discriminate.
  - apply bind_ok in H as (f & Hf & H). apply bind_ok in H as (t & Ht & H). apply bind_ok in H as (A' & HA & H).
    apply bind_ok in H as (ll & Hl & H). apply bind_ok in H as (hh & Hh & H). injection H as <- <- <- <-.
    apply idxcol_ok in Hf as (_ & _ & Ef). apply idxcol_ok in Ht as (_ & _ & Et).
    apply col_ok in Hl as (_ & ->). apply col_ok in Hh as (_ & ->). rewrite !map_map.
    apply two_ents in HA as (W & N1 & N2 & _ & RV); rewrite ?repeat_length, ?Ef, ?Et, ?map_length; auto.
    split; [exact W|]. split; [auto|]. split; [auto|]. split; [lia|]. split; [lia|].
    split. { intros i. rewrite HI. tauto. }
    split; auto. intros p i r Hp Hi. pose proof (nth_error_some_lt _ _ _ Hp) as Lp.
    assert (nth_error rows p = Some r) as HR.
    { pose proof (gather_nth _ _ _ _ _ Hr Hp) as G. congruence. }
    split; [|split; apply nth_error_nth; rewrite nth_error_map, HR; reflexivity].
    intros Va. rewrite RV by auto. rewrite !nth_repeat_lt by auto.
    unfold angle_diff. rewrite Ef, Et, !(nth_map_lt _ rows p _ []) by lia. rewrite (nth_error_nth _ _ _ HR).
    ring.
Qed.

Lemma ang_bounds_ok r Va :
  above_lo (ang_bound ENeg (cell r ANGMIN)) (angle_diff r Va) /\
  below_up (ang_bound EPos (cell r ANGMAX)) (angle_diff r Va) <-> angle_ok r Va.
Proof.
  unfold angle_ok, degrees, ang_bound.
  destruct (feqb (cell r ANGMIN) 0%K) eqn:E1; destruct (feqb (cell r ANGMAX) 0%K) eqn:E2; cbn [above_lo below_up];
    repeat match goal with H : feqb _ _ = true |- _ => apply feqb_ok in H end;
    repeat match goal with H : feqb ?a 0%K = false |- _ =>
      assert (a <> 0%K) by (intros C; apply feqb_ok in C; congruence); clear H end; tauto.
Qed.

Lemma makeAang_ok ign branch nb A l u iang : makeAang ign branch nb = Ok (A, l, u, iang) ->
  wf A /\ nrows A = length iang /\ ncols A = nb /\ length l = nrows A /\ length u = nrows A /\
  (forall i, In i iang <-> ign = false /\ exists r, nth_error branch i = Some r /\ angle_limited r) /\
  NoDup iang /\
  (forall Va, rows_in A l u Va <->
     (ign = false -> forall i r, nth_error branch i = Some r -> angle_limited r -> angle_ok r Va)).
Proof.
  intros H. destruct (makeAang_rows _ _ _ _ _ _ _ H) as (W & N1 & N2 & L1 & L2 & HI & ND & ROW).
  do 7 (split; [auto|]). intros Va. split.
  - intros H1 IG i r Hi HL. destruct (In_nth_error iang i) as (p & Hp). { apply HI. eauto. }
    destruct (ROW p i r Hp Hi) as (R1 & R2 & R3). apply ang_bounds_ok. rewrite <- R1, <- R2, <- R3. apply H1.
    rewrite N1. eapply nth_error_some_lt; eauto.
  - intros H1 p Hp. rewrite N1 in Hp. destruct (nth_error_lt _ _ Hp) as (i & Hi).
    destruct (proj1 (HI i) (nth_error_In _ _ Hi)) as (IG & r & Hr' & HL).
    destruct (ROW p i r Hi Hr') as (R1 & R2 & R3). rewrite R1, R2, R3. apply ang_bounds_ok. eapply H1; eauto.
Qed.

(** ** makeAvl *)
Lemma feqb_false (a b : K) : feqb a b = false <-> a <> b.
Proof.
  split; intros H.
  - intros C. apply feqb_ok in C. congruence.
  - destruct (feqb a b) eqn:E; auto. apply feqb_ok in E. tauto.
Qed.

Lemma mul_cancel (a b c : K) : c <> 0%K -> (c * a = c * b <-> a = b)%K.
Proof.
  intros N. split; intros H; [|rewrite H; auto].
  transitivity ((c * a) / c)%K; [field; auto|]. rewrite H. field; auto.
Qed.

Lemma mul_nz (a b : K) : (a * b = 0 -> a = 0 \/ b = 0)%K.
Proof.
  intros H. destruct (feqb a 0%K) eqn:E; [apply feqb_ok in E; auto|]. apply feqb_false in E. right.
  apply (mul_cancel _ _ a E). rewrite H. ring.
Qed.

Lemma isload_ok g b : isload g = Ok b -> (b = true <-> is_load g).
Proof.
  unfold isload. intros H. apply bind_ok in H as (lo & Hl & H). apply bind_ok in H as (hi & Hh & H). injection H as <-.
  apply get_ok in Hl, Hh. unfold is_load, cell, lt. rewrite (nth_error_nth _ _ _ Hl), (nth_error_nth _ _ _ Hh).
  rewrite andb_true_iff, feqb_ok. tauto.
Qed.

Lemma div_eqb B (a : K) : B <> 0%K -> feqb (a / B)%K 0%K = feqb a 0%K.
Proof.
  intros NB. apply Bool.eq_true_iff_eq. rewrite !feqb_ok. apply div_eq_0. auto.
Qed.

Lemma var_load_dec g b : isload g = Ok b ->
  (b && (negb (feqb (cell g QMIN) 0%K) || negb (feqb (cell g QMAX) 0%K)) = true <-> var_load g).
Proof.
  intros H. apply isload_ok in H. unfold var_load. rewrite andb_true_iff, orb_true_iff, !negb_true_iff, !feqb_false, H.
  tauto.
Qed.

Lemma pf_row sin_ cos_ atan2 B g (P Q : K) : trig_ok sin_ cos_ atan2 -> B <> 0%K -> var_load g ->
  let yy := ((if feqb (cell g QMIN / B) 0 then cell g QMAX / B else 0)
             + (if feqb (cell g QMAX / B) 0 then cell g QMIN / B else 0))%K in
  let th := atan2 yy (cell g PMIN / B)%K in
  (sin_ th * P + - cos_ th * Q = 0)%K <-> const_pf g (B * P)%K (B * Q)%K.
Proof.
  intros HT NB ((L1 & L2) & HQ). cbv zeta.
  set (yy := ((if feqb (cell g QMIN / B) 0 then cell g QMAX / B else 0)
             + (if feqb (cell g QMAX / B) 0 then cell g QMIN / B else 0))%K). set (xx := (cell g PMIN / B)%K).
  assert (cell g PMIN <> 0%K) as NP by (apply lt_ne; auto).
  assert (xx <> 0%K) as NX. { unfold xx. intros C. apply div_eq_0 in C; auto. }
  destruct (HT xx yy NX) as (h & Hh & Ey & Ex).
  transitivity (yy * P = xx * Q)%K.
  { set (th := atan2 yy xx) in *. rewrite Ey, Ex. clearbody th. clear Ey Ex.
    rewrite <- (mul_cancel _ _ h) by (apply pos_nz; auto).
    split; intros H.
    - transitivity (h * (sin_ th * P + - cos_ th * Q) + h * cos_ th * Q)%K; [ring|rewrite H; ring].
    - transitivity (h * sin_ th * P - h * cos_ th * Q)%K; [ring|rewrite H; ring]. }
  unfold const_pf. subst yy xx. rewrite !div_eqb by auto.
  destruct (feqb (cell g QMIN) 0%K) eqn:E1; destruct (feqb (cell g QMAX) 0%K) eqn:E2;
    repeat match goal with H : feqb _ _ = true |- _ => apply feqb_ok in H | H : feqb _ _ = false |- _ => apply feqb_false in H end.
  - tauto.
  - split; intros H.
    + split; [|split; tauto]. intros _.
      transitivity (B * B * (cell g PMIN / B * Q))%K; [field; auto|]. rewrite <- H. field; auto.
    + destruct H as (H & _). specialize (H E1). apply (mul_cancel _ _ (B * B)%K); [apply f_nz_mul; auto|].
      transitivity (B * P * cell g QMAX)%K; [field; auto|]. rewrite <- H. field; auto.
  - split; intros H.
    + split; [tauto|split; [|tauto]]. intros _.
      transitivity (B * B * (cell g PMIN / B * Q))%K; [field; auto|]. rewrite <- H. field; auto.
    + destruct H as (_ & H & _). specialize (H E2). apply (mul_cancel _ _ (B * B)%K); [apply f_nz_mul; auto|].
      transitivity (B * P * cell g QMIN)%K; [field; auto|]. rewrite <- H. field; auto.
  - split; intros H.
    + split; [tauto|split; [tauto|]]. intros _ _.
      assert (cell g PMIN * Q = 0)%K as Z.
      { transitivity (B * (cell g PMIN / B * Q))%K; [field; auto|]. rewrite <- H. ring. }
      apply mul_nz in Z as [Z|Z]; [tauto|]. rewrite Z. ring.
    + destruct H as (_ & _ & H). specialize (H E1 E2). apply mul_nz in H as [H|H]; [tauto|]. rewrite H. ring.
Qed.

Lemma le_eq (a b : K) : a = b <-> le a b /\ le b a.
Proof. split; [intros ->; split; apply le_refl|intros (H1 & H2); apply le_antisym; auto]. Qed.

Lemma makeAvl_ok sin_ cos_ atan2 B gen A l u ivl : trig_ok sin_ cos_ atan2 ->
  makeAvl sin_ cos_ atan2 B gen = Ok (A, l, u, ivl) ->
  wf A /\ nrows A = length ivl /\ ncols A = 2 * length gen /\ length l = nrows A /\ length u = nrows A /\
  (forall i, In i ivl <-> exists g, nth_error gen i = Some g /\ var_load g) /\
  (forall x, rows_in A l u x <->
     forall i g, nth_error gen i = Some g -> var_load g ->
       const_pf g (B * nth i x 0)%K (B * nth (length gen + i) x 0)%K).
Proof.
  intros HT H. unfold makeAvl in H. cbv zeta in H. destruct (feqb B 0%K) eqn:EB; [discriminate|]. apply feqb_false in EB.
  apply bind_ok in H as (pmin & Hp & H). apply bind_ok in H as (qmin & Hq & H). apply bind_ok in H as (qmax & Hx & H).
  apply bind_ok in H as (ld & Hl & H). apply col_ok in Hp as (_ & ->). apply col_ok in Hq as (_ & ->).
  apply col_ok in Hx as (_ & ->). rewrite !map_map, !map2_map in H.
  set (ivl0 := find _) in H.
  assert (forall i, In i ivl0 <-> exists g, nth_error gen i = Some g /\ var_load g) as HI.
  { intros i. unfold ivl0. rewrite in_find. split.
    - intros Hi. pose proof (nth_error_some_lt _ _ _ Hi) as Li. rewrite map2_length, map_length in Li.
      destruct (nth_error_lt gen i) as (g & Hg); [lia|]. destruct (nth_error_lt ld i) as (b & Hb); [lia|].
      rewrite (nth_error_map2 _ _ _ _ _ _ Hb (map_nth_error _ _ _ Hg)) in Hi. injection Hi as Hi.
      rewrite !div_eqb in Hi by auto. exists g. split; auto.
      destruct (mapM_nth _ _ _ _ _ Hl Hg) as (b' & E & Hb'). assert (b' = b) by congruence. subst b'.
      apply (var_load_dec g b E). exact Hi.
    - intros (g & Hg & HV). destruct (mapM_nth _ _ _ _ _ Hl Hg) as (b & E & Hb).
      rewrite (nth_error_map2 _ _ _ _ _ _ Hb (map_nth_error _ _ _ Hg)). f_equal.
      rewrite !div_eqb by auto. apply (var_load_dec g b E). exact HV. }
  clearbody ivl0.
  apply bind_ok in H as (xx & Hxx & H). apply bind_ok in H as (ql & Hql & H). apply bind_ok in H as (qh & Hqh & H).
  apply bind_ok in H as (A' & HA & H). injection H as <- <- <- <-.
  assert (Forall (fun i => i < length gen) ivl0) as LI.
  { apply Forall_forall. intros i Hi. apply HI in Hi as (g & Hg & _). eapply nth_error_some_lt; eauto. }
  assert (forall (f : list K -> K) v, gather (map f gen) ivl0 = Ok v -> v = map (fun i => f (nth i gen [])) ivl0) as G.
  { intros f v E. apply (gather_all _ _ _ 0%K) in E. rewrite E. apply map_ext_in. intros i Hi.
    rewrite Forall_forall in LI. apply nth_map_lt; auto. }
  apply G in Hxx, Hql, Hqh. subst xx ql qh. rewrite !map2_map, !map_map in HA.
  apply two_ents in HA as (W & N1 & N2 & _ & RV); rewrite ?map_length; auto.
  rewrite !repeat_length. do 6 (split; [auto|]). intros x.
  assert (forall p i g, nth_error ivl0 p = Some i -> nth_error gen i = Some g -> var_load g ->
    (row_val A' x p = 0%K <-> const_pf g (B * nth i x 0)%K (B * nth (length gen + i) x 0)%K)) as ROW.
  { intros p i g Hp Hg HV. pose proof (nth_error_some_lt _ _ _ Hp) as Lp.
    rewrite <- (pf_row sin_ cos_ atan2 B g _ _ HT EB HV). rewrite RV by auto.
    rewrite !(nth_map_lt _ ivl0 p _ 0) by auto. rewrite (nth_error_nth _ _ _ Hp), (nth_error_nth _ _ _ Hg).
    replace (i + length gen) with (length gen + i) by lia. unfold cell. tauto. }
  split.
  - intros H i g Hg HV. destruct (In_nth_error ivl0 i) as (p & Hp). { apply HI; eauto. }
    apply (ROW p i g); auto. pose proof (nth_error_some_lt _ _ _ Hp) as Lp.
    destruct (H p) as (H1 & H2); [lia|]. rewrite !nth_repeat_lt in H1, H2 by auto. cbn in H1, H2.
    apply le_antisym; auto.
  - intros H p Hp. rewrite N1 in Hp. destruct (nth_error_lt _ _ Hp) as (i & Hi).
    destruct (proj1 (HI i) (nth_error_In _ _ Hi)) as (g & Hg & HV). rewrite !nth_repeat_lt by auto. cbn.
    rewrite (proj2 (ROW p i g Hi Hg HV)) by eauto. split; apply le_refl.
Qed.

(** ** makeApq *)
Lemma edge_ok norm2 (h0 h1 ub P Q : K) B t : norm_at norm2 h0 h1 -> lt 0%K B -> h1 <> 0%K ->
  norm_edge norm2 h0 h1 ub = Ok t ->
  (le (fst (fst t) * P + snd (fst t) * Q)%K (snd t / B)%K <-> le (h0 * (B * P) + h1 * (B * Q))%K ub).
Proof.
  intros HN HB N1 H. unfold norm_edge in H. destruct HN as (NN & NS). set (n := norm2 h0 h1) in *.
  destruct (feqb n 0%K) eqn:E; [discriminate|]. apply feqb_false in E. injection H as <-. cbn [fst snd].
  assert (lt 0%K n) as Pn. { apply le_cases in NN as [C|C]; auto. congruence. }
  assert (B <> 0%K) as NB by (apply pos_nz; auto).
  rewrite le_sub, (le_sub _ ub).
  replace (ub / n / B - (h0 / n * P + h1 / n * Q))%K with ((ub - (h0 * (B * P) + h1 * (B * Q))) / (n * B))%K by (field; auto).
  set (d := (ub - _)%K). assert (lt 0%K (n * B)%K) as PB by (apply mul_pos; auto). split; intros H.
  - replace d with (d / (n * B) * (n * B))%K by (field; auto). apply mul_nn; auto. apply lt_le; auto.
  - apply div_nn; auto.
Qed.

Lemma chord_upper (a b p1 p2 P Q : K) : lt p1 p2 ->
  (le ((a - b) * P + (p2 - p1) * Q)%K ((a - b) * p1 + (p2 - p1) * a)%K <-> le Q (chord (p1, a) (p2, b) P)).
Proof.
  intros H. unfold chord, slope. cbn [fst snd]. pose proof (proj1 (lt_sub _ _) H) as H0.
  assert (p2 - p1 <> 0)%K as N by (apply pos_nz; auto).
  rewrite le_sub, (le_sub Q). replace ((a - b) * p1 + (p2 - p1) * a - ((a - b) * P + (p2 - p1) * Q))%K
    with ((p2 - p1) * (a + (b - a) / (p2 - p1) * (P - p1) - Q))%K by (field; auto).
  set (d := (a + (b - a) / (p2 - p1) * (P - p1) - Q)%K). split; intros C.
  - replace d with ((p2 - p1) * d / (p2 - p1))%K by (field; auto). apply div_nn; auto.
  - apply mul_nn; auto. apply lt_le; auto.
Qed.

Lemma chord_lower (a b p1 p2 P Q : K) : lt p1 p2 ->
  (le ((b - a) * P + (p1 - p2) * Q)%K ((b - a) * p1 + (p1 - p2) * a)%K <-> le (chord (p1, a) (p2, b) P) Q).
Proof.
  intros H. unfold chord, slope. cbn [fst snd]. pose proof (proj1 (lt_sub _ _) H) as H0.
  assert (p2 - p1 <> 0)%K as N by (apply pos_nz; auto).
  rewrite le_sub, (le_sub _ Q). replace ((b - a) * p1 + (p1 - p2) * a - ((b - a) * P + (p1 - p2) * Q))%K
    with ((p2 - p1) * (Q - (a + (b - a) / (p2 - p1) * (P - p1))))%K by (field; auto).
  set (d := (Q - (a + (b - a) / (p2 - p1) * (P - p1)))%K). split; intros C.
  - replace d with ((p2 - p1) * d / (p2 - p1))%K by (field; auto). apply div_nn; auto.
  - apply mul_nn; auto. apply lt_le; auto.
Qed.

Ltac gets H := repeat match type of H with
  | bind (get _ _) _ = Ok _ => let v := fresh "v" in let E := fresh "E" in
      apply bind_ok in H as (v & E & H); apply get_ok in E; apply nth_error_nth with (d := 0%K) in E
  end.

Lemma upper_edge_ok norm2 g B t (P Q : K) : norm_on norm2 g -> lt 0%K B -> trapezoid g ->
  upper_edge norm2 g = Ok t ->
  (le (fst (fst t) * P + snd (fst t) * Q)%K (snd t / B)%K <-> under_cap g (B * P)%K (B * Q)%K).
Proof.
  intros (HN & _) HB (T1 & T2 & T3) H. unfold upper_edge in H. gets H. cbv zeta in H. subst.
  rewrite (fun N => edge_ok _ _ _ _ P Q B _ HN HB N H) by (apply pos_nz, (proj1 (lt_sub _ _)); exact T1).
  unfold under_cap, cell. apply chord_upper. exact T1.
Qed.

Lemma lower_edge_ok norm2 g B t (P Q : K) : norm_on norm2 g -> lt 0%K B -> trapezoid g ->
  lower_edge norm2 g = Ok t ->
  (le (fst (fst t) * P + snd (fst t) * Q)%K (snd t / B)%K <-> over_cap g (B * P)%K (B * Q)%K).
Proof.
  intros (_ & HN) HB (T1 & T2 & T3) H. unfold lower_edge in H. gets H. cbv zeta in H. subst.
  rewrite (fun N => edge_ok _ _ _ _ P Q B _ HN HB N H).
  - unfold over_cap, cell. apply chord_lower. exact T1.
  - intros C. apply (pos_nz (cell g PC2 - cell g PC1)%K). { apply (proj1 (lt_sub _ _)); exact T1. }
    unfold cell in *. transitivity (- (nth PC1 g 0 - nth PC2 g 0))%K; [ring|rewrite C; ring].
Qed.

(** the edges left out follow from the box *)
Lemma slope_neg (a b p1 p2 P Pm : K) : lt p1 p2 -> le b a -> le P Pm ->
  le (chord (p1, a) (p2, b) Pm) (chord (p1, a) (p2, b) P).
Proof.
  intros H H1 H2. unfold chord, slope. cbn [fst snd]. apply le_sub.
  assert (p2 - p1 <> 0)%K as N by (apply pos_nz, (proj1 (lt_sub _ _)); auto).
  replace (a + (b - a) / (p2 - p1) * (P - p1) - (a + (b - a) / (p2 - p1) * (Pm - p1)))%K
    with ((a - b) / (p2 - p1) * (Pm - P))%K by (field; auto).
  apply mul_nn; [apply div_nn|]; try apply (proj1 (le_sub _ _)); auto. apply (proj1 (lt_sub _ _)); auto.
Qed.

Lemma slope_pos (a b p1 p2 P Pm : K) : lt p1 p2 -> le a b -> le P Pm ->
  le (chord (p1, a) (p2, b) P) (chord (p1, a) (p2, b) Pm).
Proof.
  intros H H1 H2. unfold chord, slope. cbn [fst snd]. apply le_sub.
  assert (p2 - p1 <> 0)%K as N by (apply pos_nz, (proj1 (lt_sub _ _)); auto).
  replace (a + (b - a) / (p2 - p1) * (Pm - p1) - (a + (b - a) / (p2 - p1) * (P - p1)))%K
    with ((b - a) / (p2 - p1) * (Pm - P))%K by (field; auto).
  apply mul_nn; [apply div_nn|]; try apply (proj1 (le_sub _ _)); auto. apply (proj1 (lt_sub _ _)); auto.
Qed.

Lemma nth_nth_error {A} (l : list A) i d x : nth_error l i = Some x -> nth i l d = x.
Proof. apply nth_error_nth. Qed.

Lemma hasPQcap_upper g b : hasPQcap Upper g = Ok b -> trapezoid g \/ ~ has_curve g ->
  (b = true -> has_curve g) /\
  (b = false -> has_curve g -> forall P Q, in_box g P Q -> under_cap g P Q).
Proof.
  unfold hasPQcap, edge_at_pmax. intros H HT. gets H. unfold has_curve, cell in *. subst.
  destruct (feqb _ _) eqn:E.
  - apply feqb_ok in E. injection H as <-. split; [discriminate|]. intros _ C; tauto.
  - apply feqb_false in E. destruct HT as [HT|HT]; [|tauto]. cbn [bind] in H. apply bind_ok in H as (up & Hu & H).
    injection H as <-. apply bind_ok in Hu as (q & Hq & Hu). gets Hu. gets Hq. injection Hq as <-. injection Hu as <-. subst.
    split; auto. intros C _ P Q (B1 & B2 & B3). cbn [orb] in C. destruct HT as (T1 & T2 & T3).
    unfold under_cap. eapply le_trans; [exact B3|]. eapply le_trans; [|apply slope_neg; eauto].
    unfold chord, slope, cell, le. cbn [fst snd]. rewrite <- C. f_equal.
    assert (nth PC2 g 0 - nth PC1 g 0 <> 0)%K as N by (apply pos_nz, (proj1 (lt_sub _ _)); exact T1).
    field. auto.
Qed.

Lemma hasPQcap_lower g b : hasPQcap Lower g = Ok b -> trapezoid g \/ ~ has_curve g ->
  (b = true -> has_curve g) /\
  (b = false -> has_curve g -> forall P Q, in_box g P Q -> over_cap g P Q).
Proof.
  unfold hasPQcap, edge_at_pmax. intros H HT. gets H. unfold has_curve, cell in *. subst.
  destruct (feqb _ _) eqn:E.
  - apply feqb_ok in E. injection H as <-. split; [discriminate|]. intros _ C; tauto.
  - apply feqb_false in E. destruct HT as [HT|HT]; [|tauto]. apply bind_ok in H as (lo & Hu & H). cbn [bind] in H.
    injection H as <-. apply bind_ok in Hu as (q & Hq & Hu). gets Hu. gets Hq. injection Hq as <-. injection Hu as <-. subst.
    split; auto. intros C _ P Q (B1 & B2 & B3). rewrite orb_false_r in C. destruct HT as (T1 & T2 & T3).
    unfold over_cap. eapply le_trans; [|exact B2]. eapply le_trans; [apply slope_pos; eauto|].
    unfold chord, slope, cell, le. cbn [fst snd]. rewrite <- C. f_equal.
    assert (nth PC2 g 0 - nth PC1 g 0 <> 0)%K as N by (apply pos_nz, (proj1 (lt_sub _ _)); exact T1).
    field. auto.
Qed.

Lemma edge_rows_ok B gen idx edge A ub (cap : list K -> K -> K -> Prop) : lt 0%K B ->
  (forall i g t, In i idx -> nth_error gen i = Some g -> edge g = Ok t -> forall P Q,
      le (fst (fst t) * P + snd (fst t) * Q)%K (snd t / B)%K <-> cap g (B * P)%K (B * Q)%K) ->
  edge_rows B (length gen) gen idx edge = Ok (A, ub) ->
  wf A /\ nrows A = length idx /\ ncols A = 2 * length gen /\ length ub = nrows A /\
  forall x, rows_le A ub x <->
    forall i g, In i idx -> nth_error gen i = Some g -> cap g (B * nth i x 0)%K (B * nth (length gen + i) x 0)%K.
Proof.
  intros HB HE H. unfold edge_rows in H. cbv zeta in H. apply bind_ok in H as (rows & Hr & H).
  apply bind_ok in H as (d & Hd & H). apply bind_ok in H as (A' & HA & H).
  assert (A' = A /\ ub = map (fun t : K * K * K => (snd t / B)%K) d) as (-> & ->).
  { destruct (negb _ && _); [discriminate|]. injection H as -> <-. auto. } clear H.
  pose proof (gather_length _ _ _ Hr) as L1. pose proof (mapM_length _ _ _ Hd) as L2.
  apply two_ents in HA as (W & N1 & N2 & _ & RV); rewrite ?map_length; auto; try lia.
  split; [auto|]. split; [auto|]. split; [auto|]. split; [lia|]. intros x.
  assert (forall p i g, nth_error idx p = Some i -> nth_error gen i = Some g ->
    (le (row_val A x p) (nth p (map (fun t : K * K * K => (snd t / B)%K) d) 0%K) <->
     cap g (B * nth i x 0)%K (B * nth (length gen + i) x 0)%K)) as ROW.
  { intros p i g Hp Hg. pose proof (nth_error_some_lt _ _ _ Hp) as Lp.
    assert (nth_error rows p = Some g) as HR by (pose proof (gather_nth _ _ _ _ _ Hr Hp); congruence).
    destruct (mapM_nth _ _ _ _ _ Hd HR) as (t & Et & Ht).
    rewrite RV by auto. rewrite !(nth_map_lt _ d p _ t) by lia. rewrite (nth_map_lt _ idx p _ 0) by auto.
    rewrite (nth_error_nth _ _ _ Ht), (nth_error_nth _ _ _ Hp). replace (i + length gen) with (length gen + i) by lia.
    apply (HE i); auto. eapply nth_error_In; eauto. }
  split.
  - intros H i g Hi Hg. destruct (In_nth_error _ _ Hi) as (p & Hp). apply (ROW p i g Hp Hg). apply H.
    rewrite N1. eapply nth_error_some_lt; eauto.
  - intros H p Hp. rewrite N1 in Hp. destruct (nth_error_lt _ _ Hp) as (i & Hi).
    destruct (nth_error gen i) as [g|] eqn:Hg.
    + apply (ROW p i g Hi Hg). apply H; auto. eapply nth_error_In; eauto.
    + exfalso. pose proof (gather_nth _ _ _ _ _ Hr Hi). destruct (nth_error_lt rows p); [lia|]. congruence.
Qed.

Lemma find_mapM {A} (f : A -> result bool) l m i : mapM f l = Ok m ->
  (In i (find m) <-> exists a, nth_error l i = Some a /\ f a = Ok true).
Proof.
  intros H. rewrite in_find. split.
  - intros Hi. pose proof (nth_error_some_lt _ _ _ Hi) as L. rewrite (mapM_length _ _ _ H) in L.
    destruct (nth_error_lt _ _ L) as (a & Ha). exists a. split; auto.
    destruct (mapM_nth _ _ _ _ _ H Ha) as (b & E & Hb). congruence.
  - intros (a & Ha & E). destruct (mapM_nth _ _ _ _ _ H Ha) as (b & E' & Hb). congruence.
Qed.

Lemma makeApq_ok norm2 B gen Ah uh Al ul ih il : lt 0%K B ->
  Forall (fun g => has_curve g -> trapezoid g /\ norm_on norm2 g) gen ->
  makeApq norm2 B gen = Ok (Ah, uh, (Al, ul), (ih, il)) ->
  (wf Ah /\ nrows Ah = length ih /\ ncols Ah = 2 * length gen /\ length uh = nrows Ah) /\
  (wf Al /\ nrows Al = length il /\ ncols Al = 2 * length gen /\ length ul = nrows Al) /\
  forall x,
    (forall i g, nth_error gen i = Some g -> in_box g (B * nth i x 0)%K (B * nth (length gen + i) x 0)%K) ->
    (rows_le Ah uh x /\ rows_le Al ul x <->
     forall i g, nth_error gen i = Some g -> has_curve g ->
       under_cap g (B * nth i x 0)%K (B * nth (length gen + i) x 0)%K /\
       over_cap g (B * nth i x 0)%K (B * nth (length gen + i) x 0)%K).
Proof.
  intros HB HT' H. unfold makeApq in H. apply bind_ok in H as (up & Hu & H). apply bind_ok in H as (lo & Hl & H).
  cbv zeta in H. apply bind_ok in H as ((Ah', uh') & H1 & H). apply bind_ok in H as ((Al', ul') & H2 & H).
  injection H as <- <- <- <- <- <-.
  assert (Forall (fun g => has_curve g -> trapezoid g) gen) as HT.
  { eapply Forall_impl; [|exact HT']. simpl; tauto. }
  assert (forall i g, nth_error gen i = Some g -> has_curve g -> norm_on norm2 g) as HN.
  { intros i g Hg HC. rewrite Forall_forall in HT'. apply (HT' g); auto. eapply nth_error_In; eauto. }
  assert (forall i g, nth_error gen i = Some g -> trapezoid g \/ ~ has_curve g) as TD.
  { intros i g Hg. rewrite Forall_forall in HT. specialize (HT g (nth_error_In _ _ Hg)). unfold has_curve in *.
    destruct (feqb (cell g PC1) (cell g PC2)) eqn:E; [apply feqb_ok in E; tauto|apply feqb_false in E; tauto]. }
  assert (forall i g, In i (find up) -> nth_error gen i = Some g -> hasPQcap Upper g = Ok true) as SU.
  { intros i g Hi Hg. apply (find_mapM _ _ _ _ Hu) in Hi as (a & Ha & E). congruence. }
  assert (forall i g, In i (find lo) -> nth_error gen i = Some g -> hasPQcap Lower g = Ok true) as SL.
  { intros i g Hi Hg. apply (find_mapM _ _ _ _ Hl) in Hi as (a & Ha & E). congruence. }
  destruct (edge_rows_ok B gen (find up) (upper_edge norm2) Ah' uh' under_cap HB) with (2 := H1) as (W1 & N1 & C1 & B1 & R1).
  { intros i g t Hi Hg Ht P Q. pose proof (SU i g Hi Hg) as S1.
    pose proof (hasPQcap_upper g true S1 (TD i g Hg)) as (Z & _). specialize (Z eq_refl).
    eapply upper_edge_ok; eauto. destruct (TD i g Hg); tauto. }
  destruct (edge_rows_ok B gen (find lo) (lower_edge norm2) Al' ul' over_cap HB) with (2 := H2) as (W2 & N2 & C2 & B2 & R2).
  { intros i g t Hi Hg Ht P Q. pose proof (SL i g Hi Hg) as S1.
    pose proof (hasPQcap_lower g true S1 (TD i g Hg)) as (Z & _). specialize (Z eq_refl).
    eapply lower_edge_ok; eauto. destruct (TD i g Hg); tauto. }
  split; [auto|]. split; [auto|]. intros x HX. rewrite R1, R2. split.
  - intros (HU & HL) i g Hg HC. split.
    + destruct (mapM_nth _ _ _ _ _ Hu Hg) as (b & E & Hb). destruct b.
      * apply HU; auto. apply (find_mapM _ _ _ _ Hu). eauto.
      * apply (proj2 (hasPQcap_upper g false E (TD i g Hg))); auto.
    + destruct (mapM_nth _ _ _ _ _ Hl Hg) as (b & E & Hb). destruct b.
      * apply HL; auto. apply (find_mapM _ _ _ _ Hl). eauto.
      * apply (proj2 (hasPQcap_lower g false E (TD i g Hg))); auto.
  - intros H. split; intros i g Hi Hg.
    + apply H; auto. apply (hasPQcap_upper g true (SU i g Hi Hg) (TD i g Hg)); auto.
    + apply H; auto. apply (hasPQcap_lower g true (SL i g Hi Hg) (TD i g Hg)); auto.
Qed.
End OpfLinB.
