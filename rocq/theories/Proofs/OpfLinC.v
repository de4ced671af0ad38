(** makeAy against totcost, over the rationals; when makeAy succeeds. *)
From Verif Require Import Lib.ListFacts Lib.QcFacts Model.Cost Spec.CostSpec Proofs.CostB
  Model.OpfLin Spec.OpfSpec Proofs.SparseFacts Proofs.NetworkA Proofs.OrdFacts Proofs.OpfLinA Proofs.OpfLinB.
Local Open Scope nat_scope.

Lemma bpts_row r pts : pwl_row r pts -> bpts r = pts.
Proof.
  intros H. pose proof H as (_ & HN & pad & E). unfold bpts, npoints, cell.
  rewrite (nth_error_nth _ _ _ HN). change zc with (@fofZ Qc _). rewrite ftrunc_ofZ, Nat2Z.id.
  apply nth_error_ext. intros k. rewrite nth_error_map.
  destruct (Nat.lt_ge_cases k (length pts)) as [L|L].
  - rewrite seq_nth_error by auto. destruct (nth_error_lt _ _ L) as (p & Hp). rewrite Hp. cbn [option_map]. f_equal.
    destruct (nth_flat _ _ _ Hp) as [HX HY].
    assert (forall j v, nth_error (flat pts) j = Some v -> nth (COST + j) r 0%Qc = v) as G.
    { intros j v Hj. apply nth_error_nth. rewrite <- (firstn_skipn COST r), E.
      assert (nth_error (skipn COST r) j = Some v) as N.
      { rewrite E. rewrite nth_error_app1; auto. eapply nth_error_some_lt; eauto. }
      assert (COST < length r) as LC.
      { destruct (Nat.lt_ge_cases COST (length r)); auto. rewrite skipn_all2 in N by auto. destruct j; discriminate. }
      rewrite nth_error_app2 by (rewrite firstn_length; lia). rewrite firstn_length.
      replace (COST + j - Nat.min COST (length r)) with j by lia. rewrite <- E. exact N. }
    change (@r0 Qc _) with 0%Qc. apply G in HX, HY. destruct p as (a, b). cbn [fst snd] in *.
    rewrite <- HX, <- HY. change (0 + k) with k. replace (COST + 1 + 2 * k) with (COST + (2 * k + 1)) by lia. reflexivity.
  - rewrite !(proj2 (nth_error_None _ _)); auto. rewrite seq_length; auto.
Qed.

Lemma qc_le_iff (a b : Qc) : (a <= b)%Qc <-> PipsSpec.le a b.
Proof.
  unfold le. cbn. rewrite <- not_true_iff_false. rewrite qc_ltb_lt. split.
  - intros H C. apply Qcle_not_lt in H. auto.
  - apply Qcnot_lt_le.
Qed.

(** the constraints bound each cost variable by the value totcost computes *)
Lemma makeAy_totcost B ng gencost ss pgbas qgbas ybas A b Pg f :
  0 < pgbas -> 0 < ybas -> length gencost <= ng ->
  makeAy B ng gencost pgbas qgbas ybas = Ok (A, b) ->
  Forall2 row_is gencost ss -> Forall (fun s => match s with SPwl pts => convex pts | SPoly _ => True end) ss ->
  length Pg = length gencost -> totcost gencost (map (Qcmult B) Pg) = Ok f ->
  forall x, (forall i, i < length gencost -> nth (pgbas - 1 + i) x 0%Qc = nth i Pg 0%Qc) ->
  (rows_le A b x <-> forall j i, nth_error (pwl_rows gencost) j = Some i ->
                       (nth i f 0 <= nth (ybas - 1 + j) x 0)%Qc).
Proof.
  intros HP HY LG HA RI HC LP HT x HX.
  destruct (makeAy_ok B ng gencost pgbas qgbas ybas A b HY HA) as (_ & _ & _ & R). rewrite R. clear R HA.
  pose proof (Forall2_len _ _ _ RI) as LS.
  rewrite (totcost_ok gencost ss (map (Qcmult B) Pg)) in HT by (rewrite ?map_length; auto). injection HT as <-.
  assert (forall j i, nth_error (pwl_rows gencost) j = Some i ->
    (above (bpts (nth i gencost [])) (B * nth (sidx ng pgbas qgbas i) x 0)%K (nth (ybas - 1 + j) x 0%K) <->
     (nth i (map2 value ss (map (Qcmult B) Pg)) 0 <= nth (ybas - 1 + j) x 0)%Qc)) as E.
  { intros j i Hj. apply nth_error_In in Hj. unfold pwl_rows in Hj. apply filter_In in Hj as (Hi & Hm).
    apply in_seq in Hi. assert (i < length gencost) as Li by lia.
    destruct (nth_error_lt _ _ Li) as (r & Hr). destruct (Forall2_nth _ _ _ _ _ RI Hr) as (s & Hs & RS).
    destruct (nth_error_lt Pg i) as (p & Hp); [lia|].
    rewrite (nth_error_nth _ _ _ Hr) in *.
    assert (nth i (map2 value ss (map (Qcmult B) Pg)) 0%Qc = value s (B * p)%Qc) as ->.
    { apply nth_error_nth. rewrite CostB.nth_map2, Hs, (map_nth_error _ _ _ Hp). reflexivity. }
    replace (nth (sidx ng pgbas qgbas i) x 0%K) with p.
    2:{ unfold sidx. replace (ng <? i) with false by (symmetry; apply Nat.ltb_ge; lia).
        replace (pgbas + i - 1) with (pgbas - 1 + i) by lia. change (@r0 Qc _) with 0%Qc. rewrite HX by auto.
        symmetry. apply nth_error_nth; auto. }
    destruct s as [cs|pts].
    - exfalso. destruct RS as ((M & _) & _). unfold cost_is, cell in Hm. rewrite (nth_error_nth _ _ _ M) in Hm.
      apply feqb_ok in Hm. discriminate.
    - destruct RS as (RW & INC & L2). rewrite (bpts_row r pts RW). cbn [value].
      assert (convex pts) as CV. { rewrite Forall_forall in HC. apply (HC (SPwl pts)). eapply nth_error_In; eauto. }
      change (B * p)%K with (B * p)%Qc. change (@r0 Qc _) with 0%Qc. unfold above. split.
      + intros H. destruct (pwl_at_segment pts (B * p)%Qc L2) as (k & a & c & (Ha & Hc & _) & ->).
        apply qc_le_iff. apply (H a c). apply nth_error_In with k. rewrite nth_error_combine, Ha.
        replace (nth_error (tl pts) k) with (Some c); auto. destruct pts; [destruct k; discriminate|]. symmetry. exact Hc.
      + intros H a c Hin. apply In_nth_error in Hin as (k & Hk). rewrite nth_error_combine in Hk.
        destruct (nth_error pts k) as [a'|] eqn:Ha; [|discriminate].
        destruct (nth_error (tl pts) k) as [c'|] eqn:Hc; [|discriminate]. injection Hk as -> ->.
        assert (nth_error pts (S k) = Some c) as Hc' by (destruct pts; [destruct k; discriminate|exact Hc]).
        apply qc_le_iff. eapply Qcle_trans; [|exact H].
        exact (CostB.convex_max pts (B * p)%Qc INC CV L2 k a c Ha Hc'). }
  split; intros H j i Hj; apply (E j i Hj); auto.
Qed.

(** ** makeAy succeeds on proper data *)
Section Total.
Context {K : Type} {F : Fld K}.
Add Field KF : (@f_ok K F).

Lemma makeAy_total (B : K) ng gencost pgbas qgbas ybas :
  B <> 0%K -> Forall (fun r => MODEL < length r) gencost ->
  (forall i, In i (pwl_rows gencost) ->
     (0 < ftrunc (cell (nth i gencost []) NCOST))%Z /\
     COST + 2 * npoints (nth i gencost []) <= length (nth i gencost []) /\
     (forall a c, In (a, c) (combine (bpts (nth i gencost [])) (tl (bpts (nth i gencost [])))) -> fst a <> fst c) /\
     sidx ng pgbas qgbas i < ybas - 1) ->
  exists A b, makeAy B ng gencost pgbas qgbas ybas = Ok (A, b).
Proof.
  intros NB HM HR. unfold makeAy.
  assert (col MODEL gencost = Ok (map (fun r => nth MODEL r 0%K) gencost)) as HC by (apply col_def; auto).
  rewrite HC. cbn [bind]. rewrite (pwl_find gencost _ HC). cbv zeta.
  destruct (length (pwl_rows gencost) =? 0); [eauto|].
  assert (forall todo st, (forall j i, In (j, i) todo -> In i (pwl_rows gencost)) ->
    exists st', foldM (ycost B ng gencost pgbas qgbas ybas) todo st = Ok st') as FM.
  { induction todo as [|(j, i) todo IH]; intros st HT; cbn [foldM]; [eauto|].
    assert (exists st', ycost B ng gencost pgbas qgbas ybas st (j, i) = Ok st') as (st' & ->).
    { destruct st as ((k, es), by_). unfold ycost. pose proof (HT j i (or_introl eq_refl)) as Hi.
      destruct (HR i Hi) as (H1 & H2 & H3 & H4). unfold pwl_rows in Hi. apply filter_In in Hi as (Hi & _).
      apply in_seq in Hi. destruct (nth_error_lt gencost i) as (r & Hr); [lia|].
      rewrite (nth_error_nth _ _ _ Hr) in *. rewrite (proj2 (get_ok _ _ _) Hr). cbn [bind].
      assert (points B r = Ok (map (per_unit B) (bpts r))) as ->.
      { unfold points. unfold npoints in H2. rewrite (proj2 (get_ok r NCOST (cell r NCOST))).
        2:{ apply nth_error_nth'. unfold NCOST, COST in *. lia. }
        cbn [bind]. unfold to_idx. replace (ftrunc (cell r NCOST) <? 0)%Z with false by (symmetry; apply Z.ltb_ge; lia).
        cbn [bind]. replace (Z.to_nat (ftrunc (cell r NCOST)) =? 0) with false by (symmetry; apply Nat.eqb_neq; lia).
        replace (feqb B 0%K) with false by (symmetry; apply feqb_false; auto).
        unfold bpts. rewrite map_map. apply mapM_ok. intros q Hq. apply in_seq in Hq. unfold npoints in Hq.
        rewrite !(nth_error_nth' r 0%K) by (unfold COST in *; lia). reflexivity. }
      cbn [bind]. rewrite tl_map, combine_map.
      assert (exists seg, mapM segment (map (fun p => (per_unit B (fst p), per_unit B (snd p)))
                (combine (bpts r) (tl (bpts r)))) = Ok seg) as (seg & ->).
      { revert H3. generalize (combine (bpts r) (tl (bpts r))) as l. induction l as [|(a, c) l IHl]; intros H3; cbn; eauto.
        destruct a as (p1, c1), c as (p2, c2). cbn [fst snd] in *.
        replace (feqb _ _) with false.
        - destruct IHl as (seg & ->); [intros; apply H3; simpl; auto|]. cbn. eauto.
        - symmetry. apply feqb_false. intros C. apply (H3 (p1, c1) (p2, c2)); simpl; auto.
          transitivity (p2 - B * (p2 / B - p1 / B))%K; [field; auto|rewrite C; ring]. }
      cbn [bind]. cbv zeta. replace (_ <? _) with true by (symmetry; apply Nat.ltb_lt; auto). eauto. }
    cbn [bind]. apply IH. intros; eapply HT; simpl; eauto. }
  destruct (FM (combine (seq 0 (length (pwl_rows gencost))) (pwl_rows gencost)) (0, [], [])) as (((k, es), by_) & ->).
  { intros j i Hin. eapply in_combine_r; eauto. }
  cbn [bind]. eauto.
Qed.
End Total.
