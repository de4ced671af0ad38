(** opf_costfcn: value and gradient in closed form. *)
From Verif Require Import Lib.ListFacts Model.OpfFcn Spec.AcOpfSpec Proofs.LinAlgFacts Proofs.SparseFacts
  Proofs.FldFacts Proofs.OrdFacts Proofs.MatFacts Proofs.PipsF Proofs.PipsG Proofs.NetworkA Proofs.NetworkE Proofs.OpfLinA Proofs.OpfLinB
  Proofs.AcCostA Proofs.AcCostB.
Local Open Scope nat_scope.

Section AcCostC.
Context {K : Type} {F : Fld K}.
Add Field KF : (@f_ok K F).

Lemma scatter_checked_def {A} (l : list A) idx vals : length vals = length idx -> (forall i, In i idx -> i < length l) ->
  scatter_checked l idx vals = Ok (scatter l idx vals).
Proof.
  intros L H. unfold scatter_checked. rewrite L, Nat.eqb_refl. cbn [negb].
  replace (forallb _ idx) with true; auto. symmetry. apply forallb_forall. intros i I. apply Nat.ltb_lt. auto.
Qed.
Lemma nth_scatter_map (l : list K) idx v j : NoDup idx -> j < length l ->
  nth j (scatter l idx (map v idx)) 0%K = if in_dec Nat.eq_dec j idx then v j else nth j l 0%K.
Proof.
  intros ND L. destruct (in_dec Nat.eq_dec j idx) as [I|I].
  - apply nth_error_nth. apply In_nth_error in I as (k & Hk). apply (scatter_at idx l (map v idx) k j (v j)); auto.
    rewrite nth_error_map, Hk. reflexivity.
  - pose proof (scatter_other idx l (map v idx) j I) as E. rewrite (nth_error_nth' l 0%K L) in E.
    apply nth_error_nth. auto.
Qed.
Lemma scatter_all {A} (v l : list A) n : length v = n -> length l = n -> scatter l (seq 0 n) v = v.
Proof.
  intros L1 L2. apply nth_error_ext. intros i. destruct (Nat.lt_ge_cases i n) as [H|H].
  - destruct (nth_error_lt v i) as (a & Ea); [lia|]. rewrite Ea.
    apply (scatter_at (seq 0 n) l v i i a); auto; [apply seq_NoDup|apply seq_nth_error; auto|lia].
  - rewrite (proj2 (nth_error_None _ _)) by (rewrite scatter_length; lia).
    symmetry. apply nth_error_None. lia.
Qed.
Lemma as_map {A} (v : list A) d n a : length v = n -> v = map (fun j => nth (j - a) v d) (seq a n).
Proof.
  intros L. apply (nth_ext _ _ d d); [rewrite map_length, seq_length; auto|]. intros i Hi.
  rewrite (nth_map_lt _ _ _ _ 0) by (rewrite seq_length; lia). rewrite seq_nth by lia. f_equal. lia.
Qed.
Lemma map2_maps {A B C I} (f : A -> B -> C) (a : I -> A) (b : I -> B) l :
  map2 f (map a l) (map b l) = map (fun i => f (a i) (b i)) l.
Proof. unfold map2. induction l as [|x l IH]; simpl; auto. f_equal. auto. Qed.
Lemma nth_slice_d (l : list K) a b i : i < b - a -> nth i (slice a b l) 0%K = nth (a + i) l 0%K.
Proof.
  intros H. unfold slice. rewrite nth_firstn_lt by auto. apply nth_skipn_d.
Qed.

Variable D : acdata (K := K).
Notation B := (a_base D).
Notation nb := (length (a_bus D)).
Notation ng := (length (a_gen D)).
Notation gencost := (a_gencost D).
Notation cp := (a_cp D).
Notation N := (g_N cp).
Notation nw := (nrows (g_N cp)).

(** the shape of the problem *)
Record cost_shape (x : list K) : Prop := {
  cs_x : nb + nb + ng + ng + a_ny D <= length x;
  cs_gc : length gencost <= ng + ng;
  cs_model : Forall (fun r => MODEL < length r) gencost;
  cs_poly : forall r, In r gencost -> cost_is 2 r = true -> poly_cost_row r;
  cs_some : exists r, In r gencost /\ cost_is 2 r = true;
  cs_zone : zone_data (length x) N (g_H cp) (g_Cw cp) (g_dd cp) (g_rh cp) (g_kk cp) (g_mm cp) }.

Definition row_ (i : nat) : list K := nth i gencost [].
Definition later : bool := existsb (fun i => cost_is 2 (row_ i) && negb (i =? 0)) (seq 0 (length gencost)).
Definition pterm (x : list K) (der i : nat) : K :=
  if cost_is 2 (row_ i) then pder der (coeffs (row_ i)) (B * ac_output nb x i)%K else 0%K.
Definition hwc (x : list K) (i : nat) : K :=
  let w := zone_w N (g_dd cp) (g_rh cp) (g_kk cp) (g_mm cp) x in
  (lsum (fun j => at_ (g_H cp) i j * nth j w 0) (seq 0 nw) + nth i (g_Cw cp) 0)%K.
Definition zgrad (x : list K) (j : nat) : K :=
  lsum (fun i => at_ N i j * slope_ D x i * hwc x i)%K (seq 0 nw).
Definition grad_ (x : list K) (j : nat) : K :=
  ((if (nb + nb <=? j) && (j <? nb + nb + ng + ng) then B * pterm x 1 (j - (nb + nb)) else 0)
   + (if (nb + nb + ng + ng <=? j) && (j <? nb + nb + ng + ng + a_ny D) then 1 else 0)
   + zgrad x j)%K.

Lemma has_nz_false (x : list K) : zone_data (length x) N (g_H cp) (g_Cw cp) (g_dd cp) (g_rh cp) (g_kk cp) (g_mm cp) ->
  has_nz N = false -> forall i j, i < nw -> j < length x -> at_ N i j = 0%K.
Proof.
  intros ((_ & Nc & _) & _) E i j Hi Hj. unfold has_nz in E.
  destruct (feqb (at_ N i j) 0%K) eqn:Q; [apply feqb_ok; auto|].
  assert (false = true); [|discriminate]. rewrite <- E at 1. apply existsb_exists. exists i.
  split; [apply in_seq; lia|]. apply existsb_exists. exists j. split; [apply in_seq; rewrite Nc; lia|]. rewrite Q. reflexivity.
Qed.
Lemma cost_is_nil z : z <> 0%Z -> cost_is (K := K) z [] = false.
Proof.
  intros H. unfold cost_is, cell. cbn. destruct (feqb _ _) eqn:E; auto. apply feqb_ok in E. symmetry in E.
  exfalso. revert E. apply fofZ_nz. auto.
Qed.

Lemma costfcn_ok x : cost_shape x -> exists df,
  opf_costfcn D x = Ok
    ((if later then lsum (pterm x 0) (seq 0 (length gencost)) else 0)
     + lsum (fun j => nth (nb + nb + ng + ng + j) x 0) (seq 0 (a_ny D))
     + (if has_nz N then qform nw (g_H cp) (g_Cw cp) (zone_w N (g_dd cp) (g_rh cp) (g_kk cp) (g_mm cp) x) else 0), df)%K
  /\ length df = length x /\ forall j, j < length x -> nth j df 0%K = grad_ x j.
Proof.
  intros [LX LG MD PL (r0 & I0 & P0) ZD]. unfold opf_costfcn. cbv zeta.
  rewrite (col_def _ _ MD). cbn [bind]. rewrite map_map.
  set (ipol := find _).
  assert (IP : ipol = filter (fun i => cost_is 2 (row_ i)) (seq 0 (length gencost))).
  { unfold ipol. rewrite (find_filter _ []). reflexivity. }
  clearbody ipol. set (n := length gencost) in *.
  assert (IL : forall i, In i ipol -> i < n /\ cost_is 2 (row_ i) = true).
  { intros i I. rewrite IP in I. apply filter_In in I as (I & E). apply in_seq in I. split; auto; lia. }
  assert (ND : NoDup ipol) by (rewrite IP; apply NoDup_filter, seq_NoDup).
  rewrite (gather_def gencost _ []) by (intros i I; apply IL in I; tauto). cbn [bind].
  change (map (fun i => nth i gencost []) ipol) with (map row_ ipol). set (rows := map row_ ipol).
  set (xx := map (fun a => a * B)%K (getPg D x ++ getQg D x)).
  assert (Lxx : length xx = ng + ng).
  { unfold xx, getPg, getQg. rewrite map_length, app_length, !slice_length. lia. }
  assert (Hxx : forall i, i < ng + ng -> nth i xx 0%K = (B * ac_output nb x i)%K).
  { intros i Hi. unfold xx. rewrite (nth_map_lt _ _ _ _ 0%K).
    2:{ unfold getPg, getQg. rewrite app_length, !slice_length. lia. }
    unfold ac_output. transitivity (nth (nb + nb + i) x 0 * B)%K; [|ring]. f_equal. unfold getPg, getQg.
    destruct (Nat.lt_ge_cases i ng) as [H|H].
    - rewrite app_nth1 by (rewrite slice_length; lia). apply nth_slice_d. lia.
    - rewrite app_nth2 by (rewrite slice_length; lia). rewrite slice_length.
      replace (Nat.min _ _) with ng by lia. rewrite nth_slice_d by lia. f_equal. lia. }
  clearbody xx.
  assert (PR : Forall poly_cost_row rows).
  { unfold rows. apply Forall_forall. intros r I. apply in_map_iff in I as (i & <- & I). apply IL in I as (Hi & E).
    apply PL; auto. unfold row_. apply nth_In. auto. }
  assert (GX : gather xx ipol = Ok (map (fun i => B * ac_output nb x i)%K ipol)).
  { rewrite (gather_def _ _ 0%K) by (intros i I; apply IL in I; lia). f_equal. apply map_ext_in.
    intros i I. apply Hxx. apply IL in I. lia. }
  assert (PC : forall der, polycost rows (map (fun i => B * ac_output nb x i)%K ipol) der
                = Ok (map (fun i => pder der (coeffs (row_ i)) (B * ac_output nb x i)%K) ipol)).
  { intros der. rewrite polycost_ok; auto.
    - unfold rows. rewrite map2_maps. reflexivity.
    - unfold rows. rewrite !map_length. reflexivity. }
  assert (NEr : rows <> []).
  { unfold rows. intros E. apply map_eq_nil in E. destruct (In_nth _ _ [] I0) as (i & Hi & Er).
    assert (In i ipol); [|rewrite E in *; auto]. rewrite IP. apply filter_In. split; [apply in_seq; unfold n in *; lia|].
    unfold row_. rewrite Er. auto. }
  (* the polynomial part *)
  assert (F0 : (if existsb (fun i => negb (i =? 0)) ipol
         then v <- gather xx ipol ;; c <- totcost_pol rows v ;; Ok (lsum (fun a => a) c) else Ok 0%K)
      = Ok (if later then lsum (pterm x 0) (seq 0 n) else 0)%K).
  { assert (later = existsb (fun i => negb (i =? 0)) ipol) as ->.
    { unfold later. rewrite IP. fold n. generalize (seq 0 n). intros l. induction l as [|a l IH]; simpl; auto.
      rewrite IH. destruct (cost_is 2 (row_ a)); simpl; auto. }
    destruct (existsb _ ipol); auto. rewrite GX. cbn [bind]. unfold totcost_pol.
    destruct rows as [|a rs] eqn:Er; [contradiction|]. rewrite <- Er in *.
    rewrite PC. cbn [bind]. rewrite scatter_checked_def.
    2:{ unfold rows. rewrite map_length, seq_length, map_length. reflexivity. }
    2:{ intros i I. rewrite repeat_length. apply in_seq in I. lia. }
    cbn [bind]. rewrite scatter_all; [|unfold rows; rewrite !map_length; reflexivity|apply repeat_length].
    rewrite lsum_map, IP, lsum_filter. f_equal. }
  rewrite F0. cbn [bind]. clear F0.
  set (i1y := nb + nb + ng + ng) in *.
  assert (SC : sparse (repeat (1%K : K) (a_ny D)) (repeat 0 (a_ny D)) (seq i1y (a_ny D)) 1 (length x)
     = Ok (SM 1 (length x) (zip3 (repeat 0 (a_ny D)) (seq i1y (a_ny D)) (repeat (1%K : K) (a_ny D))))).
  { apply sparse_def; rewrite ?repeat_length, ?seq_length; auto.
    - apply Forall_forall. intros i I. apply repeat_spec in I. lia.
    - apply Forall_forall. intros i I. apply in_seq in I. lia. }
  rewrite SC. cbn [bind]. clear SC. set (cc := SM 1 (length x) _).
  set (ccost := if a_ny D =? 0 then repeat 0%K (length x) else map (at_ cc 0) (seq 0 (length x))).
  assert (Lcc : length ccost = length x).
  { unfold ccost. destruct (a_ny D =? 0); [apply repeat_length|rewrite map_length, seq_length; auto]. }
  assert (Hcc : forall j, j < length x -> nth j ccost 0%K = if (i1y <=? j) && (j <? i1y + a_ny D) then 1%K else 0%K).
  { intros j Hj. unfold ccost. destruct (Nat.eqb_spec (a_ny D) 0) as [Z|Z].
    - rewrite nth_repeat_lt by auto. destruct (Nat.leb_spec i1y j), (Nat.ltb_spec j (i1y + a_ny D)); auto. lia.
    - rewrite (nth_map_lt _ _ _ _ 0) by (rewrite seq_length; lia). rewrite seq_nth by lia. cbn [Nat.add].
      unfold at_, cc. cbn [ents]. rewrite (lsum_zip3 _ _ _ _ (a_ny D)); rewrite ?repeat_length, ?seq_length; auto.
      cbn [erow ecol ev]. rewrite (lsum_ext _ (fun k => if (k =? j - i1y) then (if i1y <=? j then 1 else 0) else 0)%K).
      + rewrite lsum_seq_single. cbn [Nat.leb andb]. destruct (Nat.leb_spec i1y j); cbn [andb].
        * destruct (Nat.ltb_spec (j - i1y) (0 + a_ny D)), (Nat.ltb_spec j (i1y + a_ny D)); auto; lia.
        * destruct (_ <? _); auto.
      + intros k Hk. apply in_seq in Hk. rewrite nth_repeat, nth_repeat_lt, seq_nth by lia.
        cbn [Nat.eqb andb]. destruct (Nat.eqb_spec (i1y + k) j), (Nat.eqb_spec k (j - i1y)), (Nat.leb_spec i1y j); auto; lia. }
  assert (Dcc : (a_ny D =? 0) = false -> dotv ccost x = lsum (fun j => nth (i1y + j) x 0)%K (seq 0 (a_ny D))).
  { intros _. unfold dotv. rewrite (lsum_combine _ _ _ 0%K 0%K) by auto. cbn [fst snd]. rewrite Lcc.
    rewrite (lsum_ext _ (fun j => if (i1y <=? j) && (j <? i1y + a_ny D) then nth j x 0 else 0)%K).
    2:{ intros j Hj. apply in_seq in Hj. rewrite Hcc by lia. destruct (_ && _); ring. }
    replace (length x) with (i1y + (a_ny D + (length x - (i1y + a_ny D)))) by lia.
    rewrite !seq_app, !lsum_app. cbn [Nat.add].
    rewrite (lsum_zero _ (seq 0 i1y)).
    2:{ intros j Hj. apply in_seq in Hj. destruct (Nat.leb_spec i1y j); auto; lia. }
    rewrite (lsum_zero _ (seq (i1y + a_ny D) _)).
    2:{ intros j Hj. apply in_seq in Hj. destruct (Nat.ltb_spec j (i1y + a_ny D)); [lia|]. rewrite andb_false_r. auto. }
    rewrite (lsum_ext _ (fun j => nth j x 0%K) (seq i1y _)).
    2:{ intros j Hj. apply in_seq in Hj. destruct (Nat.leb_spec i1y j), (Nat.ltb_spec j (i1y + a_ny D)); auto; lia. }
    transitivity (lsum (fun j => nth j x 0%K) (map (fun j => i1y + j) (seq 0 (a_ny D)))).
    - rewrite <- (Nat.add_0_r i1y) at 1. assert (seq (i1y + 0) (a_ny D) = map (fun j => i1y + j) (seq 0 (a_ny D))) as ->; [|ring].
      generalize 0. generalize (a_ny D). clear. induction n as [|n IH]; intros s; simpl; auto. f_equal.
      rewrite <- IH. f_equal. lia.
    - rewrite lsum_map. reflexivity. }
  clearbody ccost cc.
  set (P0_ := (if later then _ else 0)%K).
  assert (F1 : (if a_ny D =? 0 then Ok P0_ else Ok (P0_ + dotv ccost x)%K)
     = Ok (P0_ + lsum (fun j => nth (i1y + j) x 0) (seq 0 (a_ny D)))%K).
  { destruct (Nat.eqb_spec (a_ny D) 0) as [Z|Z].
    - rewrite Z. cbn [seq lsum]. f_equal. ring.
    - rewrite Dcc by reflexivity. reflexivity. }
  rewrite F1. cbn [bind]. clear F1 Dcc.
  (* the gradient without the user part *)
  assert (FP : float_polycost B rows (map (fun i => B * ac_output nb x i)%K ipol) 1
     = Ok (map (fun i => B * pterm x 1 i)%K ipol)).
  { unfold float_polycost. destruct rows as [|a rs] eqn:Er; [contradiction|]. rewrite <- Er in *. rewrite PC. cbn [bind].
    f_equal. rewrite map_map. apply map_ext_in. intros i I. unfold pterm. apply IL in I as (_ & ->). reflexivity. }
  rewrite GX. cbn [bind]. rewrite FP. cbn [bind]. set (U := (if has_nz N then (bind (general D x) _) else _)).
  assert (GR : exists df3, (df0 <- scatter_checked (repeat 0%K (2 * ng)) ipol (map (fun i => B * pterm x 1 i)%K ipol) ;;
      df1 <- scatter_checked (repeat 0%K (length x)) (seq (nb + nb) ng) (slice 0 ng df0) ;;
      df2 <- scatter_checked df1 (seq (nb + nb + ng) ng) (slice ng (ng + ng) df0) ;; ewise radd df2 ccost) = Ok df3
    /\ length df3 = length x /\ forall j, j < length x -> nth j df3 0%K =
      ((if (nb + nb <=? j) && (j <? i1y) then B * pterm x 1 (j - (nb + nb)) else 0) +
       (if (i1y <=? j) && (j <? i1y + a_ny D) then 1 else 0))%K).
  { rewrite scatter_checked_def.
    2:{ rewrite !map_length. reflexivity. }
    2:{ rewrite repeat_length. intros i I. apply IL in I. lia. }
    cbn [bind]. set (df0 := scatter _ _ _).
    assert (L0 : length df0 = ng + ng) by (unfold df0; rewrite scatter_length, repeat_length; lia).
    assert (H0 : forall i, i < ng + ng -> nth i df0 0%K = (B * pterm x 1 i)%K).
    { intros i Hi. unfold df0. rewrite nth_scatter_map by (auto; rewrite repeat_length; lia).
      destruct (in_dec Nat.eq_dec i ipol) as [I|I]; auto. rewrite nth_repeat. unfold pterm.
      destruct (cost_is 2 (row_ i)) eqn:Q; [|ring]. destruct I. rewrite IP. apply filter_In. split; auto.
      apply in_seq. destruct (Nat.lt_ge_cases i n); [lia|]. unfold row_ in Q. rewrite nth_overflow in Q by auto.
      rewrite cost_is_nil in Q by lia. discriminate. }
    clearbody df0.
    rewrite (as_map (slice 0 ng df0) 0%K ng (nb + nb)) by (rewrite slice_length; lia).
    rewrite scatter_checked_def.
    2:{ rewrite map_length. reflexivity. }
    2:{ rewrite repeat_length. intros i I. apply in_seq in I. unfold i1y in *. lia. }
    cbn [bind]. set (df1 := scatter (repeat _ _) _ _).
    assert (L1 : length df1 = length x) by (unfold df1; rewrite scatter_length, repeat_length; lia).
    rewrite (as_map (slice ng (ng + ng) df0) 0%K ng (nb + nb + ng)) by (rewrite slice_length; lia).
    rewrite scatter_checked_def.
    2:{ rewrite map_length. reflexivity. }
    2:{ rewrite L1. intros i I. apply in_seq in I. unfold i1y in *. lia. }
    cbn [bind]. set (df2 := scatter df1 _ _).
    assert (L2 : length df2 = length x) by (unfold df2; rewrite scatter_length; lia).
    rewrite ewise_def by lia. eexists. split; [reflexivity|]. split; [rewrite map2_length; lia|].
    intros j Hj. rewrite (nth_map2_d _ _ _ _ 0%K 0%K) by lia. rewrite Hcc by auto. f_equal.
    unfold df2. rewrite nth_scatter_map by (auto using seq_NoDup; lia).
    destruct (in_dec Nat.eq_dec j _) as [I|I].
    - apply in_seq in I. rewrite nth_slice_d by lia. rewrite H0 by lia.
      replace ((nb + nb <=? j) && (j <? i1y)) with true.
      + do 2 f_equal. lia.
      + symmetry. apply andb_true_intro. split; [apply Nat.leb_le|apply Nat.ltb_lt]; unfold i1y; lia.
    - rewrite in_seq in I. unfold df1. rewrite nth_scatter_map by (auto using seq_NoDup; rewrite repeat_length; lia).
      destruct (in_dec Nat.eq_dec j _) as [I'|I'].
      + apply in_seq in I'. rewrite nth_slice_d by lia. rewrite H0 by lia.
        replace ((nb + nb <=? j) && (j <? i1y)) with true.
        * do 2 f_equal.
        * symmetry. apply andb_true_intro. split; [apply Nat.leb_le|apply Nat.ltb_lt]; unfold i1y; lia.
      + rewrite in_seq in I'. rewrite nth_repeat_lt by auto.
        destruct (Nat.leb_spec (nb + nb) j), (Nat.ltb_spec j i1y); auto. unfold i1y in *. lia. }
  destruct GR as (df3 & E3 & L3 & H3).
  assert (SEQ : forall (A : Type) (k : list K -> result A),
     (df0 <- scatter_checked (repeat 0%K (2 * ng)) ipol (map (fun i => B * pterm x 1 i)%K ipol) ;;
      df1 <- scatter_checked (repeat 0%K (length x)) (seq (nb + nb) ng) (slice 0 ng df0) ;;
      df2 <- scatter_checked df1 (seq (nb + nb + ng) ng) (slice ng (ng + ng) df0) ;;
      df3 <- ewise radd df2 ccost ;; k df3) = k df3).
  { intros A k. apply bind_ok in E3 as (d0 & -> & E3). cbn [bind].
    apply bind_ok in E3 as (d1 & -> & E3). cbn [bind]. apply bind_ok in E3 as (d2 & -> & E3). cbn [bind]. rewrite E3. reflexivity. }
  unfold U. clear U. destruct (has_nz N) eqn:NZ.
  - destruct (general_ok D x ZD) as (t & E & [GW GH GHA GA GM GQ]). rewrite E. cbn [bind].
    pose proof ZD as (SN & SH & LC & _).
    assert (WH : ismat (g_H cp) nw nw (at_ (g_H cp))).
    { destruct SH as (A1 & A2 & A3). split; auto. unfold wf. rewrite A1, A2. auto. }
    assert (Lw : length (gt_w t) = nw) by (rewrite GW; unfold zone_w; rewrite map_length, seq_length; auto).
    destruct (ismat_mulv _ nw nw _ (gt_w t) (ismat_transp _ _ _ _ WH) Lw) as (wH & E' & LwH & HwH).
    rewrite E'. cbn [bind]. rewrite SEQ.
    destruct (ismat_mulv (gt_AA t) (length x) nw _ (gt_HwC t) GA GH) as (u & Eu & Lu & Hu). rewrite Eu. cbn [bind].
    rewrite ewise_def by lia. cbn [bind]. eexists. split; [|split].
    + apply f_equal. apply f_equal2; [|reflexivity]. rewrite <- GW.
      transitivity (P0_ + lsum (fun j => nth (i1y + j) x 0) (seq 0 (a_ny D))
         + (dotv wH (gt_w t) / fofZ 2 + dotv (g_Cw cp) (gt_w t)))%K; [ring|]. f_equal.
      unfold qform, dotv. rewrite !(lsum_combine _ _ _ 0%K 0%K) by congruence. cbn [fst snd]. rewrite LwH, LC. f_equal.
      assert ((fofZ 2 : K) <> 0%K) as Z2 by (apply fofZ_nz; lia).
      assert (lsum (fun i => nth i wH 0 * nth i (gt_w t) 0)%K (seq 0 nw)
        = lsum (fun i => nth i (gt_w t) 0 * lsum (fun j => at_ (g_H cp) i j * nth j (gt_w t) 0) (seq 0 nw))%K (seq 0 nw)) as ->.
      { rewrite (lsum_ext _ (fun i => lsum (fun k => at_ (g_H cp) k i * nth k (gt_w t) 0 * nth i (gt_w t) 0)%K (seq 0 nw))).
        2:{ intros i Hi. apply in_seq in Hi. rewrite HwH by lia. rewrite <- lsum_scal_r. reflexivity. }
        rewrite lsum_swap. apply lsum_ext. intros i _. rewrite <- lsum_scal. apply lsum_ext. intros j _. ring. }
      field. auto.
    + rewrite map2_length. lia.
    + intros j Hj. rewrite (nth_map2_d _ _ _ _ 0%K 0%K) by lia. rewrite H3 by auto. rewrite Hu by auto. unfold grad_. f_equal.
      unfold zgrad. apply lsum_ext. intros i Hi. apply in_seq in Hi. rewrite GHA by lia. unfold hwc. rewrite <- GW. reflexivity.
  - cbn [bind]. rewrite SEQ. cbn [bind]. eexists. split; [|split].
    + apply f_equal. apply f_equal2; [|reflexivity]. ring.
    + auto.
    + intros j Hj. rewrite H3 by auto. unfold grad_. fold i1y.
      assert (zgrad x j = 0%K) as ->; [|ring]. apply lsum_zero. intros i Hi. apply in_seq in Hi.
      rewrite (has_nz_false x ZD NZ) by (auto; lia). ring.
Qed.
End AcCostC.
