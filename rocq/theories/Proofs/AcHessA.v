(** The cost part of opf_hessfcn, for any field. *)
From Verif Require Import Lib.ListFacts Model.OpfFcn Spec.AcOpfSpec Proofs.LinAlgFacts Proofs.SparseFacts Proofs.FldFacts Proofs.MatFacts
  Proofs.NetworkA Proofs.NetworkC Proofs.NetworkE Proofs.OpfLinA Proofs.OpfLinB Proofs.PfsolnC Proofs.PipsF Proofs.AcCostA Proofs.AcCostB Proofs.AcCostC.
Local Open Scope nat_scope.

Section AcHessA.
Context {K : Type} {F : Fld K}.
Add Field KF : (@f_ok K F).
Variable D : acdata (K := K).
Notation B := (a_base D).
Notation nb := (length (a_bus D)).
Notation ng := (length (a_gen D)).
Notation gencost := (a_gencost D).
Notation cp := (a_cp D).
Notation N := (g_N cp).
Notation nw := (nrows (g_N cp)).

Definition curvK (x : list K) (i : nat) : K := (fofZ 2 * (M_ D x i * Q_ D i))%K.
Definition zhessK (x : list K) (j k : nat) : K :=
  lsum (fun i => at_ N i j * (curvK x i * at_ N i k) * hwc D x i
        + at_ N i j * slope_ D x i * lsum (fun l => at_ (g_H cp) i l * (at_ N l k * slope_ D x l)) (seq 0 nw))%K (seq 0 nw).
Definition hessK (x : list K) (j k : nat) : K :=
  ((if (j =? k) && ((nb + nb <=? j) && (j <? nb + nb + ng + ng)) then B * (B * pterm D x 2 (j - (nb + nb))) else 0)
   + zhessK x j k)%K.

Lemma general_hess_ok x t : zone_data (length x) N (g_H cp) (g_Cw cp) (g_dd cp) (g_rh cp) (g_kk cp) (g_mm cp) ->
  general_spec D x t -> exists H, general_hess D t = Ok H /\ ismat H (length x) (length x) (zhessK x).
Proof.
  intros (SN & SH & _) [GW GH GHA GA GM GQ]. unfold general_hess. cbv zeta.
  assert (WH : ismat (g_H cp) nw nw (at_ (g_H cp))).
  { destruct SH as (A1 & A2 & A3). split; auto. unfold wf. rewrite A1, A2. auto. }
  assert (WN : ismat N nw (length x) (at_ N)).
  { destruct SN as (A1 & A2 & A3). split; auto. unfold wf. rewrite A2. auto. }
  destruct (ismat_mul _ _ _ _ _ _ _ GA WH) as (a1 & -> & H1). cbn [bind].
  destruct (ismat_mul _ _ _ _ _ _ _ H1 (ismat_transp _ _ _ _ GA)) as (a & -> & Ha). cbn [bind].
  assert (H2 : ismat (mapm (rmul (fofZ 2)) (transp N)) (length x) nw (fun j i => fofZ 2 * at_ N i j)%K).
  { apply (ismat_mapm (rmul (fofZ 2)) (transp N)); [ring|intros; ring|apply ismat_transp; auto]. }
  destruct (mul_diag _ _ _ _ _ _ H2 GM) as (b1 & -> & Hb1). cbn [bind].
  destruct (mul_diag _ _ _ _ _ _ Hb1 GQ) as (b2 & -> & Hb2). cbn [bind].
  destruct (sparse_diag (gt_HwC t) (seq 0 nw) nw (fun i => nth i (gt_HwC t) 0%K) (fun i => nth i (gt_HwC t) 0%K)) as (dg & -> & Hdg).
  { apply seq_NoDup. }
  { intros i Hi. apply in_seq in Hi. lia. }
  { rewrite <- GH. apply nth_ext with (d := 0%K) (d' := 0%K); rewrite ?map_length, ?seq_length; auto. intros i Hi.
    rewrite (nth_map_lt _ _ _ _ 0) by (rewrite seq_length; auto). rewrite seq_nth; auto. }
  { intros i Hi. split; auto. intros I. destruct I. apply in_seq. lia. }
  cbn [bind]. destruct (mul_diag _ _ _ _ _ _ Hb2 Hdg) as (b3 & -> & Hb3). cbn [bind].
  destruct (ismat_mul _ _ _ _ _ _ _ Hb3 WN) as (b & -> & Hb). cbn [bind].
  destruct (ismat_add _ _ _ _ _ _ Ha Hb) as (h & -> & Hh). exists h. split; auto.
  eapply ismat_eq; [exact Hh|]. intros j k Hj Hk. cbv beta. unfold zhessK.
  rewrite lsum_add.
  match goal with |- (?a + ?b)%K = _ => transitivity (b + a)%K; [ring|] end. f_equal.
  - apply lsum_ext. intros i Hi. apply in_seq in Hi. rewrite GHA by lia. unfold hwc, curvK. cbv zeta. rewrite <- GW. ring.
  - rewrite (lsum_ext _ (fun i => lsum (fun l => at_ N l j * slope_ D x l * at_ (g_H cp) l i * (at_ N i k * slope_ D x i))%K (seq 0 nw))).
    2:{ intros i _. rewrite <- lsum_scal_r. reflexivity. }
    rewrite lsum_swap. apply lsum_ext. intros i _. rewrite <- lsum_scal. apply lsum_ext. intros l _. ring.
Qed.

Lemma poly_hess_ok x : cost_shape D x -> length gencost = ng ->
  poly_hess D gencost (getPg D x) = Ok (map (fun i => B * (B * pterm D x 2 i))%K (seq 0 ng)).
Proof.
  intros [LX _ MD PL (r0 & I0 & P0) ZD] LG. unfold poly_hess.
  rewrite (col_def _ _ MD). cbn [bind]. cbv zeta. rewrite map_map. set (ipol := find _).
  assert (IP : ipol = filter (fun i => cost_is 2 (row_ D i)) (seq 0 (length gencost))).
  { unfold ipol. rewrite (find_filter _ []). reflexivity. }
  clearbody ipol. rewrite LG in IP.
  assert (IL : forall i, In i ipol -> i < ng /\ cost_is 2 (row_ D i) = true).
  { intros i I. rewrite IP in I. apply filter_In in I as (I & E). apply in_seq in I. split; auto; lia. }
  assert (ND : NoDup ipol) by (rewrite IP; apply NoDup_filter, seq_NoDup).
  rewrite (gather_def gencost _ []) by (intros i I; apply IL in I; lia). cbn [bind].
  assert (LP : length (getPg D x) = ng) by (unfold getPg; rewrite slice_length; lia).
  rewrite (gather_def (getPg D x) _ 0%K) by (intros i I; apply IL in I; lia). cbn [bind].
  change (map (fun i => nth i gencost []) ipol) with (map (row_ D) ipol). set (rows := map (row_ D) ipol).
  rewrite map_map.
  rewrite (map_ext_in _ (fun i => B * ac_output nb x i)%K).
  2:{ intros i I. apply IL in I as (Hi & _). unfold getPg. rewrite nth_slice_d by lia. unfold ac_output. ring. }
  assert (PR : Forall poly_cost_row rows).
  { unfold rows. apply Forall_forall. intros r I. apply in_map_iff in I as (i & <- & I). apply IL in I as (Hi & E).
    apply PL; auto. unfold row_. apply nth_In. lia. }
  assert (NEr : rows <> []).
  { unfold rows. intros E. apply map_eq_nil in E. destruct (In_nth _ _ [] I0) as (i & Hi & Er).
    assert (In i ipol); [|rewrite E in *; auto]. rewrite IP. apply filter_In. split; [apply in_seq; lia|].
    unfold row_. rewrite Er. auto. }
  unfold float_polycost. destruct rows as [|a rs] eqn:Er; [contradiction|]. rewrite <- Er in *.
  rewrite polycost_ok; auto.
  2:{ unfold rows. rewrite !map_length. reflexivity. }
  cbn [bind]. unfold rows. rewrite map2_maps, map_map.
  rewrite scatter_checked_def.
  2:{ rewrite !map_length. reflexivity. }
  2:{ rewrite repeat_length. intros i I. apply IL in I. lia. }
  f_equal. apply nth_ext with (d := 0%K) (d' := 0%K).
  - rewrite scatter_length, repeat_length, map_length, seq_length. reflexivity.
  - intros j Hj. rewrite scatter_length, repeat_length in Hj. rewrite nth_scatter_map by (auto; rewrite repeat_length; auto).
    rewrite (nth_map_lt _ _ _ _ 0) by (rewrite seq_length; auto). rewrite seq_nth by auto. cbn [Nat.add]. unfold pterm.
    destruct (in_dec Nat.eq_dec j ipol) as [I|I].
    + apply IL in I as (_ & ->). ring.
    + rewrite nth_repeat. destruct (cost_is 2 (row_ D j)) eqn:Q; [|ring]. destruct I. rewrite IP. apply filter_In.
      split; auto. apply in_seq. lia.
Qed.

Lemma cost_hess_ok x : cost_shape D x -> length gencost = ng ->
  exists H, (gt <- (if has_nz N then t <- general D x ;; Ok (Some t) else Ok None) ;; cost_hess D [] x gt) = Ok H /\
    ismat H (length x) (length x) (hessK x).
Proof.
  intros CS LG. pose proof CS as [LX _ _ _ _ ZD].
  assert (CH : forall gt, cost_hess D [] x gt = (d2f <- sparse (map (fun i => B * (B * pterm D x 2 i))%K (seq 0 ng) ++ repeat 0%K ng)
        (seq (nb + nb) ng ++ seq (nb + nb + ng) ng) (seq (nb + nb) ng ++ seq (nb + nb + ng) ng) (length x) (length x) ;;
      match gt with None => Ok d2f | Some t => g <- general_hess D t ;; addm d2f g end)).
  { intros gt. unfold cost_hess. cbv zeta. rewrite (gather_def gencost (seq 0 ng) []) by (intros i I; apply in_seq in I; lia).
    cbn [bind]. rewrite <- LG at 1. rewrite <- (list_as_map gencost []). rewrite poly_hess_ok by auto. reflexivity. }
  assert (SI : seq (nb + nb) ng ++ seq (nb + nb + ng) ng = seq (nb + nb) (ng + ng)) by (rewrite seq_app; reflexivity).
  rewrite SI in CH.
  destruct (sparse_diag (map (fun i => B * (B * pterm D x 2 i))%K (seq 0 ng) ++ repeat 0%K ng) (seq (nb + nb) (ng + ng)) (length x)
    (fun j => B * (B * pterm D x 2 (j - (nb + nb))))%K
    (fun j => if (nb + nb <=? j) && (j <? nb + nb + ng + ng) then B * (B * pterm D x 2 (j - (nb + nb))) else 0)%K) as (d & Ed & Hd).
  { apply seq_NoDup. }
  { intros i I. apply in_seq in I. lia. }
  { apply nth_ext with (d := 0%K) (d' := 0%K); rewrite app_length, repeat_length, !map_length, !seq_length; auto.
    intros i Hi. rewrite (nth_map_lt _ (seq (nb + nb) (ng + ng)) _ _ 0) by (rewrite seq_length; lia). rewrite seq_nth by lia.
    replace (nb + nb + i - (nb + nb)) with i by lia. destruct (Nat.lt_ge_cases i ng).
    - rewrite app_nth1 by (rewrite map_length, seq_length; auto). rewrite (nth_map_lt _ _ _ _ 0) by (rewrite seq_length; lia).
      rewrite seq_nth by lia. reflexivity.
    - rewrite app_nth2 by (rewrite map_length, seq_length; lia). rewrite map_length, seq_length, nth_repeat_lt by lia.
      unfold pterm, row_. rewrite nth_overflow by lia. rewrite cost_is_nil by lia. ring. }
  { intros i Hi. split.
    - intros I. apply in_seq in I. rewrite (proj2 (Nat.leb_le _ _)), (proj2 (Nat.ltb_lt _ _)) by lia. reflexivity.
    - intros I. destruct (Nat.leb_spec (nb + nb) i), (Nat.ltb_spec i (nb + nb + ng + ng)); auto. destruct I. apply in_seq. lia. }
  rewrite Ed in CH. cbn [bind] in CH.
  destruct (has_nz N) eqn:NZ.
  - destruct (general_ok D x ZD) as (t & -> & G). cbn [bind]. rewrite CH.
    destruct (general_hess_ok x t ZD G) as (g & -> & Hg). cbn [bind].
    destruct (ismat_add _ _ _ _ _ _ Hd Hg) as (h & -> & Hh). exists h. split; auto.
    eapply ismat_eq; [exact Hh|]. intros j k _ _. cbv beta. unfold hessK. f_equal.
    destruct (j =? k); reflexivity.
  - cbn [bind]. rewrite CH. exists d. split; auto. eapply ismat_eq; [exact Hd|]. intros j k Hj Hk. cbv beta. unfold hessK.
    assert (zhessK x j k = 0%K) as ->.
    { apply lsum_zero. intros i Hi. apply in_seq in Hi. rewrite (has_nz_false D x ZD NZ i j) by (auto; lia). ring. }
    destruct (j =? k); cbn [andb]; ring.
Qed.
End AcHessA.
