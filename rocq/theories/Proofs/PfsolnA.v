(** Facts about pfsoln: table updates, the reactive power split, the slack step. *)
From Coq Require Import Permutation.
From Verif Require Import Lib.ListFacts Model.AcPf Spec.PfSpec Proofs.LinAlgFacts Proofs.SparseFacts
  Proofs.FldFacts Proofs.NetworkA Proofs.NetworkB Proofs.NetworkC Proofs.NetworkD Proofs.NetworkE
  Proofs.YbusA Proofs.MatFacts Proofs.AcPfA Proofs.AcPfB.
Local Open Scope nat_scope.

Section PfsolnA.
Context {K : Type} {F : Fld K}.
Add Field KF : (@f_ok K F).
Add Ring CR : (@r_ok (cpx K) _).

(** ** table updates *)
Lemma set_rows_ok (t : list (list K)) rows j vals t' : NoDup rows ->
  set_rows t rows j vals = Ok t' ->
  length vals = length rows /\ length t' = length t /\
  (forall k, ~ In k rows -> nth_error t' k = nth_error t k) /\
  (forall p k, nth_error rows p = Some k -> exists r, nth_error t k = Some r /\ j < length r /\
     nth_error t' k = Some (upd r j (nth p vals 0%K))).
Proof.
  unfold set_rows. intros ND H. apply bind_ok in H as (o & Ho & H).
  apply bind_ok in H as (w & Hw & H). apply setcol_ok in Hw as (L & W & ->).
  apply scatter_checked_ok in H as (L' & R & ->).
  pose proof (gather_length _ _ _ Ho) as LO.
  split; [congruence|]. split; [apply scatter_length|].
  split. { intros k N. apply scatter_other; auto. }
  intros p k Hp. pose proof (gather_nth _ _ _ _ _ Ho Hp) as G.
  destruct (nth_error_lt o p) as (r & Hr); [apply nth_error_some_lt in Hp; lia|].
  exists r. rewrite <- G. split; auto.
  rewrite Forall_forall in W, R. split; [apply W; eapply nth_error_In; eauto|].
  apply (scatter_at rows t _ p k); auto.
  - unfold map2. rewrite nth_error_map.
    rewrite (nth_error_nth' _ (0%K, [])).
    + rewrite combine_nth by auto. rewrite (nth_error_nth _ _ _ Hr). reflexivity.
    + apply nth_error_some_lt in Hp. rewrite combine_length. lia.
  - apply R. eapply nth_error_In; eauto.
Qed.

Lemma set_rows_gather (t : list (list K)) rows j vals t' o : NoDup rows ->
  set_rows t rows j vals = Ok t' -> gather t rows = Ok o ->
  gather t' rows = Ok (map2 (fun v r => upd r j v) vals o).
Proof.
  intros ND H Ho. destruct (set_rows_ok _ _ _ _ _ ND H) as (L & L' & _ & U).
  pose proof (gather_length _ _ _ Ho) as LO.
  assert (forall i, In i rows -> i < length t') as R.
  { intros i I. apply In_nth_error in I as (p & Hp). destruct (U _ _ Hp) as (r & Hr & _).
    apply nth_error_some_lt in Hr. lia. }
  destruct (gather_ok t' rows R) as (v & Hv). rewrite Hv. f_equal. apply nth_error_ext. intros p.
  destruct (Nat.lt_ge_cases p (length rows)) as [Lp|Lp].
  - destruct (nth_error_lt rows p Lp) as (k & Hk). rewrite (gather_nth _ _ _ _ _ Hv Hk).
    destruct (U _ _ Hk) as (r & Hr & _ & ->). unfold map2. rewrite nth_error_map.
    rewrite (nth_error_nth' _ (0%K, [])) by (rewrite combine_length; lia).
    rewrite combine_nth by lia.
    pose proof (gather_nth _ _ _ _ _ Ho Hk) as G. rewrite Hr in G.
    rewrite (nth_error_nth _ _ _ G). reflexivity.
  - rewrite (proj2 (nth_error_None v p)) by (rewrite (gather_length _ _ _ Hv); auto).
    symmetry. apply nth_error_None. unfold map2. rewrite map_length, combine_length. lia.
Qed.

Lemma set_row1_ok (t : list (list K)) g j v t' : set_rows t [g] j [v] = Ok t' ->
  exists r, nth_error t g = Some r /\ j < length r /\ t' = upd t g (upd r j v).
Proof.
  intros H. unfold set_rows, gather in H. cbn [mapM] in H. apply bind_ok in H as (o & Ho & H).
  apply bind_ok in Ho as (r & Hr & Ho). injection Ho as <-. apply get_ok in Hr.
  apply bind_ok in H as (w & Hw & H). apply setcol_ok in Hw as (_ & W & ->).
  apply scatter_checked_ok in H as (_ & _ & ->). inversion W; subst. eauto.
Qed.

(** ** sums over positions *)
Definition at_bus (gbus : list nat) (d : list K) (b : nat) : K :=
  lsum (fun p => if nth p gbus 0 =? b then nth p d 0%K else 0%K) (seq 0 (length gbus)).

Lemma conn_row n nb gbus (data : list K) y p : n = length gbus -> length data = n -> p < n ->
  mulrow (SM n nb (zip3 (seq 0 n) gbus data)) y p
  = (nth p data 0 * nth (nth p gbus 0%nat) y 0)%K.
Proof.
  intros E L Hp. unfold mulrow. cbn [ents].
  rewrite (lsum_zip3 _ _ _ _ n) by (rewrite ?seq_length; auto). cbn [erow ecol ev].
  rewrite (lsum_ext _ (fun i => if p =? i then nth i data 0 * nth (nth i gbus 0%nat) y 0 else 0)%K).
  - apply (lsum_seq_single' (fun i => nth i data 0 * nth (nth i gbus 0%nat) y 0)%K). auto.
  - intros i Hi. apply in_seq in Hi. rewrite seq_nth by lia. simpl. rewrite Nat.eqb_sym. reflexivity.
Qed.

Lemma conn_col n nb gbus (data : list K) x b : n = length gbus -> length data = n ->
  mulrow (transp (SM n nb (zip3 (seq 0 n) gbus data))) x b
  = lsum (fun p => if nth p gbus 0%nat =? b then nth p data 0 * nth p x 0 else 0)%K (seq 0 n).
Proof.
  intros E L. rewrite mulrow_transp. cbn [ents].
  rewrite (lsum_zip3 _ _ _ _ n) by (rewrite ?seq_length; auto). cbn [erow ecol ev].
  apply lsum_ext. intros i Hi. apply in_seq in Hi. rewrite seq_nth by lia. reflexivity.
Qed.

Lemma nth_mulv (M : smat K) x y i : mulv M x = Ok y -> i < nrows M ->
  nth i y 0%K = mulrow M x i.
Proof. intros H Hi. apply mulv_ok in H as (_ & _ & N). apply nth_error_nth, N; auto. Qed.

Lemma at_bus_ext gbus d d' b : (forall p, p < length gbus -> nth p gbus 0 = b ->
  nth p d 0%K = nth p d' 0%K) -> at_bus gbus d b = at_bus gbus d' b.
Proof.
  intros H. apply lsum_ext. intros p Hp. apply in_seq in Hp.
  destruct (Nat.eqb_spec (nth p gbus 0) b); auto. apply H; auto; lia.
Qed.

Lemma at_bus_const gbus (c : K) b :
  at_bus gbus (repeat c (length gbus)) b = (c * at_bus gbus (repeat 1 (length gbus)) b)%K.
Proof.
  unfold at_bus. rewrite <- lsum_scal. apply lsum_ext. intros p Hp. apply in_seq in Hp.
  rewrite !nth_repeat_lt by lia. destruct (_ =? _); ring.
Qed.

(** ** the split of reactive power *)
Lemma share_q_ok nb gbus qmin qmax (need : nat -> K) q :
  share_q nb gbus qmin qmax (map need gbus) = Ok q ->
  let cnt := at_bus gbus (repeat 1%K (length gbus)) in
  let lo := at_bus gbus qmin in let hi := at_bus gbus qmax in
  length q = length gbus /\ length qmin = length gbus /\ length qmax = length gbus /\
  forall p, p < length gbus -> let b := nth p gbus 0 in
    b < nb /\ cnt b <> 0%K /\ (hi b - lo b + EPS)%K <> 0%K /\
    nth p q 0%K = if feqb (lo b) (hi b) then (need b / cnt b)%K
      else (nth p qmin 0 + (need b - lo b) / (hi b - lo b + EPS) * (nth p qmax 0 - nth p qmin 0))%K.
Proof.
  intros H. unfold share_q in H. cbv zeta in H. set (n := length gbus) in *.
  apply bind_ok in H as (Cg & HC & H). apply sparse_ok in HC as (_ & _ & _ & RB & ->).
  apply bind_ok in H as (cn & Hcn & H). apply bind_ok in H as (ngg & Hng & H).
  apply bind_ok in H as (q1 & Hq1 & H).
  apply bind_ok in H as (Cmin & HCm & H). apply sparse_ok in HCm as (Lmin & _ & _ & _ & ->).
  apply bind_ok in H as (Cmax & HCx & H). apply sparse_ok in HCx as (Lmax & _ & _ & _ & ->).
  apply bind_ok in H as (Qt & HQt & H). apply bind_ok in H as (Qn & HQn & H).
  apply bind_ok in H as (Qx & HQx & H). apply bind_ok in H as (lo & Hlo & H).
  apply bind_ok in H as (hi & Hhi & H). apply bind_ok in H as (num & Hnum & H).
  apply bind_ok in H as (rng & Hrng & H). apply bind_ok in H as (rat & Hrat & H).
  apply bind_ok in H as (cr & Hcr & H). apply bind_ok in H as (w & Hw & H). injection H as <-.
  rewrite seq_length in Lmin, Lmax.
  assert (length (repeat (1%K : K) n) = n) as LR by apply repeat_length.
  pose proof (proj1 (proj2 (mulv_ok _ _ _ Hcn))) as Lcn. cbn [nrows transp ncols] in Lcn.
  pose proof (proj1 (proj2 (mulv_ok _ _ _ Hng))) as Lng. cbn [nrows transp ncols] in Lng.
  pose proof (proj1 (proj2 (mulv_ok _ _ _ HQt))) as LQt. cbn [nrows transp ncols] in LQt.
  pose proof (proj1 (proj2 (mulv_ok _ _ _ HQn))) as LQn. cbn [nrows transp ncols] in LQn.
  pose proof (proj1 (proj2 (mulv_ok _ _ _ HQx))) as LQx. cbn [nrows transp ncols] in LQx.
  pose proof (proj1 (proj2 (mulv_ok _ _ _ Hlo))) as Llo. cbn [nrows transp ncols] in Llo.
  pose proof (proj1 (proj2 (mulv_ok _ _ _ Hhi))) as Lhi. cbn [nrows transp ncols] in Lhi.
  pose proof (proj1 (proj2 (mulv_ok _ _ _ Hcr))) as Lcr. cbn [nrows transp ncols] in Lcr.
  apply vdiv_ok in Hq1 as (_ & NZ1 & Eq1). apply ewise_ok in Hnum as (_ & Enum).
  apply ewise_ok in Hrng as (_ & Erng). apply vdiv_ok in Hrat as (_ & NZ2 & Erat).
  apply ewise_ok in Hw as (_ & Ew).
  set (cnt := at_bus gbus (repeat 1%K n)). set (lob := at_bus gbus qmin). set (hib := at_bus gbus qmax).
  assert (forall b, b < nb -> nth b cn 0%K = cnt b) as Ecn.
  { intros b Hb. rewrite (nth_mulv _ _ _ _ Hcn) by auto. rewrite conn_col by auto.
    apply lsum_ext. intros p Hp. apply in_seq in Hp. rewrite nth_repeat_lt by lia.
    destruct (_ =? _); ring. }
  assert (forall b, b < nb -> nth b Qn 0%K = lob b) as EQn.
  { intros b Hb. rewrite (nth_mulv _ _ _ _ HQn) by auto. rewrite conn_col by auto.
    apply lsum_ext. intros p Hp. apply in_seq in Hp. rewrite nth_repeat_lt by lia.
    destruct (_ =? _); ring. }
  assert (forall b, b < nb -> nth b Qx 0%K = hib b) as EQx.
  { intros b Hb. rewrite (nth_mulv _ _ _ _ HQx) by auto. rewrite conn_col by auto.
    apply lsum_ext. intros p Hp. apply in_seq in Hp. rewrite nth_repeat_lt by lia.
    destruct (_ =? _); ring. }
  assert (forall (y z : list K) p, mulv (SM n nb (zip3 (seq 0 n) gbus (repeat 1%K n))) y = Ok z -> p < n ->
            nth p z 0%K = nth (nth p gbus 0) y 0%K) as PICK.
  { intros y z p Hz Hp. rewrite (nth_mulv _ _ _ _ Hz) by auto. rewrite conn_row by auto.
    rewrite nth_repeat_lt by auto. ring. }
  assert (forall p, p < n -> nth p gbus 0 < nb) as LB.
  { intros p Hp. rewrite Forall_forall in RB. apply RB, nth_In. auto. }
  assert (forall p, p < n -> nth p ngg 0%K = cnt (nth p gbus 0)) as Eng.
  { intros p Hp. rewrite (PICK _ _ _ Hng) by auto. apply Ecn, LB; auto. }
  assert (forall p, p < n -> cnt (nth p gbus 0) <> 0%K) as NC.
  { intros p Hp. rewrite <- Eng by auto. rewrite Forall_forall in NZ1. apply NZ1, nth_In. lia. }
  assert (length q1 = n) as Lq1
    by (rewrite Eq1; unfold map2; rewrite map_length, combine_length, map_length; fold n; lia).
  assert (forall p, p < n -> nth p q1 0%K = (need (nth p gbus 0%nat) / cnt (nth p gbus 0%nat))%K) as Nq1.
  { intros p Hp. rewrite Eq1. rewrite (nth_map2_d _ _ _ _ 0%K 0%K) by (rewrite ?map_length; fold n; lia).
    rewrite Eng by auto. rewrite (nth_map_lt _ _ _ _ 0) by auto. reflexivity. }
  assert (forall p, p < n -> nth (nth p gbus 0) Qt 0%K = need (nth p gbus 0)) as EQt.
  { intros p Hp. set (b := nth p gbus 0). rewrite (nth_mulv _ _ _ _ HQt) by (apply LB; auto).
    rewrite conn_col by auto.
    rewrite (lsum_ext _ (fun i => (need b / cnt b) * (if nth i gbus 0%nat =? b then nth i (repeat 1 n) 0 else 0))%K).
    - rewrite lsum_scal. change (need b / cnt b * cnt b = need b)%K. field. apply NC; auto.
    - intros i Hi. apply in_seq in Hi. destruct (Nat.eqb_spec (nth i gbus 0) b) as [E|E]; [|ring].
      rewrite Nq1, E, nth_repeat_lt by lia. ring. }
  assert (forall b, b < nb -> nth b rng 0%K = (hib b - lob b)%K) as Erg.
  { intros b Hb. rewrite Erng, (nth_map2_d _ _ _ _ 0%K 0%K) by lia. rewrite EQx, EQn by auto. auto. }
  assert (length rng = nb) as Lrng
    by (rewrite Erng; unfold map2; rewrite map_length, combine_length; lia).
  assert (length num = nb) as Lnum
    by (rewrite Enum; unfold map2; rewrite map_length, combine_length; lia).
  assert (forall b, b < nb -> (hib b - lob b + EPS)%K <> 0%K) as NR.
  { intros b Hb. rewrite <- Erg by auto. rewrite Forall_map, Forall_forall in NZ2. apply NZ2, nth_In. lia. }
  cbv zeta.
  assert (length w = n) as Lw by (rewrite Ew; unfold map2; rewrite map_length, combine_length; lia).
  split.
  { unfold map2. rewrite !map_length, !combine_length, !map_length, !combine_length, !map_length,
      !combine_length. lia. }
  split; [lia|]. split; [lia|]. intros p Hp.
  split; [auto|]. split; [apply NC; auto|]. split; [apply NR; auto|].
  set (b := nth p gbus 0).
  rewrite (nth_map2_d _ _ _ _ (true, 0%K) 0%K).
  2, 3: unfold map2; rewrite ?map_length, ?combine_length, ?map_length, ?combine_length, ?map_length,
      ?combine_length; lia.
  rewrite combine_nth by (unfold map2; rewrite map_length, combine_length; lia).
  cbn [fst snd].
  rewrite (nth_map2_d _ _ _ _ 0%K 0%K) by lia.
  rewrite (PICK _ _ _ Hlo), (PICK _ _ _ Hhi) by auto. rewrite EQn, EQx by (apply LB; auto).
  fold b. rewrite Nq1 by auto. fold b.
  destruct (feqb (lob b) (hib b)); auto.
  rewrite (nth_map2_d _ _ _ _ 0%K 0%K) by (unfold map2; rewrite ?map_length, ?combine_length; lia).
  f_equal. rewrite (nth_map2_d _ _ _ _ 0%K 0%K) by lia.
  rewrite (PICK _ _ _ Hcr) by auto. fold b. f_equal.
  - rewrite Erat. rewrite (nth_map2_d _ _ _ _ 0%K 0%K) by (rewrite ?map_length; unfold b; rewrite ?Lnum, ?Lrng; apply LB; auto).
    rewrite (nth_map_lt _ _ _ _ 0%K) by (rewrite Lrng; apply LB; auto).
    rewrite Erg by (apply LB; auto).
    rewrite Enum, (nth_map2_d _ _ _ _ 0%K 0%K) by (unfold b; rewrite ?LQt, ?LQn; apply LB; auto).
    unfold b at 1. rewrite EQt by auto. fold b. rewrite EQn by (apply LB; auto). reflexivity.
  - rewrite Ew, (nth_map2_d _ _ _ _ 0%K 0%K) by lia. reflexivity.
Qed.
End PfsolnA.
