(** opf_consfcn: the values of the constraints, for any field. *)
From Verif Require Import Lib.ListFacts Model.OpfFcn Spec.AcConSpec Proofs.LinAlgFacts Proofs.SparseFacts
  Proofs.FldFacts Proofs.MatFacts Proofs.NetworkA Proofs.NetworkC Proofs.NetworkD Proofs.YbusA Proofs.AcPfA Proofs.PipsF Proofs.AcCostB
  Proofs.AcCostC Proofs.AcConA.
Local Open Scope nat_scope.

Section Con.
Context {K : Type} {F : Fld K}.
Add Field KF : (@f_ok K F).
Variables (cis : K -> cpx K) (cabs : cpx K -> K) (D : acdata (K := K)) (lim : flow_lim) (Y Yf Yt : smat (cpx K)) (il : list nat).
Notation B := (a_base D).
Notation bus := (a_bus D).
Notation gen := (a_gen D).
Notation nb := (length (a_bus D)).
Notation ng := (length (a_gen D)).
Notation nl := (length il).
Notation brow := (brow D il).
Notation brows := (brows D il).
Notation con_shape := (con_shape D Y Yf Yt il).

Definition gvals (x : list K) : list K :=
  map (fun i => p_balance cis B bus gen Y i x) (seq 0 nb) ++ map (fun i => q_balance cis B bus gen Y i x) (seq 0 nb).
Definition hvals (x : list K) : list K :=
  map (fun l => overflow cis lim B nb (brow l) F_BUS Yf l x) (seq 0 nl) ++
  map (fun l => overflow cis lim B nb (brow l) T_BUS Yt l x) (seq 0 nl).

Definition con_derivs (nxyz : nat) (V : list (cpx K)) : result (option (smat K) * option (smat K)) :=
  '(dVm, dVa) <- dSbus_dV cabs Y V ;;
  negCg <- sparse (repeat (ropp 1%K) ng) (map (fun r => bus_no r GEN_BUS) gen) (seq 0 ng) nb ng ;;
  let blank := SM nb ng [] in
  p1 <- hstackm (realm dVa) (realm dVm) ;; p2 <- hstackm p1 negCg ;; p <- hstackm p2 blank ;;
  q1 <- hstackm (imagm dVa) (imagm dVm) ;; q2 <- hstackm q1 blank ;; q <- hstackm q2 negCg ;;
  pq <- vstackm p q ;;
  let dg := transp (widen nxyz pq) in
  if nl =? 0 then Ok (None, Some dg)
  else
    '(fa, fm, ta, tm, Ff, Ft) <-
      match lim with LimI => dIbr_dV cabs Yf Yt V | _ => dSbr_dV cabs brows Yf Yt V end ;;
    '(da, dm, ea, em) <-
      match lim with
      | LimP => dAbr_dV (real_part fa) (real_part fm) (real_part ta) (real_part tm)
                  (map (fun z => ofK (re z)) Ff) (map (fun z => ofK (re z)) Ft)
      | _ => dAbr_dV fa fm ta tm Ff Ft
      end ;;
    hf <- hstackm da dm ;; ht <- hstackm ea em ;;
    hh <- vstackm hf ht ;;
    Ok (Some (transp (widen nxyz hh)), Some dg).

Lemma voltage_ok x : nb + nb <= length x -> voltage cis D x = Ok (ac_volt cis nb x).
Proof.
  intros L. unfold voltage, polar, getVm, getVa, ac_volt. rewrite ewise_def by (rewrite !slice_length; lia). f_equal.
  rewrite (map2_nth _ _ _ 0%K 0%K) by (rewrite !slice_length; lia).
  replace (length (slice nb (nb + nb) x)) with nb by (rewrite slice_length; lia). apply map_ext_in. intros k Hk. apply in_seq in Hk.
  rewrite !nth_slice_d by lia. reflexivity.
Qed.
Lemma nth_volt x i : i < nb -> nth i (ac_volt cis nb x) 0%K = (ofK (nth (nb + i) x 0) * cis (nth i x 0))%K.
Proof. intros Hi. unfold ac_volt. rewrite (nth_map_lt _ _ _ _ 0) by (rewrite seq_length; lia). rewrite seq_nth by lia. reflexivity. Qed.
Lemma len_volt x : length (ac_volt cis nb x) = nb.
Proof. unfold ac_volt. rewrite map_length, seq_length. reflexivity. Qed.

Lemma bind_end {A C E} (m : result A) (f : A -> result C) (g : A -> result E) (k : C -> result E) :
  (forall a, g a = (c <- f a ;; k c)) -> (a <- m ;; g a) = (c <- (a <- m ;; f a) ;; k c).
Proof. intros H. destruct m; cbn [bind]; auto. Qed.

Lemma endflow_ok f (M : smat (cpx K)) V : fits nl nb M -> length V = nb -> length f = nl -> Forall (fun i => i < nb) f ->
  exists fl, end_flow lim f M V = Ok fl /\ length fl = nl /\
    forall l, l < nl -> sq_flow lim (nth l fl 0%K) = end_sq lim M (nth l f 0) l V.
Proof.
  intros (R & C & W) LV LF FF. unfold end_flow. rewrite mulv_def by congruence. cbn [bind].
  assert (WM : wf M) by (unfold wf; rewrite R, C; auto).
  assert (I : forall l, l < nl -> nth l (map (mulrow M V) (seq 0 (nrows M))) 0%K = bus_current M V l).
  { intros l Hl. rewrite (nth_map_lt _ _ _ _ 0) by (rewrite seq_length; lia). rewrite seq_nth by lia. apply mulrow_at; auto. }
  assert (LI : length (map (mulrow M V) (seq 0 (nrows M))) = nl) by (rewrite map_length, seq_length; auto).
  set (cur := map (mulrow M V) (seq 0 (nrows M))) in *. clearbody cur.
  assert (NR : forall z : cpx K, re (cmul z (conj z)) = nrm2 z) by (intros z; unfold nrm2; cbn; ring).
  destruct lim.
  - rewrite (gather_def V f 0%K) by (intros i Hi; rewrite Forall_forall in FF; rewrite LV; auto). cbn [bind].
    rewrite ewise_def by (rewrite map_length; lia). eexists. split; [reflexivity|]. split; [rewrite map2_length, map_length; lia|].
    intros l Hl. rewrite (nth_map2_d _ _ _ _ 0%K 0%K) by (rewrite ?map_length; lia). rewrite (nth_map_lt _ _ _ _ 0) by lia. rewrite I by auto.
    cbn [sq_flow end_sq]. rewrite NR. reflexivity.
  - rewrite (gather_def V f 0%K) by (intros i Hi; rewrite Forall_forall in FF; rewrite LV; auto). cbn [bind].
    rewrite ewise_def by (rewrite map_length; lia). eexists. split; [reflexivity|]. split; [rewrite map2_length, map_length; lia|].
    intros l Hl. rewrite (nth_map2_d _ _ _ _ 0%K 0%K) by (rewrite ?map_length; lia). rewrite (nth_map_lt _ _ _ _ 0) by lia. rewrite I by auto.
    reflexivity.
  - eexists. split; [reflexivity|]. split; auto. intros l Hl. rewrite I by auto. cbn [sq_flow end_sq]. rewrite NR. reflexivity.
Qed.

Lemma brows_len : length brows = nl.
Proof. unfold brows. apply map_length. Qed.
Lemma nth_brows l : l < nl -> nth l brows [] = brow l.
Proof. intros Hl. unfold brows, brow. rewrite (nth_map_lt _ _ _ _ 0) by lia. reflexivity. Qed.

Theorem consfcn_head x : con_shape -> nb + nb + ng + ng <= length x ->
  opf_consfcn cis cabs D lim Y Yf Yt il x
  = ('(dh, dg) <- con_derivs (length x) (ac_volt cis nb x) ;; Ok (hvals x, gvals x, dh, dg)).
Proof.
  intros S LX. destruct S. unfold opf_consfcn. cbv zeta.
  set (P := map (fun a => a * B)%K (getPg D x)). set (Q := map (fun a => a * B)%K (getQg D x)).
  assert (LP : length P = ng) by (unfold P, getPg; rewrite map_length, slice_length; lia).
  assert (LQ : length Q = ng) by (unfold Q, getQg; rewrite map_length, slice_length; lia).
  destruct (gens_set gen P Q LP LQ cn_gen) as (g1 & g2 & E1 & E2 & L2 & W2 & N2). rewrite E1. cbn [bind]. rewrite E2. cbn [bind].
  pose proof (gens_bus gen g2 P Q L2 N2) as GB.
  assert (B2 : buses_ok nb GEN_BUS g2).
  { unfold buses_ok in *. apply Forall_forall. intros r I. apply (In_nth _ _ []) in I as (k & Hk & <-).
    rewrite N2 by lia. unfold bus_no, cell. rewrite !nth_upd_other by (unfold PG, QG, GEN_BUS; lia).
    rewrite Forall_forall in cn_gbus. apply (cn_gbus (nth k gen [])). apply nth_In. lia. }
  destruct (makeSbus_def B bus g2 cn_B cn_bus W2 B2) as (Sb & ES). rewrite ES. cbn [bind].
  apply makeSbus_ok in ES as (_ & _ & _ & ES).
  rewrite voltage_ok by lia. cbn [bind]. set (V := ac_volt cis nb x).
  assert (LV : length V = nb) by apply len_volt.
  assert (LS : length Sb = nb) by (rewrite ES, map_length, seq_length; auto).
  rewrite (mismatch_def nb Y Sb V cn_Y LV LS). cbn [bind].
  rewrite (gather_def (a_branch D) il []) by (intros i Hi; rewrite Forall_forall in cn_il; auto). cbn [bind]. fold brows.
  assert (WJ : forall j, j <= RATE_A -> Forall (fun r : list K => j < length r) brows).
  { intros j Hj. eapply Forall_impl; [|exact cn_w]. cbn. lia. }
  rewrite (idxcol_def OutOfModel F_BUS brows), (idxcol_def OutOfModel T_BUS brows), (col_def RATE_A brows);
    try (apply WJ; unfold F_BUS, T_BUS, RATE_A; lia);
    try (eapply Forall_impl; [|exact cn_f]; cbn; tauto); try (eapply Forall_impl; [|exact cn_t]; cbn; tauto).
  cbn [bind].
  assert (GR : existsb (fun a => feqb a 0%K) (map (fun r => nth RATE_A r 0%K) brows) = false).
  { destruct (existsb _ _) eqn:E; auto. apply existsb_exists in E as (a & I & E). apply in_map_iff in I as (r & <- & I).
    apply feqb_ok in E. rewrite Forall_forall in cn_rate. destruct (cn_rate r I E). }
  rewrite GR. cbn [negb guard bind].
  set (fmax := map (fun a => (a / B * (a / B))%K) _).
  assert (LM : length fmax = nl) by (unfold fmax; rewrite !map_length, brows_len; auto).
  assert (NM : forall l, l < nl -> nth l fmax 0%K = (cell (brow l) RATE_A / B * (cell (brow l) RATE_A / B))%K).
  { intros l Hl. unfold fmax. rewrite map_map. rewrite (nth_map_lt _ _ _ _ []) by (rewrite brows_len; auto). rewrite nth_brows by auto. reflexivity. }
  clearbody fmax.
  assert (GV : map re (map (excess Y Sb V) (seq 0 nb)) ++ map im (map (excess Y Sb V) (seq 0 nb)) = gvals x).
  { unfold gvals. rewrite !map_map. 
    assert (PX : forall k, k < ng -> nth k P 0%K = (ac_output nb x k * B)%K).
    { intros k Hk. unfold P. rewrite (nth_map_lt _ _ _ _ 0%K) by (unfold getPg; rewrite slice_length; lia).
      unfold getPg. rewrite nth_slice_d by lia. reflexivity. }
    assert (QX : forall k, k < ng -> nth k Q 0%K = (ac_output nb x (ng + k) * B)%K).
    { intros k Hk. unfold Q. rewrite (nth_map_lt _ _ _ _ 0%K) by (unfold getQg; rewrite slice_length; lia).
      unfold getQg. rewrite nth_slice_d by lia. unfold ac_output. do 2 f_equal. lia. }
    f_equal; apply map_ext_in; intros i Hi; apply in_seq in Hi; unfold excess; rewrite ES;
      rewrite (nth_map_lt _ _ _ _ 0) by (rewrite seq_length; lia); rewrite seq_nth by lia; cbv zeta;
      destruct (gens_total gen g2 P Q (0 + i) cn_gen L2 N2) as (TP & TQ); rewrite TP, TQ; cbn [Nat.add].
    - unfold p_balance, ac_supply. cbn [re csub radd rsub cpx_rng].
      rewrite (lsum_ext _ (fun k => (let g := nth k gen [] in if in_service g && (bus_no g GEN_BUS =? i) then ac_output nb x (0 + k) else 0) * B)%K).
      + rewrite lsum_scal_r. fold V. cbn [rsub cpx_rng csub re]. field. auto.
      + intros k Hk. apply in_seq in Hk. rewrite PX by lia. cbv zeta. destruct (_ && _); cbn [Nat.add]; ring.
    - unfold q_balance, ac_supply.
      rewrite (lsum_ext (fun k => let g := nth k gen [] in if in_service g && (bus_no g GEN_BUS =? i) then nth k Q 0%K else 0%K)
        (fun k => (let g := nth k gen [] in if in_service g && (bus_no g GEN_BUS =? i) then ac_output nb x (ng + k) else 0) * B)%K).
      + rewrite lsum_scal_r. fold V. cbn [rsub cpx_rng csub im]. field. auto.
      + intros k Hk. apply in_seq in Hk. rewrite QX by lia. cbv zeta. destruct (_ && _); ring. }
  rewrite GV. clear GV.
  set (HH := if nl =? 0 then _ else _).
  assert (EH : HH = Ok (hvals x)).
  { unfold HH. destruct (Nat.eqb_spec nl 0) as [Z|Z].
    { unfold hvals. rewrite Z. reflexivity. }
    assert (X : forall j M, fits nl nb M -> buses_ok nb j brows ->
       exists fl, end_flow lim (map (fun r => bus_no r j) brows) M V = Ok fl /\ length fl = nl /\
        forall l, l < nl -> sq_flow lim (nth l fl 0%K) = end_sq lim M (bus_no (brow l) j) l V).
    { intros j M FM BO. destruct (endflow_ok (map (fun r => bus_no r j) brows) M V FM LV) as (fl & E & L & H).
      - rewrite map_length, brows_len; auto.
      - apply Forall_map. eapply Forall_impl; [|exact BO]. cbn. tauto.
      - exists fl. split; auto. split; auto. intros l Hl. rewrite H by auto. f_equal.
        rewrite (nth_map_lt _ _ _ _ []) by (rewrite brows_len; auto). rewrite nth_brows; auto. }
    destruct (X F_BUS Yf cn_Yf cn_f) as (ff & -> & Lf & Hf). destruct (X T_BUS Yt cn_Yt cn_t) as (ft & -> & Lt & Ht). cbn [bind].
    rewrite !ewise_def by lia. cbn [bind]. unfold hvals. do 2 f_equal;
      (rewrite (map2_nth _ _ _ 0%K 0%K) by lia; rewrite ?Lf, ?Lt; apply map_ext_in; intros l Hl; apply in_seq in Hl;
       unfold overflow; rewrite NM by lia; f_equal; [apply Hf || apply Ht]; lia). }
  rewrite EH. cbn [bind]. clear EH HH.
  unfold con_derivs. rewrite idxcol_def.
  2:{ eapply Forall_impl; [|exact W2]. cbn. unfold GEN_STATUS, GEN_BUS. lia. }
  2:{ eapply Forall_impl; [|exact B2]. cbn. tauto. }
  rewrite GB. cbv zeta.
  apply bind_end. intros (dVm, dVa). cbn [bind]. repeat (apply bind_end; intro).
  destruct (nl =? 0); [reflexivity|].
  apply bind_end. intros (((((fa, fm), ta), tm), Ff), Ft). apply bind_end. intros (((da, dm), ea), em).
  repeat (apply bind_end; intro). reflexivity.
Qed.
Lemma consfcn_values x h g dh dg : con_shape -> nb + nb + ng + ng <= length x ->
  opf_consfcn cis cabs D lim Y Yf Yt il x = Ok (h, g, dh, dg) -> h = hvals x /\ g = gvals x.
Proof.
  intros S LX. rewrite consfcn_head by auto. intros H. apply bind_ok in H as ((a, b) & _ & H). injection H as <- <- _ _. auto.
Qed.
End Con.
