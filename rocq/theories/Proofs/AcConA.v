(** Block matrices by entries, and the pieces of opf_consfcn that always succeed. *)
From Verif Require Import Lib.ListFacts Model.OpfFcn Spec.AcConSpec Proofs.LinAlgFacts Proofs.SparseFacts
  Proofs.FldFacts Proofs.MatFacts Proofs.NetworkA Proofs.NetworkC Proofs.NetworkD Proofs.AcPfA Proofs.PipsF Proofs.AcCostB Proofs.AcCostC.
Local Open Scope nat_scope.

Section Blocks.
Context {K : Type} {R : Rng K}.
Add Ring KR : (@r_ok K _).

Lemma at_beyond (M : smat K) i j : wf M -> nrows M <= i \/ ncols M <= j -> at_ M i j = 0%K.
Proof.
  intros W H. unfold at_. apply lsum_zero. intros e He. unfold wf in W. rewrite Forall_forall in W. apply W in He.
  destruct (Nat.eqb_spec (erow e) i), (Nat.eqb_spec (ecol e) j); cbn [andb]; auto. lia.
Qed.
Lemma ismat_hstack (A B : smat K) nr n m f g : ismat A nr n f -> ismat B nr m g ->
  exists M, hstackm A B = Ok M /\ ismat M nr (n + m) (fun i j => if j <? n then f i j else g i (j - n)).
Proof.
  intros (WA & A1 & A2 & HA) (WB & B1 & B2 & HB). unfold hstackm. rewrite A1, B1, Nat.eqb_refl.
  eexists. split; [reflexivity|]. split; [|split; [auto|split; [cbn; lia|]]].
  - unfold wf in *. cbn [nrows ncols ents]. rewrite A1, A2 in WA. rewrite B1, B2 in WB. apply Forall_app. split.
    + eapply Forall_impl; [|exact WA]. cbn. lia.
    + apply Forall_map. eapply Forall_impl; [|exact WB]. cbn. lia.
  - intros i j Hi Hj. unfold at_. cbn [ents]. rewrite lsum_app, lsum_map.
    assert (E2 : lsum (fun x : entry K => if (erow x =? i) && (ncols A + ecol x =? j) then ev x else 0%K) (ents B)
       = if j <? n then 0%K else at_ B i (j - n)).
    { destruct (Nat.ltb_spec j n).
      - apply lsum_zero. intros e He. destruct (Nat.eqb_spec (ncols A + ecol e) j); [lia|]. rewrite andb_false_r. auto.
      - apply lsum_ext. intros e He. f_equal. f_equal. destruct (Nat.eqb_spec (ncols A + ecol e) j), (Nat.eqb_spec (ecol e) (j - n)); auto; lia. }
    cbn [erow ecol ev]. rewrite E2. change (radd (at_ A i j) (if j <? n then 0%K else at_ B i (j - n)) = (if j <? n then f i j else g i (j - n))).
    destruct (Nat.ltb_spec j n).
    + rewrite HA by auto. ring.
    + rewrite HB by lia. rewrite at_beyond by (auto; lia). ring.
Qed.
Lemma ismat_vstack (A B : smat K) nr mr n f g : ismat A nr n f -> ismat B mr n g ->
  exists M, vstackm A B = Ok M /\ ismat M (nr + mr) n (fun i j => if i <? nr then f i j else g (i - nr) j).
Proof.
  intros (WA & A1 & A2 & HA) (WB & B1 & B2 & HB). unfold vstackm. rewrite A2, B2, Nat.eqb_refl.
  eexists. split; [reflexivity|]. split; [|split; [cbn; lia|split; [auto|]]].
  - unfold wf in *. cbn [nrows ncols ents]. rewrite A1, A2 in WA. rewrite B1, B2 in WB. apply Forall_app. split.
    + eapply Forall_impl; [|exact WA]. cbn. lia.
    + apply Forall_map. eapply Forall_impl; [|exact WB]. cbn. lia.
  - intros i j Hi Hj. unfold at_. cbn [ents]. rewrite lsum_app, lsum_map.
    assert (E2 : lsum (fun x : entry K => if (nrows A + erow x =? i) && (ecol x =? j) then ev x else 0%K) (ents B)
       = if i <? nr then 0%K else at_ B (i - nr) j).
    { destruct (Nat.ltb_spec i nr).
      - apply lsum_zero. intros e He. destruct (Nat.eqb_spec (nrows A + erow e) i); [lia|]. auto.
      - apply lsum_ext. intros e He. f_equal. f_equal. destruct (Nat.eqb_spec (nrows A + erow e) i), (Nat.eqb_spec (erow e) (i - nr)); auto; lia. }
    cbn [erow ecol ev]. rewrite E2. change (radd (at_ A i j) (if i <? nr then 0%K else at_ B (i - nr) j) = (if i <? nr then f i j else g (i - nr) j)).
    destruct (Nat.ltb_spec i nr).
    + rewrite HA by auto. ring.
    + rewrite HB by lia. rewrite at_beyond by (auto; lia). ring.
Qed.
Lemma ismat_blank nr nc : ismat (SM nr nc [] : smat K) nr nc (fun _ _ => 0%K).
Proof. split; [constructor|]. do 2 (split; auto). Qed.
End Blocks.

Section Con.
Context {K : Type} {F : Fld K}.
Add Field KF : (@f_ok K F).

Lemma ismat_widen (M : smat K) nr nc n f : ismat M nr nc f -> nc <= n ->
  ismat (widen n M) nr n (fun i j => if j <? nc then f i j else 0%K).
Proof.
  intros (W & A1 & A2 & H) L. split; [|split; [auto|split; [auto|]]].
  - unfold wf, widen in *. cbn [nrows ncols ents]. eapply Forall_impl; [|exact W]. cbn. lia.
  - intros i j Hi Hj. change (at_ (widen n M) i j) with (at_ M i j). destruct (Nat.ltb_spec j nc); [apply H; auto|].
    apply at_beyond; auto. lia.
Qed.
Lemma ismat_corner (M : smat K) m n f : ismat M m m f -> m <= n ->
  ismat (corner n M) n n (fun i j => if (i <? m) && (j <? m) then f i j else 0%K).
Proof.
  intros (W & A1 & A2 & H) L. split; [|split; [auto|split; [auto|]]].
  - unfold wf, corner in *. cbn [nrows ncols ents]. eapply Forall_impl; [|exact W]. cbn. lia.
  - intros i j Hi Hj. change (at_ (corner n M) i j) with (at_ M i j).
    destruct (Nat.ltb_spec i m), (Nat.ltb_spec j m); cbn [andb]; [apply H; auto|..]; apply at_beyond; auto; lia.
Qed.

Lemma setcol_def j (vals : list K) t : length vals = length t -> Forall (fun r => j < length r) t ->
  setcol j vals t = Ok (map2 (fun v r => upd r j v) vals t).
Proof.
  intros L W. unfold setcol. rewrite L, Nat.eqb_refl. cbn [negb]. unfold map2.
  assert (W' : Forall (fun p : K * list K => j < length (snd p)) (combine vals t)).
  { apply Forall_forall. intros (v, r) I. apply in_combine_r in I. rewrite Forall_forall in W. apply W. auto. }
  clear W. induction W' as [|(v, r) l H _ IH]; [reflexivity|]. cbn [mapM map fst snd] in *. rewrite IH.
  unfold set_checked. rewrite (proj2 (Nat.ltb_lt _ _) H). reflexivity.
Qed.
Lemma upd_length {A} (l : list A) k x : length (upd l k x) = length l.
Proof. revert k. induction l; intros [|k]; simpl; auto. Qed.

(** the generator table with new outputs *)
Lemma gens_set (gen : list (list K)) (P Q : list K) :
  length P = length gen -> length Q = length gen -> wide GEN_STATUS gen ->
  exists g1 g2, setcol PG P gen = Ok g1 /\ setcol QG Q g1 = Ok g2 /\ length g2 = length gen /\ wide GEN_STATUS g2 /\
    (forall k, k < length gen -> nth k g2 [] = upd (upd (nth k gen []) PG (nth k P 0%K)) QG (nth k Q 0%K)).
Proof.
  intros LP LQ W.
  assert (W1 : Forall (fun r => PG < length r) gen) by (eapply Forall_impl; [|exact W]; cbn; unfold GEN_STATUS, PG; lia).
  set (g1 := map2 (fun v r => upd r PG v) P gen). exists g1, (map2 (fun v r => upd r QG v) Q g1).
  split; [apply setcol_def; auto|]. assert (L1 : length g1 = length gen) by (unfold g1; rewrite map2_length; lia).
  assert (N1 : forall k, k < length gen -> nth k g1 [] = upd (nth k gen []) PG (nth k P 0%K)).
  { intros k Hk. unfold g1. rewrite (nth_map2_d _ _ _ _ 0%K []) by lia. reflexivity. }
  assert (W1' : wide GEN_STATUS g1).
  { apply Forall_forall. intros r I. apply (In_nth _ _ []) in I as (k & Hk & <-). rewrite N1 by lia. rewrite upd_length.
    unfold wide in W. rewrite Forall_forall in W. apply W. apply nth_In. lia. }
  split; [apply setcol_def; [lia|]|].
  { eapply Forall_impl; [|exact W1']. cbn. unfold GEN_STATUS, QG. lia. }
  assert (N2 : forall k, k < length gen -> nth k (map2 (fun v r => upd r QG v) Q g1) [] = upd (upd (nth k gen []) PG (nth k P 0%K)) QG (nth k Q 0%K)).
  { intros k Hk. rewrite (nth_map2_d _ _ _ _ 0%K []) by lia. rewrite N1 by auto. reflexivity. }
  split; [rewrite map2_length; lia|]. split; auto.
  apply Forall_forall. intros r I. apply (In_nth _ _ []) in I as (k & Hk & <-). rewrite map2_length in Hk. rewrite N2 by lia. rewrite !upd_length.
  unfold wide in W. rewrite Forall_forall in W. apply W. apply nth_In. lia.
Qed.
Lemma gens_total (gen g2 : list (list K)) (P Q : list K) i : wide GEN_STATUS gen ->
  length g2 = length gen -> 
  (forall k, k < length gen -> nth k g2 [] = upd (upd (nth k gen []) PG (nth k P 0%K)) QG (nth k Q 0%K)) ->
  gen_total (fun g => cell g PG) g2 i = lsum (fun k => let g := nth k gen [] in
    if in_service g && (bus_no g GEN_BUS =? i) then nth k P 0%K else 0%K) (seq 0 (length gen)) /\
  gen_total (fun g => cell g QG) g2 i = lsum (fun k => let g := nth k gen [] in
    if in_service g && (bus_no g GEN_BUS =? i) then nth k Q 0%K else 0%K) (seq 0 (length gen)).
Proof.
  intros W L N. unfold gen_total. rewrite !(lsum_nth _ g2 []), L.
  unfold wide in W. rewrite Forall_forall in W.
  split; apply lsum_ext; intros k Hk; apply in_seq in Hk; rewrite N by lia; cbv zeta;
    assert (Wk : GEN_STATUS < length (nth k gen [])) by (apply W, nth_In; lia); unfold GEN_STATUS in Wk;
    unfold in_service, bus_no, cell; rewrite !nth_upd_other by (unfold PG, QG, GEN_BUS, GEN_STATUS; lia).
  - rewrite nth_upd_same by (unfold PG; lia). reflexivity.
  - rewrite nth_upd_same by (rewrite upd_length; unfold QG; lia). reflexivity.
Qed.
Lemma gens_bus (gen g2 : list (list K)) (P Q : list K) : length g2 = length gen ->
  (forall k, k < length gen -> nth k g2 [] = upd (upd (nth k gen []) PG (nth k P 0%K)) QG (nth k Q 0%K)) ->
  map (fun r => bus_no r GEN_BUS) g2 = map (fun r => bus_no r GEN_BUS) gen.
Proof.
  intros L N. apply (nth_ext _ _ 0 0); rewrite !map_length; auto. intros k Hk.
  rewrite !(nth_map_lt _ _ _ _ []) by lia. rewrite N by lia. unfold bus_no, cell.
  rewrite !nth_upd_other by (unfold PG, QG, GEN_BUS; lia). reflexivity.
Qed.

Lemma makeSbus_def B (bus gen : list (list K)) : B <> 0%K -> wide QD bus -> wide GEN_STATUS gen ->
  buses_ok (length bus) GEN_BUS gen -> exists S, makeSbus B bus gen = Ok S.
Proof.
  intros Bz WB WG BO. unfold makeSbus.
  assert (C : forall j t, wide j t -> forall i : nat, i <= j -> Forall (fun r : list K => i < length r) t).
  { intros j t W i Hi. eapply Forall_impl; [|exact W]. cbn. lia. }
  rewrite (col_def GEN_STATUS gen WG). cbn [bind]. cbv zeta. rewrite map_map.
  change (fun x : list K => pos_status (nth GEN_STATUS x 0%K)) with in_service.
  rewrite gather_find. cbn [bind]. set (gon := filter in_service gen).
  assert (WO : wide GEN_STATUS gon).
  { apply Forall_forall. intros r I. apply filter_In in I as (I & _). unfold wide in WG. rewrite Forall_forall in WG. auto. }
  assert (BO' : buses_ok (length bus) GEN_BUS gon).
  { apply Forall_forall. intros r I. apply filter_In in I as (I & _). unfold buses_ok in BO. rewrite Forall_forall in BO. auto. }
  rewrite idxcol_def.
  2:{ apply (C _ _ WO). unfold GEN_BUS. lia. }
  2:{ eapply Forall_impl; [|exact BO']. cbn. tauto. }
  cbn [bind].
  assert (LF : length (find (map in_service gen)) = length gon).
  { pose proof (gather_find in_service gen) as G. unfold gather in G. apply mapM_length in G. unfold gon. congruence. }
  rewrite sparse_def.
  2:{ rewrite repeat_length, map_length. lia. }
  2:{ rewrite repeat_length, seq_length. lia. }
  2:{ apply Forall_map. eapply Forall_impl; [|exact BO']. cbn. tauto. }
  2:{ apply Forall_forall. intros k I. apply in_seq in I. lia. }
  cbn [bind]. rewrite (col_def PG gon), (col_def QG gon); [|apply (C _ _ WO); unfold QG, GEN_STATUS; lia|apply (C _ _ WO); unfold PG, GEN_STATUS; lia].
  cbn [bind]. rewrite mulv_def by (cbn [ncols]; rewrite map2_length, !map_length, LF, Nat.min_id; reflexivity). cbn [bind].
  rewrite (col_def PD bus), (col_def QD bus) by (apply (C _ _ WB); unfold PD, QD; lia). cbn [bind].
  destruct (feqb B 0%K) eqn:E; [apply feqb_ok in E; contradiction|]. eauto.
Qed.
Lemma mismatch_def n Y (S V : list (cpx K)) : square n Y -> length V = n -> length S = n ->
  mismatch Y S V = Ok (map (excess Y S V) (seq 0 n)).
Proof.
  intros SQ LV LS. assert (exists m, mismatch Y S V = Ok m) as (m & E).
  { pose proof SQ as (R & C & W). unfold mismatch. rewrite mulv_def by congruence. cbn [bind].
    rewrite ewise_def by (rewrite map_length, seq_length; lia). cbn [bind].
    rewrite ewise_def; [eauto|]. rewrite map2_length, map_length, seq_length. lia. }
  rewrite E. f_equal. apply (mismatch_ok _ _ _ _ _ SQ E).
Qed.
End Con.
