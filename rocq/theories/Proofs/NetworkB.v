(** The DC matrices (C16). *)
From Verif Require Import Lib.ListFacts Lib.Sparse Proofs.LinAlgFacts Proofs.SparseFacts
  Model.Network Spec.NetSpec Proofs.NetworkA.
Local Open Scope nat_scope.

Section Bdc.
Context {K : Type} {F : Fld K}.
Add Ring KR : (@r_ok K _).
Add Field KF : (@f_ok K _).

Lemma vdiv_ok (u v w : list K) : vdiv u v = Ok w ->
  length u = length v /\ Forall (fun b => b <> 0%K) v /\ w = map2 fdiv u v.
Proof.
  unfold vdiv. destruct (Nat.eqb_spec (length u) (length v)); simpl; [|discriminate].
  destruct (existsb _ v) eqn:E; [discriminate|]. intros H; injection H as <-.
  repeat split; auto. apply Forall_forall. intros b Hb C.
  assert (existsb (fun b => feqb b 0%K) v = true); [|congruence].
  apply existsb_exists. exists b. split; auto. apply feqb_ok; auto.
Qed.

Lemma vdiv_def (u v : list K) : length u = length v -> Forall (fun b => b <> 0%K) v ->
  vdiv u v = Ok (map2 fdiv u v).
Proof.
  intros L N. unfold vdiv. rewrite L, Nat.eqb_refl. simpl.
  destruct (existsb _ v) eqn:E; auto. apply existsb_exists in E. destruct E as (b & Hb & E).
  apply feqb_ok in E. rewrite Forall_forall in N. exfalso. apply (N b); auto.
Qed.

Lemma map2_map {A B C D} (f : B -> C -> D) (g : A -> B) (h : A -> C) l :
  map2 f (map g l) (map h l) = map (fun x => f (g x) (h x)) l.
Proof. unfold map2. induction l; simpl; congruence. Qed.

Definition susc (r : list K) : K := (cell r BR_STATUS / cell r BR_X / tap_ratio r)%K.
Definition inc (r : list K) (i : nat) : K :=
  ((if bus_no r F_BUS =? i then 1 else 0) - (if bus_no r T_BUS =? i then 1 else 0))%K.
Definition dth (r Va : list K) : K :=
  (nth (bus_no r F_BUS) Va 0 - nth (bus_no r T_BUS) Va 0)%K.

Lemma tap_ratio_nz (r : list K) : tap_ratio r <> 0%K.
Proof.
  unfold tap_ratio. destruct (feqb (cell r TAP) 0%K) eqn:E.
  - apply (F_1_neq_0 f_ok).
  - intros C. assert (feqb (cell r TAP) 0%K = true) by (apply feqb_ok; auto). congruence.
Qed.

(** ** lists of branch ends as matrices: [r_[d, e]] at [(r_[0..n), 0..n)], r_[f, t])] *)
Section TwoEnds.
Variables (rows : list (list K)) (d e : list K -> K).
Let n := length rows.
Definition ends : list (entry K) :=
  zip3 (seq 0 n ++ seq 0 n)
    (map (fun r => bus_no r F_BUS) rows ++ map (fun r => bus_no r T_BUS) rows)
    (map d rows ++ map e rows).

Lemma lsum_ends (g : entry K -> K) :
  lsum g ends
  = lsum (fun l => let r := nth l rows [] in
       g (Ent l (bus_no r F_BUS) (d r)) + g (Ent l (bus_no r T_BUS) (e r)))%K (seq 0 n).
Proof.
  unfold ends. rewrite zip3_app by (rewrite ?map_length, ?seq_length; auto).
  rewrite lsum_app, lsum_add.
  f_equal; rewrite (lsum_zip3 _ _ _ _ n) by (rewrite ?map_length, ?seq_length; auto);
    apply lsum_ext; intros l Hl; apply in_seq in Hl; rewrite seq_nth by lia;
    rewrite !(nth_map_lt _ rows l _ []) by (unfold n in *; lia); reflexivity.
Qed.

Lemma mulrow_ends nr nc x l : l < n ->
  mulrow (SM nr nc ends) x l
  = (let r := nth l rows [] in
     d r * nth (bus_no r F_BUS) x 0 + e r * nth (bus_no r T_BUS) x 0)%K.
Proof.
  intros H. unfold mulrow; simpl ents. rewrite lsum_ends.
  pose (g := fun k => let r := nth k rows [] in
       (d r * nth (bus_no r F_BUS) x 0 + e r * nth (bus_no r T_BUS) x 0)%K).
  rewrite (lsum_ext _ (fun k => if l =? k then g k else 0%K)).
  - apply (lsum_seq_single' g); auto.
  - intros k _. unfold g. cbn [erow ecol ev]. rewrite Nat.eqb_sym. destruct (l =? k); cbv zeta; ring.
Qed.

(** products with the transposed matrix *)
Lemma mulrow_endsT nr nc x i :
  mulrow (transp (SM nr nc ends)) x i
  = lsum (fun l => let r := nth l rows [] in
      ((if bus_no r F_BUS =? i then d r else 0) + (if bus_no r T_BUS =? i then e r else 0))
      * nth l x 0)%K (seq 0 n).
Proof.
  rewrite mulrow_transp. simpl ents. rewrite lsum_ends. apply lsum_ext. intros l _.
  cbn [erow ecol ev]. destruct (_ =? i); destruct (_ =? i); cbv zeta; ring.
Qed.
End TwoEnds.

Record bdc_spec (bus branch : list (list K)) (Bbus Bf : smat K) (Pbi Pfi : list K) : Prop := {
  bs_wide : wide BR_STATUS branch;
  bs_from : buses_ok (length bus) F_BUS branch;
  bs_to : buses_ok (length bus) T_BUS branch;
  bs_x : Forall (fun r => cell r BR_X <> 0%K) branch;
  bs_Bbus : wf Bbus /\ nrows Bbus = length bus /\ ncols Bbus = length bus;
  bs_Bf : wf Bf /\ nrows Bf = length branch /\ ncols Bf = length bus;
  bs_flow : forall Va l r, nth_error branch l = Some r ->
     mulrow Bf Va l = (susc r * dth r Va)%K;
  bs_Pfi : Pfi = map (fun r => susc r * deg2rad (cell r SHIFT))%K branch;
  bs_inj : forall Va i,
     mulrow Bbus Va i = lsum (fun r => inc r i * (susc r * dth r Va))%K branch;
  bs_Pbi : Pbi = map (fun i => lsum (fun r => inc r i * (susc r * deg2rad (cell r SHIFT)))%K branch)
                     (seq 0 (length bus)) }.

Lemma map_const {A B} (a : B) (l : list A) : map (fun _ => a) l = repeat a (length l).
Proof. induction l; simpl; congruence. Qed.

Lemma inv_step {A B} (r : result A) (f : A -> result B) b :
  bind r f = Ok b -> exists a, r = Ok a /\ f a = Ok b.
Proof. apply bind_ok. Qed.

Lemma makeBdc_ok bus branch Bbus Bf Pbi Pfi :
  makeBdc bus branch = Ok (Bbus, Bf, Pbi, Pfi) -> bdc_spec bus branch Bbus Bf Pbi Pfi.
Proof.
  unfold makeBdc. intros H.
  apply bind_ok in H as (bi & _ & H). apply bind_ok in H as (stat & Hst & H).
  apply bind_ok in H as (x & Hx & H). apply bind_ok in H as (b0 & Hb0 & H).
  apply bind_ok in H as (taps & Htap & H). cbv zeta in H.
  apply bind_ok in H as (b & Hb & H). apply bind_ok in H as (f & Hf & H).
  apply bind_ok in H as (t & Ht & H). apply bind_ok in H as (Cft & HC & H).
  apply bind_ok in H as (Bf' & HBf & H). apply bind_ok in H as (Bb & HBb & H).
  apply bind_ok in H as (sh & Hsh & H). apply bind_ok in H as (Pb & HPb & H).
  injection H as -> -> -> <-.
  apply col_ok in Hst as [Wst ->]. apply col_ok in Hx as [Wx ->].
  apply vdiv_ok in Hb0 as (_ & Nx & ->). apply col_ok in Htap as [Wt ->].
  apply vdiv_ok in Hb as (_ & Nt & ->).
  apply idxcol_ok in Hf as (_ & Pf & ->). apply idxcol_ok in Ht as (_ & Pt & ->).
  apply col_ok in Hsh as [Wsh ->].
  rewrite map_map in *. rewrite !map2_map in *. rewrite map_map in *.
  change (fun r : list K => (nth BR_STATUS r 0 / nth BR_X r 0 /
     (if feqb (nth TAP r 0%K) 0%K then 1 else nth TAP r 0))%K) with susc in *.
  pose proof (sparse_wf _ _ _ _ _ _ HC) as WC. pose proof (sparse_wf _ _ _ _ _ _ HBf) as WBf.
  pose proof HBb as HBb'. apply mulm_ok in HBb' as [_ EBb].
  apply sparse_ok in HC as (_ & _ & _ & Rng & EC). apply sparse_ok in HBf as (_ & _ & _ & _ & EBf).
  assert (Cft = SM (length branch) (length bus) (ends branch (fun _ => 1%K) (fun _ => ropp 1%K)))
    as EC' by (rewrite EC; unfold ends; rewrite !map_const; reflexivity).
  assert (Bf = SM (length branch) (length bus) (ends branch susc (fun r => ropp (susc r))))
    as EBf' by (rewrite EBf; unfold ends; rewrite ?map_map; reflexivity).
  clear EC EBf. rename EC' into EC. rename EBf' into EBf.
  apply Forall_app in Rng as [Rf Rt]. rewrite Forall_map in Rf, Rt.
  constructor; auto.
  - unfold buses_ok. rewrite Forall_forall in *. intros r Hr; auto.
  - unfold buses_ok. rewrite Forall_forall in *. intros r Hr; auto.
  - rewrite Forall_map in Nx. exact Nx.
  - split; [|rewrite EBb, EC, EBf; auto].
    eapply wf_mulm; [|exact WBf|exact HBb]. apply wf_transp; auto.
  - rewrite EBf in *. auto.
  - intros Va l r Hr. rewrite EBf. rewrite mulrow_ends by (eapply nth_error_some_lt; eauto).
    rewrite (nth_error_nth _ _ _ Hr). cbv zeta. unfold dth. ring.
  - intros Va i. rewrite EBb. rewrite (mulrow_mulm _ _ _ _ (length branch)).
    rewrite EC. cbn [transp ents]. rewrite lsum_map. cbn [ents]. rewrite lsum_ends.
    rewrite (lsum_nth _ branch []). apply lsum_ext. intros l Hl. apply in_seq in Hl.
    cbn [erow ecol ev]. rewrite EBf. cbn [ents ncols]. rewrite !mulrow_ends by lia.
    cbv zeta. unfold inc, dth.
    destruct (_ =? i); destruct (_ =? i); ring.
  - apply mulv_ok in HPb as (_ & LP & NP).
    apply nth_error_ext. intros i. rewrite nth_error_map.
    assert (nrows (transp Cft) = length bus) as En by (rewrite EC; auto).
    destruct (Nat.lt_ge_cases i (length bus)) as [L|L].
    + rewrite NP by lia. rewrite seq_nth_error by auto. simpl option_map. f_equal.
      rewrite EC. rewrite mulrow_endsT. rewrite (lsum_nth _ branch []). apply lsum_ext.
      intros l Hl. apply in_seq in Hl. rewrite (nth_map_lt _ branch l _ []) by lia.
      cbv zeta. unfold inc, susc, tap_ratio, cell.
      destruct (_ =? i); destruct (_ =? i); ring.
    + rewrite (proj2 (nth_error_None _ _)) by lia.
      rewrite (proj2 (nth_error_None _ _)) by (rewrite seq_length; lia). reflexivity.
Qed.

(** when it succeeds *)
Lemma makeBdc_def bus branch :
  wide BUS_I bus -> wide BR_STATUS branch ->
  buses_ok (length bus) F_BUS branch -> buses_ok (length bus) T_BUS branch ->
  Forall (fun r => cell r BR_X <> 0%K) branch ->
  exists Bbus Bf Pbi Pfi, makeBdc bus branch = Ok (Bbus, Bf, Pbi, Pfi).
Proof.
  intros WB W HF HT HX. unfold makeBdc, wide, buses_ok in *.
  assert (forall j, j <= BR_STATUS -> Forall (fun r : list K => j < length r) branch) as Wj.
  { intros j Hj. eapply Forall_impl; [|exact W]. simpl; intros; lia. }
  rewrite !col_def; auto; try (apply Wj; unfold BR_STATUS, BR_X, TAP, SHIFT; lia).
  cbn [bind].
  rewrite vdiv_def by (rewrite ?map_length; auto; rewrite Forall_map; exact HX). cbn [bind].
  rewrite map2_map, map_map.
  assert (forall r : list K, In r branch ->
     (if feqb (nth TAP r 0%K) 0%K then 1%K else nth TAP r 0%K) <> 0%K) as NT
    by (intros r _; apply (tap_ratio_nz r)).
  rewrite vdiv_def by (rewrite ?map_length; auto; rewrite Forall_map; apply Forall_forall; auto).
  cbn [bind].
  rewrite !idxcol_def; auto;
    try (apply Wj; unfold BR_STATUS, F_BUS, T_BUS; lia);
    try (eapply Forall_impl; [|exact HF]; simpl; tauto);
    try (eapply Forall_impl; [|exact HT]; simpl; tauto).
  cbn [bind]. rewrite map2_map.
  assert (Forall (fun c => c < length bus)
     (map (fun r => bus_no r F_BUS) branch ++ map (fun r => bus_no r T_BUS) branch)) as RC.
  { apply Forall_app; split; rewrite Forall_map;
      [eapply Forall_impl; [|exact HF]|eapply Forall_impl; [|exact HT]]; simpl; tauto. }
  assert (Forall (fun r => r < length branch) (seq 0 (length branch) ++ seq 0 (length branch))) as RR.
  { apply Forall_app; split; apply Forall_forall; intros k Hk; apply in_seq in Hk; lia. }
  rewrite !sparse_def; auto; rewrite ?app_length, ?map_length, ?repeat_length, ?seq_length; auto.
  cbn [bind]. unfold mulm. simpl. rewrite Nat.eqb_refl. cbn [bind].
  rewrite map2_map. unfold mulv. simpl. rewrite map_length, Nat.eqb_refl. cbn [bind]. eauto.
Qed.
End Bdc.
