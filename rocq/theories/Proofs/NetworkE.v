(** The DC power flow as a whole (C17), continued. *)
From Coq Require Import Permutation.
From Verif Require Import Lib.ListFacts Lib.Sparse Proofs.LinAlgFacts Proofs.SparseFacts
  Model.Network Spec.NetSpec Proofs.NetworkA Proofs.NetworkB Proofs.NetworkC Proofs.NetworkD.
Local Open Scope nat_scope.

Section DC.
Context {K : Type} {F : Fld K}.
Add Ring KR : (@r_ok K _).
Add Field KF : (@f_ok K _).

Lemma fofZ_nz z : z <> 0%Z -> (fofZ z : K) <> 0%K.
Proof. intros N C. apply N. apply (@fofZ_inj K F). rewrite C. symmetry. apply fofZ_0. Qed.

Lemma dc_flow_susc (r Va : list K) : cell r BR_X <> 0%K ->
  dc_flow r Va = (susc r * dth r Va + susc r * deg2rad (cell r SHIFT))%K.
Proof.
  intros N. pose proof (tap_ratio_nz r) as T. assert ((fofZ 180 : K) <> 0%K) by (apply fofZ_nz; lia).
  unfold dc_flow, susc, dth, deg2rad. field. auto.
Qed.

Lemma lsum_map2 {A B} (f : K -> K) (g : A -> B -> K) u v a b : length u = length v ->
  lsum f (map2 g u v) = lsum (fun i => f (g (nth i u a) (nth i v b))) (seq 0 (length u)).
Proof.
  intros L. unfold map2. rewrite lsum_map, (lsum_combine _ _ _ a b) by auto. reflexivity.
Qed.

Definition new_branch (baseMVA : K) (Va : list K) (r : list K) : list K :=
  let p := (dc_flow r Va * baseMVA)%K in
  upd (upd (upd (upd r QF 0%K) QT 0%K) PF p) PT (- p)%K.
Definition new_bus (va : K) (r : list K) : list K := upd (upd r VM 1%K) VA (va * (fofZ 180 / fpi))%K.

(** the injection required at bus [i] by the network at angles [Va], in MW *)
Definition injection (baseMVA : K) (branch : list (list K)) (Va : list K) (i : nat) : K :=
  (net_out (fun r => dc_flow r Va) branch i * baseMVA)%K.

Lemma runpf_dc_ok solve baseMVA bus gen branch bus' gen' branch' :
  solver_exact solve -> types_ok bus ->
  runpf_dc solve baseMVA bus gen branch = Ok (bus', gen', branch') ->
  exists Va ref pv pq refgen,
    bustypes bus gen = Ok (ref, pv, pq) /\
    length Va = length bus /\ wide VA bus /\ wide GEN_STATUS gen /\ wide QT branch /\
    bus' = map2 new_bus Va bus /\
    branch' = map (new_branch baseMVA Va) branch /\
    (forall i, In i ref -> nth i Va 0%K = (cell (nth i bus []) VA * (fpi / fofZ 180))%K) /\
    Forall2 (fun b g => exists row, nth_error gen g = Some row /\ in_service row = true /\
       bus_no row GEN_BUS = b /\
       forall g' row', g' < g -> nth_error gen g' = Some row' ->
         in_service row' = true -> bus_no row' GEN_BUS <> b) ref refgen /\
    gen' = scatter gen refgen
       (map (fun p => let g := nth (snd p) gen [] in let b := nth (fst p) bus [] in
              upd g PG (cell g PG + (injection baseMVA branch Va (fst p)
                 - (gen_total (fun g => cell g PG) gen (fst p) - cell b PD - cell b GS)))%K)
            (combine ref refgen)) /\
    (forall i, In i (pv ++ pq) ->
       (gen_total (fun g => cell g PG) gen i - cell (nth i bus []) PD - cell (nth i bus []) GS)%K
       = injection baseMVA branch Va i).
Proof.
  intros SE TY H. unfold runpf_dc in H.
  apply bind_ok in H as ([[ref pv] pq] & HB & H).
  pose proof (bustypes_partition _ _ _ _ _ HB TY) as PERM.
  apply bind_ok in H as (st & Hst & H). apply col_ok in Hst as [Wst ->]. cbv zeta in H.
  rewrite map_map in H.
  change (fun x : list K => pos_status (nth GEN_STATUS x 0%K)) with in_service in H.
  rewrite gather_find in H. cbn [bind] in H.
  apply bind_ok in H as (gb & Hgb & H). apply idxcol_ok in Hgb as (_ & _ & ->).
  apply bind_ok in H as (va & Hva & H). apply col_ok in Hva as [Wva ->].
  apply bind_ok in H as ([[[B Bf] Pbi] Pfi] & HBdc & H). apply makeBdc_ok in HBdc.
  destruct HBdc as [WBR BF BT BX (WB & NRB & NCB) (WBf & NRBf & NCBf) FLOW EPfi INJ EPbi].
  apply bind_ok in H as (Sb & HS & H). apply makeSbus_ok in HS as (Nb & WQD & _ & ES).
  apply bind_ok in H as (gs & Hgs & H). apply col_ok in Hgs as [Wgs ->].
  apply bind_ok in H as (gsb & Hgsb & H). apply vdiv_ok in Hgsb as (_ & _ & Egsb).
  apply bind_ok in H as (d & Hd & H). apply ewise_ok in Hd as (_ & Ed).
  apply bind_ok in H as (Pbus & HP & H). apply ewise_ok in HP as (_ & EP).
  apply bind_ok in H as (Va & HVa & H). rewrite map_map in HVa.
  apply bind_ok in H as (br1 & H1 & H). apply setcol_ok in H1 as (L1 & W1 & E1).
  apply bind_ok in H as (br2 & H2 & H). apply setcol_ok in H2 as (L2 & W2 & E2).
  apply bind_ok in H as (bv & Hbv & H). apply mulv_ok in Hbv as (_ & Lbv & Nbv).
  apply bind_ok in H as (fl & Hfl & H). apply ewise_ok in Hfl as (Lfl & Efl).
  apply bind_ok in H as (br3 & H3 & H). apply setcol_ok in H3 as (L3 & W3 & E3).
  apply bind_ok in H as (br4 & H4 & H). apply setcol_ok in H4 as (L4 & W4 & E4).
  apply bind_ok in H as (bus1 & H5 & H). apply setcol_ok in H5 as (L5 & W5 & E5).
  apply bind_ok in H as (bus2 & H6 & H). apply setcol_ok in H6 as (L6 & W6 & E6).
  apply bind_ok in H as (refgen & Hrg & H).
  apply bind_ok in H as (bva & Hbva & H). apply mulv_ok in Hbva as (_ & Lbva & Nbva).
  apply bind_ok in H as (inj & Hinj & H). apply bind_ok in H as (old & Hold & H).
  apply bind_ok in H as (gr & Hgr & H). apply bind_ok in H as (pgr & Hpgr & H).
  apply col_ok in Hpgr as [Wpgr ->].
  apply bind_ok in H as (delta & Hdl & H). apply ewise_ok in Hdl as (Ldl & Edl).
  apply bind_ok in H as (newpg & Hnp & H). apply ewise_ok in Hnp as (Lnp & Enp).
  apply bind_ok in H as (rows & Hrows & H). apply setcol_ok in Hrows as (Lrows & Wrows & Erows).
  apply bind_ok in H as (g2 & Hg2 & H). apply scatter_checked_ok in Hg2 as (Lsc & Rsc & Esc).
  injection H as <- <- <-.
  destruct (dcpf_ok solve B Pbus _ ref pv pq Va (length bus) SE HVa WB NCB)
    as (LVa & Vref & Vpq); [rewrite map_length; auto|exact PERM|].
  (* the total of the model's network equation at a bus *)
  assert (forall i, i < length bus ->
     (mulrow B Va i + nth i Pbi 0)%K = net_out (fun r => dc_flow r Va) branch i) as NET.
  { intros i Li. rewrite INJ, EPbi. rewrite (nth_map_lt _ (seq 0 (length bus)) i _ 0)
      by (rewrite seq_length; auto). rewrite seq_nth by auto. cbn [Nat.add].
    rewrite <- lsum_add. unfold net_out. apply lsum_ext. intros r Hr.
    rewrite Forall_forall in BX. rewrite dc_flow_susc by auto. unfold inc.
    destruct (_ =? i); destruct (_ =? i); ring. }
  (* Pbus *)
  assert (forall i, i < length bus -> nth i Pbus 0%K
     = ((gen_total (fun g => cell g PG) gen i - cell (nth i bus []) PD
         - cell (nth i bus []) GS) / baseMVA - nth i Pbi 0)%K) as PB.
  { intros i Li. rewrite EP, Ed, Egsb, ES.
    assert (length Pbi = length bus) by (rewrite EPbi, map_length, seq_length; auto).
    rewrite (nth_map2_d _ _ _ i 0%K 0%K)
      by (unfold map2; repeat rewrite ?map_length, ?combine_length, ?seq_length, ?repeat_length; lia).
    rewrite (nth_map2_d _ _ _ i 0%K 0%K)
      by (unfold map2; repeat rewrite ?map_length, ?combine_length, ?seq_length, ?repeat_length; lia).
    rewrite (nth_map2_d _ _ _ i 0%K 0%K)
      by (unfold map2; repeat rewrite ?map_length, ?combine_length, ?seq_length, ?repeat_length; lia).
    rewrite map_map. rewrite (nth_map_lt _ (seq 0 (length bus)) i _ 0) by (rewrite seq_length; auto).
    rewrite seq_nth by auto. cbn [Nat.add re]. rewrite (nth_map_lt _ bus i _ []) by auto.
    rewrite nth_repeat_lt by auto. unfold cell. field. auto. }
  exists Va, ref, pv, pq, refgen.
  split; [exact HB|]. split; [exact LVa|]. split; [exact Wva|]. split; [exact Wst|].
  (* the branch table *)
  rewrite <- (map_const 0%K branch) in E1, E2.
  rewrite <- (map_id branch) in E1 at 2. rewrite map2_map in E1. rewrite E1, map2_map in E2.
  assert (bv = map (fun r => susc r * dth r Va)%K branch) as Ebv.
  { apply nth_error_ext. intros l. rewrite nth_error_map.
    destruct (nth_error branch l) as [r|] eqn:Er.
    - rewrite Nbv by (rewrite NRBf; eapply nth_error_some_lt; eauto).
      rewrite (FLOW _ _ _ Er). reflexivity.
    - apply nth_error_None. rewrite Lbv, NRBf. apply nth_error_None; auto. }
  rewrite Efl, Ebv, EPfi, map2_map, map_map in E3. rewrite E2, map2_map in E3.
  rewrite Efl, Ebv, EPfi, map2_map, !map_map in E4. rewrite E3, map2_map in E4.
  assert (wide QT branch) as WQT.
  { unfold wide. rewrite E1, Forall_map in W2. eapply Forall_impl; [|exact W2].
    intros r. simpl. rewrite upd_length. auto. }
  split; [exact WQT|].
  split.
  { (* bus' *)
    rewrite E6, E5. clear -LVa. revert bus LVa.
    induction Va as [|v Va IH]; intros [|r bus] L; simpl in *; try discriminate; auto.
    unfold map2 in *. simpl. f_equal. apply IH. lia. }
  split.
  { rewrite E4. apply map_ext_in. intros r Hr. unfold new_branch. cbv zeta.
    rewrite Forall_forall in BX. rewrite dc_flow_susc by auto. reflexivity. }
  split.
  { intros i Hi. rewrite (Vref i Hi).
    assert (i < length bus) as Li.
    { assert (In i (seq 0 (length bus))) as J
        by (eapply Permutation_in; [exact PERM|apply in_or_app; auto]).
      apply in_seq in J. lia. }
    rewrite (nth_map_lt _ bus i _ []) by auto. reflexivity. }
  assert (Forall2 (fun b g => exists row, nth_error gen g = Some row /\ in_service row = true /\
       bus_no row GEN_BUS = b /\
       forall g' row', g' < g -> nth_error gen g' = Some row' ->
         in_service row' = true -> bus_no row' GEN_BUS <> b) ref refgen) as RG.
  { clear -Hrg. revert refgen Hrg. induction ref as [|b ref IH]; intros rg H; simpl in H.
    - injection H as <-. constructor.
    - apply bind_ok in H as (g & Hg & H). apply bind_ok in H as (gs & Hgs & H).
      injection H as <-. constructor; [|apply IH; auto]. apply first_gen_ok. exact Hg. }
  split; [exact RG|].
  split.
  2: { intros i Hi.
       assert (i < length bus) as Li.
       { assert (In i (seq 0 (length bus))) as J
           by (eapply Permutation_in; [exact PERM|apply in_or_app; auto]).
         apply in_seq in J. lia. }
       unfold injection. rewrite <- (NET i Li), (Vpq i Hi), (PB i Li). field. auto. }
  rewrite Esc. f_equal. rewrite Erows.
  pose proof (mapM_length _ _ _ Hrg) as Lrg.
  pose proof (gather_length _ _ _ Hgr) as Lgr.
  pose proof (gather_length _ _ _ Hinj) as Linj.
  pose proof (gather_length _ _ _ Hold) as Lold.
  assert (length delta = length ref) as Ldelta by (rewrite Edl; unfold map2; rewrite map_length, combine_length; lia).
  assert (length newpg = length ref) as Lnew.
  { rewrite Enp. unfold map2. rewrite map_length, combine_length, !map_length. lia. }
  apply nth_ext with (d := []) (d' := []).
  - unfold map2. rewrite !map_length, !combine_length. lia.
  - intros k Hk. unfold map2 in Hk. rewrite map_length, combine_length in Hk.
    assert (k < length ref) as Lk by lia.
    rewrite nth_setcol by lia.
    rewrite (nth_map_lt _ (combine ref refgen) k _ (0, 0)) by (rewrite combine_length; lia).
    rewrite combine_nth by lia. cbn [fst snd]. cbv zeta.
    assert (nth k gr [] = nth (nth k refgen 0) gen []) as EG.
    { destruct (nth_error_lt refgen k) as (g & Hg); [lia|].
      pose proof (gather_nth _ _ _ _ _ Hgr Hg) as G. rewrite (nth_error_nth _ _ _ Hg).
      destruct (nth_error_lt gr k) as (row & Hrow); [lia|].
      rewrite Hrow in G. rewrite (nth_error_nth _ _ _ Hrow). symmetry. apply nth_error_nth. auto. }
    rewrite EG. f_equal. rewrite Enp.
    rewrite (nth_map2_d _ _ _ k 0%K 0%K) by (rewrite !map_length; lia).
    rewrite (nth_map_lt _ gr k _ []) by lia. rewrite EG. 
    change (nth PG (nth (nth k refgen 0) gen []) 0%K) with (cell (nth (nth k refgen 0) gen []) PG).
    f_equal.
    rewrite (nth_map_lt _ delta k _ 0%K) by lia. rewrite Edl.
    rewrite (nth_map2_d _ _ _ k 0%K 0%K) by lia.
    set (i := nth k ref 0).
    assert (nth_error ref k = Some i) as Hi by (apply nth_error_nth'; auto).
    assert (i < length bus) as Li.
    { assert (In i (seq 0 (length bus))) as J
        by (eapply Permutation_in; [exact PERM|apply in_or_app; left; apply nth_In; auto]).
      apply in_seq in J. lia. }
    assert (nth k inj 0%K = mulrow B Va i) as ->.
    { pose proof (gather_nth _ _ _ _ _ Hinj Hi) as G. rewrite Nbva in G by lia.
      apply nth_error_nth. auto. }
    assert (nth k old 0%K = nth i Pbus 0%K) as ->.
    { pose proof (gather_nth _ _ _ _ _ Hold Hi) as G.
      destruct (nth_error_lt old k) as (o & Ho); [lia|]. rewrite Ho in G.
      rewrite (nth_error_nth _ _ _ Ho). symmetry. apply nth_error_nth. auto. }
    unfold injection. rewrite <- (NET i Li), (PB i Li). field. auto.
Qed.

(** ** balance *)
Lemma upd_cell_other (r : list K) j v k : j <> k -> cell (upd r j v) k = cell r k.
Proof. apply nth_upd_other. Qed.

Lemma new_branch_ends baseMVA Va (r : list K) j : j < PF -> cell (new_branch baseMVA Va r) j = cell r j.
Proof.
  unfold new_branch, PF. intros H. cbv zeta.
  rewrite !upd_cell_other; auto; unfold PT, PF, QF, QT; lia.
Qed.

Lemma drawn_new baseMVA Va (branch : list (list K)) i : wide QT branch ->
  drawn (fun r => cell r PF) (fun r => cell r PT) (map (new_branch baseMVA Va) branch) i
  = injection baseMVA branch Va i.
Proof.
  intros W. unfold drawn, injection, net_out. rewrite lsum_map, <- lsum_scal_r.
  apply lsum_ext. intros r Hr. unfold wide in W. rewrite Forall_forall in W. specialize (W r Hr).
  unfold bus_no.
  rewrite (new_branch_ends _ _ r F_BUS), (new_branch_ends _ _ r T_BUS) by (unfold F_BUS, T_BUS, PF; lia).
  assert (cell (new_branch baseMVA Va r) PF = (dc_flow r Va * baseMVA)%K) as ->.
  { unfold new_branch. cbv zeta. rewrite upd_cell_other by (unfold PT, PF; lia).
    apply nth_upd_same. rewrite !upd_length. unfold PF, QT in *; lia. }
  assert (cell (new_branch baseMVA Va r) PT = (- (dc_flow r Va * baseMVA))%K) as ->.
  { unfold new_branch. cbv zeta. apply nth_upd_same. rewrite !upd_length. unfold PT, QT in *; lia. }
  destruct (_ =? i); destruct (_ =? i); ring.
Qed.
End DC.
