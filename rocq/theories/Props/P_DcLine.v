(** DC lines as pairs of generators coupled by the loss constraint (C38), and where the callbacks fail (C68). *)
From Verif Require Import Lib.ListFacts Model.DcLine Spec.DcLineSpec Proofs.DcOpfA
  Proofs.SparseFacts Proofs.FldFacts Proofs.OrdFacts Proofs.NetworkA Proofs.NetworkC Proofs.NetworkD Proofs.NetworkE Proofs.OpfLinA Proofs.OpfLinB
  Proofs.BlockFacts Proofs.PfsolnA Proofs.TableEdit Proofs.AcPfB Proofs.LoadsB Proofs.DcLineA Proofs.CostB Proofs.PipsF Props.P_Loads.
Local Open Scope nat_scope.

Ltac lcols := unfold L_PF, L_PT, L_QF, L_QT, L_VF, L_VT, L_MU_PMIN, L_MU_PMAX, L_MU_QMINF, L_MU_QMAXF, L_MU_QMINT, L_MU_QMAXT in *.
Section P_DcLine.
Context {K : Type} {F : Fld K}.
Add Field KF : (@f_ok K F).

(** ** before the optimisation *)
Theorem C38_lines (dcline : list (list K)) cost e2i bus gen gencost dc bus' gen' gencost' :
  dc_ext2int true dcline cost e2i bus gen gencost = Ok (dc, bus', gen', gencost') ->
  let on := filter line_in_service dcline in
  let n := length on in let ng := length gen in
  length dc = n /\ length gen' = ng + n + n /\
  (forall i g, nth_error gen i = Some g -> nth_error gen' i = Some (map EFin g)) /\
  (forall p d, nth_error on p = Some d -> exists f t d' gf gt,
     nth_error e2i (bus_no d L_F_BUS) = Some f /\ nth_error e2i (bus_no d L_T_BUS) = Some t /\
     nth_error dc p = Some d' /\ length d' = length d /\
     cell d' L_F_BUS = fofZ (Z.of_nat f) /\ cell d' L_T_BUS = fofZ (Z.of_nat t) /\ loss_law d (cell d L_PF) (cell d' L_PT) /\
     (forall j, j <> L_F_BUS -> j <> L_T_BUS -> j <> L_PT -> cell d' j = cell d j) /\
     nth_error gen' (ng + p) = Some gf /\ nth_error gen' (ng + n + p) = Some gt /\
     terminal gf (length (hd [] gen)) f (- cell d L_PF)%K (cell d L_QF) (cell d L_VF) (cell d L_QMINF) (cell d L_QMAXF) (cell d L_STATUS) /\
     terminal gt (length (hd [] gen)) t (cell d' L_PT) (cell d L_QT) (cell d L_VT) (cell d L_QMINT) (cell d L_QMAXT) (cell d L_STATUS) /\
     (forall pf pt, output_ok gf (- pf)%K /\ output_ok gt pt <-> line_limits d pf pt)).
Proof.
  intros H on n ng. unfold dc_ext2int in H. apply bind_ok in H as (u & HG & H). unfold guard in HG.
  destruct (forallb _ dcline) eqn:EW; [|discriminate]. clear HG u. cbv zeta in H. change (filter line_on dcline) with on in H.
  apply bind_ok in H as (u & _ & H). apply bind_ok in H as (fb & HF & H). apply bind_ok in H as (fi & Hfi & H).
  apply bind_ok in H as (tb & HT & H). apply bind_ok in H as (ti & Hti & H).
  apply bind_ok in H as (w & Hw & H). apply bind_ok in H as (u' & HG & H). unfold guard in HG.
  destruct (Nat.ltb_spec PMIN w) as [PW|]; [|discriminate]. apply bind_ok in H as (bt & _ & H).
  apply bind_ok in H as (b1 & _ & H). apply bind_ok in H as (b2 & _ & H). apply bind_ok in H as (b3 & _ & H).
  apply bind_ok in H as (gc & _ & H). injection H as Hdc <- Hgen <-.
  rewrite Hdc in Hgen.
  apply idxcol_ok in HF as (_ & _ & ->). apply idxcol_ok in HT as (_ & _ & ->).
  pose proof (gather_length _ _ _ Hfi) as LF. pose proof (gather_length _ _ _ Hti) as LT. rewrite map_length in LF, LT. fold n in LF, LT.
  assert (w = length (hd [] gen)) as ->. { unfold width in Hw. destruct gen; [discriminate|]. injection Hw as <-. reflexivity. }
  assert (LD : length dc = n) by (rewrite <- Hdc, map_length, !combine_length; fold n; lia).
  split; auto. split; [rewrite <- Hgen, !app_length, !map_length, LD; fold ng; lia|].
  split. { intros i g Hi. rewrite <- Hgen. rewrite nth_error_app1 by (rewrite map_length; eapply nth_error_some_lt; eauto).
    rewrite nth_error_map, Hi. reflexivity. }
  intros p d Hd. pose proof (nth_error_some_lt _ _ _ Hd) as Lp. fold n in Lp.
  assert (Wd : L_LOSS1 < length d).
  { rewrite forallb_forall in EW. apply Nat.ltb_lt, EW. apply nth_error_In in Hd. apply filter_In in Hd. tauto. }
  destruct (nth_error_lt fi p ltac:(lia)) as (f & Hf). destruct (nth_error_lt ti p ltac:(lia)) as (t & Ht).
  pose proof (gather_nth _ _ _ p (bus_no d L_F_BUS) Hfi) as Gf. rewrite nth_error_map, Hd in Gf. specialize (Gf eq_refl).
  pose proof (gather_nth _ _ _ p (bus_no d L_T_BUS) Hti) as Gt. rewrite nth_error_map, Hd in Gt. specialize (Gt eq_refl).
  set (d' := upd (upd (upd d L_F_BUS (fofZ (Z.of_nat f))) L_T_BUS (fofZ (Z.of_nat t)))
                     L_PT (cl d L_PF - (cl d L_LOSS0 + cl d L_LOSS1 * cl d L_PF))%K).
  assert (Hd' : nth_error dc p = Some d').
  { rewrite <- Hdc, nth_error_map, !nth_error_combine, Hd, Hf, Ht. reflexivity. }
  assert (CD : forall j, cell d' j = if L_PT =? j then (cl d L_PF - (cl d L_LOSS0 + cl d L_LOSS1 * cl d L_PF))%K
     else if L_T_BUS =? j then fofZ (Z.of_nat t) else if L_F_BUS =? j then fofZ (Z.of_nat f) else cell d j).
  { intros j. unfold d', cell. rewrite !AcPfB.nth_upd_d by (rewrite ?upd_length; unfold L_LOSS1, L_PT, L_F_BUS, L_T_BUS in *; lia). reflexivity. }
  exists f, t, d', (from_gen (length (hd [] gen)) d'), (to_gen (length (hd [] gen)) d').
  split; [congruence|]. split; [congruence|]. split; auto. split; [unfold d'; rewrite !upd_length; auto|].
  split; [rewrite CD; reflexivity|]. split; [rewrite CD; reflexivity|]. split; [red; rewrite CD; reflexivity|].
  split. { intros j N1 N2 N3. rewrite CD. repeat match goal with |- context [?a =? j] => destruct (Nat.eqb_spec a j); [congruence|] end. reflexivity. }
  split. { rewrite <- Hgen. rewrite nth_error_app2, map_length by (rewrite map_length; fold ng; lia). fold ng.
    replace (ng + p - ng) with p by lia. rewrite nth_error_app1 by (rewrite map_length; lia). rewrite nth_error_map, Hd'. reflexivity. }
  split. { rewrite <- Hgen. rewrite !nth_error_app2, !map_length by (rewrite ?map_length; fold ng; lia). fold ng. rewrite LD.
    replace (ng + n + p - ng - n) with p by lia. rewrite nth_error_map, Hd'. reflexivity. }
  destruct (from_cells _ d' PW) as (A1 & A2 & A3 & A4 & A5 & A6 & A7 & A8 & A9 & A10 & _).
  destruct (to_cells _ d' PW) as (B1 & B2 & B3 & B4 & B5 & B6 & B7 & B8 & B9 & B10 & _).
  rewrite CD in A2, A3, A4, A5, A6, A7, A8, B2, B4, B5, B6, B7, B8.
  split; [red; repeat (split; auto)|]. split; [red; repeat (split; auto)|].
  intros pf pt. rewrite (limits_ok _ d' pf pt PW). unfold line_limits, min_flow. rewrite !(CD L_PMIN), !(CD L_PMAX). reflexivity.
Qed.

(** terminals of in-service lines become voltage-controlled; the reference bus stays *)
Theorem C38_bus_types (dcline : list (list K)) cost e2i bus gen gencost dc bus' gen' gencost' :
  dc_ext2int true dcline cost e2i bus gen gencost = Ok (dc, bus', gen', gencost') ->
  let terminal_bus i := exists d, In d dcline /\ line_in_service d = true /\
                          (nth_error e2i (bus_no d L_F_BUS) = Some i \/ nth_error e2i (bus_no d L_T_BUS) = Some i) in
  length bus' = length bus /\
  forall i r, nth_error bus i = Some r -> exists r', nth_error bus' i = Some r' /\ length r' = length r /\
    (forall j, j <> BUS_TYPE -> cell r' j = cell r j) /\
    (cell r BUS_TYPE = REF_BUS -> cell r' BUS_TYPE = REF_BUS) /\
    (cell r BUS_TYPE <> REF_BUS -> terminal_bus i -> cell r' BUS_TYPE = PV_BUS) /\
    (~ terminal_bus i -> cell r' BUS_TYPE = cell r BUS_TYPE).
Proof.
  intros H tb. unfold dc_ext2int in H. apply bind_ok in H as (u & HG & H). cbv zeta in H. set (on := filter line_on dcline) in *.
  apply bind_ok in H as (u1 & _ & H). apply bind_ok in H as (fb & HF & H). apply bind_ok in H as (fi & Hfi & H).
  apply bind_ok in H as (tb' & HT & H). apply bind_ok in H as (ti & Hti & H).
  apply bind_ok in H as (w & Hw & H). apply bind_ok in H as (u' & _ & H). apply bind_ok in H as (bt & Hbt & H).
  apply bind_ok in H as (b1 & HB1 & H). apply bind_ok in H as (b2 & HB2 & H). apply bind_ok in H as (b3 & HB3 & H).
  apply bind_ok in H as (gc & _ & H). injection H as _ <- _ _.
  apply idxcol_ok in HF as (_ & _ & ->). apply idxcol_ok in HT as (_ & _ & ->). apply col_ok in Hbt as (_ & ->).
  apply set_const_ok in HB1 as (_ & E1). apply set_const_ok in HB2 as (_ & E2). apply set_const_ok in HB3 as (_ & E3).
  pose proof (edit_trans _ _ _ _ _ (edit_trans _ _ _ _ _ E1 E2) E3) as (L & E). clear E1 E2 E3. split; auto.
  assert (TB : forall i, tb i <-> In i fi \/ In i ti).
  { intros i. unfold tb. split.
    - intros (d & I & S1 & Hd). assert (In d on) as I' by (apply filter_In; auto). apply In_nth_error in I' as (p & Hp).
      destruct Hd as [Hd|Hd]; [left; pose proof (gather_nth _ _ _ p (bus_no d L_F_BUS) Hfi) as G|right; pose proof (gather_nth _ _ _ p (bus_no d L_T_BUS) Hti) as G];
        rewrite nth_error_map, Hp in G; specialize (G eq_refl); rewrite Hd in G; eapply nth_error_In; eauto.
    - assert (Q : forall l c, (forall p d, nth_error on p = Some d -> nth_error l p = nth_error e2i (bus_no d c)) -> length l = length on -> In i l ->
          exists d, In d dcline /\ line_in_service d = true /\ nth_error e2i (bus_no d c) = Some i).
      { intros l c G LL I. apply In_nth_error in I as (p & Hp). pose proof (nth_error_some_lt _ _ _ Hp) as Lp. rewrite LL in Lp.
        destruct (nth_error_lt on p Lp) as (d & Hd). rewrite (G p d Hd) in Hp. exists d. apply nth_error_In in Hd. apply filter_In in Hd. tauto. }
      intros [I|I].
      + destruct (Q fi L_F_BUS) as (d & D1 & D2 & D3); auto.
        * intros p d Hd. apply (gather_nth _ _ _ p _ Hfi). rewrite nth_error_map, Hd. reflexivity.
        * rewrite (gather_length _ _ _ Hfi), map_length. reflexivity.
        * exists d. tauto.
      + destruct (Q ti L_T_BUS) as (d & D1 & D2 & D3); auto.
        * intros p d Hd. apply (gather_nth _ _ _ p _ Hti). rewrite nth_error_map, Hd. reflexivity.
        * rewrite (gather_length _ _ _ Hti), map_length. reflexivity.
        * exists d. tauto. }
  match type of E with context [find ?m] => set (refs := find m) in * end.
  intros i r Hr. destruct (E i r Hr) as (r' & A1 & A2 & A3). exists r'. split; auto. split; auto.
  assert (RF : mem i refs = true <-> cell r BUS_TYPE = REF_BUS).
  { unfold refs. rewrite mem_in, map_map, find_mask. split.
    - intros (q & Q1 & Q2). rewrite Hr in Q1. injection Q1 as <-. apply feqb_ok. exact Q2.
    - intros Q. exists r. split; auto. apply feqb_ok. exact Q. }
  unfold over in A3. split; [|split; [|split]].
  - intros j N. rewrite A3. destruct (Nat.eqb_spec j BUS_TYPE); [congruence|]. reflexivity.
  - intros Q. rewrite A3, Nat.eqb_refl. apply RF in Q. rewrite Q. reflexivity.
  - intros Q T. rewrite A3, Nat.eqb_refl. cbn [andb]. destruct (mem i refs) eqn:EM; [exfalso; apply Q, RF; reflexivity|].
    apply TB in T. rewrite <- !mem_in in T. destruct (mem i ti); auto. destruct (mem i fi); auto. destruct T; discriminate.
  - intros T. rewrite A3, Nat.eqb_refl. cbn [andb]. rewrite TB, <- !mem_in in T. destruct (mem i refs) eqn:EM; [symmetry; apply RF; auto|].
    destruct (mem i ti); [tauto|]. destruct (mem i fi); [tauto|]. reflexivity.
Qed.

(** without line costs every added generator gets a zero polynomial cost *)
Theorem C38_costs (dcline : list (list K)) cost e2i bus gen gencost dc bus' gen' gencost' :
  dc_ext2int true dcline cost e2i bus gen gencost = Ok (dc, bus', gen', gencost') ->
  (gencost = [] -> gencost' = []) /\
  (gencost <> [] -> cost = false /\ exists extra, gencost' = gencost ++ extra /\
     length extra = 2 * length (filter line_in_service dcline) /\
     forall r, In r extra -> length r = length (hd [] gencost) /\ cell r MODEL = fofZ 2 /\ cell r NCOST = fofZ 2 /\
       forall j, j <> MODEL -> j <> NCOST -> cell r j = 0%K).
Proof.
  intros H. unfold dc_ext2int in H. apply bind_ok in H as (u & HG & H). cbv zeta in H. change (filter line_on dcline) with (filter line_in_service dcline) in H. set (on := filter line_in_service dcline) in *.
  apply bind_ok in H as (u1 & _ & H). apply bind_ok in H as (fb & HF & H). apply bind_ok in H as (fi & Hfi & H).
  apply bind_ok in H as (tb' & HT & H). apply bind_ok in H as (ti & Hti & H).
  apply bind_ok in H as (w & Hw & H). apply bind_ok in H as (u' & _ & H). apply bind_ok in H as (bt & Hbt & H).
  apply bind_ok in H as (b1 & HB1 & H). apply bind_ok in H as (b2 & HB2 & H). apply bind_ok in H as (b3 & HB3 & H).
  apply bind_ok in H as (gc & HC & H). injection H as _ _ _ <-.
  destruct gencost as [|c0 cs]; [injection HC as <-; split; [auto|congruence]|]. split; [discriminate|]. intros _.
  unfold width in HC. cbn [bind] in HC. destruct cost; [discriminate|]. split; auto. apply bind_ok in HC as (v & HV & HC). injection HC as <-.
  unfold guard in HV. destruct (Nat.leb_spec 4 (length c0)) as [L4|]; [|discriminate].
  eexists. split; [reflexivity|]. split; [rewrite repeat_length; lia|]. intros r I. apply repeat_spec in I. subst r.
  split; [cbn [app length hd]; rewrite repeat_length; lia|]. split; [reflexivity|]. split; [reflexivity|].
  intros j N1 N2. unfold cell. destruct j as [|[|[|[|j]]]]; try reflexivity; try (exfalso; unfold MODEL, NCOST in *; congruence).
  cbn [app nth]. clear. revert j. induction (length c0 - 4); destruct j; cbn; auto.
Qed.

(** ** the constraint added to the problem: exactly the loss law of every line *)
Theorem C38_loss (B : K) dc ngt A rhs pg : dc_formulation B dc ngt = Ok (A, rhs) -> length pg = ngt ->
  let n := length dc in
  0 < n /\ nrows A = n /\ ncols A = ngt /\ length rhs = n /\ n + n <= ngt /\
  ((forall p, p < n -> row_val A pg p = nth p rhs 0%K) <->
   (forall p d, nth_error dc p = Some d ->
      loss_law d (- (B * nth (ngt - (n + n) + p) pg 0))%K (B * nth (ngt - n + p) pg 0)%K)).
Proof.
  intros H LP n.
  assert (P0 : 0 < n /\ n + n <= ngt).
  { unfold dc_formulation in H. cbv zeta in H. apply bind_ok in H as (u & HG & H). fold n in H, HG. unfold guard in HG.
    destruct (Nat.leb_spec (n + n) ngt) as [LN|]; [|discriminate].
    apply bind_ok in H as (l0 & H0 & H). apply bind_ok in H as (r & Hr & H). apply bind_ok in H as (l1 & H1 & H).
    apply bind_ok in H as (D & HD & H). split; auto. apply col_ok in H1 as (_ & ->). unfold n. destruct dc; [discriminate|cbn; lia]. }
  destruct P0 as (P0 & P1). destruct (nth_error_lt dc 0 P0) as (d0 & Hd0).
  destruct (formulation_row B dc ngt A rhs pg 0 d0 H Hd0 LP) as (WA & C1 & C2 & NB & C3 & _).
  split; auto. split; auto. split; auto. split; auto. split; auto.
  assert (Q : forall p d, nth_error dc p = Some d -> (row_val A pg p = nth p rhs 0%K <->
      loss_law d (- (B * nth (ngt - (n + n) + p) pg 0))%K (B * nth (ngt - n + p) pg 0)%K)).
  { intros p d Hd. destruct (formulation_row B dc ngt A rhs pg p d H Hd LP) as (_ & _ & _ & _ & _ & M & R). fold n in M.
    rewrite row_val_mulrow, M, R by auto. unfold loss_law.
    set (x := nth (ngt - (n + n) + p) pg 0%K). set (y := nth (ngt - n + p) pg 0%K). set (l0 := cell d L_LOSS0). set (l1 := cell d L_LOSS1).
    split; intros E.
    - assert (y = - l0 / B - (1 - l1) * x)%K as -> by (rewrite <- E; ring). field. auto.
    - assert (y = (B * y) / B)%K as -> by (field; auto). rewrite E. field. auto. }
  split; intros E.
  - intros p d Hd. apply Q; auto. apply E. eapply nth_error_some_lt; eauto.
  - intros p Lp. destruct (nth_error_lt dc p Lp) as (d & Hd). apply (Q p d Hd). auto.
Qed.

(** ** after the optimisation *)
Lemma xcol_ok j (t : list (list (ext K))) v : xcol j t = Ok v -> length v = length t /\
  forall p g, nth_error t p = Some g -> nth_error g j = Some (EFin (nth p v 0%K)).
Proof.
  intros H. split; [apply (mapM_length _ _ _ H)|]. intros p g Hg. destruct (mapM_nth _ _ _ _ _ H Hg) as (a & Ha & Hp).
  apply bind_ok in Ha as (x & Hx & Ha). apply get_ok in Hx. destruct x; cbn in Ha; try discriminate. injection Ha as ->.
  rewrite Hx. rewrite (nth_error_nth _ _ _ Hp). reflexivity.
Qed.
Lemma putcol_ok j v (t : result (list (list K))) t' : putcol j v t = Ok t' -> exists v0 t0, v = Ok v0 /\ t = Ok t0 /\ length v0 = length t0 /\
  edit t0 t' (fun i k => if k =? j then Some (nth i v0 0%K) else None).
Proof.
  unfold putcol. intros H. apply bind_ok in H as (t0 & Ht & H). apply bind_ok in H as (v0 & Hv & H). apply edit_setcol in H as (L & E).
  exists v0, t0. auto.
Qed.
Lemma copy_cols_ok k js (s : list (list K)) : NoDup k -> forall t t', copy_cols k js s t = Ok t' ->
  (js <> [] -> length s = length k) /\
  edit t t' (fun i c => if mem c js then option_map (fun p => cell (nth p s []) c) (posn i k) else None).
Proof.
  intros ND. unfold copy_cols. induction js as [|j js IH]; intros t t' H; cbn [foldM] in H.
  - injection H as <-. split; [congruence|]. apply edit_refl.
  - apply bind_ok in H as (t1 & H1 & H). apply bind_ok in H1 as (v & Hv & H1). apply edit_set_rows in H1 as (L & E1); auto.
    destruct (IH _ _ H) as (_ & E2). pose proof (col_ok _ _ _ Hv) as (_ & EV). split; [intros _; rewrite EV, map_length in L; congruence|].
    eapply edit_ext; [|exact (edit_trans _ _ _ _ _ E1 E2)]. intros i c. unfold over, mem. cbn [existsb]. fold (mem c js).
    destruct (mem c js) eqn:EM; [rewrite orb_true_r|rewrite orb_false_r; destruct (Nat.eqb_spec c j); [subst c|reflexivity]].
    + destruct (posn i k) eqn:EP; cbn; auto. destruct (c =? j); auto.
    + destruct (posn i k) as [p|] eqn:EP; cbn; auto. f_equal. rewrite EV.
      assert (LS : p < length s). { apply posn_some in EP. apply nth_error_some_lt in EP. rewrite EV, map_length in L. lia. }
      change (nth p (map (fun r => cell r j) s) 0%K = cell (nth p s []) j). rewrite (nth_map_lt _ _ _ _ [] LS). reflexivity.
Qed.
Lemma edit_pad n (t : list (list K)) : Forall (fun r => length r = n) t ->
  length (map (fun r => r ++ repeat 0%K 6) t) = length t /\
  forall i r, nth_error t i = Some r -> exists r', nth_error (map (fun r => r ++ repeat 0%K 6) t) i = Some r' /\ length r' = n + 6 /\
    (forall j, cell r' j = cell r j).
Proof.
  intros W. split; [apply map_length|]. intros i r Hr. rewrite nth_error_map, Hr. eexists. split; [reflexivity|].
  rewrite Forall_forall in W. pose proof (W r (nth_error_In _ _ Hr)) as L. split; [rewrite app_length, L; reflexivity|].
  intros j. unfold cell. destruct (Nat.lt_ge_cases j (length r)); [rewrite app_nth1; auto|]. rewrite app_nth2 by lia.
  rewrite (nth_overflow r) by lia. generalize (j - length r). intros m. do 7 (destruct m; [reflexivity|]). reflexivity.
Qed.

Lemma firstn_nth {A} n (l : list A) p : p < n -> nth_error (firstn n l) p = nth_error l p.
Proof. revert l p. induction n; intros l p H; [lia|]. destruct l; auto. destruct p; cbn; auto. apply IHn. lia. Qed.
Lemma edit_row t t' g p d : edit t t' g -> nth_error t p = Some d ->
  exists d', nth_error t' p = Some d' /\ length d' = length d /\ forall j, cell d' j = match g p j with Some v => v | None => cell d j end.
Proof. intros (_ & H) Hd. apply H. auto. Qed.

(** what the table of lines says afterwards about the [p]-th in-service line, with terminal generators [gf], [gt] *)
Definition reported (r' : list K) (gf gt : list (ext K)) : Prop :=
  xcell gf PG = EFin (- cell r' L_PF)%K /\ xcell gt PG = EFin (cell r' L_PT) /\
  xcell gf QG = EFin (cell r' L_QF) /\ xcell gt QG = EFin (cell r' L_QT) /\
  xcell gf VG = EFin (cell r' L_VF) /\ xcell gt VG = EFin (cell r' L_VT).
(** shadow prices of the limits: a limit on the flow is a limit of one of the two generators *)
Definition reported_mu (r' : list K) (gf gt : list (ext K)) : Prop :=
  (exists a b, xcell gf MU_PMAX = EFin a /\ xcell gt MU_PMIN = EFin b /\ cell r' L_MU_PMIN = (a + b)%K) /\
  (exists a b, xcell gf MU_PMIN = EFin a /\ xcell gt MU_PMAX = EFin b /\ cell r' L_MU_PMAX = (a + b)%K) /\
  xcell gf MU_QMIN = EFin (cell r' L_MU_QMINF) /\ xcell gf MU_QMAX = EFin (cell r' L_MU_QMAXF) /\
  xcell gt MU_QMIN = EFin (cell r' L_MU_QMINT) /\ xcell gt MU_QMAX = EFin (cell r' L_MU_QMAXT).

Lemma nth_xcell (g : list (ext K)) j a : nth_error g j = Some (EFin a) -> xcell g j = EFin a.
Proof. intros H. unfold xcell. apply nth_error_nth. auto. Qed.

Theorem C38_write_back (extl dcline : list (list K)) gen gencost extl' gen' gencost' :
  Forall (fun r => length r = S L_LOSS1) extl -> Forall (fun r => length r = S L_LOSS1) dcline ->
  dc_int2ext extl dcline gen gencost = Ok (extl', gen', gencost') ->
  let on := find (map (fun r => negb (feqb (cell r L_STATUS) 0%K)) extl) in
  let n := length on in let ng := length gen - (n + n) in
  n + n <= length gen /\ length extl' = length extl /\ gen' = firstn ng gen /\ gencost' = firstn ng gencost /\
  (forall i r, nth_error extl i = Some r -> exists r', nth_error extl' i = Some r' /\
     (~ In i on -> forall j, cell r' j = cell r j) /\
     (forall p, nth_error on p = Some i -> exists gf gt,
        nth_error gen (ng + p) = Some gf /\ nth_error gen (ng + n + p) = Some gt /\
        (forall j, j < L_PF \/ L_VT < j < L_MU_PMIN -> cell r' j = cell r j) /\
        reported r' gf gt /\ (MU_QMIN <= length (hd [] gen) -> reported_mu r' gf gt))).
Proof.
  intros WE WD H on n ng. unfold dc_int2ext in H. apply bind_ok in H as (st & Hst & H). apply col_ok in Hst as (_ & ->).
  cbv zeta in H. rewrite map_map in H. change (find (map (fun x => negb (feqb (nth L_STATUS x 0%K) 0%K)) extl)) with on in H. fold n in H.
  apply bind_ok in H as (u & HG & H). unfold guard in HG. destruct (Nat.leb_spec (n + n) (length gen)) as [LE|]; [|discriminate]. clear HG u.
  fold ng in H. set (fg := firstn n (skipn ng gen)) in *. set (tg := firstn n (skipn (ng + n) gen)) in *.
  apply bind_ok in H as (u & HG & H). unfold guard in HG. destruct (Nat.eqb_spec (length dcline) n) as [LD|]; [|discriminate]. clear HG u.
  apply bind_ok in H as (wg & HW & H). apply bind_ok in H as (wl & HL & H). apply bind_ok in H as (d1 & H1 & H).
  apply bind_ok in H as ((d2 & w2) & H2 & H). apply bind_ok in H as (e1 & H3 & H). apply bind_ok in H as (e2 & H4 & H). injection H as <- <- <-.
  assert (wg = length (hd [] gen)) as ->. { unfold width in HW. destruct gen; [discriminate|]. injection HW as <-. reflexivity. }
  assert (wl = S L_LOSS1) as ->. { unfold width in HL. destruct extl as [|e es]; [discriminate|]. injection HL as <-. apply Forall_cons_iff in WE. tauto. }
  assert (FG : forall p, p < n -> nth_error fg p = nth_error gen (ng + p)).
  { intros p Lp. unfold fg. rewrite firstn_nth by auto. rewrite CostB.nth_error_skipn. reflexivity. }
  assert (TG : forall p, p < n -> nth_error tg p = nth_error gen (ng + n + p)).
  { intros p Lp. unfold tg. rewrite firstn_nth by auto. rewrite CostB.nth_error_skipn. reflexivity. }
  assert (S1 : forall p gf gt, nth_error fg p = Some gf -> nth_error tg p = Some gt -> p < n -> exists r', nth_error d1 p = Some r' /\ length r' = S L_LOSS1 /\ reported r' gf gt).
  { intros p gf gt Hf Ht Lp. 
    apply putcol_ok in H1 as (v1 & t1 & X1 & H1 & L1 & E1). apply putcol_ok in H1 as (v2 & t2 & X2 & H1 & L2 & E2).
    apply putcol_ok in H1 as (v3 & t3 & X3 & H1 & L3 & E3). apply putcol_ok in H1 as (v4 & t4 & X4 & H1 & L4 & E4).
    apply putcol_ok in H1 as (v5 & t5 & X5 & H1 & L5 & E5). apply putcol_ok in H1 as (v6 & t6 & X6 & H1 & L6 & E6). injection H1 as <-.
    apply bind_ok in X6 as (v7 & X6 & E7). injection E7 as <-.
    destruct (nth_error_lt dcline p ltac:(lia)) as (d & Hd).
    rewrite Forall_forall in WD. pose proof (WD d (nth_error_In _ _ Hd)) as LL.
    destruct (edit_row _ _ _ _ _ E6 Hd) as (r6 & R6 & Q6 & C6). destruct (edit_row _ _ _ _ _ E5 R6) as (r5 & R5 & Q5 & C5).
    destruct (edit_row _ _ _ _ _ E4 R5) as (r4 & R4 & Q4 & C4). destruct (edit_row _ _ _ _ _ E3 R4) as (r3 & R3 & Q3 & C3).
    destruct (edit_row _ _ _ _ _ E2 R3) as (r2 & R2 & Q2 & C2). destruct (edit_row _ _ _ _ _ E1 R2) as (r1 & R1 & Q1 & C1).
    exists r1. split; auto. split; [congruence|].
    apply xcol_ok in X1 as (N1 & X1), X2 as (N2 & X2), X3 as (N3 & X3), X4 as (N4 & X4), X5 as (N5 & X5), X6 as (N6 & X6).
    pose proof (nth_xcell _ _ _ (X1 _ _ Ht)) as Y1. pose proof (nth_xcell _ _ _ (X2 _ _ Hf)) as Y2. pose proof (nth_xcell _ _ _ (X3 _ _ Ht)) as Y3. pose proof (nth_xcell _ _ _ (X4 _ _ Hf)) as Y4.
    pose proof (nth_xcell _ _ _ (X5 _ _ Ht)) as Y5. pose proof (nth_xcell _ _ _ (X6 _ _ Hf)) as Y6.
    assert (Lfg : p < length fg) by (eapply nth_error_some_lt; eauto).
    unfold reported. rewrite Y1, Y2, Y3, Y4, Y5, Y6. split; [|split; [|split; [|split; [|split]]]]; f_equal; symmetry.
    - rewrite C1, C2, C3, C4, C5, C6. cbn [Nat.eqb L_PF L_PT L_QF L_QT L_VF L_VT]. rewrite (nth_map_lt _ _ _ _ 0%K) by lia. ring.
    - rewrite C1, C2, C3, C4, C5. reflexivity.
    - rewrite C1, C2, C3, C4. reflexivity.
    - rewrite C1, C2, C3. reflexivity.
    - rewrite C1, C2. reflexivity.
    - rewrite C1. reflexivity. }
  assert (LD1 : length d1 = n).
  { apply putcol_ok in H1 as (v1 & t1 & _ & H1 & _ & (E1 & _)). apply putcol_ok in H1 as (v2 & t2 & _ & H1 & _ & (E2 & _)).
    apply putcol_ok in H1 as (v3 & t3 & _ & H1 & _ & (E3 & _)). apply putcol_ok in H1 as (v4 & t4 & _ & H1 & _ & (E4 & _)).
    apply putcol_ok in H1 as (v5 & t5 & _ & H1 & _ & (E5 & _)). apply putcol_ok in H1 as (v6 & t6 & _ & H1 & _ & (E6 & _)). injection H1 as <-. congruence. }
  assert (GFT : forall p, p < n -> exists gf gt, nth_error fg p = Some gf /\ nth_error tg p = Some gt /\ nth_error gen (ng + p) = Some gf /\ nth_error gen (ng + n + p) = Some gt).
  { intros p Lp. destruct (nth_error_lt gen (ng + p)) as (gf & Hf); [unfold ng; lia|]. destruct (nth_error_lt gen (ng + n + p)) as (gt & Ht); [unfold ng; lia|].
    exists gf, gt. rewrite FG, TG by auto. auto. }
  assert (S2 : forall p gf gt, nth_error fg p = Some gf -> nth_error tg p = Some gt -> p < n -> exists r', nth_error d2 p = Some r' /\ reported r' gf gt /\
            (w2 = S L_MU_QMAXT -> reported_mu r' gf gt)).
  { intros p gf gt Hf Ht Lp. destruct (S1 p gf gt Hf Ht Lp) as (d & Hd & LL & RP). clear S1.
    destruct (Nat.leb_spec MU_QMIN (length (hd [] gen))) as [WG|].
    2:{ injection H2 as <- <-. exists d. split; auto. split; auto. discriminate. }
    apply bind_ok in H2 as (d2' & H2 & E). injection E as -> <-.
    apply putcol_ok in H2 as (v1 & t1 & X1 & H2 & L1 & E1). apply putcol_ok in H2 as (v2 & t2 & X2 & H2 & L2 & E2).
    apply putcol_ok in H2 as (v3 & t3 & X3 & H2 & L3 & E3). apply putcol_ok in H2 as (v4 & t4 & X4 & H2 & L4 & E4).
    apply putcol_ok in H2 as (v5 & t5 & X5 & H2 & L5 & E5). apply putcol_ok in H2 as (v6 & t6 & X6 & H2 & L6 & E6). injection H2 as <-.
    assert (Hd7 : nth_error (map (fun r => r ++ repeat 0%K 6) d1) p = Some (d ++ repeat 0%K 6)) by (rewrite nth_error_map, Hd; reflexivity).
    destruct (edit_row _ _ _ _ _ E6 Hd7) as (r6 & R6 & Q6 & C6). destruct (edit_row _ _ _ _ _ E5 R6) as (r5 & R5 & Q5 & C5).
    destruct (edit_row _ _ _ _ _ E4 R5) as (r4 & R4 & Q4 & C4). destruct (edit_row _ _ _ _ _ E3 R4) as (r3 & R3 & Q3 & C3).
    destruct (edit_row _ _ _ _ _ E2 R3) as (r2 & R2 & Q2 & C2). destruct (edit_row _ _ _ _ _ E1 R2) as (r1 & R1 & Q1 & C1).
    exists r1. split; auto. split.
    - unfold reported in *. assert (C : forall j, j < S L_LOSS1 -> cell r1 j = cell d j).
      { intros j Lj. rewrite C1, C2, C3, C4, C5, C6. repeat match goal with |- context [j =? ?a] => destruct (Nat.eqb_spec j a); [exfalso; subst j; cbv in Lj; lia|] end.
        unfold cell. rewrite app_nth1 by lia. reflexivity. }
      rewrite !C by (cbv; lia). exact RP.
    - intros _. apply bind_ok in X5 as (a5 & Xa5 & X5). apply bind_ok in X5 as (b5 & Xb5 & X5). injection X5 as <-.
      apply bind_ok in X6 as (a6 & Xa6 & X6). apply bind_ok in X6 as (b6 & Xb6 & X6). injection X6 as <-.
      apply xcol_ok in X1 as (N1 & X1), X2 as (N2 & X2), X3 as (N3 & X3), X4 as (N4 & X4), Xa5 as (Na5 & Xa5), Xb5 as (Nb5 & Xb5), Xa6 as (Na6 & Xa6), Xb6 as (Nb6 & Xb6).
      pose proof (nth_xcell _ _ _ (X1 _ _ Ht)) as Y1. pose proof (nth_xcell _ _ _ (X2 _ _ Ht)) as Y2. pose proof (nth_xcell _ _ _ (X3 _ _ Hf)) as Y3. pose proof (nth_xcell _ _ _ (X4 _ _ Hf)) as Y4.
      pose proof (nth_xcell _ _ _ (Xa5 _ _ Hf)) as Ya5. pose proof (nth_xcell _ _ _ (Xb5 _ _ Ht)) as Yb5. pose proof (nth_xcell _ _ _ (Xa6 _ _ Hf)) as Ya6. pose proof (nth_xcell _ _ _ (Xb6 _ _ Ht)) as Yb6.
      assert (Lfg : p < length fg) by (eapply nth_error_some_lt; eauto). assert (Ltg : p < length tg) by (eapply nth_error_some_lt; eauto).
      unfold reported_mu. rewrite Y1, Y2, Y3, Y4. split; [|split; [|split; [|split; [|split]]]].
      + eexists _, _. split; [exact Ya6|]. split; [exact Yb6|]. rewrite C1, C2, C3, C4, C5, C6. cbn [Nat.eqb L_MU_PMIN L_MU_PMAX L_MU_QMINF L_MU_QMAXF L_MU_QMINT L_MU_QMAXT].
        apply (SparseFacts.nth_map2_d radd); lia.
      + eexists _, _. split; [exact Ya5|]. split; [exact Yb5|]. rewrite C1, C2, C3, C4, C5. cbn [Nat.eqb L_MU_PMIN L_MU_PMAX L_MU_QMINF L_MU_QMAXF L_MU_QMINT L_MU_QMAXT].
        apply (SparseFacts.nth_map2_d radd); lia.
      + rewrite C1, C2, C3, C4. reflexivity.
      + rewrite C1, C2, C3. reflexivity.
      + rewrite C1, C2. reflexivity.
      + rewrite C1. reflexivity. }
  assert (ND : NoDup on) by apply find_NoDup.
  apply copy_cols_ok in H3 as (_ & (L3 & E3)); auto.
  assert (W2 : (w2 = S L_MU_QMAXT <-> MU_QMIN <= length (hd [] gen))).
  { destruct (Nat.leb_spec MU_QMIN (length (hd [] gen))) as [WG|].
    - apply bind_ok in H2 as (d2' & H2 & E). injection E as _ <-. cbv. tauto.
    - injection H2 as _ <-. split; [discriminate|lia]. }
  split; auto. destruct (Nat.eqb_spec w2 (S L_MU_QMAXT)) as [EW|EW].
  - apply bind_ok in H4 as (u & _ & H4). apply copy_cols_ok in H4 as (_ & (L4 & E4)); auto. rewrite map_length in L4.
    split; [congruence|]. split; auto. split; auto. intros i r Hr. destruct (E3 i r Hr) as (r1 & R1 & Q1 & C1).
    destruct (E4 i (r1 ++ repeat 0%K 6)) as (r2 & R2 & Q2 & C2); [rewrite nth_error_map, R1; reflexivity|].
    exists r2. split; auto.
    assert (PAD : forall j, cell (r1 ++ repeat 0%K 6) j = cell r1 j).
    { intros j. unfold cell. destruct (Nat.lt_ge_cases j (length r1)); [rewrite app_nth1; auto|]. rewrite app_nth2 by lia.
      rewrite (nth_overflow r1) by lia. generalize (j - length r1). intros m. do 7 (destruct m; [reflexivity|]). reflexivity. }
    split.
    + intros NI j. rewrite C2, PAD, C1. apply posn_none in NI. rewrite NI. cbn [option_map]. destruct (mem _ _), (mem _ _); reflexivity.
    + intros p Hp. pose proof (nth_error_some_lt _ _ _ Hp) as Lp. fold n in Lp. destruct (GFT p Lp) as (gf & gt & G1 & G2 & G3 & G4).
      exists gf, gt. split; auto. split; auto. destruct (S2 p gf gt G1 G2 Lp) as (d & Hd & RP & RM).
      rewrite (posn_nth _ _ _ ND Hp) in *. cbn [option_map] in *. rewrite (nth_error_nth _ _ [] Hd) in *.
      split; [|split].
      * intros j Hj. rewrite C2, PAD, C1. assert (mem j [L_PF; L_PT; L_QF; L_QT; L_VF; L_VT] = false) as ->.
        { apply mem_out. cbn [In]. lcols. lia. }
        destruct (mem j _) eqn:EM; auto. apply mem_in in EM. cbn [In] in EM. lcols. lia.
      * unfold reported in *. rewrite !C2, !PAD, !C1. exact RP.
      * intros _. specialize (RM EW). unfold reported_mu in *. rewrite !C2. exact RM.
  - injection H4 as <-. split; auto. split; auto. split; auto. intros i r Hr. destruct (E3 i r Hr) as (r1 & R1 & Q1 & C1).
    exists r1. split; auto. split.
    + intros NI j. rewrite C1. apply posn_none in NI. rewrite NI. cbn [option_map]. destruct (mem _ _); reflexivity.
    + intros p Hp. pose proof (nth_error_some_lt _ _ _ Hp) as Lp. fold n in Lp. destruct (GFT p Lp) as (gf & gt & G1 & G2 & G3 & G4).
      exists gf, gt. split; auto. split; auto. destruct (S2 p gf gt G1 G2 Lp) as (d & Hd & RP & RM).
      rewrite (posn_nth _ _ _ ND Hp) in *. cbn [option_map] in *. rewrite (nth_error_nth _ _ [] Hd) in *.
      split; [|split].
      * intros j Hj. rewrite C1. destruct (mem j _) eqn:EM; auto. apply mem_in in EM. cbn [In] in EM. lcols. lia.
      * unfold reported in *. rewrite !C1. exact RP.
      * intros Q. exfalso. apply EW, W2, Q.
Qed.

(** flows reported from a dispatch that meets the added constraint obey the loss law *)
Theorem C38_reported (B : K) (extl dcline : list (list K)) gen gencost extl' gen' gencost' A rhs pg :
  Forall (fun r => length r = S L_LOSS1) extl -> Forall (fun r => length r = S L_LOSS1) dcline ->
  dc_formulation B dcline (length gen) = Ok (A, rhs) ->
  length pg = length gen -> (forall i g, nth_error gen i = Some g -> xcell g PG = EFin (B * nth i pg 0)%K) ->
  (forall p, p < nrows A -> row_val A pg p = nth p rhs 0%K) ->
  dc_int2ext extl dcline gen gencost = Ok (extl', gen', gencost') ->
  forall p i d r', nth_error (find (map (fun r => negb (feqb (cell r L_STATUS) 0%K)) extl)) p = Some i ->
    nth_error dcline p = Some d -> nth_error extl' i = Some r' -> loss_law d (cell r' L_PF) (cell r' L_PT).
Proof.
  intros WE WD HA LP HP HR H p i d r' Hp Hd Hr'.
  assert (LN : length dcline = length (find (map (fun r => negb (feqb (cell r L_STATUS) 0%K)) extl))).
  { clear - H. unfold dc_int2ext in H. apply bind_ok in H as (st & Hst & H). apply col_ok in Hst as (_ & ->).
    cbv zeta in H. apply bind_ok in H as (u & _ & H). apply bind_ok in H as (u2 & HG & H). unfold guard in HG.
    rewrite map_map in HG. destruct (Nat.eqb_spec (length dcline) (length (find (map (fun x => negb (feqb (nth L_STATUS x 0%K) 0%K)) extl)))); [auto|discriminate]. }
  destruct (C38_write_back _ _ _ _ _ _ _ WE WD H) as (LE & L & _ & _ & W). cbv zeta in *.
  set (on := find _) in *.
  destruct (nth_error_lt extl i) as (r & Hr). { rewrite <- L. eapply nth_error_some_lt; eauto. }
  destruct (W i r Hr) as (r2 & Hr2 & _ & Hon). rewrite Hr' in Hr2. injection Hr2 as <-.
  destruct (Hon p Hp) as (gf & gt & G1 & G2 & _ & (R1 & R2 & _) & _).
  destruct (C38_loss B dcline (length gen) A rhs pg HA LP) as (_ & NR & _ & _ & _ & Q). rewrite NR in HR.
  pose proof (proj1 Q HR p d Hd) as LL. rewrite LN in LL.
  rewrite (HP _ _ G1) in R1. injection R1 as R1. rewrite (HP _ _ G2) in R2. injection R2 as R2.
  replace (length gen - length on + p) with (length gen - (length on + length on) + length on + p) in LL by lia.
  rewrite R2 in LL. replace (- (B * nth (length gen - (length on + length on) + p) pg 0))%K with (cell r' L_PF) in LL by (rewrite R1; ring).
  exact LL.
Qed.
End P_DcLine.

(** * Where the callbacks fail (C68) *)
Section C68.
Context {K : Type} {F : Fld K}.

(** bus numbers are floats: without float indices no table of lines is accepted *)
Theorem C68_float_index (dcline : list (list K)) cost e2i bus gen gencost :
  Forall (fun d => L_LOSS1 < length d) dcline -> dc_ext2int false dcline cost e2i bus gen gencost = Err IndexError.
Proof.
  intros W. unfold dc_ext2int. assert (forallb (fun d : list K => L_LOSS1 <? length d) dcline = true) as ->; [|reflexivity].
  apply forallb_forall. intros d I. apply Nat.ltb_lt. rewrite Forall_forall in W. auto.
Qed.
(** line costs together with generator costs are never accepted *)
Theorem C68_line_costs b (dcline : list (list K)) e2i bus gen gencost x : gencost <> [] ->
  dc_ext2int b dcline true e2i bus gen gencost <> Ok x.
Proof.
  intros N H. destruct x as (((dc & bus') & gen') & gencost'). destruct b.
  - destruct (C38_costs _ _ _ _ _ _ _ _ _ _ H) as (_ & Q). destruct (Q N) as (Q' & _). discriminate.
  - unfold dc_ext2int in H. apply bind_ok in H as (u & _ & H). discriminate.
Qed.
(** a solved case with a line out of service cannot be converted back *)
Theorem C68_out_of_service (extl dcline : list (list K)) gen gencost x r :
  Forall (fun r => length r = S L_LOSS1) extl -> MU_QMIN <= length (hd [] gen) ->
  In r extl -> cell r L_STATUS = 0%K -> dc_int2ext extl dcline gen gencost <> Ok x.
Proof.
  intros WE WG I S0 H. unfold dc_int2ext in H. apply bind_ok in H as (st & Hst & H). apply col_ok in Hst as (_ & ->).
  cbv zeta in H. rewrite map_map in H. set (on := find _) in H.
  apply bind_ok in H as (u & HG & H). apply bind_ok in H as (u2 & HG2 & H).
  apply bind_ok in H as (wg & HW & H). apply bind_ok in H as (wl & HL & H). apply bind_ok in H as (d1 & H1 & H).
  apply bind_ok in H as ((d2 & w2) & H2 & H). apply bind_ok in H as (e1 & H3 & H). apply bind_ok in H as (e2 & H4 & H).
  assert (wg = length (hd [] gen)) as ->. { unfold width in HW. destruct gen; [discriminate|]. injection HW as <-. reflexivity. }
  assert (wl = S L_LOSS1) as ->. { unfold width in HL. destruct extl as [|e es]; [discriminate|]. injection HL as <-. apply Forall_cons_iff in WE. tauto. }
  destruct (Nat.leb_spec MU_QMIN (length (hd [] gen))); [|lia]. apply bind_ok in H2 as (d3 & _ & H2). injection H2 as _ <-.
  cbn [Nat.add Nat.eqb L_LOSS1 L_MU_QMAXT] in H4. apply bind_ok in H4 as (u4 & G4 & _). unfold guard in G4.
  apply copy_cols_ok in H3 as (_ & (L3 & _)); [|apply find_NoDup].
  destruct (Nat.eqb_spec (length e1) (length on)) as [E|]; [|discriminate].
  assert (length on < length extl); [|lia]. unfold on.
  assert (ND : NoDup on) by apply find_NoDup. apply In_nth_error in I as (i & Hi).
  assert (NI : ~ In i on). { unfold on. rewrite find_mask. intros (q & Q1 & Q2). rewrite Hi in Q1. injection Q1 as <-.
    change (negb (feqb (cell r L_STATUS) 0%K) = true) in Q2. rewrite S0, (proj2 (feqb_ok 0%K 0%K) eq_refl) in Q2. discriminate. }
  pose proof (NoDup_incl_length (l := i :: on) (l' := seq 0 (length extl)) (NoDup_cons _ NI ND)) as Q. cbn [length] in Q. rewrite seq_length in Q.
  fold on. apply Q. intros k [<-|Ik]; apply in_seq; [pose proof (nth_error_some_lt _ _ _ Hi); lia|].
  unfold on in Ik. apply find_lt in Ik. rewrite map_length in Ik. lia.
Qed.
(** 24 generator columns pass the width test but lack the last price column *)
Theorem C68_width_24 (extl dcline : list (list K)) gen gencost x :
  Forall (fun r => length r = S L_LOSS1) extl -> Forall (fun g => length g = 24) gen -> find (map (fun r => negb (feqb (cell r L_STATUS) 0%K)) extl) <> [] ->
  dc_int2ext extl dcline gen gencost <> Ok x.
Proof.
  intros WE WG NE H. unfold dc_int2ext in H. apply bind_ok in H as (st & Hst & H). apply col_ok in Hst as (_ & ->).
  cbv zeta in H. rewrite map_map in H. change (find (map (fun x => negb (feqb (nth L_STATUS x 0%K) 0%K)) extl)) with (find (map (fun r => negb (feqb (cell r L_STATUS) 0%K)) extl)) in H.
  set (on := find _) in *.
  apply bind_ok in H as (u & HG & H). unfold guard in HG. destruct (Nat.leb_spec (length on + length on) (length gen)) as [LE|]; [|discriminate].
  apply bind_ok in H as (u2 & HG2 & H).
  apply bind_ok in H as (wg & HW & H). apply bind_ok in H as (wl & HL & H). apply bind_ok in H as (d1 & H1 & H).
  apply bind_ok in H as ((d2 & w2) & H2 & H). 
  assert (wg = 24) as ->. { unfold width in HW. destruct gen; [discriminate|]. injection HW as <-. apply Forall_cons_iff in WG. tauto. }
  cbn [Nat.leb MU_QMIN] in H2. apply bind_ok in H2 as (d3 & H2 & _).
  apply putcol_ok in H2 as (_ & t1 & _ & H2 & _). apply putcol_ok in H2 as (v & _ & X & _). apply xcol_ok in X as (_ & X).
  set (ng := length gen - (length on + length on)) in *.
  assert (NL : 0 < length on) by (destruct on; [congruence|cbn; lia]).
  destruct (nth_error_lt (firstn (length on) (skipn (ng + length on) gen)) 0) as (g & Hg).
  { rewrite firstn_length, skipn_length. unfold ng. lia. }
  pose proof (X 0 g Hg) as Q. apply nth_error_some_lt in Q. rewrite Forall_forall in WG. rewrite (WG g) in Q; [unfold MU_QMIN in Q; lia|].
  rewrite firstn_nth in Hg by auto. rewrite CostB.nth_error_skipn in Hg. eapply nth_error_In; eauto.
Qed.

(** ** all lines in service, solved generator table: results can be written back *)
Lemma setcol_tot j (v : list K) t w : length v = length t -> Forall (fun r => length r = w) t -> j < w ->
  exists t', setcol j v t = Ok t' /\ length t' = length t /\ Forall (fun r => length r = w) t'.
Proof.
  intros L W J. unfold setcol. rewrite L, Nat.eqb_refl. cbn [negb].
  assert (Q : forall l : list (K * list K), Forall (fun p => length (snd p) = w) l ->
     exists t', mapM (fun p => set_checked (snd p) j (fst p)) l = Ok t' /\ length t' = length l /\ Forall (fun r => length r = w) t').
  { induction l as [|(a & r) l IH]; intros H; [exists []; auto|]. apply Forall_cons_iff in H as (H1 & H2). destruct (IH H2) as (t' & E & E2 & E3).
    cbn [mapM fst snd]. unfold set_checked at 1. cbn in H1. destruct (Nat.ltb_spec j (length r)); [|lia]. cbn [bind]. rewrite E. cbn [bind].
    eexists. split; [reflexivity|]. split; [cbn; lia|]. constructor; auto. rewrite upd_length. auto. }
  destruct (Q (combine v t)) as (t' & E1 & E2 & E3).
  - apply Forall_forall. intros (a & r) I. apply in_combine_r in I. rewrite Forall_forall in W. apply W. auto.
  - exists t'. rewrite combine_length in E2. split; auto. split; auto. lia.
Qed.
Lemma xcol_tot j (t : list (list (ext K))) : Forall (fun g => exists a, nth_error g j = Some (EFin a)) t ->
  exists v, xcol j t = Ok v /\ length v = length t.
Proof.
  intros H. induction H as [|g t (a & Ha) _ (v & E & L)]; [exists []; auto|]. exists (a :: v). split; [|cbn; auto].
  unfold xcol in *. cbn [mapM]. rewrite E. unfold get. rewrite Ha. reflexivity.
Qed.
Lemma putcol_tot j v t w n : (exists v0, v = Ok v0 /\ length v0 = n) ->
  (exists t0, t = Ok t0 /\ length t0 = n /\ Forall (fun r : list K => length r = w) t0) -> j < w ->
  exists t', putcol j v t = Ok t' /\ length t' = n /\ Forall (fun r => length r = w) t'.
Proof.
  intros (v0 & -> & Lv) (t0 & -> & Lt & W) J. cbn [putcol bind]. destruct (setcol_tot j v0 t0 w) as (t' & E & L & W'); auto; [lia|].
  exists t'. split; auto. split; auto. lia.
Qed.
Lemma set_rows_tot (t : list (list K)) rows j v w : length v = length rows -> Forall (fun i => i < length t) rows -> Forall (fun r => length r = w) t -> j < w ->
  exists t', set_rows t rows j v = Ok t' /\ length t' = length t /\ Forall (fun r => length r = w) t'.
Proof.
  intros L R W J. unfold set_rows.
  assert (G : exists old, gather t rows = Ok old /\ length old = length rows /\ Forall (fun r => length r = w) old).
  { clear L. induction R as [|i rows Hi _ (old & E & E2 & E3)]; [exists []; auto|]. destruct (nth_error_lt t i Hi) as (r & Hr).
    exists (r :: old). split; [|split; [cbn; auto|constructor; auto; rewrite Forall_forall in W; apply W; eapply nth_error_In; eauto]].
    unfold gather in *. cbn [mapM]. rewrite E. unfold get. rewrite Hr. reflexivity. }
  destruct G as (old & -> & LO & WO). cbn [bind]. destruct (setcol_tot j v old w) as (new & -> & LN & WN); auto; [lia|]. cbn [bind].
  unfold scatter_checked. rewrite LN, LO, Nat.eqb_refl. cbn [negb].
  assert (forallb (fun i => i <? length t) rows = true) as ->. { apply forallb_forall. intros i I. rewrite Forall_forall in R. apply Nat.ltb_lt. auto. }
  eexists. split; [reflexivity|]. split; [apply scatter_length|].
  clear - R W WN. revert new WN t R W. induction rows as [|i rows IH]; intros new WN t R W; cbn [scatter]; auto. destruct new as [|v new]; auto.
  apply Forall_cons_iff in R as (R1 & R2). apply Forall_cons_iff in WN as (N1 & N2). apply IH; auto; [rewrite upd_length; auto|].
  apply Forall_forall. intros q Iq. apply In_nth_error in Iq as (m & Hm). rewrite Forall_forall in W.
  assert (Lm : m < length t) by (apply nth_error_some_lt in Hm; rewrite upd_length in Hm; auto).
  apply (nth_error_nth _ _ []) in Hm. rewrite AcPfB.nth_upd_d in Hm by auto. destruct (i =? m); subst q; auto. apply W. apply nth_In. auto.
Qed.
Lemma copy_cols_tot k js (s : list (list K)) w ws : length s = length k -> Forall (fun r => length r = ws) s -> Forall (fun j => j < w /\ j < ws) js ->
  forall t, Forall (fun i => i < length t) k -> Forall (fun r => length r = w) t ->
  exists t', copy_cols k js s t = Ok t' /\ length t' = length t /\ Forall (fun r => length r = w) t'.
Proof.
  intros LS WS. unfold copy_cols. induction js as [|j js IH]; intros HJ t HK W; cbn [foldM]; [exists t; auto|].
  apply Forall_cons_iff in HJ as ((J1 & J2) & HJ).
  assert (C : col j s = Ok (map (fun r => cell r j) s)).
  { clear - WS J2. unfold col. induction WS as [|r s E _ IHs]; auto. cbn [mapM map]. rewrite IHs. unfold get, cell.
    rewrite (nth_error_nth' r 0%K) by lia. reflexivity. }
  rewrite C. cbn [bind]. destruct (set_rows_tot t k j (map (fun r => cell r j) s) w) as (t1 & -> & L1 & W1); auto; [rewrite map_length; auto|].
  cbn [bind]. destruct (IH HJ t1) as (t' & E1 & E2 & E3); auto; [rewrite L1; auto|]. exists t'. split; auto. split; auto. lia.
Qed.

Theorem C68_solved_partial (extl dcline : list (list K)) gen gencost :
  extl <> [] -> Forall (fun r => length r = S L_LOSS1) extl -> Forall (fun r => length r = S L_LOSS1) dcline ->
  Forall (fun r => cell r L_STATUS <> 0%K) extl -> length dcline = length extl -> 2 * length extl <= length gen ->
  Forall (fun g => 25 <= length g) gen ->
  (forall i g j, length gen - 2 * length extl <= i -> nth_error gen i = Some g -> In j [PG; QG; VG; MU_PMIN; MU_PMAX; MU_QMIN; MU_QMAX] ->
     exists a, nth_error g j = Some (EFin a)) ->
  exists extl' gen' gencost', dc_int2ext extl dcline gen gencost = Ok (extl', gen', gencost').
Proof.
  intros NE WE WD ST LD LG WG FIN. unfold dc_int2ext.
  assert (C : col L_STATUS extl = Ok (map (fun r => cell r L_STATUS) extl)).
  { clear - WE. unfold col. induction WE as [|r s E _ IHs]; auto. cbn [mapM map]. rewrite IHs. unfold get, cell.
    rewrite (nth_error_nth' r 0%K) by (rewrite E; cbv; lia). reflexivity. }
  rewrite C. cbn [bind]. cbv zeta. rewrite map_map.
  assert (ON : find (map (fun x => negb (feqb (cell x L_STATUS) 0%K)) extl) = seq 0 (length extl)).
  { clear - ST. unfold find. generalize 0. induction ST as [|r s E _ IHs]; intros k; auto. cbn [map find_from seq length].
    rewrite (proj2 (feqb_false _ _) E). cbn [negb]. rewrite IHs. reflexivity. }
  rewrite ON, seq_length. set (n := length extl) in *.
  assert (n + n <=? length gen = true) as -> by (apply Nat.leb_le; lia). cbn [guard bind]. set (ng := length gen - (n + n)) in *.
  rewrite LD, Nat.eqb_refl. cbn [guard bind]. set (fg := firstn n (skipn ng gen)). set (tg := firstn n (skipn (ng + n) gen)).
  assert (G0 : exists g0 : list (ext K), width gen = Ok (length g0) /\ 25 <= length g0).
  { destruct gen as [|g0 gs]; [destruct extl; [congruence|cbn in LG; lia]|]. exists g0. split; auto. apply Forall_cons_iff in WG. tauto. }
  destruct G0 as (g0 & W1 & G25). rewrite W1. cbn [bind].
  assert (W2 : width extl = Ok (S L_LOSS1)). { destruct extl as [|e es]; [congruence|]. apply Forall_cons_iff in WE as (E & _). unfold width. rewrite E. reflexivity. } rewrite W2. cbn [bind].
  assert (LF : length fg = n) by (unfold fg; rewrite firstn_length, skipn_length; unfold ng; lia).
  assert (LT : length tg = n) by (unfold tg; rewrite firstn_length, skipn_length; unfold ng; lia).
  assert (XF : forall j, In j [PG; QG; VG; MU_PMIN; MU_PMAX; MU_QMIN; MU_QMAX] -> exists v, xcol j fg = Ok v /\ length v = n).
  { intros j J. destruct (xcol_tot j fg) as (v & V1 & V2); [|exists v; split; auto; lia]. apply Forall_forall. intros g I. apply In_nth_error in I as (p & Hp).
    pose proof (nth_error_some_lt _ _ _ Hp) as Lp. unfold fg in Hp. rewrite firstn_nth, CostB.nth_error_skipn in Hp by lia.
    apply (FIN _ _ j) in Hp; auto. unfold ng. lia. }
  assert (XT : forall j, In j [PG; QG; VG; MU_PMIN; MU_PMAX; MU_QMIN; MU_QMAX] -> exists v, xcol j tg = Ok v /\ length v = n).
  { intros j J. destruct (xcol_tot j tg) as (v & V1 & V2); [|exists v; split; auto; lia]. apply Forall_forall. intros g I. apply In_nth_error in I as (p & Hp).
    pose proof (nth_error_some_lt _ _ _ Hp) as Lp. unfold tg in Hp. rewrite firstn_nth, CostB.nth_error_skipn in Hp by lia.
    apply (FIN _ _ j) in Hp; auto. unfold ng. lia. }
  assert (D1 : exists d1, putcol L_VT (xcol VG tg) (putcol L_VF (xcol VG fg) (putcol L_QT (xcol QG tg) (putcol L_QF (xcol QG fg)
          (putcol L_PT (xcol PG tg) (putcol L_PF (v <- xcol PG fg ;; Ok (map ropp v)) (Ok dcline)))))) = Ok d1 /\ length d1 = n /\ Forall (fun r => length r = S L_LOSS1) d1).
  { do 5 (apply putcol_tot; [first [apply XT|apply XF]; cbn; tauto| |cbv; lia]). apply putcol_tot; [| |cbv; lia].
    - destruct (XF PG) as (v & -> & L); [cbn; tauto|]. eexists. split; [reflexivity|]. rewrite map_length. auto.
    - exists dcline. auto. }
  destruct D1 as (d1 & -> & L1 & WD1). cbn [bind].
  assert (MU_QMIN <=? length g0 = true) as -> by (apply Nat.leb_le; unfold MU_QMIN; lia).
  assert (PADW : forall t : list (list K), Forall (fun r => length r = S L_LOSS1) t -> Forall (fun r => length r = S L_MU_QMAXT) (map (fun r => r ++ repeat 0%K 6) t)).
  { intros t W. apply Forall_map. eapply Forall_impl; [|exact W]. intros r E. rewrite app_length, E. reflexivity. }
  assert (D2 : exists d2, putcol L_MU_QMAXT (xcol MU_QMAX tg) (putcol L_MU_QMINT (xcol MU_QMIN tg)
                   (putcol L_MU_QMAXF (xcol MU_QMAX fg) (putcol L_MU_QMINF (xcol MU_QMIN fg)
                   (putcol L_MU_PMAX (vadd2 (xcol MU_PMIN fg) (xcol MU_PMAX tg))
                   (putcol L_MU_PMIN (vadd2 (xcol MU_PMAX fg) (xcol MU_PMIN tg)) (Ok (map (fun r => r ++ repeat 0%K 6) d1))))))) = Ok d2 /\ length d2 = n /\ Forall (fun r => length r = S L_MU_QMAXT) d2).
  { do 4 (apply putcol_tot; [first [apply XT|apply XF]; cbn; tauto| |cbv; lia]).
    assert (ADD : forall u v, (exists u0, u = Ok u0 /\ length u0 = n) -> (exists v0, v = Ok v0 /\ length v0 = n) -> exists v0 : list K, vadd2 u v = Ok v0 /\ length v0 = n).
    { intros u v (u0 & -> & A) (v0 & -> & B). eexists. split; [reflexivity|]. unfold map2. rewrite map_length, combine_length. lia. }
    do 2 (apply putcol_tot; [apply ADD; [apply XF|apply XT]; cbn; tauto| |cbv; lia]). eexists. split; [reflexivity|]. split; auto. rewrite map_length. auto. }
  destruct D2 as (d2 & -> & L2 & WD2). cbn [bind]. cbn [Nat.add Nat.eqb L_LOSS1 L_MU_QMAXT].
  assert (IK : Forall (fun i => i < n) (seq 0 n)) by (apply Forall_forall; intros i I; apply in_seq in I; lia).
  destruct (copy_cols_tot (seq 0 n) [L_PF; L_PT; L_QF; L_QT; L_VF; L_VT] d2 (S L_LOSS1) (S L_MU_QMAXT)) with (t := extl) as (e1 & -> & LE1 & WE1); auto.
  { rewrite seq_length. auto. } { repeat constructor. }
  cbn [bind]. rewrite LE1. fold n. rewrite Nat.eqb_refl. cbn [guard bind].
  destruct (copy_cols_tot (seq 0 n) [L_MU_PMIN; L_MU_PMAX; L_MU_QMINF; L_MU_QMAXF; L_MU_QMINT; L_MU_QMAXT] d2 (S L_MU_QMAXT) (S L_MU_QMAXT)) with (t := map (fun r => r ++ repeat 0%K 6) e1) as (e2 & -> & _); auto.
  { rewrite seq_length. auto. } { repeat constructor. } { rewrite map_length, LE1. auto. }
  cbn [bind]. eauto.
Qed.
End C68.

(** * Examples: three lines on four buses, the middle one out of service *)
Definition d_bus : list (list Qc) := map (map (fun z => lq z 1)) [[30; 1; 50; 10]; [10; 3; 0; 0]; [20; 2; 0; 0]; [40; 1; 5; 5]]%Z.
Definition d_e2i : list nat := repeat 0 10 ++ [1] ++ repeat 0 9 ++ [2] ++ repeat 0 9 ++ [0] ++ repeat 0 9 ++ [3].
Definition d_gen : list (list Qc) := [l_genrow 1 60 0 50 (-50) 1 200 10; l_genrow 2 20 5 50 (-50) 1 100 0]%Z.
Definition d_cost : list (list Qc) := map (map (fun z => lq z 1)) [[2; 0; 0; 2; 14; 0]; [2; 0; 0; 2; 20; 0]]%Z.
Definition d_line (f t st pf : Z) (pmin pmax : Z) : list Qc :=
  map (fun z => lq z 1) [f; t; st; pf; 0; 0; 0; 1; 1; pmin; pmax; -10; 10; -5; 5]%Z ++ [lq 1 1; lq 1 100].
Definition d_lines : list (list Qc) := [d_line 30 40 1 10 1 20; d_line 10 20 0 3 0 5; d_line 20 30 1 (-10) (-15) 0]%Z.
Definition xq (a : ext Qc) : option Q := match a with EFin q => Some (this q) | _ => None end.
Definition d_ext b c := dc_ext2int b d_lines c d_e2i d_bus d_gen d_cost.
Example C38_example_lines :
  match d_ext true false with
  | Ok (dc, bus, gen, gencost) =>
      (length dc, l_table bus [BUS_TYPE], length gencost,
       map (fun g => map (fun j => xq (xcell g j)) [GEN_BUS; PG; QMIN; PMAX; PMIN]) gen)
  | _ => (0, [], 0, [])
  end
  = (2, [[2]; [3]; [2]; [2]]%Q, 6,
     [[Some 1; Some 60; Some (-50); Some 200; Some 10]; [Some 2; Some 20; Some (-50); Some 100; Some 0];
      [Some 0; Some (-10); Some (-10); Some (-1); Some (-20)]; [Some 2; Some 10; Some (-10); None; Some 0];
      [Some 3; Some (89 # 10); Some (-5); None; None]; [Some 0; Some (-109 # 10); Some (-5); None; Some (-15)]]%Q).
Proof. vm_compute. reflexivity. Qed.

(** a dispatch meeting the constraint: 12 MW in, 10.88 MW out; 8 MW the other way *)
Definition d_dc : list (list Qc) := match d_ext true false with Ok (dc, _, _, _) => dc | _ => [] end.
Definition d_pg : list Qc := [lq 60 100; lq 20 100; lq (-12) 100; lq 8 100; lq 1088 10000; lq (-892) 10000].
Example C38_example_loss :
  match dc_formulation (lq 100 1) d_dc 6 with
  | Ok (A, rhs) => (map this (map (row_val A d_pg) [0; 1]), map this rhs)
  | _ => ([], [])
  end = ([-1 # 100; -1 # 100]%Q, [-1 # 100; -1 # 100]%Q).
Proof. vm_compute. reflexivity. Qed.
Example C38_example_limits : line_limits (nth 0 d_lines []) (lq 12 1) (lq 1088 100) /\ loss_law (nth 0 d_lines []) (lq 12 1) (lq 1088 100).
Proof. split; [repeat split|apply qc_eqb_eq]; vm_compute; reflexivity. Qed.

(** writing back: all lines in service *)
Definition d_solved (f : Qc -> list Qc) : list (list (ext Qc)) :=
  map (fun p => map EFin ([lq 0 1; p; lq 1 1; lq 50 1; lq (-50) 1; lq 1 1] ++ repeat (lq 0 1) 15 ++ f p))
    (map (fun a => (lq 100 1 * a)%Qc) d_pg).
Definition d_mu (p : Qc) : list Qc := [lq 2 1; lq 3 1; p; lq 4 1].
Definition d_on : list (list Qc) := [nth 0 d_lines []; nth 2 d_lines []].
Example C38_example_write_back :
  match dc_int2ext d_on d_dc (d_solved d_mu) d_cost with
  | Ok (l, g, c) => (l_table l [L_F_BUS; L_PF; L_PT; L_VT; L_MU_PMIN; L_MU_PMAX; L_MU_QMINT; L_MU_QMAXF], length g, length c)
  | _ => ([], 0, 0)
  end = ([[30; 12; 272 # 25; 1; 5; 5; 4; -12]; [20; -8; -223 # 25; 1; 5; 5; 4; 8]]%Q, 2, 2).
Proof. vm_compute. reflexivity. Qed.

(** the example fails with pinned NumPy; with line costs; and once solved because of its line out of service *)
Theorem C68_refuted :
  exists dcline e2i bus gen gencost dc bus' gen' gencost' solved,
    dc_ext2int (K := Qc) true dcline false e2i bus gen gencost = Ok (dc, bus', gen', gencost') /\
    dc_ext2int (K := Qc) false dcline false e2i bus gen gencost = Err IndexError /\
    dc_ext2int (K := Qc) true dcline true e2i bus gen gencost = Err TypeError /\
    length solved = length gen' /\ Forall (fun g => length g = 25) solved /\
    dc_int2ext dcline dc solved gencost' = Err ValueError /\
    (exists x, dc_int2ext (filter line_in_service dcline) dc solved gencost' = Ok x).
Proof.
  assert (OK : match d_ext true false with Ok _ => true | _ => false end = true) by (vm_compute; reflexivity).
  destruct (d_ext true false) as [(((dc & bus') & gen') & gc)|] eqn:E; [|discriminate].
  exists d_lines, d_e2i, d_bus, d_gen, d_cost, dc, bus', gen', gc, (d_solved d_mu).
  assert (R : forall (x y : result (list (list Qc) * list (list Qc) * list (list (ext Qc)) * list (list Qc))) e,
     match x with Err e' => e' | _ => OutOfModel end = e -> match x with Err _ => true | _ => false end = true -> x = Err e) by (intros [x|e'] _ e <- H; [discriminate|reflexivity]).
  assert (DC : dc = d_dc) by (unfold d_dc; rewrite E; reflexivity).
  split; [exact E|]. split; [apply R; [exact (Err OutOfModel)|vm_compute; reflexivity|vm_compute; reflexivity]|].
  split; [apply R; [exact (Err OutOfModel)|vm_compute; reflexivity|vm_compute; reflexivity]|].
  split. { assert (length (match d_ext true false with Ok (_, _, g, _) => g | _ => [] end) = 6) as Q by (vm_compute; reflexivity). rewrite E in Q. rewrite Q. reflexivity. }
  split; [repeat constructor|].
  assert (GC : gc = match d_ext true false with Ok (_, _, _, c) => c | _ => [] end) by (rewrite E; reflexivity).
  split.
  - assert (R2 : forall (x : result (list (list Qc) * list (list (ext Qc)) * list (list Qc))),
     match x with Err ValueError => true | _ => false end = true -> x = Err ValueError) by (intros [|e] H; [discriminate|destruct e; try discriminate; reflexivity]).
    apply R2. rewrite DC, GC. vm_compute. reflexivity.
  - assert (Q : match dc_int2ext (filter line_in_service d_lines) dc (d_solved d_mu) gc with Ok _ => true | _ => false end = true) by (rewrite DC, GC; vm_compute; reflexivity).
    destruct (dc_int2ext (filter line_in_service d_lines) dc (d_solved d_mu) gc) as [x|]; [exists x; reflexivity|discriminate].
Qed.
Print Assumptions C38_lines.
Print Assumptions C38_reported.
Print Assumptions C68_solved_partial.
Print Assumptions C68_refuted.
