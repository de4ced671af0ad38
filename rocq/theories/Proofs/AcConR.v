(** opf_consfcn over the reals: the matrices it returns are the derivatives of the constraints. *)
From Coq Require Import Reals Lra.
From Verif Require Import Lib.ListFacts Model.OpfFcn Spec.AcConSpec Spec.AcDeriv Proofs.LinAlgFacts Proofs.SparseFacts
  Proofs.FldFacts Proofs.MatFacts Proofs.NetworkA Proofs.DerivR Proofs.AcPfA Proofs.PipsF Proofs.AcCostB Proofs.AcCostC
  Proofs.AcCostR Proofs.AcConA Proofs.AcConB Props.P_Derivs.
Local Open Scope nat_scope.

(** ** the voltages of a point *)
Lemma nth_sl (l : list R) a b i : i < b - a -> nth i (slice a b l) 0%R = nth (a + i) l 0%R.
Proof. exact (nth_slice_d l a b i). Qed.
Definition st_of (nb : nat) (x : list R) : AcDeriv.state := AcDeriv.St (slice nb (nb + nb) x) (slice 0 nb x).
Lemma polar_r (m a : R) : (ofK m * cisR a)%K = Cx (m * cos a)%R (m * sin a)%R.
Proof. change (Cx (m * cos a - 0 * sin a) (m * sin a + 0 * cos a) = Cx (m * cos a) (m * sin a))%R. f_equal; ring. Qed.
Lemma volt_eq nb x : nb + nb <= length x -> volt (st_of nb x) = ac_volt cisR nb x.
Proof.
  intros L. unfold volt, ac_volt, st_of. cbn [mag ang]. rewrite (map2_nth _ _ _ 0%R 0%R) by (rewrite !slice_length; lia).
  replace (length (slice nb (nb + nb) x)) with nb by (rewrite slice_length; lia). apply map_ext_in. intros k Hk. apply in_seq in Hk.
  rewrite !nth_sl by lia. symmetry. apply polar_r.
Qed.
Lemma slice_upd (x : list R) a b j t : slice a b (upd x j t) = if (a <=? j) && (j <? b) then upd (slice a b x) (j - a) t else slice a b x.
Proof.
  apply (nth_ext _ _ 0%R 0%R).
  - destruct (_ && _); rewrite ?upd_len, !slice_length, ?upd_len; reflexivity.
  - intros i Hi. rewrite slice_length, upd_len in Hi.
    assert (E : forall y : list R, nth i (slice a b y) 0%R = nth (a + i) y 0%R).
    { intros y. apply nth_sl. lia. }
    destruct (Nat.leb_spec a j), (Nat.ltb_spec j b); cbn [andb]; rewrite E, nth_upd by lia.
    + rewrite nth_upd by (rewrite slice_length; lia). rewrite E.
      destruct (Nat.eqb_spec (a + i) j), (Nat.eqb_spec i (j - a)); auto; lia.
    + rewrite E. destruct (Nat.eqb_spec (a + i) j); auto; lia.
    + rewrite E. destruct (Nat.eqb_spec (a + i) j); auto; lia.
    + rewrite E. destruct (Nat.eqb_spec (a + i) j); auto; lia.
Qed.
Lemma st_upd nb x j t : nb + nb <= length x ->
  st_of nb (upd x j t) = if j <? nb then coord_set Ang j (st_of nb x) t
    else if j <? nb + nb then coord_set Mag (j - nb) (st_of nb x) t else st_of nb x.
Proof.
  intros L. unfold st_of. rewrite !slice_upd.
  destruct (Nat.ltb_spec j nb); [|destruct (Nat.ltb_spec j (nb + nb))]; cbn [coord_set mag ang].
  - rewrite (proj2 (Nat.leb_gt nb j)) by lia. cbn [Nat.leb andb]. rewrite Nat.sub_0_r. reflexivity.
  - rewrite (proj2 (Nat.leb_le nb j)) by lia. cbn [Nat.leb andb]. reflexivity.
  - rewrite (andb_false_r (nb <=? j)). cbn [Nat.leb andb]. reflexivity.
Qed.
Lemma st_ok nb x : nb + nb <= length x -> (forall k, k < nb -> (0 < nth (nb + k) x 0)%R) -> ok nb (st_of nb x).
Proof.
  intros L P. split; [|split]; cbn [st_of mag ang]; rewrite ?slice_length; try lia.
  apply Forall_forall. intros m I. apply (In_nth _ _ 0%R) in I as (k & Hk & <-). rewrite slice_length in Hk.
  rewrite nth_sl by lia. apply P. lia.
Qed.
(** a function of the voltages as a function of the point *)
Lemma vpartial_state nb (f : AcDeriv.state -> R) (g : list R -> R) x j (d : coord -> nat -> R) : nb + nb <= length x ->
  (forall y, length y = length x -> g y = f (st_of nb y)) ->
  (forall c k, k < nb -> partialR c k f (st_of nb x) (d c k)) ->
  vpartial g x j (if j <? nb then d Ang j else if j <? nb + nb then d Mag (j - nb) else 0%R).
Proof.
  intros L E H. unfold vpartial.
  apply (dl_ext (fun t => f (st_of nb (upd x j t)))); [intros t; symmetry; apply E, upd_len|].
  destruct (Nat.ltb_spec j nb) as [Hj|Hj]; [|destruct (Nat.ltb_spec j (nb + nb)) as [Hj'|Hj']].
  - apply (dl_ext (fun t => f (coord_set Ang j (st_of nb x) t))).
    { intros t. rewrite st_upd by auto. rewrite (proj2 (Nat.ltb_lt _ _) Hj). reflexivity. }
    pose proof (H Ang j Hj) as P. unfold partialR in P. cbn [coord_get st_of ang] in P.
    rewrite nth_sl in P by lia. exact P.
  - apply (dl_ext (fun t => f (coord_set Mag (j - nb) (st_of nb x) t))).
    { intros t. rewrite st_upd by auto. rewrite (proj2 (Nat.ltb_ge _ _) Hj), (proj2 (Nat.ltb_lt _ _) Hj'). reflexivity. }
    pose proof (H Mag (j - nb) ltac:(lia)) as P. unfold partialR in P. cbn [coord_get st_of mag] in P.
    rewrite nth_sl in P by lia. replace (nb + (j - nb)) with j in P by lia. exact P.
  - apply (dl_ext (fun _ => f (st_of nb x))); [|apply derivable_pt_lim_const].
    intros t. rewrite st_upd by auto. rewrite (proj2 (Nat.ltb_ge _ _) Hj), (proj2 (Nat.ltb_ge _ _) Hj'). reflexivity.
Qed.

Lemma vp_bal (f s : list R -> R) c x j a b : vpartial f x j a -> vpartial s x j b -> vpartial (fun y => f y + c - s y)%R x j (a - b)%R.
Proof.
  intros A H. unfold vpartial. apply (derivable_pt_lim_minus (fun t => f (upd x j t) + c)%R (fun t => s (upd x j t))); [|exact H].
  replace a with (a + 0)%R by ring. apply (derivable_pt_lim_plus (fun t => f (upd x j t)) (fun _ => c)); [exact A|apply derivable_pt_lim_const].
Qed.
(** ** supply *)
Lemma d_supply (gen : list (list R)) nb off x j i : nb + nb + off + length gen <= length x ->
  vpartial (fun y => ac_supply gen nb off y i) x j
   (if (nb + nb + off <=? j) && (j <? nb + nb + off + length gen) then
      (let g := nth (j - (nb + nb + off)) gen [] in if in_service g && (bus_no g GEN_BUS =? i) then 1 else 0) else 0)%R.
Proof.
  intros L. unfold vpartial, ac_supply. cbv zeta.
  set (c := fun k => in_service (nth k gen []) && (bus_no (nth k gen []) GEN_BUS =? i)).
  eapply dl_eq.
  - apply (dl_lsum _ (fun k => if k =? j - (nb + nb + off) then (if nb + nb + off <=? j then (if c k then 1 else 0) else 0) else 0)%R).
    intros k Hk. apply in_seq in Hk. fold (c k). unfold ac_output.
    destruct (c k).
    + destruct (Nat.leb_spec (nb + nb + off) j); [destruct (Nat.eqb_spec k (j - (nb + nb + off)))|].
      * eapply dl_ext; [|apply derivable_pt_lim_id]. intros t. cbv [id]. rewrite nth_upd by lia.
        rewrite (proj2 (Nat.eqb_eq (nb + nb + (off + k)) j)) by lia. reflexivity.
      * eapply dl_ext; [|apply derivable_pt_lim_const]. intros t. rewrite nth_upd by lia. rewrite (proj2 (Nat.eqb_neq (nb + nb + (off + k)) j)) by lia. reflexivity.
      * assert ((if k =? j - (nb + nb + off) then 0%R else 0%R) = 0%R) as -> by (destruct (k =? _); auto).
        eapply dl_ext; [|apply derivable_pt_lim_const]. intros t. rewrite nth_upd by lia. rewrite (proj2 (Nat.eqb_neq (nb + nb + (off + k)) j)) by lia. reflexivity.
    + assert ((if k =? j - (nb + nb + off) then (if nb + nb + off <=? j then 0%R else 0%R) else 0%R) = 0%R) as ->
        by (destruct (k =? _); [destruct (nb + nb + off <=? j)|]; auto).
      apply derivable_pt_lim_const.
  - change (0%R) with (@r0 R R_rng).
    rewrite (lsum_seq_single (fun k => if nb + nb + off <=? j then (if c k then 1%R else r0) else r0)). cbn [Nat.leb andb].
    destruct (Nat.leb_spec (nb + nb + off) j); cbn [andb].
    + destruct (Nat.ltb_spec (j - (nb + nb + off)) (0 + length gen)), (Nat.ltb_spec j (nb + nb + off + length gen)); auto; lia.
    + destruct (_ <? _); auto.
Qed.

Section Derivs.
Variables (D : acdata (K := R)) (lim : flow_lim) (Y Yf Yt : smat (cpx R)) (il : list nat) (x : list R).
Notation B := (a_base D).
Notation bus := (a_bus D).
Notation gen := (a_gen D).
Notation nb := (length (a_bus D)).
Notation ng := (length (a_gen D)).
Notation nl := (length il).
Hypothesis S : con_shape D Y Yf Yt il.
Hypothesis LX : nb + nb + ng + ng <= length x.
Hypothesis PN : 0 < nb.
Hypothesis POS : forall k, k < nb -> (0 < nth (nb + k) x 0)%R.
Hypothesis ON : Forall (fun g => in_service g = true) gen.

Lemma fits_shaped nr nc (M : smat (cpx R)) : fits nr nc M -> AcDeriv.shaped M nr nc.
Proof. intros H. exact H. Qed.
Lemma shaped_is (M : smat (cpx R)) nr nc : AcDeriv.shaped M nr nc -> ismat M nr nc (at_ M).
Proof. intros (A & C & W). split; [unfold wf; rewrite A, C; auto|]. auto. Qed.
Lemma ismat_re (M : smat (cpx R)) nr nc f : ismat M nr nc f -> ismat (realm M) nr nc (fun i j => re (f i j)).
Proof. intros H. unfold realm. apply ismat_mapm; auto. Qed.
Lemma ismat_im (M : smat (cpx R)) nr nc f : ismat M nr nc f -> ismat (imagm M) nr nc (fun i j => im (f i j)).
Proof. intros H. unfold imagm. apply ismat_mapm; auto. Qed.
Lemma power_same M i l y : length y = length x ->
  (nth i (ac_volt cisR nb y) 0 * conj (bus_current M (ac_volt cisR nb y) l))%K = power M i l (st_of nb y).
Proof. intros L. unfold power, current, bus_current. rewrite volt_eq by lia. reflexivity. Qed.

Lemma negCg_ok : exists M, sparse (repeat (@ropp R (@fld_rng R R_fld) (@r1 R (@fld_rng R R_fld))) ng) (map (fun r => bus_no r GEN_BUS) gen) (seq 0 ng) nb ng = Ok M /\
  ismat M nb ng (fun i k => if bus_no (nth k gen []) GEN_BUS =? i then -1 else 0)%R.
Proof.
  assert (BO : Forall (fun i => i < nb) (map (fun r => bus_no r GEN_BUS) gen)).
  { apply Forall_map. eapply Forall_impl; [|exact (cn_gbus _ _ _ _ _ S)]. cbn. tauto. }
  rewrite sparse_def.
  - eexists. split; [reflexivity|]. split; [|split; [auto|split; [auto|]]].
    + unfold wf. cbn [nrows ncols ents]. apply Forall_forall. intros e He. apply zip3_in in He as (A & C).
      rewrite Forall_forall in BO. apply BO in A. apply in_seq in C. lia.
    + intros i k Hi Hk. unfold at_. cbn [ents]. rewrite (lsum_zip3 _ _ _ _ ng) by (rewrite ?map_length, ?seq_length, ?repeat_length; auto).
      cbn [erow ecol ev].
      rewrite (lsum_ext _ (fun m => if m =? k then (if bus_no (nth m gen []) GEN_BUS =? i then -1 else 0)%R else 0%K)).
      * rewrite lsum_seq_single. cbn [Nat.leb andb]. rewrite (proj2 (Nat.ltb_lt _ _)) by lia. reflexivity.
      * intros m Hm. apply in_seq in Hm. rewrite (nth_map_lt _ _ _ _ []), seq_nth, nth_repeat_lt by lia. cbn [Nat.add].
        destruct (Nat.eqb_spec m k); rewrite ?andb_true_r, ?andb_false_r; auto.
  - rewrite repeat_length, map_length. reflexivity.
  - rewrite repeat_length, seq_length. reflexivity.
  - exact BO.
  - apply Forall_forall. intros k I. apply in_seq in I. lia.
Qed.

Lemma on_k k : k < ng -> in_service (nth k gen []) = true.
Proof. intros Hk. rewrite Forall_forall in ON. apply ON, nth_In. auto. Qed.

(** the two ends of the branches *)
Definition sq_of (M : smat (cpx R)) (i l : nat) (s : AcDeriv.state) : R :=
  match lim with
  | LimS => nrm2 (power M i l s)
  | LimP => (re (power M i l s) * re (power M i l s))%R
  | LimI => nrm2 (current M l s)
  end.
Lemma end_sq_same M i l y : length y = length x -> end_sq lim M i l (ac_volt cisR nb y) = sq_of M i l (st_of nb y).
Proof.
  intros L. unfold end_sq, sq_of. rewrite power_same by auto. destruct lim; auto.
  unfold current, bus_current. rewrite volt_eq by lia. reflexivity.
Qed.
Definition flow_of (M : smat (cpx R)) (j l : nat) (s : AcDeriv.state) : cpx R :=
  match lim with
  | LimS => power M (bus_no (nth l (brows D il) []) j) l s
  | LimP => ofK (re (power M (bus_no (nth l (brows D il) []) j) l s))
  | LimI => current M l s
  end.
Lemma flow_sq M j l s : nrm2 (flow_of M j l s) = sq_of M (bus_no (nth l (brows D il) []) j) l s.
Proof. unfold flow_of, sq_of. destruct lim; auto. unfold nrm2, ofK. cbn. ring. Qed.
Lemma re_derivs n s m (q : nat -> AcDeriv.state -> cpx R) dVa dVm : first_derivs n s m q dVa dVm ->
  first_derivs n s m (fun l s' => ofK (re (q l s'))) (real_part dVa) (real_part dVm).
Proof.
  intros ((A1 & A2 & A3) & (B1 & B2 & B3) & H).
  assert (SH : forall M : smat (cpx R), nrows M = m -> ncols M = n -> Forall (fun e => erow e < m /\ ecol e < n) (ents M) -> AcDeriv.shaped (real_part M) m n).
  { intros M E1 E2 E3. split; [auto|split; [auto|]]. unfold real_part, mapm. cbn [ents]. apply Forall_map. exact E3. }
  split; [auto|split; [auto|]]. intros l k Hl Hk. destruct (H l k Hl Hk) as (P1 & P2).
  assert (AT : forall (M : smat (cpx R)) i j, at_ (real_part M) i j = ofK (re (at_ M i j))).
  { intros M i j. unfold at_, real_part, mapm. cbn [ents]. rewrite lsum_map. cbn [erow ecol ev].
    rewrite (lsum_hom (fun z : cpx R => ofK (re z))).
    - apply lsum_ext. intros e _. destruct (_ && _); auto.
    - reflexivity.
    - intros (a1, a2) (b1, b2). change (Cx (a1 + b1) 0 = Cx (a1 + b1) (0 + 0))%R. f_equal. ring. }
  rewrite !AT. split; split; try (apply derivable_pt_lim_const); [apply P1|apply P2].
Qed.
Lemma re_values s m (q : nat -> AcDeriv.state -> cpx R) V : values s m q V ->
  values s m (fun l s' => ofK (re (q l s'))) (map (fun z => ofK (re z)) V).
Proof.
  intros (L & H). split; [rewrite map_length; auto|]. intros l Hl. rewrite (nth_map_lt _ _ _ _ 0%K) by lia. rewrite H by auto. reflexivity.
Qed.

Lemma flows_ok : 0 < nl -> let s := st_of nb x in exists da dm ea em,
  ('(fa, fm, ta, tm, Ff, Ft) <-
      match lim with LimI => dIbr_dV cabsR Yf Yt (volt s) | _ => dSbr_dV cabsR (brows D il) Yf Yt (volt s) end ;;
      match lim with
      | LimP => dAbr_dV (real_part fa) (real_part fm) (real_part ta) (real_part tm)
                  (map (fun z => ofK (re z)) Ff) (map (fun z => ofK (re z)) Ft)
      | _ => dAbr_dV fa fm ta tm Ff Ft
      end) = Ok (da, dm, ea, em) /\ sq_derivs nb s nl (flow_of Yf F_BUS) da dm /\ sq_derivs nb s nl (flow_of Yt T_BUS) ea em.
Proof.
  intros PL s. assert (OK : ok nb s) by (apply st_ok; auto; lia). destruct S.
  pose proof (brows_len D il) as BL.
  assert (W : wide T_BUS (brows D il)) by (eapply Forall_impl; [|exact cn_w]; cbn; unfold T_BUS, RATE_A; lia).
  unfold flow_of. destruct lim.
  - destruct (C24_flows nb s PN OK (brows D il) Yf Yt) as (fa & fm & ta & tm & Sf & St_ & E & D1 & V1 & D2 & V2); auto;
      try (rewrite BL; auto).
    rewrite E. cbn [bind]. rewrite BL in *.
    destruct (C24_squared nb s nl _ _ _ _ _ _ _ _ PL D1 V1 D2 V2) as (a & b & c & d & E' & H1 & H2). rewrite E'.
    exists a, b, c, d. auto.
  - destruct (C24_flows nb s PN OK (brows D il) Yf Yt) as (fa & fm & ta & tm & Sf & St_ & E & D1 & V1 & D2 & V2); auto;
      try (rewrite BL; auto).
    rewrite E. cbn [bind]. rewrite BL in *.
    destruct (C24_squared nb s nl _ _ _ _ _ _ _ _ PL (re_derivs _ _ _ _ _ _ D1) (re_values _ _ _ _ V1) (re_derivs _ _ _ _ _ _ D2) (re_values _ _ _ _ V2))
      as (a & b & c & d & E' & H1 & H2). rewrite E'.
    exists a, b, c, d. auto.
  - destruct (C24_currents nb s PN OK nl Yf Yt PL cn_Yf cn_Yt) as (fa & fm & ta & tm & Sf & St_ & E & D1 & V1 & D2 & V2).
    rewrite E. cbn [bind].
    destruct (C24_squared nb s nl _ _ _ _ _ _ _ _ PL D1 V1 D2 V2) as (a & b & c & d & E' & H1 & H2). rewrite E'.
    exists a, b, c, d. auto.
Qed.

Lemma shaped_isR (M : smat R) nr nc : AcDeriv.shaped M nr nc -> ismat M nr nc (at_ M).
Proof. intros (A & C & W). split; [unfold wf; rewrite A, C; auto|]. auto. Qed.
Lemma is_shaped {L} {RL : Rng L} (M : smat L) nr nc f : ismat M nr nc f -> AcDeriv.shaped M nr nc.
Proof. intros (W & A & C & _). unfold wf in W. rewrite A, C in W. repeat split; auto. Qed.

Theorem con_derivs_ok : exists dh dg, con_derivs cabsR D lim Y Yf Yt il (length x) (ac_volt cisR nb x) = Ok (dh, Some dg) /\
  AcDeriv.shaped dg (length x) (nb + nb) /\
  (forall i j, i < nb -> j < length x -> vpartial (p_balance cisR B bus gen Y i) x j (at_ dg j i) /\
                                         vpartial (q_balance cisR B bus gen Y i) x j (at_ dg j (nb + i))) /\
  (nl = 0 -> dh = None) /\
  (0 < nl -> exists M, dh = Some M /\ AcDeriv.shaped M (length x) (nl + nl) /\
    forall l j, l < nl -> j < length x ->
      vpartial (overflow cisR lim B nb (brow D il l) F_BUS Yf l) x j (at_ M j l) /\
      vpartial (overflow cisR lim B nb (brow D il l) T_BUS Yt l) x j (at_ M j (nl + l))).
Proof.
  set (s := st_of nb x). assert (OK : ok nb s) by (apply st_ok; auto; lia).
  rewrite <- volt_eq by lia. fold s. unfold con_derivs.
  destruct (C23_bus_injections Y nb s PN (cn_Y _ _ _ _ _ S) OK) as (dVm & dVa & E & Sm & Sa & PD'). rewrite E. cbn [bind]. clear E.
  destruct negCg_ok as (C & EC & HC). rewrite EC. cbn [bind]. clear EC. cbv zeta.
  pose proof (ismat_re _ _ _ _ (shaped_is _ _ _ Sa)) as Ra. pose proof (ismat_re _ _ _ _ (shaped_is _ _ _ Sm)) as Rm.
  pose proof (ismat_im _ _ _ _ (shaped_is _ _ _ Sa)) as Ia. pose proof (ismat_im _ _ _ _ (shaped_is _ _ _ Sm)) as Im.
  destruct (ismat_hstack _ _ _ _ _ _ _ Ra Rm) as (p1 & -> & H1). cbn [bind].
  destruct (ismat_hstack _ _ _ _ _ _ _ H1 HC) as (p2 & -> & H2). cbn [bind].
  destruct (ismat_hstack _ _ _ _ _ _ _ H2 (ismat_blank nb ng)) as (p & -> & HP). cbn [bind].
  destruct (ismat_hstack _ _ _ _ _ _ _ Ia Im) as (q1 & -> & J1). cbn [bind].
  destruct (ismat_hstack _ _ _ _ _ _ _ J1 (ismat_blank nb ng)) as (q2 & -> & J2). cbn [bind].
  destruct (ismat_hstack _ _ _ _ _ _ _ J2 HC) as (q & -> & HQ). cbn [bind].
  destruct (ismat_vstack _ _ _ _ _ _ _ HP HQ) as (pq & -> & HPQ). cbn [bind].
  pose proof (ismat_transp (widen (length x) pq) _ _ _ (ismat_widen pq _ _ (length x) _ HPQ LX)) as HG.
  set (dg := transp (widen (length x) pq)) in *. clearbody dg.
  assert (G : forall i j, i < nb -> j < length x -> vpartial (p_balance cisR B bus gen Y i) x j (at_ dg j i) /\
                                         vpartial (q_balance cisR B bus gen Y i) x j (at_ dg j (nb + i))).
  { intros i j Hi Hj. destruct HG as (_ & _ & _ & HG). rewrite !HG by lia.
    rewrite (proj2 (Nat.ltb_lt i nb)), (proj2 (Nat.ltb_ge (nb + i) nb)) by lia.
    replace (nb + i - nb) with i by lia.
    pose (dR := fun c k => re (at_ (match c with Ang => dVa | Mag => dVm end) i k)).
    pose (dI := fun c k => im (at_ (match c with Ang => dVa | Mag => dVm end) i k)).
    assert (VR : vpartial (fun y => re (bus_power Y (ac_volt cisR nb y) i)) x j
        (if j <? nb then dR Ang j else if j <? nb + nb then dR Mag (j - nb) else 0%R)).
    { apply (vpartial_state nb (fun s' => re (power Y i i s'))); [lia| |].
      - intros y Ly. unfold bus_power. rewrite power_same by auto. reflexivity.
      - intros c k Hk. destruct (PD' i k Hi Hk) as (P1 & P2). destruct c; [apply P2|apply P1]. }
    assert (VI : vpartial (fun y => im (bus_power Y (ac_volt cisR nb y) i)) x j
        (if j <? nb then dI Ang j else if j <? nb + nb then dI Mag (j - nb) else 0%R)).
    { apply (vpartial_state nb (fun s' => im (power Y i i s'))); [lia| |].
      - intros y Ly. unfold bus_power. rewrite power_same by auto. reflexivity.
      - intros c k Hk. destruct (PD' i k Hi Hk) as (P1 & P2). destruct c; [apply P2|apply P1]. }
    pose proof (d_supply gen nb 0 x j i ltac:(lia)) as SP. pose proof (d_supply gen nb ng x j i ltac:(lia)) as SQ.
    split.
    - eapply dl_eq.
      + apply (vp_bal _ _ (cell (nth i bus []) PD / B)%R _ _ _ _ VR SP).
      + cbv zeta. rewrite Nat.add_0_r. unfold dR.
        destruct (Nat.ltb_spec j nb), (Nat.ltb_spec j (nb + nb)); try lia;
          rewrite ?(proj2 (Nat.leb_gt (nb + nb) j)), ?(proj2 (Nat.leb_le (nb + nb) j)) by lia; cbn [andb].
        * rewrite (proj2 (Nat.ltb_lt j (nb + nb + ng))), (proj2 (Nat.ltb_lt j (nb + nb + ng + ng))) by lia. ring.
        * rewrite (proj2 (Nat.ltb_lt j (nb + nb + ng))), (proj2 (Nat.ltb_lt j (nb + nb + ng + ng))) by lia. ring.
        * destruct (Nat.ltb_spec j (nb + nb + ng)).
          -- rewrite (proj2 (Nat.ltb_lt j (nb + nb + ng + ng))) by lia. rewrite on_k by lia. cbn [andb].
             destruct (_ =? _); ring.
          -- kr. destruct (j <? nb + nb + ng + ng); ring.
    - eapply dl_eq.
      + apply (vp_bal _ _ (cell (nth i bus []) QD / B)%R _ _ _ _ VI SQ).
      + cbv zeta. unfold dI.
        destruct (Nat.ltb_spec j nb), (Nat.ltb_spec j (nb + nb)); try lia.
        * rewrite (proj2 (Nat.leb_gt (nb + nb + ng) j)), (proj2 (Nat.ltb_lt j (nb + nb + ng))), (proj2 (Nat.ltb_lt j (nb + nb + ng + ng))) by lia. cbn [andb]. ring.
        * rewrite (proj2 (Nat.leb_gt (nb + nb + ng) j)), (proj2 (Nat.ltb_lt j (nb + nb + ng))), (proj2 (Nat.ltb_lt j (nb + nb + ng + ng))) by lia. cbn [andb]. ring.
        * destruct (Nat.ltb_spec j (nb + nb + ng)).
          -- rewrite (proj2 (Nat.leb_gt (nb + nb + ng) j)), (proj2 (Nat.ltb_lt j (nb + nb + ng + ng))) by lia. cbn [andb]. kr. ring.
          -- rewrite (proj2 (Nat.leb_le (nb + nb + ng) j)) by lia. cbn [andb].
             destruct (Nat.ltb_spec j (nb + nb + ng + ng)).
             ++ rewrite on_k by lia. cbn [andb]. destruct (_ =? _); ring.
             ++ kr. ring. }
  destruct (Nat.eqb_spec nl 0) as [Z|Z].
  - eexists _, _. split; [reflexivity|]. split; [eapply is_shaped; exact HG|]. split; auto. split; auto. intros; lia.
  - destruct flows_ok as (da & dm & ea & em & EF & DF & DT); [lia|]. fold s in EF, DF, DT.
    apply bind_ok in EF as ((((((fa, fm), ta), tm), Ff), Ft) & E1 & E2). rewrite E1. cbn [bind]. rewrite E2. cbn [bind].
    destruct DF as (F1 & F2 & F3). destruct DT as (T1 & T2 & T3).
    destruct (ismat_hstack _ _ _ _ _ _ _ (shaped_isR _ _ _ F1) (shaped_isR _ _ _ F2)) as (hf & -> & HF). cbn [bind].
    destruct (ismat_hstack _ _ _ _ _ _ _ (shaped_isR _ _ _ T1) (shaped_isR _ _ _ T2)) as (ht & -> & HT). cbn [bind].
    destruct (ismat_vstack _ _ _ _ _ _ _ HF HT) as (hh & -> & HH). cbn [bind].
    assert (L2 : nb + nb <= length x) by lia.
    pose proof (ismat_transp (widen (length x) hh) _ _ _ (ismat_widen hh _ _ (length x) _ HH L2)) as HM.
    eexists _, _. split; [reflexivity|]. split; [eapply is_shaped; exact HG|]. split; auto. split; [lia|].
    intros _. eexists. split; [reflexivity|]. split; [eapply is_shaped; exact HM|].
    destruct HM as (_ & _ & _ & HM).
    assert (X : forall (M : smat (cpx R)) col a b l j, l < nl -> 
       (forall l k, l < nl -> k < nb -> partialR Ang k (fun s' => nrm2 (flow_of M col l s')) s (at_ a l k) /\
                                        partialR Mag k (fun s' => nrm2 (flow_of M col l s')) s (at_ b l k)) ->
       vpartial (overflow cisR lim B nb (brow D il l) col M l) x j
         (if j <? nb then at_ a l j else if j <? nb + nb then at_ b l (j - nb) else 0%R)).
    { intros M col a b l j Hl H.
      apply (dl_eq _ _ ((if j <? nb then at_ a l j else if j <? nb + nb then at_ b l (j - nb) else 0%R) - 0)%R); [|ring].
      apply (derivable_pt_lim_minus (fun t => end_sq lim M (bus_no (brow D il l) col) l (ac_volt cisR nb (upd x j t)))
         (fun _ => (cell (brow D il l) RATE_A / B) * (cell (brow D il l) RATE_A / B))%K); [|apply derivable_pt_lim_const].
      apply (vpartial_state nb (sq_of M (bus_no (brow D il l) col) l) (fun y => end_sq lim M (bus_no (brow D il l) col) l (ac_volt cisR nb y))
         x j (fun c k => at_ (match c with Ang => a | Mag => b end) l k)); auto.
      - intros y Ly. apply end_sq_same. auto.
      - intros c k Hk. destruct (H l k Hl Hk) as (A1 & A2).
        assert (EQ : forall s', nrm2 (flow_of M col l s') = sq_of M (bus_no (brow D il l) col) l s').
        { intros s'. rewrite flow_sq. rewrite nth_brows by auto. reflexivity. }
        destruct c; (eapply dl_ext; [intros t; apply EQ|]); [apply A1|apply A2]. }
    intros l j Hl Hj. rewrite !HM by lia.
    rewrite (proj2 (Nat.ltb_lt l nl)), (proj2 (Nat.ltb_ge (nl + l) nl)) by lia. replace (nl + l - nl) with l by lia.
    split.
    + eapply dl_eq; [apply (X Yf F_BUS da dm l j Hl F3)|].
      destruct (Nat.ltb_spec j nb), (Nat.ltb_spec j (nb + nb)); auto; lia.
    + eapply dl_eq; [apply (X Yt T_BUS ea em l j Hl T3)|].
      destruct (Nat.ltb_spec j nb), (Nat.ltb_spec j (nb + nb)); auto; lia.
Qed.
End Derivs.
