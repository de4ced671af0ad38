(** Facts about runpf's AC part: start voltages, and the balance of reported quantities. *)
From Coq Require Import Permutation.
From Verif Require Import Lib.ListFacts Model.AcPf Spec.PfSpec Spec.AcSpec Proofs.LinAlgFacts
  Proofs.SparseFacts Proofs.FldFacts Proofs.NetworkA Proofs.NetworkB Proofs.NetworkC
  Proofs.NetworkD Proofs.NetworkE Proofs.YbusA Proofs.MatFacts Proofs.AcPfA Proofs.AcPfB
  Proofs.PfsolnA Proofs.PfsolnB Proofs.PfsolnC.
Local Open Scope nat_scope.

Section AcPfC.
Context {K : Type} {F : Fld K}.
Add Field KF : (@f_ok K F).
Add Ring CR : (@r_ok (cpx K) _).

(** ** start voltages *)
Lemma scatter_rows {A B} (f : A -> nat) (v : A -> B) rows (l : list B) i d :
  Forall (fun r => f r < length l) rows -> In i (map f rows) ->
  exists r1 r r2, rows = r1 ++ r :: r2 /\ f r = i /\ ~ In i (map f r2) /\
    nth i (scatter l (map f rows) (map v rows)) d = v r.
Proof.
  revert l. induction rows as [|a rows IH]; intros l R I; [contradiction|].
  apply Forall_cons_iff in R as [Ra R]. cbn [map scatter].
  destruct (in_dec Nat.eq_dec i (map f rows)) as [I'|N].
  - destruct (IH (upd l (f a) (v a))) as (r1 & r & r2 & -> & E & N & EV).
    + eapply Forall_impl; [|exact R]. simpl. intros. rewrite upd_length. auto.
    + auto.
    + exists (a :: r1), r, r2. auto.
  - destruct I as [E|I]; [|contradiction]. exists [], a, rows. repeat split; auto.
    apply nth_error_nth. rewrite scatter_other by auto. rewrite <- E in *.
    apply nth_error_upd_same. auto.
Qed.

Lemma filter_split {A} (P : A -> bool) l r1 r r2 : filter P l = r1 ++ r :: r2 ->
  exists l1 l2, l = l1 ++ r :: l2 /\ filter P l2 = r2 /\ P r = true.
Proof.
  revert r1. induction l as [|a l IH]; intros r1 H; simpl in H.
  - destruct r1; discriminate.
  - destruct (P a) eqn:E.
    + destruct r1 as [|b r1]; injection H as <- H.
      * exists [], l. auto.
      * destruct (IH _ H) as (l1 & l2 & -> & A2 & A3). exists (a :: l1), l2. auto.
    + destruct (IH _ H) as (l1 & l2 & -> & A2 & A3). exists (a :: l1), l2. auto.
Qed.

Lemma filter_filter {A} (P Q : A -> bool) l : filter P (filter Q l) = filter (fun a => Q a && P a) l.
Proof.
  induction l as [|a l IH]; simpl; auto. destruct (Q a); simpl; rewrite IH; auto.
Qed.

Lemma vcb_ok n pq vcb b : scatter_checked (repeat true n) pq (repeat false (length pq)) = Ok vcb ->
  b < n -> nth b vcb true = negb (existsb (Nat.eqb b) pq).
Proof.
  intros H L. apply scatter_checked_ok in H as (_ & R & ->). rewrite repeat_length in R.
  destruct (existsb (Nat.eqb b) pq) eqn:E.
  - apply existsb_exists in E as (x & I & E). apply Nat.eqb_eq in E. subst x.
    rewrite <- (map_id pq), <- map_const, !map_map.
    destruct (scatter_rows (fun a : nat => a) (fun _ : nat => false) pq (repeat true n) b true)
      as (r1 & r & r2 & _ & _ & _ & EV).
    + rewrite repeat_length. auto.
    + rewrite map_id. auto.
    + rewrite map_id in EV |- *. exact EV.
  - apply nth_error_nth. rewrite scatter_other.
    + rewrite (nth_error_nth' _ true) by (rewrite repeat_length; auto). rewrite nth_repeat_lt; auto.
    + intros I. assert (existsb (Nat.eqb b) pq = true); [|congruence].
      apply existsb_exists. exists b. split; auto. apply Nat.eqb_refl.
Qed.

Definition start_at (cis : K -> cpx K) (b : list K) : cpx K :=
  (ofK (cell b VM) * cis (fpi / fofZ 180 * cell b VA)%K)%K.

Lemma start_voltage_ok cis cabs bus gen pq V :
  start_voltage cis cabs bus gen (onl gen) (gbs gen) pq = Ok V ->
  length V = length bus /\
  forall i b, nth_error bus i = Some b ->
    (In i pq \/ ~ has_gen gen i -> nth i V 0%K = start_at cis b) /\
    (~ In i pq -> has_gen gen i -> exists k g, last_at gen i k g /\
       cabs (start_at cis b) <> 0%K /\
       nth i V 0%K = (ofK (cell g VG / cabs (start_at cis b)) * start_at cis b)%K).
Proof.
  intros H. unfold start_voltage in H.
  apply bind_ok in H as (vm & Hvm & H). apply col_ok in Hvm as (_ & ->).
  apply bind_ok in H as (va & Hva & H). apply col_ok in Hva as (_ & ->).
  cbv zeta in H. rewrite map2_map in H.
  change (fun x : list K => cmul (ofK (nth VM x 0%K)) (cis (fpi / fofZ 180 * nth VA x 0)%K))
    with (start_at cis) in H.
  set (V0 := map (start_at cis) bus) in *.
  assert (length V0 = length bus) as L0 by (unfold V0; apply map_length).
  apply bind_ok in H as (vcb & Hvcb & H). apply bind_ok in H as (m & Hm & H).
  apply bind_ok in H as (gb & Hgb & H). apply bind_ok in H as (ok & Hok & H).
  apply bind_ok in H as (rows & Hrows & H). apply bind_ok in H as (vg & Hvg & H).
  apply bind_ok in H as (v & Hv & H).
  assert (length vcb = length bus) as LC.
  { apply scatter_checked_ok in Hvcb as (_ & _ & ->). rewrite scatter_length, repeat_length. auto. }
  apply (gather_map _ _ _ true) in Hm as (RB & ->). rewrite LC in RB.
  set (P := fun g : list K => negb (existsb (Nat.eqb (bus_no g GEN_BUS)) pq)).
  assert (map (fun i => nth i vcb true) (gbs gen) = map P (gon gen)) as EM.
  { unfold gbs in *. rewrite map_map. rewrite Forall_map, Forall_forall in RB.
    apply map_ext_in. intros g Ig. apply (vcb_ok (length V0)); auto. rewrite L0. auto. }
  rewrite EM in *. set (k := find (map P (gon gen))) in *.
  pose proof (gather_find P (gon gen)) as GF. fold k in GF.
  assert (rows = filter P (gon gen)) as ER.
  { apply (gather_map _ _ _ 0) in Hok as (_ & ->). apply (gather_map _ _ _ []) in Hrows as (_ & ->).
    apply (gather_map _ _ _ []) in GF as (RK & EF). rewrite EF, map_map.
    pose proof (gather_find in_service gen) as GI. fold (onl gen) (gon gen) in GI.
    apply (gather_map _ _ _ []) in GI as (_ & EG). rewrite EG in RK |- *. rewrite map_length in RK.
    rewrite Forall_forall in RK. apply map_ext_in. intros p Ip.
    rewrite (nth_map_lt _ _ _ _ 0) by auto. reflexivity. }
  assert (gb = map (fun g => bus_no g GEN_BUS) rows) as EB.
  { rewrite ER. apply (gather_map _ _ _ 0) in Hgb as (_ & ->).
    apply (gather_map _ _ _ []) in GF as (RK & ->). rewrite map_map. rewrite Forall_forall in RK.
    apply map_ext_in. intros p Ip. unfold gbs. rewrite (nth_map_lt _ _ _ _ []) by auto. reflexivity. }
  assert (rows = filter (fun g => in_service g && P g) gen) as ER'
    by (rewrite ER; unfold gon; apply filter_filter).
  apply col_ok in Hvg as (_ & ->). apply (gather_map _ _ _ 0%K) in Hv as (RV & ->).
  destruct (existsb _ _) eqn:EX; [discriminate|].
  apply scatter_checked_ok in H as (_ & _ & EV).
  rewrite EB in EX, EV, RV. rewrite map_map, map2_map in EV.
  rewrite Forall_map in RV.
  split; [rewrite EV, scatter_length; auto|].
  intros i b Hb.
  assert (nth i V0 0%K = start_at cis b) as E0.
  { unfold V0. rewrite (nth_map_lt _ _ _ _ []) by (eapply nth_error_some_lt; eauto).
    rewrite (nth_error_nth _ _ _ Hb). auto. }
  assert (In i (map (fun g => bus_no g GEN_BUS) rows) <-> has_gen gen i /\ ~ In i pq) as IR.
  { rewrite in_map_iff, ER'. unfold has_gen, P. split.
    - intros (g & E & I). apply filter_In in I as (I & E2). apply andb_true_iff in E2 as (S & E2).
      split; [eauto|]. intros C. apply negb_true_iff in E2. rewrite E in E2.
      assert (existsb (Nat.eqb i) pq = true); [|congruence].
      apply existsb_exists. exists i. split; auto. apply Nat.eqb_refl.
    - intros ((g & I & S & E) & N). exists g. split; auto. apply filter_In. split; auto.
      rewrite S, E. apply negb_true_iff. destruct (existsb (Nat.eqb i) pq) eqn:C; auto.
      apply existsb_exists in C as (x & Ix & C). apply Nat.eqb_eq in C. subst. contradiction. }
  split.
  - intros D. rewrite EV, <- E0. apply nth_error_nth.
    rewrite scatter_other by (rewrite IR; destruct D; tauto). apply nth_error_nth'.
    rewrite L0. eapply nth_error_some_lt; eauto.
  - intros N G. destruct (scatter_rows (fun g : list K => bus_no g GEN_BUS)
      (fun g => cmul (ofK (nth VG g 0 / cabs (nth (bus_no g GEN_BUS) V0 0))%K) (nth (bus_no g GEN_BUS) V0 0%K))
      rows V0 i 0%K) as (r1 & g & r2 & E1 & Eb & N2 & EV'); auto.
    { apply IR. auto. }
    rewrite <- EV in EV'. rewrite Eb, E0 in EV'. rewrite ER' in E1.
    destruct (filter_split _ _ _ _ _ E1) as (l1 & l2 & EG & F2 & Pg).
    apply andb_true_iff in Pg as (S & Pg).
    exists (length l1), g. split; [|split].
    + split; [rewrite EG, nth_error_app2, Nat.sub_diag by lia; auto|]. split; auto. split; auto.
      intros k' h Lk Hh Sh C. rewrite EG, nth_error_app2 in Hh by lia.
      replace (k' - length l1) with (Datatypes.S (k' - length l1 - 1)) in Hh by lia. simpl in Hh.
      apply nth_error_In in Hh. apply N2. rewrite <- C. apply in_map_iff. exists h. split; auto.
      rewrite <- F2. apply filter_In. split; auto. rewrite Sh. cbn [andb].
      unfold P in *. rewrite C, <- Eb. auto.
    + intros C. assert (existsb (fun z : cpx K => feqb (cabs z) 0%K)
        (map (fun i => nth i V0 0%K) (map (fun g => bus_no g GEN_BUS) rows)) = true); [|congruence].
      apply existsb_exists. exists (start_at cis b). split; [|apply feqb_ok; auto].
      apply in_map_iff. exists i. split; auto. apply IR. auto.
    + exact EV'.
Qed.

(** ** power drawn by the reported branch flows *)
Definition cdrawn (Yf Yt : smat (cpx K)) baseMVA V (branch : list (list K)) i : cpx K :=
  lsum (fun l => (if bus_no (nth l branch []) F_BUS =? i
                  then branch_power baseMVA Yf V (bus_no (nth l branch []) F_BUS) l else 0)
               + (if bus_no (nth l branch []) T_BUS =? i
                  then branch_power baseMVA Yt V (bus_no (nth l branch []) T_BUS) l else 0))%K
    (seq 0 (length branch)).

Lemma conj_lsum {A} (f : A -> cpx K) l : conj (lsum f l) = lsum (fun x => conj (f x)) l.
Proof.
  induction l as [|a l IH].
  - apply cpx_eq; cbn; ring.
  - cbn [lsum]. rewrite <- IH. apply cpx_eq; cbn; ring.
Qed.

Lemma bus_current_mulrow nr nc Y V i : fits nr nc Y -> bus_current Y V i = mulrow Y V i.
Proof.
  intros (R & C & W). assert (wf Y) as WF by (unfold wf; rewrite R, C; exact W).
  symmetry. apply mulrow_at; auto.
Qed.

Lemma wf_fits Y nr nc : wf Y /\ nrows Y = nr /\ ncols Y = nc -> @fits K nr nc Y.
Proof. intros (W & R & C). unfold wf in W. rewrite R, C in W. split; auto. Qed.

Lemma cdrawn_ok cis baseMVA bus branch Y Yf Yt V i :
  ybus_spec cis baseMVA bus branch Y Yf Yt -> i < length bus ->
  cdrawn Yf Yt baseMVA V branch i
  = ((bus_power Y V i - nth i V 0 * conj (shunt baseMVA (nth i bus []) * nth i V 0)) * ofK baseMVA)%K.
Proof.
  intros YS Li. destruct YS as [_ _ _ _ _ _ WY WF WT _ _ INJ].
  apply wf_fits in WY, WF, WT. unfold bus_power. rewrite (bus_current_mulrow _ _ _ _ _ WY), INJ by auto.
  set (v := nth i V 0%K). set (sh := shunt _ _).
  match goal with |- context [(lsum ?f ?l + _)%K] => set (s := lsum f l) end.
  assert (forall a b : cpx K, conj (a + b) = conj a + conj b)%K as CA
    by (intros; apply cpx_eq; cbn; ring).
  rewrite CA. transitivity (ofK baseMVA * v * conj s)%K; [|ring].
  unfold s. rewrite conj_lsum, <- lsum_scal. unfold cdrawn. apply lsum_ext. intros l _.
  rewrite CA. unfold branch_power.
  rewrite (bus_current_mulrow _ _ _ _ _ WF), (bus_current_mulrow _ _ _ _ _ WT).
  assert (conj (0%K : cpx K) = 0%K) as C0 by (apply cpx_eq; cbn; ring).
  destruct (Nat.eqb_spec (bus_no (nth l branch []) F_BUS) i) as [->|];
    destruct (Nat.eqb_spec (bus_no (nth l branch []) T_BUS) i) as [->|]; fold v; rewrite ?C0; ring.
Qed.

Lemma off_branch cis baseMVA bus branch Y Yf Yt V l r i :
  ybus_spec cis baseMVA bus branch Y Yf Yt -> nth_error branch l = Some r ->
  cell r BR_STATUS = 0%K ->
  branch_power baseMVA Yf V i l = 0%K /\ branch_power baseMVA Yt V i l = 0%K.
Proof.
  intros [_ _ _ NZ NT _ _ WF WT EF ET _] Hr ST. apply wf_fits in WF, WT. unfold branch_power.
  rewrite (bus_current_mulrow _ _ _ _ _ WF), (bus_current_mulrow _ _ _ _ _ WT), (EF _ _ _ Hr), (ET _ _ _ Hr).
  rewrite Forall_forall in NZ, NT.
  specialize (NZ r (nth_error_In _ _ Hr)). specialize (NT r (nth_error_In _ _ Hr)).
  assert (ys r = 0%K) as Y0.
  { unfold ys. rewrite ST. apply cpx_eq; cbn; rewrite (Fdiv_def f_ok); ring. }
  assert (yc r = 0%K) as C0.
  { unfold yc. rewrite ST. apply cpx_eq; cbn; rewrite ?(Fdiv_def f_ok); ring. }
  assert (forall z : cpx K, cdiv (0%K : cpx K) z = 0%K) as D0.
  { intros z. apply cpx_eq; cbn; rewrite (Fdiv_def f_ok); ring. }
  assert (yff cis r = 0%K /\ yft cis r = 0%K /\ ytf cis r = 0%K /\ ytt r = 0%K) as (-> & -> & -> & ->).
  { unfold yff, yft, ytf, ytt. rewrite Y0, C0.
    replace (0 + 0)%K with (0%K : cpx K) by ring. replace (- (0))%K with (0%K : cpx K) by ring.
    rewrite !D0. auto. }
  set (a := nth (bus_no r F_BUS) V 0%K). set (b := nth (bus_no r T_BUS) V 0%K).
  replace (0 * a + 0 * b)%K with (0%K : cpx K) by ring.
  assert (conj (0%K : cpx K) = 0%K) as E0 by (apply cpx_eq; cbn; ring). rewrite E0. split; ring.
Qed.

(** reported flows drawn from a bus *)
Lemma reported_drawn cis baseMVA bus branch branch' Y Yf Yt V i :
  ybus_spec cis baseMVA bus branch Y Yf Yt ->
  length branch' = length branch ->
  (forall l r, nth_error branch l = Some r -> QT < length r /\
     nth_error branch' l = Some
       (if feqb (cell r BR_STATUS) 0%K then upd4 r 0%K 0%K 0%K 0%K
        else let sf := branch_power baseMVA Yf V (bus_no r F_BUS) l in
             let st := branch_power baseMVA Yt V (bus_no r T_BUS) l in
             upd4 r (re sf) (im sf) (re st) (im st))) ->
  drawn (fun r => cell r PF) (fun r => cell r PT) branch' i = re (cdrawn Yf Yt baseMVA V branch i) /\
  drawn (fun r => cell r QF) (fun r => cell r QT) branch' i = im (cdrawn Yf Yt baseMVA V branch i).
Proof.
  intros YS L H.
  assert (forall l r, nth_error branch l = Some r -> exists r', nth_error branch' l = Some r' /\
    bus_no r' F_BUS = bus_no r F_BUS /\ bus_no r' T_BUS = bus_no r T_BUS /\
    cell r' PF = re (branch_power baseMVA Yf V (bus_no r F_BUS) l) /\
    cell r' QF = im (branch_power baseMVA Yf V (bus_no r F_BUS) l) /\
    cell r' PT = re (branch_power baseMVA Yt V (bus_no r T_BUS) l) /\
    cell r' QT = im (branch_power baseMVA Yt V (bus_no r T_BUS) l)) as R.
  { intros l r Hr. destruct (H _ _ Hr) as (W & E).
    assert (forall a b c d j, j = F_BUS \/ j = T_BUS -> bus_no (upd4 r a b c d) j = bus_no r j) as BN.
    { intros a b c d j J. unfold bus_no. destruct (upd4_cells r a b c d W) as (_ & _ & _ & _ & _ & O).
      rewrite O; auto; destruct J as [->| ->]; unfold F_BUS, T_BUS, PF, QF, PT, QT; lia. }
    destruct (feqb (cell r BR_STATUS) 0%K) eqn:S.
    - apply feqb_ok in S. eexists. split; [exact E|]. rewrite !BN by auto.
      destruct (upd4_cells r 0%K 0%K 0%K 0%K W) as (-> & -> & -> & -> & _).
      destruct (off_branch _ _ _ _ _ _ _ V l r (bus_no r F_BUS) YS Hr S) as (-> & _).
      destruct (off_branch _ _ _ _ _ _ _ V l r (bus_no r T_BUS) YS Hr S) as (_ & ->). auto 8.
    - eexists. split; [exact E|]. cbv zeta. rewrite !BN by auto.
      match goal with |- context [upd4 r ?a ?b ?c ?d] =>
        destruct (upd4_cells r a b c d W) as (-> & -> & -> & -> & _) end. auto 8. }
  unfold drawn, cdrawn. rewrite re_lsum, im_lsum.
  rewrite !(lsum_nth _ branch' []), L.
  split; apply lsum_ext; intros l Hl; apply in_seq in Hl;
    (destruct (nth_error_lt branch l) as (r & Hr); [lia|]);
    destruct (R _ _ Hr) as (r' & Hr' & E1 & E2 & E3 & E4 & E5 & E6);
    rewrite (nth_error_nth _ _ _ Hr'), (nth_error_nth _ _ _ Hr), E1, E2, ?E3, ?E4, ?E5, ?E6;
    destruct (_ =? i); destruct (_ =? i); reflexivity.
Qed.

(** ** the whole run *)
Definition pf_tol (alg : pf_alg) (cabs : cpx K -> K) (tol : K) (V : list (cpx K)) (i : nat) : K :=
  match alg with FDXB | FDBX => (tol * cabs (nth i V 0))%K | _ => tol end.

Lemma runpf_ac_ok cis cabs cang solve splu alg tol max_it baseMVA bus gen branch bus' gen' branch' c :
  runpf_ac cis cabs cang solve splu alg tol max_it baseMVA bus gen branch
    = Ok (bus', gen', branch', c) ->
  polar_ok cis cabs cang -> types_ok bus ->
  exists ref pv pq V0 Y Yf Yt S V,
    bustypes bus gen = Ok (ref, pv, pq) /\
    start_voltage cis cabs bus gen (onl gen) (gbs gen) pq = Ok V0 /\
    ybus_spec cis baseMVA bus branch Y Yf Yt /\
    makeSbus baseMVA bus gen = Ok S /\
    (c = true <-> solved_by (pf_tol alg cabs tol V) Y S V pv pq) /\
    (forall i, i < length bus -> ~ In i (pv ++ pq) -> nth i V 0%K = nth i V0 0%K) /\
    (forall i, i < length bus -> ~ In i pq -> cabs (nth i V 0%K) = cabs (nth i V0 0%K)) /\
    pfsoln cabs cang baseMVA bus gen branch Y Yf Yt V ref = Ok (bus', gen', branch').
Proof.
  intros H PO TY. unfold runpf_ac in H. apply bind_ok in H as ([[ref pv] pq] & HB & H).
  apply bind_ok in H as (st & Hst & H). apply col_ok in Hst as (WG & ->).
  rewrite map_map in H. change (fun x : list K => pos_status (nth GEN_STATUS x 0%K)) with (@in_service K F) in H.
  cbv zeta in H. apply bind_ok in H as (go & Hgo & H). rewrite gather_find in Hgo. injection Hgo as <-.
  apply bind_ok in H as (gb & Hgb & H). apply idxcol_ok in Hgb as (_ & _ & ->).
  fold (gon gen) in H. fold (gbs gen) in H. fold (onl gen) in H.
  apply bind_ok in H as (V0 & HV0 & H). apply bind_ok in H as ([[Y Yf] Yt] & HY & H).
  apply bind_ok in H as (S & HS & H). apply bind_ok in H as ([[V c'] m] & HV & H).
  apply bind_ok in H as ([[b' g'] br'] & HP & H). injection H as -> -> -> ->.
  exists ref, pv, pq, V0, Y, Yf, Yt, S, V. split; auto. split; auto.
  pose proof (makeYbus_ok _ _ _ _ _ _ _ HY) as YS. split; auto. split; auto.
  assert (square (length bus) Y) as SQ by (apply wf_fits; destruct YS; auto).
  assert (NoDup (pv ++ pq)) as ND.
  { pose proof (bustypes_partition _ _ _ _ _ HB TY) as PE.
    apply (NoDup_app_r ref). eapply Permutation_NoDup; [apply Permutation_sym; exact PE|apply seq_NoDup]. }
  assert ((c = true <-> solved_by (pf_tol alg cabs tol V) Y S V pv pq) /\
    (forall i, i < length bus -> (~ In i (pv ++ pq) -> nth i V 0%K = nth i V0 0%K) /\
      (~ In i pq -> cabs (nth i V 0%K) = cabs (nth i V0 0%K)))) as (A & B).
  { destruct alg; cbn [pf_tol].
    - destruct (newtonpf_ok _ _ _ _ _ _ _ _ _ _ SQ _ _ _ _ _ HV) as (_ & _ & _ & _ & E & U). auto.
    - apply bind_ok in HV as ([Bp Bpp] & _ & HV).
      destruct (fdpf_ok _ _ _ _ _ _ _ _ _ SQ PO _ _ _ _ _ _ _ _ HV) as (_ & _ & _ & _ & E & U). auto.
    - apply bind_ok in HV as ([Bp Bpp] & _ & HV).
      destruct (fdpf_ok _ _ _ _ _ _ _ _ _ SQ PO _ _ _ _ _ _ _ _ HV) as (_ & _ & _ & _ & E & U). auto.
    - destruct (gausspf_ok cis cabs cang _ _ _ _ _ _ _ SQ ND _ _ _ _ HV) as (_ & _ & _ & _ & E & U & U').
      auto.
    - discriminate. }
  split; auto. split; [intros i Hi; apply B; auto|]. split; [intros i Hi; apply B; auto|]. auto.
Qed.
End AcPfC.
