(** C20: admittance matrices are the sum of branch circuits and shunts; C47: the fast-decoupled
    matrices. *)
From Verif Require Import Lib.ListFacts Lib.Num Lib.Sparse Proofs.LinAlgFacts Proofs.SparseFacts
  Proofs.FldFacts Model.AcNet Spec.AcSpec Proofs.NetworkA Proofs.NetworkB Proofs.NetworkD
  Proofs.NetworkE Proofs.PtdfB Proofs.YbusA Props.P_Network.
Local Open Scope nat_scope.

Section Theorems.
Context {K : Type} {F : Fld K}.
Variable cis : K -> cpx K.
Add Ring KR : (@r_ok K _).
Add Field KF : (@f_ok K _).
Add Field CF : (@cpx_field' K F).

(** the matrices exist for every sensible table *)
Theorem C20_defined baseMVA bus branch :
  (forall a, nrm2 (cis a) = 1%K) -> baseMVA <> 0%K ->
  wide BS bus -> wide BR_STATUS branch ->
  buses_ok (length bus) F_BUS branch -> buses_ok (length bus) T_BUS branch ->
  Forall (fun r => cell r BR_R <> 0%K \/ cell r BR_X <> 0%K) branch ->
  exists Ybus Yf Yt, makeYbus cis baseMVA bus branch = Ok (Ybus, Yf, Yt).
Proof.
  intros UC NB WB W HF HT HZ. unfold makeYbus, wide, buses_ok in *.
  assert (forall j, j <= BR_STATUS -> Forall (fun r : list K => j < length r) branch) as Wj.
  { intros j Hj. eapply Forall_impl; [|exact W]. simpl; intros; lia. }
  assert (forall j, j <= BS -> Forall (fun r : list K => j < length r) bus) as Wb.
  { intros j Hj. eapply Forall_impl; [|exact WB]. simpl; intros; lia. }
  assert (forall r, turns cis r <> 0%K) as NT.
  { intros r C. pose proof (tap_ratio_nz r) as T. unfold turns in C.
    specialize (UC (fpi / fofZ 180 * cell r SHIFT)%K).
    apply (f_equal nrm2) in C. unfold nrm2 in *. cbn in C. cbn in UC.
    set (z := cis _) in *. apply (f_nz_mul _ _ T T). rewrite <- (Rmul_1_l r_ok (tap_ratio r * tap_ratio r)%K), <- UC.
    transitivity (0 * 0 + 0 * 0 : K)%K; [|ring]. rewrite <- C. ring. }
  rewrite !col_def; auto;
    try (apply Wj; unfold BR_STATUS, BR_X, BR_R, BR_B, TAP, SHIFT; lia);
    try (apply Wb; unfold BUS_I, GS, BS; lia).
  cbn [bind]. rewrite !map_map, !map2_map.
  rewrite cvdiv_def; [|rewrite !map_length; auto|].
  2: { rewrite Forall_map. eapply Forall_impl; [|exact HZ]. simpl. intros r [N|N] C; injection C; auto. }
  cbn [bind]. rewrite !map2_map.
  assert (forall r, cmul (turns cis r) (conj (turns cis r)) <> 0%K) as NT2.
  { intros r C. apply (NT r). specialize (NT r). set (t := turns cis r) in *.
    assert (conj t <> 0%K).
    { intros C'. apply NT. apply (f_equal conj) in C'. rewrite <- (cpx_eq (conj (conj t)) t).
      - rewrite C'. apply cpx_eq; cbn; ring.
      - reflexivity.
      - cbn. ring. }
    transitivity (cdiv (t * conj t)%K (conj t)); [field; auto|].
    change (t * conj t)%K with (cmul t (conj t)). rewrite C. field. auto. }
  rewrite cvdiv_def; [|rewrite ?map_length; auto|].
  2: { rewrite !Forall_map. apply Forall_forall. intros r _. apply (NT2 r). }
  cbn [bind].
  rewrite cvdiv_def; [|rewrite ?map_length; auto|].
  2: { rewrite !Forall_map. apply Forall_forall. intros r _ C. apply (NT2 r).
       unfold turns, tap_ratio, cell. rewrite C. apply cpx_eq; cbn; ring. }
  cbn [bind].
  rewrite cvdiv_def; [|rewrite ?map_length; auto|].
  2: { rewrite !Forall_map. apply Forall_forall. intros r _. apply (NT r). }
  cbn [bind].
  rewrite cvdiv_def; [|rewrite ?map_length, ?repeat_length; auto|].
  2: { apply Forall_forall. intros c Hc. apply repeat_spec in Hc. subst. intros C. injection C; auto. }
  cbn [bind].
  rewrite !idxcol_def; auto;
    try (apply Wj; unfold BR_STATUS, F_BUS, T_BUS; lia);
    try (eapply Forall_impl; [|exact HF]; simpl; tauto);
    try (eapply Forall_impl; [|exact HT]; simpl; tauto).
  cbn [bind].
  assert (Forall (fun c => c < length bus) (map (fun r => bus_no r F_BUS) branch)) as RF
    by (rewrite Forall_map; eapply Forall_impl; [|exact HF]; simpl; tauto).
  assert (Forall (fun c => c < length bus) (map (fun r => bus_no r T_BUS) branch)) as RT
    by (rewrite Forall_map; eapply Forall_impl; [|exact HT]; simpl; tauto).
  assert (forall n, Forall (fun r => r < n) (seq 0 n)) as RS.
  { intros n. apply Forall_forall. intros k Hk. apply in_seq in Hk. lia. }
  rewrite !map_map, !map2_map, map2_repeat.
  repeat (rewrite sparse_def;
    [cbn [bind]| rewrite ?app_length, ?map_length, ?seq_length, ?repeat_length; auto
    | rewrite ?app_length, ?map_length, ?seq_length, ?repeat_length; auto
    | rewrite ?Forall_app; auto | rewrite ?Forall_app; auto]).
  unfold mulm. cbn [transp nrows ncols]. rewrite !Nat.eqb_refl. cbn [bind].
  unfold addm. cbn [transp nrows ncols]. rewrite !Nat.eqb_refl. cbn [andb bind].
  cbn [transp nrows ncols]. rewrite !Nat.eqb_refl. cbn [andb bind]. eauto.
Qed.

Section Matrices.
Variables (baseMVA : K) (bus branch : list (list K)) (Ybus Yf Yt : smat (cpx K)).
Hypothesis made : makeYbus cis baseMVA bus branch = Ok (Ybus, Yf, Yt).

(** an in-service branch: Yf*V and Yt*V are the end currents of its pi circuit *)
Theorem C20_branch_circuit V l r If It :
  nth_error branch l = Some r -> cell r BR_STATUS = 1%K ->
  mulv Yf V = Ok If -> mulv Yt V = Ok It ->
  pi_circuit cis r (nth (bus_no r F_BUS) V 0%K) (nth (bus_no r T_BUS) V 0%K)
    (nth l If 0%K) (nth l It 0%K).
Proof.
  intros Hr ST Hf Ht. destruct (makeYbus_ok _ _ _ _ _ _ _ made) as [_ _ _ NZ NT _ _ (_ & Nf & _) (_ & Nt & _) EF ET _].
  pose proof (nth_error_some_lt _ _ _ Hr) as Ll.
  apply mulv_ok in Hf as (_ & _ & Hf). apply mulv_ok in Ht as (_ & _ & Ht).
  rewrite (nth_error_nth If l 0%K (Hf l ltac:(lia))), (nth_error_nth It l 0%K (Ht l ltac:(lia))).
  rewrite (EF _ _ _ Hr), (ET _ _ _ Hr). rewrite Forall_forall in NZ, NT.
  specialize (NZ r (nth_error_In _ _ Hr)). specialize (NT r (nth_error_In _ _ Hr)).
  assert (conj (turns cis r) <> 0%K) as NC.
  { intros C'. apply NT. apply (f_equal conj) in C'. rewrite <- (cpx_eq (conj (conj (turns cis r))) (turns cis r)).
    - rewrite C'. apply cpx_eq; cbn; ring.
    - reflexivity.
    - cbn. ring. }
  assert (yc r = jK (cell r BR_B / fofZ 2)%K) as EC.
  { unfold yc. rewrite ST. f_equal. rewrite (Rmul_1_l r_ok). reflexivity. }
  assert (ys r = cdiv 1%K (zser r)) as EY by (unfold ys; rewrite ST; reflexivity).
  set (Vf := nth (bus_no r F_BUS) V 0%K). set (Vt := nth (bus_no r T_BUS) V 0%K).
  unfold yff, yft, ytf, ytt. rewrite EC, EY. unfold pi_circuit. change (Cx (cell r BR_R) (cell r BR_X)) with (zser r).
  set (t := turns cis r) in *. set (z := zser r) in *. set (c := jK _).
  exists (cdiv Vf t),
    (cdiv (cdiv Vf t - Vt)%K z + c * cdiv Vf t)%K, (cdiv (cdiv Vf t - Vt)%K z).
  repeat split; field; auto.
Qed.

(** the circuit equations leave no freedom: they determine the end currents *)
Theorem C20_circuit_determines r Vf Vt If It If' It' :
  In r branch ->
  pi_circuit cis r Vf Vt If It -> pi_circuit cis r Vf Vt If' It' -> If = If' /\ It = It'.
Proof.
  intros Hr. destruct (makeYbus_ok _ _ _ _ _ _ _ made) as [_ _ _ NZ NT _ _ _ _ _ _ _].
  rewrite Forall_forall in NZ, NT. specialize (NZ r Hr). specialize (NT r Hr).
  assert (conj (turns cis r) <> 0%K) as NC.
  { intros C'. apply NT. apply (f_equal conj) in C'. rewrite <- (cpx_eq (conj (conj (turns cis r))) (turns cis r)).
    - rewrite C'. apply cpx_eq; cbn; ring.
    - reflexivity.
    - cbn. ring. }
  intros (Vi & I1 & Is & A1 & A2 & A3 & A4 & A5) (Vi' & I1' & Is' & B1 & B2 & B3 & B4 & B5).
  change (Cx (cell r BR_R) (cell r BR_X)) with (zser r) in *.
  set (t := turns cis r) in *. set (z := zser r) in *.
  assert (Vi = Vi') as ->.
  { transitivity (cdiv Vf t); [rewrite A1|rewrite B1]; field; auto. }
  assert (Is = Is') as ->.
  { transitivity (cdiv (z * Is)%K z); [field; auto|]. rewrite A3, <- B3. field; auto. }
  subst. split; auto.
  transitivity (cdiv (conj t * If)%K (conj t)); [field; auto|]. rewrite A4, <- B4. field; auto.
Qed.

(** out of service: no current at either end *)
Theorem C20_out_of_service V l r If It :
  nth_error branch l = Some r -> cell r BR_STATUS = 0%K ->
  mulv Yf V = Ok If -> mulv Yt V = Ok It -> nth l If 0%K = 0%K /\ nth l It 0%K = 0%K.
Proof.
  intros Hr ST Hf Ht. destruct (makeYbus_ok _ _ _ _ _ _ _ made) as [_ _ _ NZ NT _ _ (_ & Nf & _) (_ & Nt & _) EF ET _].
  pose proof (nth_error_some_lt _ _ _ Hr) as Ll.
  apply mulv_ok in Hf as (_ & _ & Hf). apply mulv_ok in Ht as (_ & _ & Ht).
  rewrite (nth_error_nth If l 0%K (Hf l ltac:(lia))), (nth_error_nth It l 0%K (Ht l ltac:(lia))).
  rewrite (EF _ _ _ Hr), (ET _ _ _ Hr). rewrite Forall_forall in NZ, NT.
  specialize (NZ r (nth_error_In _ _ Hr)). specialize (NT r (nth_error_In _ _ Hr)).
  assert (conj (turns cis r) <> 0%K) as NC.
  { intros C'. apply NT. apply (f_equal conj) in C'. rewrite <- (cpx_eq (conj (conj (turns cis r))) (turns cis r)).
    - rewrite C'. apply cpx_eq; cbn; ring.
    - reflexivity.
    - cbn. ring. }
  assert (ys r = 0%K) as EY.
  { unfold ys. rewrite ST. change (ofK 0%K) with (0%K : cpx K). field. auto. }
  assert (yc r = 0%K) as EC.
  { unfold yc. rewrite ST. unfold jK. apply cpx_eq; [reflexivity|]. cbn. rewrite (Fdiv_def f_ok). ring. }
  unfold yff, yft, ytf, ytt. rewrite EY, EC. split; field; auto.
Qed.

(** Kirchhoff: Ybus*V at a bus is the current into its branches plus the shunt current *)
Theorem C20_bus_currents V i b If It Ib :
  nth_error bus i = Some b ->
  mulv Yf V = Ok If -> mulv Yt V = Ok It -> mulv Ybus V = Ok Ib ->
  nth i Ib 0%K = (into_branches branch If It i + shunt baseMVA b * nth i V 0)%K.
Proof.
  intros Hb Hf Ht HY.
  destruct (makeYbus_ok _ _ _ _ _ _ _ made) as [_ _ _ _ _ _ (_ & Nb & _) (_ & Nf & _) (_ & Nt & _) EF ET EI].
  pose proof (nth_error_some_lt _ _ _ Hb) as Li.
  apply mulv_ok in Hf as (_ & _ & Hf). apply mulv_ok in Ht as (_ & _ & Ht).
  apply mulv_ok in HY as (_ & _ & HY).
  rewrite (nth_error_nth Ib i 0%K (HY i ltac:(lia))). rewrite (EI _ _ Li).
  rewrite (nth_error_nth _ _ _ Hb). f_equal. unfold into_branches.
  rewrite (lsum_combine _ _ _ 0 []) by (rewrite seq_length; auto). rewrite seq_length.
  apply lsum_ext. intros l Hl. apply in_seq in Hl. cbn [fst snd]. rewrite seq_nth by lia. simpl plus.
  rewrite (nth_error_nth If l 0%K (Hf l ltac:(lia))), (nth_error_nth It l 0%K (Ht l ltac:(lia))).
  reflexivity.
Qed.
End Matrices.
End Theorems.

(** ** makeB: the fast-decoupled matrices *)
Section FastDecoupled.
Context {K : Type} {F : Fld K}.
Variable cis : K -> cpx K.
Add Ring KR3 : (@r_ok K _).
Add Field KF3 : (@f_ok K _).
Add Field CF3 : (@cpx_field' K F).

Lemma nth_ofK (x : list K) i : nth i (map ofK x) (0%K : cpx K) = ofK (nth i x 0%K).
Proof. apply (map_nth ofK). Qed.

Lemma mulrow_neg_imag (M : smat (cpx K)) (x : list K) i :
  mulrow (neg_imag M) x i = (- im (mulrow M (map ofK x) i))%K.
Proof.
  unfold mulrow, neg_imag. cbn [ents]. rewrite lsum_map.
  induction (ents M) as [|e l IH]; cbn [lsum]; [cbn; ring|].
  rewrite IH. cbn [erow ecol ev]. destruct (erow e =? i).
  - rewrite nth_ofK. cbn. ring.
  - cbn. ring.
Qed.

Lemma setcol_nth_error j c (t t' : list (list K)) l r : setcol j (repeat c (length t)) t = Ok t' ->
  nth_error t l = Some r -> nth_error t' l = Some (upd r j c) /\ j < length r.
Proof.
  intros H Hr. apply setcol_ok in H as (_ & W & ->). pose proof (nth_error_some_lt _ _ _ Hr) as L.
  rewrite Forall_forall in W. split; [|apply W; eapply nth_error_In; eauto].
  unfold map2. rewrite nth_error_map.
  assert (nth_error (combine (repeat c (length t)) t) l = Some (c, r)) as ->; [|reflexivity].
  clear W. revert l Hr L. induction t as [|a t IH]; intros [|l] Hr L; simpl in *; try discriminate.
  - congruence.
  - apply IH; auto. lia.
Qed.

Lemma setcol_len j (vals : list K) t t' : setcol j vals t = Ok t' -> length t' = length t.
Proof.
  intros H. apply setcol_ok in H as (L & _ & ->). unfold map2. rewrite map_length, combine_length. lia.
Qed.

(** XB method, no phase shifters: B' is the network of reactances, x alone, without taps *)
Theorem C47_bprime_xb baseMVA bus branch Bp Bpp (x : list K) i :
  cis 0%K = 1%K -> makeB cis baseMVA bus branch 2 = Ok (Bp, Bpp) ->
  Forall (fun r => cell r SHIFT = 0%K) branch -> i < length bus ->
  mulrow Bp x i
  = net_out (fun r => cell r BR_STATUS / cell r BR_X
                      * (nth (bus_no r F_BUS) x 0 - nth (bus_no r T_BUS) x 0))%K branch i.
Proof.
  intros C0 H NS Li. unfold makeB in H.
  apply bind_ok in H as (tbus & Htb & H). apply bind_ok in H as (t1 & Ht1 & H).
  apply bind_ok in H as (t2 & Ht2 & H). apply bind_ok in H as (t3 & Ht3 & H).
  apply bind_ok in H as ([[Yp Ypf] Ypt] & HYp & H).
  apply bind_ok in H as (u1 & _ & H). apply bind_ok in H as (u2 & _ & H).
  apply bind_ok in H as ([[Ypp Yx1] Yx2] & _ & H). injection H as <- <-. cbn in Ht3.
  pose proof (setcol_len _ _ _ _ Htb) as Lb. pose proof (setcol_len _ _ _ _ Ht1) as L1.
  pose proof (setcol_len _ _ _ _ Ht2) as L2. pose proof (setcol_len _ _ _ _ Ht3) as L3.
  rewrite mulrow_neg_imag.
  destruct (makeYbus_ok _ _ _ _ _ _ _ HYp) as [_ _ _ NZ _ NB _ _ _ EF ET EI].
  rewrite (EI _ i) by lia.
  destruct (nth_error_lt bus i Li) as (b & Hb).
  destruct (setcol_nth_error _ _ _ _ _ _ Htb Hb) as [Htb' Wb].
  rewrite (nth_error_nth _ _ _ Htb').
  assert (im (shunt baseMVA (upd b BS 0%K) * nth i (map ofK x) 0)%K = 0%K) as Es.
  { rewrite nth_ofK. unfold shunt. cbn.
    unfold cell. rewrite nth_upd_same by auto. rewrite !(Fdiv_def f_ok). ring. }
  match goal with |- (- im (?a + ?b) = _)%K => change (im (a + b)%K) with (im a + im b)%K; rewrite Es end.
  assert (forall (f : nat -> cpx K) l, im (lsum f l) = lsum (fun k => im (f k)) l) as IM.
  { intros f l. induction l as [|k l IH]; cbn [lsum]; [reflexivity|]. rewrite <- IH. reflexivity. }
  rewrite IM. unfold net_out. rewrite (lsum_nth _ branch []).
  match goal with |- (- (?s + 0))%K = _ => transitivity (- s)%K; [ring|] end.
  rewrite <- lsum_opp. replace (length t3) with (length branch) by lia.
  apply lsum_ext. intros l Hl. apply in_seq in Hl.
  destruct (nth_error_lt branch l) as (r & Hr); [lia|]. rewrite (nth_error_nth _ _ _ Hr).
  destruct (setcol_nth_error _ _ _ _ _ _ Ht1 Hr) as [Hr1 W1].
  rewrite <- L1 in Ht2. destruct (setcol_nth_error _ _ _ _ _ _ Ht2 Hr1) as [Hr2 W2].
  rewrite <- L1, <- L2 in Ht3. destruct (setcol_nth_error _ _ _ _ _ _ Ht3 Hr2) as [Hr3 W3].
  rewrite (nth_error_nth _ _ _ Hr3). rewrite (EF _ _ _ Hr3), (ET _ _ _ Hr3).
  rewrite Forall_forall in NZ. specialize (NZ _ (nth_error_In _ _ Hr3)).
  set (q := upd (upd (upd r BR_B 0%K) TAP 1%K) BR_R 0%K) in *.
  assert (cell q BR_R = 0%K) as Qr by (unfold q, cell; rewrite nth_upd_same; auto).
  assert (cell q BR_B = 0%K) as Qb.
  { unfold q, cell. rewrite !nth_upd_other by (unfold BR_R, BR_B, TAP; lia). apply nth_upd_same; auto. }
  assert (cell q TAP = 1%K) as Qt.
  { unfold q, cell. rewrite nth_upd_other by (unfold BR_R, BR_B, TAP; lia). apply nth_upd_same; auto. }
  assert (forall j, j <> BR_R -> j <> BR_B -> j <> TAP -> cell q j = cell r j) as Qo.
  { intros j A B C. unfold q, cell. rewrite !nth_upd_other; auto. }
  assert (cell q SHIFT = 0%K) as Qs.
  { rewrite Qo by (unfold BR_R, BR_B, TAP, SHIFT; lia). rewrite Forall_forall in NS. apply NS.
    eapply nth_error_In; eauto. }
  assert (turns cis q = 1%K) as Tq.
  { unfold turns, tap_ratio. rewrite Qt, Qs.
    replace (fpi / fofZ 180 * 0)%K with (0%K : K) by ring. rewrite C0.
    destruct (feqb 1%K 0%K); apply cpx_eq; cbn; ring. }
  assert (yc q = 0%K) as Cq.
  { unfold yc. rewrite Qb. apply cpx_eq; cbn; [reflexivity|]. rewrite (Fdiv_def f_ok). ring. }
  assert (forall j, j = F_BUS \/ j = T_BUS -> bus_no q j = bus_no r j) as Qn.
  { intros j J. unfold bus_no. rewrite Qo; auto; destruct J as [->| ->]; unfold F_BUS, T_BUS, BR_R, BR_B, TAP; lia. }
  assert (cell r BR_X <> 0%K) as NX.
  { intros C. apply NZ. unfold zser. rewrite Qr, Qo by (unfold BR_R, BR_B, TAP, BR_X; lia). rewrite C. reflexivity. }
  assert (ys q = Cx 0 (- (cell r BR_STATUS / cell r BR_X)))%K as Yq.
  { unfold ys, zser. rewrite Qr, !Qo by (unfold BR_R, BR_B, TAP, BR_X, BR_STATUS; lia).
    apply cpx_eq; cbn; unfold nrm2; cbn; field; auto. }
  unfold yff, yft, ytf, ytt. rewrite Tq, Cq, Yq. rewrite !Qn by auto.
  rewrite !nth_ofK.
  replace (conj 1%K) with (1%K : cpx K) by (apply cpx_eq; cbn; ring).
  set (s := (cell r BR_STATUS / cell r BR_X)%K). set (xf := nth _ x 0%K). set (xt := nth (bus_no r T_BUS) x 0%K).
  assert (cdiv (Cx 0 (- s) + 0) (1 * 1) * ofK xf + cdiv (- Cx 0 (- s)) 1 * ofK xt
          = Cx 0 (- (s * (xf - xt))))%K as ->.
  { apply cpx_eq; cbn; unfold nrm2; cbn; field; cbn; repeat split; try apply (F_1_neq_0 f_ok);
      try (intros C; apply (F_1_neq_0 f_ok); rewrite <- C; ring). }
  assert (cdiv (- Cx 0 (- s)) 1 * ofK xf + (Cx 0 (- s) + 0) * ofK xt
          = Cx 0 (s * (xf - xt)))%K as ->.
  { apply cpx_eq; cbn; unfold nrm2; cbn; field; cbn; repeat split; try apply (F_1_neq_0 f_ok);
      try (intros C; apply (F_1_neq_0 f_ok); rewrite <- C; ring). }
  destruct (_ =? i); destruct (_ =? i); cbn; ring.
Qed.

(** XB or Newton-like choices (not BX), no phase shifters: B'' is minus the imaginary part of Ybus *)
Theorem C47_bdoubleprime baseMVA bus branch alg Bp Bpp :
  alg <> 3%Z -> makeB cis baseMVA bus branch alg = Ok (Bp, Bpp) ->
  Forall (fun r => cell r SHIFT = 0%K) branch ->
  exists Ybus Yf Yt, makeYbus cis baseMVA bus branch = Ok (Ybus, Yf, Yt) /\
    forall (x : list K) i, mulrow Bpp x i = (- im (mulrow Ybus (map ofK x) i))%K.
Proof.
  intros NA H NS. unfold makeB in H.
  apply bind_ok in H as (tbus & _ & H). apply bind_ok in H as (t1 & _ & H).
  apply bind_ok in H as (t2 & _ & H). apply bind_ok in H as (t3 & _ & H).
  apply bind_ok in H as ([[? ?] ?] & _ & H).
  apply bind_ok in H as (u1 & Hu & H). apply bind_ok in H as (u2 & Hu2 & H).
  apply bind_ok in H as ([[Ypp Yf] Yt] & HY & H). injection H as <- <-.
  destruct (Z.eqb_spec alg 3); [contradiction|]. injection Hu2 as <-.
  assert (u1 = branch) as ->.
  { apply nth_error_ext. intros l. destruct (nth_error branch l) as [r|] eqn:Hr.
    - destruct (setcol_nth_error _ _ _ _ _ _ Hu Hr) as [-> W]. f_equal. apply upd_self.
      rewrite Forall_forall in NS. rewrite <- (NS r (nth_error_In _ _ Hr)). apply nth_error_nth'. auto.
    - apply nth_error_None. rewrite (setcol_len _ _ _ _ Hu). apply nth_error_None. auto. }
  exists Ypp, Yf, Yt. split; auto. intros x i. apply mulrow_neg_imag.
Qed.

(** with unit taps, B' of the XB method is the DC susceptance matrix *)
Theorem C47_bprime_is_dc baseMVA bus branch Bp Bpp Bbus Bf Pb Pf (x : list K) i :
  cis 0%K = 1%K -> makeB cis baseMVA bus branch 2 = Ok (Bp, Bpp) ->
  makeBdc bus branch = Ok (Bbus, Bf, Pb, Pf) ->
  Forall (fun r => cell r SHIFT = 0%K /\ tap_ratio r = 1%K) branch -> i < length bus ->
  mulrow Bp x i = mulrow Bbus x i.
Proof.
  intros C0 H HB NS Li.
  rewrite (C47_bprime_xb _ _ _ _ _ x i C0 H); auto.
  2: { eapply Forall_impl; [|exact NS]. simpl; tauto. }
  destruct (makeBdc_ok _ _ _ _ _ _ HB) as [_ _ _ NX _ _ _ _ INJ _]. rewrite INJ.
  rewrite net_out_inc. apply lsum_ext. intros r Hr. unfold susc, dth.
  rewrite Forall_forall in NS, NX. destruct (NS r Hr) as [_ ->]. specialize (NX r Hr).
  field. split; auto. apply (F_1_neq_0 f_ok).
Qed.
End FastDecoupled.

(** ** Examples *)
(** a rational stand-in for exp(1j a): 1 at zero, another unit number elsewhere *)
Definition cis_q (a : Qc) : cpx Qc := if qc_eqb a (zc 0) then Cx (zc 1) (zc 0) else Cx (qc 3 5) (qc 4 5).
Example cis_q_unit : forall a, nrm2 (cis_q a) = zc 1.
Proof. intros a. unfold cis_q. destruct (qc_eqb a (zc 0)); apply qc_eqb_eq; vm_compute; reflexivity. Qed.

Definition ex_ybus := makeYbus cis_q (zc 100) ex_bus ex_branch.
Example C20_example :
  match ex_ybus with
  | Ok (Y, Yf, Yt) =>
      let V := [Cx (zc 1) (zc 0); Cx (qc 9 10) (qc (-1) 10); Cx (zc 1) (qc 1 10)] in
      match mulv Y V, mulv Yf V, mulv Yt V with
      | Ok Ib, Ok If, Ok It =>
          (ceqb (nth 1 Ib 0%K)
                (into_branches ex_branch If It 1 + shunt (zc 100) (nth 1 ex_bus []) * nth 1 V 0)%K
           && negb (ceqb (nth 2 If 0%K) 0%K) && ceqb (nth 3 If 0%K) 0%K)%bool
      | _, _, _ => false
      end
  | Err _ => false
  end = true.
Proof. vm_compute. reflexivity. Qed.
Example C47_example : is_ok (makeB cis_q (zc 100) ex_bus (firstn 2 ex_branch) 2) = true.
Proof. vm_compute. reflexivity. Qed.

Print Assumptions C20_defined.
Print Assumptions C20_branch_circuit.
Print Assumptions C20_circuit_determines.
Print Assumptions C20_out_of_service.
Print Assumptions C20_bus_currents.
Print Assumptions C47_bprime_xb.
Print Assumptions C47_bdoubleprime.
Print Assumptions C47_bprime_is_dc.
