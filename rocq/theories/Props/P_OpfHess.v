(** The Hessian callback of the AC optimal power flow.  C61: it returns the second derivatives of the
    Lagrangian; C64: inputs for which it raises. *)
From Coq Require Import Reals Lra.
From Verif Require Import Lib.ListFacts Lib.QcFacts Model.OpfFcn Spec.AcConSpec Spec.AcDeriv Proofs.LinAlgFacts Proofs.SparseFacts Proofs.FldFacts
  Proofs.MatFacts Proofs.NetworkA Proofs.NetworkE Proofs.AcCostB Proofs.AcCostC Proofs.AcCostR Proofs.AcConA Proofs.AcConB Proofs.AcConR
  Proofs.PipsG Proofs.AcHessA Proofs.AcHessR Props.P_Ybus Props.P_OpfFcn Props.P_OpfCon.
Local Open Scope nat_scope.

(** cost times its multiplier, plus balances and overflows times theirs *)
Definition lagrangian {K} {F : Fld K} (cis : K -> cpx K) (D : acdata (K := K)) (lim : flow_lim) (Y Yf Yt : smat (cpx K))
    (il : list nat) (lam mu : list K) (cm : K) (x : list K) : K :=
  let nb := length (a_bus D) in let nl := length il in
  (cm * cost_of D x
   + lsum (fun i => nth i lam 0 * p_balance cis (a_base D) (a_bus D) (a_gen D) Y i x) (seq 0 nb)
   + lsum (fun i => nth (nb + i) lam 0 * q_balance cis (a_base D) (a_bus D) (a_gen D) Y i x) (seq 0 nb)
   + lsum (fun l => nth l mu 0 * overflow cis lim (a_base D) nb (brow D il l) F_BUS Yf l x) (seq 0 nl)
   + lsum (fun l => nth (nl + l) mu 0 * overflow cis lim (a_base D) nb (brow D il l) T_BUS Yt l x) (seq 0 nl))%K.

Lemma half_len {A} (l : list A) n : length l = n + n -> Nat.div (length l) 2 = n.
Proof. intros ->. replace (n + n) with (n * 2) by lia. apply Nat.div_mul. lia. Qed.
Lemma nth_half (l : list R) n i : i < n -> nth i (slice n (n + n) l) 0%R = nth (n + i) l 0%R.
Proof. intros H. apply nth_sl. lia. Qed.
Lemma shaped_mat {L} {RL : Rng L} (M : smat L) m n : AcDeriv.shaped M m n -> ismat M m n (at_ M).
Proof. intros (A & B & W). subst. apply ismat_refl. auto. Qed.

(** rewriting up to the two names of the ring of reals *)
Ltac rwc E := match type of E with ?lhs = _ => match goal with |- context [bind ?t _] => change t with lhs end end; rewrite E; cbn [bind].
(** ** C61 *)
Theorem C61_hessian (D : acdata (K := R)) lim Y Yf Yt il x lam mu cm :
  con_shape D Y Yf Yt il -> cost_shape D x -> sym_mat (g_H (a_cp D)) ->
  let nb := length (a_bus D) in let ng := length (a_gen D) in let nl := length il in
  length (a_gencost D) = ng -> 0 < nb -> 0 < nl ->
  length lam = nb + nb -> length mu = nl + nl ->
  (forall k, k < nb -> (0 < nth (nb + k) x 0)%R) ->
  (let cp := a_cp D in off_edges (fun d => d = 1%R \/ d = 2%R) (g_N cp) (g_dd cp) (g_rh cp) (g_kk cp) x) ->
  exists H, opf_hessfcn cisR cabsR D lim Y Yf Yt il x lam mu cm = Ok H /\
    AcDeriv.shaped H (length x) (length x) /\
    forall j k, j < length x -> k < length x ->
      vpartial2 (lagrangian cisR D lim Y Yf Yt il lam mu cm) x j k (at_ H j k).
Proof.
  intros S CS SH nb ng nl LG PN PL LL LM POS OE. pose proof CS as [LX LGX _ _ _ ZD]. cbv zeta in OE, ZD.
  assert (LX4 : nb + nb + ng + ng <= length x) by (unfold nb, ng; lia).
  unfold opf_hessfcn. cbv zeta. fold nb ng nl.
  rewrite (setcol_def PG (map (fun a => a * a_base D)%K (getPg D x)) (a_gen D)).
  2:{ rewrite map_length. unfold getPg. rewrite slice_length. lia. }
  2:{ eapply Forall_impl; [|exact (cn_gen _ _ _ _ _ S)]. unfold PG, GEN_STATUS. cbn. lia. }
  cbn [bind]. rewrite (voltage_ok cisR D x) by (fold nb; lia). cbn [bind]. fold nb.
  rewrite LG, Nat.ltb_irrefl. cbn [bind].
  destruct (cost_hess_ok D x CS LG) as (H0 & E0 & I0).
  assert (E0' : forall (C : Type) (f : smat R -> result C), 
     (gt <- (if has_nz (g_N (a_cp D)) then t <- general D x;; Ok (Some t) else Ok None);; d2f0 <- cost_hess D [] x gt ;; f d2f0) = f H0).
  { intros C f. destruct (if has_nz _ then _ else _) as [gt|] eqn:E; cbn [bind] in *; [rewrite E0; reflexivity|discriminate]. }
  rewrite E0'.
  rewrite (half_len lam nb LL), (half_len mu nl LM).
  set (lp := firstn nb lam). set (lq := slice nb (nb + nb) lam). set (mf := firstn nl mu). set (mt := slice nl (nl + nl) mu).
  destruct (balances_ok D Y Yf Yt il x S LX4 PN POS PL lp) as (paa & pav & pva & pvv & EP & P1 & P2 & P3 & P4 & HP).
  { unfold lp. rewrite firstn_length. fold nb. lia. }
  destruct (balances_ok D Y Yf Yt il x S LX4 PN POS PL lq) as (qaa & qav & qva & qvv & EQ & Q1 & Q2 & Q3 & Q4 & HQ).
  { unfold lq. rewrite slice_length. fold nb. lia. }
  fold nb in EP, EQ, HP, HQ, P1, P2, P3, P4, Q1, Q2, Q3, Q4.
  rewrite EP. cbn [bind]. rewrite EQ. cbn [bind].
  destruct (block4_ok paa pav pva pvv nb _ _ _ _ (shaped_mat _ _ _ P1) (shaped_mat _ _ _ P2) (shaped_mat _ _ _ P3) (shaped_mat _ _ _ P4)) as (GP & EGP & IGP).
  rewrite EGP. cbn [bind].
  destruct (block4_ok qaa qav qva qvv nb _ _ _ _ (shaped_mat _ _ _ Q1) (shaped_mat _ _ _ Q2) (shaped_mat _ _ _ Q3) (shaped_mat _ _ _ Q4)) as (GQ & EGQ & IGQ).
  rewrite EGQ. cbn [bind].
  destruct (ismat_add _ _ _ _ _ _ (ismat_re _ _ _ _ IGP) (ismat_im _ _ _ _ IGQ)) as (G & EG & IG).
  rewrite EG. cbn [bind].
  destruct (flow_part_ok D lim Y Yf Yt il x S LX4 PN POS PL mf mt) as (f4 & t4 & EF & HF & HT).
  { unfold mf. rewrite firstn_length. fold nl. lia. }
  { unfold mt. rewrite slice_length. fold nl. lia. }
  unfold flow_part in EF. cbv zeta in EF. fold nb nl in EF. 
  rwc EF. destruct f4 as (((faa & fav) & fva) & fvv), t4 as (((taa & tav) & tva) & tvv).
  destruct HF as (F1 & F2 & F3 & F4 & HF), HT as (T1 & T2 & T3 & T4 & HT). fold nb in F1, F2, F3, F4, T1, T2, T3, T4, HF, HT.
  destruct (block4_ok faa fav fva fvv nb _ _ _ _ (shaped_mat _ _ _ F1) (shaped_mat _ _ _ F2) (shaped_mat _ _ _ F3) (shaped_mat _ _ _ F4)) as (MF & EMF & IMF).
  rwc EMF.
  destruct (block4_ok taa tav tva tvv nb _ _ _ _ (shaped_mat _ _ _ T1) (shaped_mat _ _ _ T2) (shaped_mat _ _ _ T3) (shaped_mat _ _ _ T4)) as (MT & EMT & IMT).
  rwc EMT.
  destruct (ismat_add _ _ _ _ _ _ IMF IMT) as (Hm & EH & IH). rwc EH.
  pose proof (ismat_mapm (fun a => a * cm)%K H0 (length x) (length x) (hessK D x)) as I1.
  assert (I1' : ismat (mapm (fun a => a * cm)%K H0) (length x) (length x) (fun i j => hessK D x i j * cm)%R).
  { apply I1; auto; intros; kr; ring. }
  assert (L2 : nb + nb <= length x) by lia.
  destruct (ismat_add _ _ _ _ _ _ I1' (@ismat_corner R R_fld G _ (length x) _ IG L2)) as (s1 & E1 & I2). rwc E1.
  destruct (ismat_add _ _ _ _ _ _ I2 (@ismat_corner R R_fld Hm _ (length x) _ IH L2)) as (M & E2 & I3). 
  exists M. split; [exact E2|]. split; [eapply is_shaped; exact I3|]. destruct I3 as (_ & _ & _ & I3).
  intros j k Hj Hk. rewrite I3 by auto. clear I3.
  eapply vp2_eq.
  - eapply vp2_ext.
    2:{ apply vp2_add; [apply vp2_add; [apply vp2_add; [apply vp2_add|]|]|].
      - apply (vp2_scal (cost_of D)). apply (d2_cost D (length x) ZD SH LX LGX x j k); auto. apply edge_free_iff; auto.
      - exact (proj1 (HP j k Hk)).
      - exact (proj2 (HQ j k Hk)).
      - apply HF. exact Hk.
      - apply HT. exact Hk. }
    intros y Ly. unfold lagrangian, lagr_p, lagr_q, lagr_h. fold nb nl. kr.
    f_equal; [f_equal; [f_equal; [f_equal|]|]|].
    + apply lsum_ext. intros i Hi. apply in_seq in Hi. unfold lp. rewrite nth_firstn_lt by lia. reflexivity.
    + apply lsum_ext. intros i Hi. apply in_seq in Hi. unfold lq. rewrite nth_half by lia. reflexivity.
    + apply lsum_ext. intros i Hi. apply in_seq in Hi. unfold mf. rewrite nth_firstn_lt by lia. reflexivity.
    + apply lsum_ext. intros i Hi. apply in_seq in Hi. unfold mt. rewrite nth_half by lia. reflexivity.
  - unfold blk. cbv beta. change (hess_ D x j k) with (hessK D x j k). kr.
    destruct ((j <? nb + nb) && (k <? nb + nb)); [|ring]. destruct (j <? nb), (k <? nb); ring.
Qed.

(** ** C64 *)
Section Raises.
Context {K : Type} {F : Fld K}.
Variables (cis : K -> cpx K) (cabs : cpx K -> K) (D : acdata (K := K)).

(** costs of reactive power *)
Theorem C64_reactive_partial lim Y Yf Yt il x lam mu cm :
  0 < length (a_gen D) < length (a_gencost D) -> Forall (fun r => 2 <= length r) (a_gencost D) ->
  forall H, opf_hessfcn cis cabs D lim Y Yf Yt il x lam mu cm <> Ok H.
Proof.
  intros (P & LT) W H E. unfold opf_hessfcn in E. cbv zeta in E.
  apply bind_ok in E as (? & _ & E). apply bind_ok in E as (V & _ & E).
  apply Nat.ltb_lt in LT. rewrite LT in E. apply bind_ok in E as (q & Eq & E).
  apply bind_ok in E as (gt & _ & E). apply bind_ok in E as (d & Ed & _). unfold cost_hess in Ed. cbv zeta in Ed.
  apply bind_ok in Ed as (? & _ & Ed). apply bind_ok in Ed as (? & _ & Ed). apply bind_ok in Ed as (? & Eb & _).
  unfold gather in Eq. destruct (length (a_gen D)) as [|m] eqn:L; [lia|]. cbn [seq mapM] in Eq.
  apply bind_ok in Eq as (r & Er & Eq). apply bind_ok in Eq as (rs & _ & [= <-]). apply get_ok in Er.
  assert (R2 : 2 <= length r) by (rewrite Forall_forall in W; apply W; apply nth_error_In in Er; auto).
  destruct r as [|a [|b r]]; cbn in R2; try lia. cbn in Eb. discriminate.
Qed.
(** no branch with a flow limit *)
Theorem C64_unlimited_partial lim Y Yf Yt x lam cm :
  forall H, opf_hessfcn cis cabs D lim Y Yf Yt [] x lam [] cm <> Ok H.
Proof.
  intros H E. unfold opf_hessfcn in E. cbv zeta in E.
  do 5 apply bind_ok in E as (? & _ & E). apply bind_ok in E as ((((? & ?) & ?) & ?) & _ & E).
  apply bind_ok in E as ((((? & ?) & ?) & ?) & _ & E). do 3 apply bind_ok in E as (? & _ & E).
  apply bind_ok in E as (? & Ef & _). cbn [length Nat.div firstn map] in Ef.
  destruct lim.
  1, 2: do 5 apply bind_ok in Ef as (? & _ & Ef); apply bind_ok in Ef as ((((((? & ?) & ?) & ?) & ?) & ?) & _ & Ef);
        apply bind_ok in Ef as (? & Ef & _); cbn in Ef; discriminate.
  apply bind_ok in Ef as ((((((? & ?) & ?) & ?) & ?) & ?) & _ & Ef). apply bind_ok in Ef as (? & Ef & _); cbn in Ef; discriminate.
Qed.
(** no polynomial cost of active power *)
Theorem C64_piecewise_partial lim Y Yf Yt il x lam mu cm :
  (forall i, i < length (a_gen D) -> i < length (a_gencost D) -> cost_is 2 (nth i (a_gencost D) []) = false) ->
  forall H, opf_hessfcn cis cabs D lim Y Yf Yt il x lam mu cm <> Ok H.
Proof.
  intros NP H E. unfold opf_hessfcn in E. cbv zeta in E.
  do 4 apply bind_ok in E as (? & _ & E). apply bind_ok in E as (d & Ed & _). unfold cost_hess in Ed. cbv zeta in Ed.
  apply bind_ok in Ed as (pc & Ep & Ed). apply bind_ok in Ed as (dp & Eh & _). unfold poly_hess in Eh.
  apply bind_ok in Eh as (m & Em & Eh). cbv zeta in Eh.
  assert (find (map is_poly m) = []) as Z.
  { destruct (find (map is_poly m)) as [|i l] eqn:Ef; auto. exfalso.
    assert (I : In i (find (map is_poly m))) by (rewrite Ef; left; auto).
    apply in_find in I. rewrite nth_error_map in I. destruct (nth_error m i) as [a|] eqn:Ea; [|discriminate]. cbn in I.
    injection I as I. unfold col in Em. pose proof (mapM_length _ _ _ Em) as Lm. pose proof (gather_length _ _ _ Ep) as Lp. rewrite seq_length in Lp.
    assert (Li : i < length (a_gen D)) by (apply nth_error_some_lt in Ea; lia).
    destruct (nth_error_lt pc i) as (r & Er); [lia|].
    destruct (mapM_nth _ _ _ _ _ Em Er) as (a' & Ec & Ea'). assert (a' = a) as -> by congruence. apply get_ok in Ec.
    assert (Ei : nth_error (seq 0 (length (a_gen D))) i = Some i).
    { rewrite (nth_error_nth' _ 0) by (rewrite seq_length; auto). rewrite seq_nth by auto. reflexivity. }
    pose proof (gather_nth _ _ _ _ _ Ep Ei) as Eg. rewrite Er in Eg. symmetry in Eg.
    assert (Lg : i < length (a_gencost D)) by (apply nth_error_some_lt in Eg; auto).
    specialize (NP i Li Lg). rewrite (nth_error_nth _ _ [] Eg) in NP. unfold cost_is, cell in NP.
    rewrite (nth_error_nth _ _ 0%K Ec) in NP. change (is_poly a = false) in NP. congruence. }
  rewrite Z in Eh. cbn in Eh. discriminate.
Qed.
End Raises.

(** ** examples *)
(** the case of C60 with a quadratic cost, or one for each kind of power, of the generator, and a
    quadratic user cost of the active output over 2 *)
Definition hD {K} {F : Fld K} (n : nat) : acdata (K := K) :=
  AcData (a_base cD) (a_bus cD) (a_gen cD) (a_branch cD) (repeat (map fofZ [2; 0; 0; 3; 1; 10; 7]%Z) n) 0
    (GCostP (SM 1 6 [Ent 0 4 1%K]) (SM 1 1 [Ent 0 0 (fofZ 2)]) [fofZ 3] [fofZ 2] [fofZ 1] [fofZ 1] [fofZ 1]).
Lemma h_con {K} {F : Fld K} n : con_shape (K := K) (hD n) cY cYf cYt [0].
Proof. destruct (@c_shape K F). split; auto. Qed.
Lemma h_cost n : 0 < n <= 2 -> cost_shape (hD n) cR.
Proof.
  intros Hn. split.
  - cbn. lia.
  - cbn [hD a_gencost]. rewrite repeat_length. cbn. lia.
  - apply Forall_forall. intros r I. apply repeat_spec in I as ->. cbn. unfold MODEL. lia.
  - intros r I _. apply repeat_spec in I as ->. exists 3. split; [lia|split; [reflexivity|cbn; unfold COST; lia]].
  - exists (map fofZ [2; 0; 0; 3; 1; 10; 7]%Z). split; [destruct n; [lia|left; reflexivity]|]. apply feqb_ok. reflexivity.
  - split; [|split; [|do 5 (split; [reflexivity|])]].
    + split; [reflexivity|split; [reflexivity|]]. constructor; [cbn; lia|constructor].
    + split; [reflexivity|split; [reflexivity|]]. constructor; [cbn; lia|constructor].
    + constructor; [|constructor]. unfold le. apply ltb_r'. cbn. lra.
Qed.
Lemma h_sym n : sym_mat (g_H (a_cp (hD (K := R) n))).
Proof. intros [|i] [|j]; cbn; auto; unfold at_; cbn; rewrite ?andb_false_r; auto. Qed.
Lemma h_edges n : let cp := a_cp (hD n) in off_edges (fun d => d = 1%R \/ d = 2%R) (g_N cp) (g_dd cp) (g_rh cp) (g_kk cp) cR.
Proof.
  cbv zeta. intros i Hi _ _. cbn in Hi. assert (i = 0) as -> by lia. unfold zone_r, row_val. cbn. unfold at_. cbn. split; lra.
Qed.
Example C61_example lim : exists H, opf_hessfcn cisR cabsR (hD 1) lim cY cYf cYt [0] cR [1; 2; 3; 4]%R [5; 6]%R 2%R = Ok H /\
  forall j k, j < 6 -> k < 6 ->
    vpartial2 (lagrangian cisR (hD 1) lim cY cYf cYt [0] [1; 2; 3; 4]%R [5; 6]%R 2%R) cR j k (at_ H j k).
Proof.
  destruct (C61_hessian (hD 1) lim cY cYf cYt [0] cR [1; 2; 3; 4]%R [5; 6]%R 2%R) as (H & E & _ & Q); auto.
  - apply h_con.
  - apply h_cost. lia.
  - apply h_sym.
  - cbn. lia.
  - intros [|[|k]] Hk; cbn; try lra. cbn in Hk. lia.
  - apply h_edges.
  - exists H. split; auto.
Qed.
Example C61_example_run :
  match opf_hessfcn cis_q (fun _ => zc 1) (hD 1) LimS cY cYf cYt [0] cX [zc 1; zc 0; zc 0; zc 2] [zc 1; zc 0] (zc 2) with
  | Ok H => map (fun j => map (fun k => this (at_ H j k)) (seq 0 6)) (seq 0 6)
  | _ => []
  end = let q a := Qmake a 5 in
  [[q 101; q (-101); q (-253); q (-93); Qmake 0 1; Qmake 0 1]; [q (-101); q 101; q 253; q 93; Qmake 0 1; Qmake 0 1];
   [q (-253); q 253; Qmake 70 1; q (-21); Qmake 0 1; Qmake 0 1]; [q (-93); q 93; q (-21); Qmake 24 1; Qmake 0 1; Qmake 0 1];
   [Qmake 0 1; Qmake 0 1; Qmake 0 1; Qmake 0 1; Qmake 40000 1; Qmake 0 1]; repeat (Qmake 0 1) 6]%Z.
Proof. vm_compute. reflexivity. Qed.

(** all that C61 asks for, and a cost of reactive power *)
Theorem C64_returns_refuted : exists (D : acdata (K := R)) x lam mu,
  con_shape D cY cYf cYt [0] /\ cost_shape D x /\ sym_mat (g_H (a_cp D)) /\
  length (a_gencost D) = length (a_gen D) + length (a_gen D) /\ length lam = 4 /\ length mu = 2 /\
  (forall k, k < 2 -> (0 < nth (2 + k) x 0)%R) /\
  (let cp := a_cp D in off_edges (fun d => d = 1%R \/ d = 2%R) (g_N cp) (g_dd cp) (g_rh cp) (g_kk cp) x) /\
  forall lim H, opf_hessfcn cisR cabsR D lim cY cYf cYt [0] x lam mu 1%R <> Ok H.
Proof.
  exists (hD 2), cR, [1; 2; 3; 4]%R, [5; 6]%R. split; [apply h_con|]. split; [apply h_cost; lia|]. split; [apply h_sym|].
  do 3 (split; [reflexivity|]). split.
  { intros [|[|k]] Hk; cbn; try lra. lia. }
  split; [apply h_edges|]. intros lim. apply C64_reactive_partial; [cbn; lia|]. repeat constructor; cbn; lia.
Qed.
Example C64_example_run :
  opf_hessfcn cis_q (fun _ => zc 1) (hD 2) LimS cY cYf cYt [0] cX [zc 1; zc 0; zc 0; zc 2] [zc 1; zc 0] (zc 2) = Err ValueError /\
  opf_hessfcn cis_q (fun _ => zc 1) (hD 1) LimS cY (SM 0 2 []) (SM 0 2 []) [] cX [zc 1; zc 0; zc 0; zc 2] [] (zc 2) = Err ValueError.
Proof. split; vm_compute; reflexivity. Qed.

Print Assumptions C61_hessian.
Print Assumptions C64_returns_refuted.
Print Assumptions C64_reactive_partial.
Print Assumptions C64_unlimited_partial.
Print Assumptions C64_piecewise_partial.
