(** Prices of the AC optimal power flow over the reals.  C65: the reported multipliers make the gradient
    of the Lagrangian small; marginal costs and prices of a generator. *)
From Coq Require Import Reals Lra.
From Verif Require Import Lib.ListFacts Model.AcOpf Spec.AcOptSpec Spec.AcDeriv Spec.PipsRun
  Proofs.LinAlgFacts Proofs.SparseFacts Proofs.FldFacts Proofs.OrdFacts Proofs.NetworkA Proofs.NetworkD Proofs.YbusA Proofs.OpfLinA Proofs.OpfLinB
  Proofs.BlockFacts Proofs.PipsF Proofs.PipsG Proofs.PipsI Proofs.DerivR Proofs.DcOpfD Proofs.DcOpfH Proofs.AcCostC Proofs.AcConR
  Proofs.AcOptA Proofs.AcOptB Proofs.AcOptC Proofs.AcOptD Proofs.AcOptE Proofs.AcOptF Proofs.AcPriceA
  Props.P_DcOpf Props.P_DcOpt Props.P_OpfFcn Props.P_OpfCon Props.P_AcOpf.
Local Open Scope nat_scope.

Ltac skip_blocks := repeat (rewrite app_nth2 by (rewrite ?map_length, ?repeat_length; lia); rewrite ?map_length, ?repeat_length).

Section Theorems.
Variables (sin_ cos_ : R -> R) (atan2 norm2 : R -> R -> R).
Variable solve : smat R -> list R -> result (option (list R)).
Variable ln : R -> R.
Variables (ign : bool) (lim : flow_lim) (B : R) (bus gen branch gencost : list (list R)) (U : user (K := R)) (o : acom (K := R)).
Notation nb := (length bus).
Notation ng := (length gen).
Hypothesis WU : forall M, u_A U = Some M -> shaped (nrows M) (ncols M) M.
Hypothesis ONE : length gencost = ng.
Hypothesis SET : ac_setup sin_ cos_ atan2 norm2 ign B bus gen branch gencost U = Ok o.
Variables (cp : gcostp (K := R)) (p : dcopt (K := R)) (res : acres (K := R)).
Hypothesis RUN : pipsopf cisR cabsR solve ln p lim B bus gen branch o cp = Ok res.
Hypothesis LO : ac_limits_ordered ign B bus gen branch (u_A U) (u_l U) (u_u U) (u_zl U) (u_zu U).
Hypothesis MO : Forall moderate (c_l o ++ c_u o ++ c_xmin o ++ c_xmax o).
Hypothesis OK_ : y_success res = true.
Notation x := (y_x res).
Notation m := (y_lmbda res).
Notation D := (AcData B bus gen branch (c_gencost o) (c_ny o) cp).
Hypothesis CS : cost_shape D x.
Hypothesis SH : sym_mat (g_H cp).
Hypothesis OE : off_edges (fun d => d = 1%R) (g_N cp) (g_dd cp) (g_rh cp) (g_kk cp) x.
Hypothesis POS : Forall (fun r => (0 < cell r VM)%R) (y_bus res).
Hypothesis ON : Forall (fun g => in_service g = true) gen.

Lemma vp_ext (f g : list R -> R) y j d : (forall t, g (upd y j t) = f (upd y j t)) -> vpartial f y j d -> vpartial g y j d.
Proof. intros E H. unfold vpartial. eapply dl_ext; [|exact H]. intros t. symmetry. apply E. Qed.

Lemma by_mult (a : R) : (a / fofZ 10000)%K = (a * o_cost_mult (ac_options p))%K.
Proof.
  cbn [o_cost_mult ac_options]. unfold dec. change (10 ^ Z.of_nat 4)%Z with 10000%Z.
  change (a / IZR 10000 = a * (IZR 1 / IZR 10000))%R. field.
Qed.

Section Excess.
Variables (Ybus Yf Yt Yfl Ytl : smat (cpx R)) (rate : list R).
Notation il := (find (map limited rate)).
Hypothesis made : makeYbus cisR B bus branch = Ok (Ybus, Yf, Yt).
Hypothesis Hrate : col RATE_A branch = Ok rate.
Hypothesis (Hfl : rowsel Yf il = Ok Yfl) (Htl : rowsel Yt il = Ok Ytl).
Definition If_ (y : list R) := cur branch Yf (ac_volt cisR nb y).
Definition It_ (y : list R) := cur branch Yt (ac_volt cisR nb y).
Lemma volt_len y : length (ac_volt cisR nb y) = nb.
Proof. unfold ac_volt. rewrite map_length, seq_length. auto. Qed.
Lemma active_is y i : i < nb -> active_excess cisR B bus gen branch If_ It_ i y = p_balance cisR B bus gen Ybus i y.
Proof.
  intros Hi. unfold active_excess, p_balance, If_, It_.
  rewrite (drawn_ok cisR B bus branch Ybus Yf Yt made _ i (volt_len y) Hi). reflexivity.
Qed.
Lemma reactive_is y i : i < nb -> reactive_excess cisR B bus gen branch If_ It_ i y = q_balance cisR B bus gen Ybus i y.
Proof.
  intros Hi. unfold reactive_excess, q_balance, If_, It_.
  rewrite (drawn_ok cisR B bus branch Ybus Yf Yt made _ i (volt_len y) Hi). reflexivity.
Qed.
Lemma flow_is y q l r : nth_error il q = Some l -> nth_error branch l = Some r ->
  flow_excess cisR lim B bus branch If_ F_BUS l y = overflow cisR lim B nb (brow D il q) F_BUS Yfl q y /\
  flow_excess cisR lim B bus branch It_ T_BUS l y = overflow cisR lim B nb (brow D il q) T_BUS Ytl q y.
Proof.
  intros Hq Hr. pose proof (nth_error_some_lt _ _ _ Hr) as Ll. pose proof (makeYbus_ok _ _ _ _ _ _ _ made) as YS.
  rewrite (brow_ok B bus gen branch o cp rate q l r Hq Hr). unfold flow_excess, overflow. cbv zeta. rewrite (nth_error_nth _ _ _ Hr).
  assert (C : forall M M' : smat (cpx R), sz M (length branch) nb -> rowsel M il = Ok M' ->
     bus_current M' (ac_volt cisR nb y) q = nth l (cur branch M (ac_volt cisR nb y)) 0%K).
  { intros M M' SM HM. destruct (sz_rows bus branch rate _ _ SM HM) as (W & N & CC).
    rewrite nth_cur by exact Ll. rewrite <- (mulrow_rowsel M M' _ _ q l HM Hq). rewrite (mulrow_at M' _ q W). reflexivity. }
  unfold end_sq. rewrite (C _ _ (ys_Yf _ _ _ _ _ _ _ YS) Hfl), (C _ _ (ys_Yt _ _ _ _ _ _ _ YS) Htl). split; reflexivity.
Qed.
End Excess.

Lemma stationary_deriv : exists st Ybus Yf Yt, makeYbus cisR B bus branch = Ok (Ybus, Yf, Yt) /\
  let If := If_ Yf in let It := It_ Yt in
  ac_solved_by cisR cabsR solve ln lim B bus gen branch o cp p res st /\
  (forall y, end_currents cisR branch (ac_volt cisR nb y) (If y) (It y)) /\
  forall lam_n mu_n, is_norm (t_lam st) lam_n -> is_norm (t_mu st) mu_n ->
  exists b, (b = lam_n \/ b = mu_n) /\ forall j, j < c_nx o ->
  exists dc dp dq df dt,
    vpartial (cost_of D) x j dc /\
    (forall i, i < nb -> vpartial (active_excess cisR B bus gen branch If It i) x j (dp i) /\
                         vpartial (reactive_excess cisR B bus gen branch If It i) x j (dq i)) /\
    (forall l r, nth_error branch l = Some r -> flow_limited r ->
       vpartial (flow_excess cisR lim B bus branch If F_BUS l) x j (df l) /\
       vpartial (flow_excess cisR lim B bus branch It T_BUS l) x j (dt l)) /\
    lt (fabs ((dc
               + lsum (fun i => B * (dp i * cell (nth i (y_bus res) []) LAM_P + dq i * cell (nth i (y_bus res) []) LAM_Q)) (seq 0 nb)
               + lsum (fun l => let r := nth l branch [] in let r' := nth l (y_branch res) [] in
                   if flow_limitedb r then df l * flow_price B r r' MU_SF + dt l * flow_price B r r' MU_ST else 0)
                   (seq 0 (length branch))
               + ((nth j (m_upper m) 0 - nth j (m_lower m) 0)
                  + lsum (fun i => at_ (c_A o) i j * (nth i (m_mu_u m) 0 - nth i (m_mu_l m) 0)) (seq 0 (nrows (c_A o)))))
              / fofZ 10000)%K)
       (p_gradtol p * (1 + b)
        + lsum (fun l => if flow_limitedb (nth l branch []) then fabs (df l) + fabs (dt l) else 0) (seq 0 (length branch)) * clean_tol
        + (cut_of (lower (c_xmin o) j) (upper (c_xmax o) j)
           + lsum (fun i => fabs (at_ (c_A o) i j) * cut_of (lower (c_l o) i) (upper (c_u o) i)) (seq 0 (nrows (c_A o)))))%K.
Proof.
  destruct (stationary_raw cisR cabsR sin_ cos_ atan2 norm2 solve ln ign lim B bus gen branch gencost U o WU ONE SET cp p res RUN LO MO OK_)
    as (Ybus & Yf & Yt & rate & Yfl & Ytl & s & st & f & df & hn & gn & dh & dg & ih & ilo & ivl & iang & Q).
  cbv zeta in Q. destruct Q as (S & HY & HR & Hfl & Htl & HU & ML & SB & LX & HC & HN & NI & T).
  set (il := find (map limited rate)) in *.
  exists st, Ybus, Yf, Yt. split; [exact HY|]. cbv zeta. split; [exact SB|]. split.
  { intros y. apply (currents_ok cisR B bus branch Ybus Yf Yt HY). apply volt_len. }
  intros lam_n mu_n N1 N2. destruct (T lam_n mu_n N1 N2) as (b & Hb & T'). exists b. split; [exact Hb|].
  pose proof (shape_ok cisR cabsR _ _ _ _ _ lim _ _ _ _ _ _ o ih ilo ivl iang S Ybus Yf Yt Yfl Ytl cp rate HY HR Hfl Htl _ _ HN) as SHP.
  pose proof (nx_big _ _ _ _ _ _ _ _ _ _ _ o ih ilo ivl iang S) as NX.
  destruct SB as (Ybus' & Yf' & Yt' & rate' & Yfl' & Ytl' & x0 & sp & s0 & k & Q). cbv zeta in Q. destruct Q as (_ & _ & _ & _ & H0 & _).
  destruct (C62_start sin_ cos_ atan2 norm2 ign B bus gen branch gencost U o WU ONE SET x0 H0) as (_ & (i0 & r0 & Hr0 & _) & _).
  pose proof (nth_error_some_lt _ _ _ Hr0) as PN.
  pose proof (ac_update_ok cisR B bus gen branch Ybus Yf Yt HY _ (il_ok branch Yf Yt Yfl Ytl rate HR Hfl Htl) (find_NoDup _)
    (as_B _ _ _ _ _ _ _ _ _ _ _ _ _ _ _ _ S) s res HU) as (X & _ & _ & _ & _ & _ & _ & B1 & _).
  destruct (C60_derivatives D lim Ybus Yfl Ytl il x SHP) as (h' & g' & dh' & dg' & HN' & SG & DG & _ & DH).
  { cbn [a_bus a_gen]. lia. }
  { cbn [a_bus]. lia. }
  { cbn [a_bus]. intros k' Hk'. destruct (nth_error_lt bus k' Hk') as (r & Hr). destruct (B1 k' r Hr) as (r' & Hr' & _ & E & _).
    rewrite X. rewrite Forall_forall in POS. specialize (POS r' (nth_error_In _ _ Hr')). rewrite E in POS. exact POS. }
  { exact ON. }
  rewrite HN in HN'. injection HN' as <- <- <- ->. destruct (DH NI) as (M & -> & SM & DM). clear DH.
  destruct (C34_gradient D x CS SH OE) as (f' & df' & HC' & _ & DC). rewrite HC in HC'. injection HC' as <- <-.
  cbn [a_base a_bus a_gen] in *. destruct SG as (_ & SG & _). destruct SM as (_ & SM & _).
  intros j Hj. specialize (T' j Hj). cbv zeta in T'.
  exists (nth j df 0%R), (fun i => at_ dg' j i), (fun i => at_ dg' j (nb + i)), (fun l => at_ M j (pos l il)), (fun l => at_ M j (length il + pos l il)).
  split; [apply DC; lia|]. split; [|split].
  - intros i Hi. destruct (DG i j Hi ltac:(lia)) as (D1 & D2).
    split; [eapply vp_ext; [|exact D1]|eapply vp_ext; [|exact D2]]; intros t.
    + exact (active_is Ybus Yf Yt HY _ i Hi).
    + exact (reactive_is Ybus Yf Yt HY _ i Hi).
  - intros l r Hr HL. assert (In l il) as I by (apply (il_ok branch Yf Yt Yfl Ytl rate HR Hfl Htl); eauto).
    apply In_nth_error in I as (q & Hq). rewrite (pos_nth il q l (find_NoDup _) Hq).
    destruct (DM q j (nth_error_some_lt _ _ _ Hq) ltac:(lia)) as (D1 & D2).
    split; [eapply vp_ext; [|exact D1]|eapply vp_ext; [|exact D2]]; intros t.
    + exact (proj1 (flow_is Ybus Yf Yt Yfl Ytl rate HY Hfl Htl _ q l r Hq Hr)).
    + exact (proj2 (flow_is Ybus Yf Yt Yfl Ytl rate HY Hfl Htl _ q l r Hq Hr)).
  - rewrite (pull_bus cisR sin_ cos_ atan2 norm2 ign B bus gen branch gencost U o ONE res Ybus Yf Yt Yfl Ytl rate s ih ilo ivl iang S HY HR Hfl Htl HU dg' j SG) in T'.
    rewrite (pull_branch cisR sin_ cos_ atan2 norm2 ign B bus gen branch gencost U o ONE res Ybus Yf Yt Yfl Ytl rate s ih ilo ivl iang S HY HR Hfl Htl HU M j SM) in T'.
    pose proof (abs_branch cisR B bus gen branch gencost ONE res Yf Yt Yfl Ytl rate s HR Hfl Htl HU M j) as AB. fold il in AB. rewrite AB in T'.
    rewrite <- by_mult in T'. exact T'.
Qed.

(** on success: for every variable, the derivatives of cost, balances and flow limits, weighted with the
    reported prices, and the multipliers of bounds and linear constraints, cancel up to the tolerance of
    the solver and the small multipliers it drops.  Costs are scaled by 1/10000. *)
Theorem C65_stationary : exists st If It,
  ac_solved_by cisR cabsR solve ln lim B bus gen branch o cp p res st /\
  (forall y, end_currents cisR branch (ac_volt cisR nb y) (If y) (It y)) /\
  forall lam_n mu_n, is_norm (t_lam st) lam_n -> is_norm (t_mu st) mu_n ->
  exists b, (b = lam_n \/ b = mu_n) /\ forall j, j < c_nx o ->
  exists dc dp dq df dt,
    vpartial (cost_of D) x j dc /\
    (forall i, i < nb -> vpartial (active_excess cisR B bus gen branch If It i) x j (dp i) /\
                         vpartial (reactive_excess cisR B bus gen branch If It i) x j (dq i)) /\
    (forall l r, nth_error branch l = Some r -> flow_limited r ->
       vpartial (flow_excess cisR lim B bus branch If F_BUS l) x j (df l) /\
       vpartial (flow_excess cisR lim B bus branch It T_BUS l) x j (dt l)) /\
    lt (fabs ((dc
               + lsum (fun i => B * (dp i * cell (nth i (y_bus res) []) LAM_P + dq i * cell (nth i (y_bus res) []) LAM_Q)) (seq 0 nb)
               + lsum (fun l => let r := nth l branch [] in let r' := nth l (y_branch res) [] in
                   if flow_limitedb r then df l * flow_price B r r' MU_SF + dt l * flow_price B r r' MU_ST else 0)
                   (seq 0 (length branch))
               + ((nth j (m_upper m) 0 - nth j (m_lower m) 0)
                  + lsum (fun i => at_ (c_A o) i j * (nth i (m_mu_u m) 0 - nth i (m_mu_l m) 0)) (seq 0 (nrows (c_A o)))))
              / fofZ 10000)%K)
       (p_gradtol p * (1 + b)
        + lsum (fun l => if flow_limitedb (nth l branch []) then fabs (df l) + fabs (dt l) else 0) (seq 0 (length branch)) * clean_tol
        + (cut_of (lower (c_xmin o) j) (upper (c_xmax o) j)
           + lsum (fun i => fabs (at_ (c_A o) i j) * cut_of (lower (c_l o) i) (upper (c_u o) i)) (seq 0 (nrows (c_A o)))))%K.
Proof.
  destruct stationary_deriv as (st & Ybus & Yf & Yt & _ & H). exists st, (If_ Yf), (It_ Yt). exact H.
Qed.

(** ** a generator output *)
Section Output.
Variables (Yf Yt : smat (cpx R)) (j : nat).
Hypothesis Hj : nb + nb <= j.
Lemma volt_far y t : ac_volt cisR nb (upd y j t) = ac_volt cisR nb y.
Proof.
  unfold ac_volt. apply map_ext_in. intros i Hi. apply in_seq in Hi.
  rewrite !(NetworkD.nth_upd_other y) by lia. reflexivity.
Qed.
Lemma far_active y i : nb + nb + 0 + ng <= length y ->
  vpartial (active_excess cisR B bus gen branch (If_ Yf) (It_ Yt) i) y j
   (0 - (if (nb + nb + 0 <=? j) && (j <? nb + nb + 0 + ng) then
      (let g := nth (j - (nb + nb + 0)) gen [] in if in_service g && (bus_no g GEN_BUS =? i) then 1 else 0) else 0))%R.
Proof.
  intros L. refine (vp_bal _ _ _ y j _ _ _ (d_supply gen nb 0 y j i L)). unfold vpartial, If_, It_.
  eapply dl_ext; [|apply derivable_pt_lim_const]. intros t. rewrite volt_far. reflexivity.
Qed.
Lemma far_reactive y i : nb + nb + ng + ng <= length y ->
  vpartial (reactive_excess cisR B bus gen branch (If_ Yf) (It_ Yt) i) y j
   (0 - (if (nb + nb + ng <=? j) && (j <? nb + nb + ng + ng) then
      (let g := nth (j - (nb + nb + ng)) gen [] in if in_service g && (bus_no g GEN_BUS =? i) then 1 else 0) else 0))%R.
Proof.
  intros L. refine (vp_bal _ _ _ y j _ _ _ (d_supply gen nb ng y j i L)). unfold vpartial, If_, It_.
  eapply dl_ext; [|apply derivable_pt_lim_const]. intros t. rewrite volt_far. reflexivity.
Qed.
Lemma far_flow Y e l y : vpartial (flow_excess cisR lim B bus branch (If_ Y) e l) y j 0%R.
Proof.
  unfold vpartial, flow_excess, If_. eapply dl_ext; [|apply derivable_pt_lim_const]. intros t. rewrite volt_far. reflexivity.
Qed.
End Output.

Lemma same_row k : k < ng -> cost_is 2 (nth k gencost []) = true ->
  nth k (c_gencost o) [] = nth k gencost [] /\ segmented (nth k gencost []) = false.
Proof.
  intros Hk H2. destruct (ac_set_ok sin_ cos_ atan2 norm2 ign B bus gen branch gencost U o WU ONE SET) as (ih & ilo & ivl & iang & S).
  pose proof (as_gc _ _ _ _ _ _ _ _ _ _ _ _ _ _ _ _ S) as GC. unfold cost_is in H2. apply feqb_ok in H2.
  assert (cost_is 1 (nth k gencost []) = false) as N1.
  { unfold cost_is. destruct (feqb _ _) eqn:E; auto. apply feqb_ok in E. rewrite E in H2. apply fofZ_inj in H2. lia. }
  split.
  - destruct (nth_error_lt gencost k ltac:(lia)) as (r & Hr). destruct (mapM_nth _ _ _ _ _ GC Hr) as (r' & P1 & Hr').
    rewrite (nth_error_nth _ _ _ Hr), (nth_error_nth _ _ _ Hr'). rewrite (nth_error_nth _ _ _ Hr) in N1.
    unfold pwl1_row in P1. apply bind_ok in P1 as (mm & Hm & P1). apply bind_ok in P1 as (n & Hn & P1).
    apply DcOpfJ.get_cell in Hm. subst mm. change (is_pwl (cell r MODEL)) with (cost_is 1 r) in P1. rewrite N1 in P1.
    cbn in P1. congruence.
  - unfold segmented. rewrite N1. reflexivity.
Qed.

Lemma far_cost y j d : nrows (g_N cp) = 0 -> nb + nb <= j < nb + nb + ng + ng -> nb + nb + ng + ng <= length y ->
  (j < nb + nb + ng -> cost_is 2 (nth (j - (nb + nb)) gencost []) = true /\
     derivable_pt_lim (fun P => horner (coeffs (nth (j - (nb + nb)) gencost [])) P) (B * nth j y 0)%R d) ->
  (nb + nb + ng <= j -> d = 0%R) ->
  vpartial (cost_of D) y j (B * d)%R.
Proof.
  intros N0 Hj Ly HP HQ. destruct (ac_set_ok sin_ cos_ atan2 norm2 ign B bus gen branch gencost U o WU ONE SET) as (ih & ilo & ivl & iang & S).
  pose proof (as_gclen _ _ _ _ _ _ _ _ _ _ _ _ _ _ _ _ S) as LG.
  unfold vpartial, cost_of, ac_cost. cbn [a_base a_bus a_gen a_gencost a_cp a_ny]. rewrite N0.
  replace (B * d)%R with (0 + B * d + 0)%R by ring.
  apply (derivable_pt_lim_plus (fun t => lsum (fun i => nth (nb + nb + ng + ng + i) (upd y j t) 0%K) (seq 0 (c_ny o))
     + lsum (fun i => let r := nth i (c_gencost o) [] in if cost_is 2 r then horner (coeffs r) (B * ac_output nb (upd y j t) i) else 0) (seq 0 (length (c_gencost o))))%K
     (fun t => qform 0 (g_H cp) (g_Cw cp) (zone_w (g_N cp) (g_dd cp) (g_rh cp) (g_kk cp) (g_mm cp) (upd y j t)))).
  2:{ apply (dl_ext (fun _ => qform 0 (g_H cp) (g_Cw cp) [])); [|apply derivable_pt_lim_const].
      intros t. unfold zone_w. rewrite N0. reflexivity. }
  apply (derivable_pt_lim_plus (fun t => lsum (fun i => nth (nb + nb + ng + ng + i) (upd y j t) 0%K) (seq 0 (c_ny o)))
     (fun t => lsum (fun i => let r := nth i (c_gencost o) [] in if cost_is 2 r then horner (coeffs r) (B * ac_output nb (upd y j t) i)%K else 0%K) (seq 0 (length (c_gencost o))))).
  { apply (dl_ext (fun _ => lsum (fun i => nth (nb + nb + ng + ng + i) y 0%K) (seq 0 (c_ny o)))); [|apply derivable_pt_lim_const].
    intros t. apply lsum_ext. intros i _. rewrite (nth_upd_other y) by lia. reflexivity. }
  eapply dl_eq.
  - apply (dl_lsum _ (fun i => if nb + nb + i =? j then (B * d)%R else 0%R)). intros i Hi. apply in_seq in Hi. cbv zeta.
    destruct (Nat.eqb_spec (nb + nb + i) j) as [E|E].
    + destruct HP as (H2 & HD); [lia|]. replace (j - (nb + nb)) with i in * by lia.
      destruct (same_row i ltac:(lia) H2) as (-> & _). rewrite H2.
      assert (derivable_pt_lim (fun t => B * t)%R (nth j y 0%R) B) as DB.
      { eapply dl_eq; [apply (derivable_pt_lim_scal id); apply derivable_pt_lim_id|ring]. }
      pose proof (derivable_pt_lim_comp (fun t => B * t)%R (fun P => horner (coeffs (nth i gencost [])) P) _ _ _ DB HD) as C.
      eapply dl_eq; [|apply Rmult_comm]. eapply dl_ext; [|exact C]. intros t. unfold comp, ac_output. rewrite E.
      rewrite (nth_upd_same y) by lia. reflexivity.
    + apply (dl_ext (fun _ => if cost_is 2 (nth i (c_gencost o) []) then horner (coeffs (nth i (c_gencost o) [])) (B * ac_output nb y i)%K else 0%K));
        [|apply derivable_pt_lim_const].
      intros t. unfold ac_output. rewrite (nth_upd_other y) by lia. reflexivity.
  - rewrite LG. destruct (Nat.lt_ge_cases j (nb + nb + ng)) as [L|L].
    + rewrite (lsum_ext _ (fun i => if j - (nb + nb) =? i then (B * d)%R else 0%K)).
      * apply (lsum_seq_single' (fun _ => (B * d)%R)). lia.
      * intros i Hi. destruct (Nat.eqb_spec (nb + nb + i) j), (Nat.eqb_spec (j - (nb + nb)) i); try lia; reflexivity.
    + rewrite (HQ L). rewrite lsum_zero; [cbn; ring|]. intros i Hi. apply in_seq in Hi. destruct (Nat.eqb_spec (nb + nb + i) j); [lia|reflexivity].
Qed.

Lemma gen_column k g c : nth_error gen k = Some g -> u_A U = None -> cost_is 2 (nth k gencost []) = true ->
  ~ cuts_upper g -> ~ cuts_lower g -> ~ var_load g -> c = nb + nb + k \/ c = nb + nb + (ng + k) ->
  c < c_nx o /\ bus_no g GEN_BUS < nb /\ length x = c_nx o /\ nb + nb + ng + ng <= c_nx o /\
  (forall i, i < nrows (c_A o) -> at_ (c_A o) i c = 0%R) /\
  (c = nb + nb + k -> lower (c_xmin o) c = EFin (cell g PMIN / B)%K /\ upper (c_xmax o) c = EFin (cell g PMAX / B)%K) /\
  (c = nb + nb + (ng + k) -> lower (c_xmin o) c = EFin (cell g QMIN / B)%K /\ upper (c_xmax o) c = EFin (cell g QMAX / B)%K).
Proof.
  intros Hg NU H2 CU CL VL Hc. pose proof (nth_error_some_lt _ _ _ Hg) as Hk.
  destruct (stationary_raw cisR cabsR sin_ cos_ atan2 norm2 solve ln ign lim B bus gen branch gencost U o WU ONE SET cp p res RUN LO MO OK_)
    as (Ybus & Yf & Yt & rate & Yfl & Ytl & s & st & f & df & hn & gn & dh & dg & ih & ilo & ivl & iang & Q).
  cbv zeta in Q. destruct Q as (S & _ & _ & _ & _ & _ & _ & _ & LX & _).
  pose proof (nx_big _ _ _ _ _ _ _ _ _ _ _ o ih ilo ivl iang S) as NX.
  destruct (same_row k Hk H2) as (_ & SG).
  split; [lia|]. split.
  { pose proof (as_gbus _ _ _ _ _ _ _ _ _ _ _ _ _ _ _ _ S) as GB. unfold buses_ok in GB. rewrite Forall_forall in GB.
    apply (GB g (nth_error_In _ _ Hg)). }
  split; [exact LX|]. split; [lia|]. split; [|split].
  - exact (free_column sin_ cos_ atan2 norm2 ign B bus gen branch gencost U o ih ilo ivl iang S k g Hg NU SG CU CL VL c Hc).
  - intros ->. split.
    + unfold lower. rewrite bound_nth, (as_xmin _ _ _ _ _ _ _ _ _ _ _ _ _ _ _ _ S). skip_blocks.
      rewrite app_nth1 by (rewrite map_length; lia). rewrite (nth_map_lt _ _ _ _ []) by lia. rewrite (nth_error_at _ _ _ _ _ Hg) by lia. auto.
    + unfold upper. rewrite bound_nth, (as_xmax _ _ _ _ _ _ _ _ _ _ _ _ _ _ _ _ S). skip_blocks.
      rewrite app_nth1 by (rewrite map_length; lia). rewrite (nth_map_lt _ _ _ _ []) by lia. rewrite (nth_error_at _ _ _ _ _ Hg) by lia. auto.
  - intros ->. split.
    + unfold lower. rewrite bound_nth, (as_xmin _ _ _ _ _ _ _ _ _ _ _ _ _ _ _ _ S). skip_blocks.
      rewrite app_nth1 by (rewrite map_length; lia). rewrite (nth_map_lt _ _ _ _ []) by lia. rewrite (nth_error_at _ _ _ _ _ Hg) by lia. auto.
    + unfold upper. rewrite bound_nth, (as_xmax _ _ _ _ _ _ _ _ _ _ _ _ _ _ _ _ S). skip_blocks.
      rewrite app_nth1 by (rewrite map_length; lia). rewrite (nth_map_lt _ _ _ _ []) by lia. rewrite (nth_error_at _ _ _ _ _ Hg) by lia. auto.
Qed.

(** on success: the marginal cost of a generator is its bus price, corrected by the prices of its own
    limits, up to the tolerance of the solver; a generator pays no reactive cost *)
Theorem C65_generator_price k g :
  nth_error gen k = Some g -> u_A U = None -> nrows (g_N cp) = 0 -> cost_is 2 (nth k gencost []) = true ->
  ~ cuts_upper g -> ~ cuts_lower g -> ~ var_load g ->
  exists st, ac_solved_by cisR cabsR solve ln lim B bus gen branch o cp p res st /\
  forall lam_n mu_n, is_norm (t_lam st) lam_n -> is_norm (t_mu st) mu_n ->
  exists b g' r', (b = lam_n \/ b = mu_n) /\
    nth_error (y_gen res) k = Some g' /\ nth_error (y_bus res) (bus_no g GEN_BUS) = Some r' /\
    (forall mc, derivable_pt_lim (fun P => horner (coeffs (nth k gencost [])) P) (cell g' PG) mc ->
       lt (fabs (B * (mc - cell r' LAM_P + cell g' MU_PMAX - cell g' MU_PMIN) / fofZ 10000)%K)
          (p_gradtol p * (1 + b) + cut_of (EFin (cell g PMIN / B)) (EFin (cell g PMAX / B)))%K) /\
    lt (fabs (B * (cell g' MU_QMAX - cell g' MU_QMIN - cell r' LAM_Q) / fofZ 10000)%K)
       (p_gradtol p * (1 + b) + cut_of (EFin (cell g QMIN / B)) (EFin (cell g QMAX / B)))%K.
Proof.
  intros Hg NU N0 H2 CU CL VL. pose proof (nth_error_some_lt _ _ _ Hg) as Hk.
  destruct stationary_deriv as (st & Ybus & Yf & Yt & HY & SB & _ & T). exists st. split; [exact SB|].
  intros lam_n mu_n N1 N2. destruct (T lam_n mu_n N1 N2) as (b & Hb & T').
  destruct (gen_column k g _ Hg NU H2 CU CL VL (or_introl eq_refl)) as (JP & HB & LX & NX & AP & BP & _).
  destruct (gen_column k g _ Hg NU H2 CU CL VL (or_intror eq_refl)) as (JQ & _ & _ & _ & AQ & _ & BQ).
  specialize (BP eq_refl). specialize (BQ eq_refl). destruct BP as (BP1 & BP2). destruct BQ as (BQ1 & BQ2).
  destruct (C62_report cisR cabsR sin_ cos_ atan2 norm2 solve ln ign lim B bus gen branch gencost U o WU ONE SET cp p res RUN)
    as (_ & _ & _ & RB & RG & _).
  destruct (nth_error_lt bus _ HB) as (r & Hr). destruct (RB _ _ Hr) as (r' & Hr' & _).
  destruct (RG _ _ Hg) as (g' & Hg' & _ & EP & _ & _ & EL & EU & QL & QU).
  exists b, g', r'. split; [exact Hb|]. split; [exact Hg'|]. split; [exact Hr'|].
  assert (SV : in_service g = true) by (rewrite Forall_forall in ON; apply ON; eapply nth_error_In; eauto).
  pose proof (nth_error_nth _ _ [] Hr') as Er. pose proof (nth_error_nth _ _ [] Hg) as Eg.
  split.
  - intros mc HM. destruct (T' _ JP) as (dc & dp & dq & df & dt & DC & DB & DF & I). rewrite BP1, BP2 in I.
    assert (dc = B * mc)%R as ->.
    { eapply uniqueness_limite; [exact DC|]. apply far_cost; try lia; auto. intros _.
      replace (nb + nb + k - (nb + nb)) with k by lia. split; [exact H2|]. rewrite EP in HM. exact HM. }
    pose proof (collapse B gen gencost ONE nb (bus_no g GEN_BUS) (length branch) (nrows (c_A o)) (fun l => flow_limitedb (nth l branch [])) dp dq df dt
      (fun i => cell (nth i (y_bus res) []) LAM_P) (fun i => cell (nth i (y_bus res) []) LAM_Q)
      (fun l => flow_price B (nth l branch []) (nth l (y_branch res) []) MU_SF) (fun l => flow_price B (nth l branch []) (nth l (y_branch res) []) MU_ST)
      (fun i => at_ (c_A o) i (nb + nb + k)) (fun i => (nth i (m_mu_u m) 0 - nth i (m_mu_l m) 0)%K)
      (fun i => cut_of (lower (c_l o) i) (upper (c_u o) i)) (B * mc)%R 1%K 0%K
      (nth (nb + nb + k) (m_upper m) 0%K) (nth (nb + nb + k) (m_lower m) 0%K) (p_gradtol p * (1 + b))%K
      (cut_of (EFin (cell g PMIN / B)%K) (EFin (cell g PMAX / B)%K)) HB) as C. cbv beta in C.
    lapply C; clear C; [intros C; lapply C; clear C; [intros C; specialize (C AP I); clear I|]|].
    3:{ intros i Hi. destruct (DB i Hi) as (D1 & D2). split.
        - eapply uniqueness_limite; [exact D1|]. eapply dl_eq; [apply far_active; lia|].
          destruct (Nat.leb_spec (nb + nb + 0) (nb + nb + k)), (Nat.ltb_spec (nb + nb + k) (nb + nb + 0 + ng)); try lia; cbn [andb].
          all: try replace (nb + nb + k - (nb + nb + 0)) with k by lia; rewrite ?Eg, ?SV, ?(Nat.eqb_sym i); cbv zeta; cbn [andb].
          all: try (destruct (_ =? i)); reflexivity.
        - eapply uniqueness_limite; [exact D2|]. eapply dl_eq; [apply far_reactive; lia|].
          destruct (Nat.leb_spec (nb + nb + ng) (nb + nb + k)), (Nat.ltb_spec (nb + nb + k) (nb + nb + ng + ng)); try lia; cbn [andb].
          all: try replace (nb + nb + (ng + k) - (nb + nb + ng)) with k by lia; rewrite ?Eg, ?SV, ?(Nat.eqb_sym i); cbv zeta; cbn [andb].
          all: try (destruct (_ =? i)); reflexivity. }
    2:{ intros l Hl HL. destruct (nth_error_lt branch l Hl) as (rl & Hrl). rewrite (nth_error_nth _ _ _ Hrl) in HL.
        assert (flow_limited rl) as FL by (unfold flow_limitedb in HL; apply andb_true_iff in HL as (HL1 & HL2); split; [apply feqb_false; destruct (feqb _ _); [discriminate|reflexivity]|exact HL2]). destruct (DF l rl Hrl FL) as (D1 & D2).
        split; (eapply uniqueness_limite; [eassumption|apply far_flow; lia]). }
    rewrite Er in C. exact (price_p _ _ _ _ _ _ _ _ _ _ EL EU C).
  - destruct (T' _ JQ) as (dc & dp & dq & df & dt & DC & DB & DF & I). rewrite BQ1, BQ2 in I.
    assert (dc = B * 0)%R as ->.
    { eapply uniqueness_limite; [exact DC|]. apply far_cost; try lia; auto. }
    pose proof (collapse B gen gencost ONE nb (bus_no g GEN_BUS) (length branch) (nrows (c_A o)) (fun l => flow_limitedb (nth l branch [])) dp dq df dt
      (fun i => cell (nth i (y_bus res) []) LAM_P) (fun i => cell (nth i (y_bus res) []) LAM_Q)
      (fun l => flow_price B (nth l branch []) (nth l (y_branch res) []) MU_SF) (fun l => flow_price B (nth l branch []) (nth l (y_branch res) []) MU_ST)
      (fun i => at_ (c_A o) i (nb + nb + (ng + k))) (fun i => (nth i (m_mu_u m) 0 - nth i (m_mu_l m) 0)%K)
      (fun i => cut_of (lower (c_l o) i) (upper (c_u o) i)) (B * 0)%R 0%K 1%K
      (nth (nb + nb + (ng + k)) (m_upper m) 0%K) (nth (nb + nb + (ng + k)) (m_lower m) 0%K) (p_gradtol p * (1 + b))%K
      (cut_of (EFin (cell g QMIN / B)%K) (EFin (cell g QMAX / B)%K)) HB) as C. cbv beta in C.
    lapply C; clear C; [intros C; lapply C; clear C; [intros C; specialize (C AQ I); clear I|]|].
    3:{ intros i Hi. destruct (DB i Hi) as (D1 & D2). split.
        - eapply uniqueness_limite; [exact D1|]. eapply dl_eq; [apply far_active; lia|].
          destruct (Nat.leb_spec (nb + nb + 0) (nb + nb + (ng + k))), (Nat.ltb_spec (nb + nb + (ng + k)) (nb + nb + 0 + ng)); try lia; cbn [andb].
          all: try replace (nb + nb + k - (nb + nb + 0)) with k by lia; rewrite ?Eg, ?SV, ?(Nat.eqb_sym i); cbv zeta; cbn [andb].
          all: try (destruct (_ =? i)); reflexivity.
        - eapply uniqueness_limite; [exact D2|]. eapply dl_eq; [apply far_reactive; lia|].
          destruct (Nat.leb_spec (nb + nb + ng) (nb + nb + (ng + k))), (Nat.ltb_spec (nb + nb + (ng + k)) (nb + nb + ng + ng)); try lia; cbn [andb].
          all: try replace (nb + nb + (ng + k) - (nb + nb + ng)) with k by lia; rewrite ?Eg, ?SV, ?(Nat.eqb_sym i); cbv zeta; cbn [andb].
          all: try (destruct (_ =? i)); reflexivity. }
    2:{ intros l Hl HL. destruct (nth_error_lt branch l Hl) as (rl & Hrl). rewrite (nth_error_nth _ _ _ Hrl) in HL.
        assert (flow_limited rl) as FL by (unfold flow_limitedb in HL; apply andb_true_iff in HL as (HL1 & HL2); split; [apply feqb_false; destruct (feqb _ _); [discriminate|reflexivity]|exact HL2]). destruct (DF l rl Hrl FL) as (D1 & D2).
        split; (eapply uniqueness_limite; [eassumption|apply far_flow; lia]). }
    rewrite Er in C. exact (price_q _ _ _ _ _ _ _ _ _ QL QU C).
Qed.
End Theorems.

(** ** Example: the run of C62 in exact rationals, with gradient tolerance 5.  Output, marginal cost,
    price at the bus, price of the upper and lower output limit; the difference is within the tolerance
    (here 56 - 2 + 123 - 177 = 0 and 80 - 94 + 187 - 173 = 0). *)
Example C65_example_prices :
  match y_run with
  | Ok r => (y_success r,
      map (fun q => let g := nth (fst (fst q)) (y_gen r) [] in let b := nth (snd (fst q)) (y_bus r) [] in
        let mc := (snd q (cell g PG))%K in
        (mil (cell g PG), mil mc, mil (cell b LAM_P), mil (cell g MU_PMAX), mil (cell g MU_PMIN),
         fltb (fabs (zc 100 * (mc - cell b LAM_P + cell g MU_PMAX - cell g MU_PMIN) / fofZ 10000)%K) (zc 5)))
        [((0, 0), fun P : Qc => (zc 2 * P + zc 10)%K); ((1, 1), fun _ => zc 80)])
  | Err _ => (false, [])
  end = (true, [(23000, 56000, 2000, 123000, 177000, true); (27000, 80000, 94000, 187000, 173000, true)]%Z).
Proof. vm_compute. reflexivity. Qed.
Example C65_example_hypotheses :
  Forall (fun g => in_service g = true) y_gen1 /\ u_A no_U = None (A := smat Qc) /\ nrows (g_N y_cp) = 0 /\
  (forall k, k < 2 -> cost_is 2 (nth k y_gc1 []) = true) /\
  (forall g, In g y_gen1 -> ~ cuts_upper g /\ ~ cuts_lower g /\ ~ var_load g) /\
  match y_run with Ok r => Forall (fun b => lt 0%K (cell b VM)) (y_bus r) | Err _ => False end.
Proof.
  split; [repeat constructor|]. split; [reflexivity|]. split; [reflexivity|]. split; [|split].
  - intros [|[|k]] Hk; [vm_compute; reflexivity|vm_compute; reflexivity|lia].
  - intros g [<-|[<-|[]]]; unfold cuts_upper, cuts_lower, var_load, has_curve, is_load, lt; (split; [|split]).
    all: try (intros (H & _); apply H; reflexivity).
    all: intros ((H & _) & _); vm_compute in H; discriminate.
  - assert (match y_run with Ok r => forallb (fun b => fltb 0%K (cell b VM)) (y_bus r) | Err _ => false end = true) as C by (vm_compute; reflexivity).
    destruct y_run as [r|e]; [|discriminate]. apply Forall_forall. rewrite forallb_forall in C. exact C.
Qed.

Print Assumptions C65_stationary.
Print Assumptions C65_generator_price.
