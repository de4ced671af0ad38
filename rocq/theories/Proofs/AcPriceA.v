(** The AC optimal power flow: the gradient of the Lagrangian at the reported point. *)
From Verif Require Import Lib.ListFacts Model.AcOpf Spec.AcOptSpec Spec.PipsRun
  Proofs.LinAlgFacts Proofs.SparseFacts Proofs.FldFacts Proofs.OrdFacts Proofs.NetworkA Proofs.YbusA Proofs.OpfLinA Proofs.OpfLinB
  Proofs.PipsF Proofs.PipsG Proofs.PipsI Proofs.DcOpfA Proofs.DcOpfD Proofs.DcOpfE Proofs.DcOpfH Proofs.AcCostC
  Proofs.AcOptA Proofs.AcOptB Proofs.AcOptC Proofs.AcOptD Proofs.AcOptE Proofs.AcOptF Props.P_DcOpf Props.P_DcOpt Props.P_AcOpf.
Local Open Scope nat_scope.

Section AcPriceA.
Context {K : Type} {F : Fld K}.
Add Field KF : (@f_ok K F).
Variables (cis : K -> cpx K) (cabs : cpx K -> K) (sin_ cos_ : K -> K) (atan2 norm2 : K -> K -> K).
Variable solve : smat K -> list K -> result (option (list K)).
Variable ln : K -> K.
Variables (ign : bool) (lim : flow_lim) (B : K) (bus gen branch gencost : list (list K)) (U : user (K := K)) (o : acom (K := K)).
Notation nb := (length bus).
Notation ng := (length gen).
Hypothesis WU : forall M, u_A U = Some M -> shaped (nrows M) (ncols M) M.
Hypothesis ONE : length gencost = ng.
Hypothesis SET : ac_setup sin_ cos_ atan2 norm2 ign B bus gen branch gencost U = Ok o.
Variables (cp : gcostp (K := K)) (p : dcopt (K := K)) (res : acres (K := K)).
Hypothesis RUN : pipsopf cis cabs solve ln p lim B bus gen branch o cp = Ok res.
Hypothesis LO : ac_limits_ordered ign B bus gen branch (u_A U) (u_l U) (u_u U) (u_zl U) (u_zu U).
Hypothesis MO : Forall moderate (c_l o ++ c_u o ++ c_xmin o ++ c_xmax o).
Hypothesis OK_ : y_success res = true.

Lemma mult_pos : lt 0%K (o_cost_mult (ac_options p)).
Proof. cbn. unfold dec. apply div_pos; apply fofZ_pos; reflexivity. Qed.

Lemma stationary_raw : exists Ybus Yf Yt rate Yfl Ytl s st f df hn gn dh dg ih ilo ivl iang,
  let il := find (map limited rate) in
  let D := AcData B bus gen branch (c_gencost o) (c_ny o) cp in
  ac_spec sin_ cos_ atan2 norm2 ign B bus gen branch gencost U o ih ilo ivl iang /\
  makeYbus cis B bus branch = Ok (Ybus, Yf, Yt) /\ col RATE_A branch = Ok rate /\
  rowsel Yf il = Ok Yfl /\ rowsel Yt il = Ok Ytl /\
  ac_update cis B bus gen branch Yf Yt il s = Ok res /\ y_lmbda res = r_lmbda s /\
  ac_solved_by cis cabs solve ln lim B bus gen branch o cp p res st /\
  length (y_x res) = c_nx o /\ opf_costfcn D (y_x res) = Ok (f, df) /\
  opf_consfcn cis cabs D lim Ybus Yfl Ytl il (y_x res) = Ok (hn, gn, dh, dg) /\ 0 < length il /\
  forall lam_n mu_n, is_norm (t_lam st) lam_n -> is_norm (t_mu st) mu_n ->
    exists b, (b = lam_n \/ b = mu_n) /\ forall j, j < c_nx o ->
      let m := y_lmbda res in
      lt (fabs ((nth j df 0 + pull dg (m_eqnonlin m) j + pull dh (m_ineqnonlin m) j
                 + ((nth j (m_upper m) 0 - nth j (m_lower m) 0)
                    + lsum (fun i => at_ (c_A o) i j * (nth i (m_mu_u m) 0 - nth i (m_mu_l m) 0)) (seq 0 (nrows (c_A o)))))
                * o_cost_mult (ac_options p))%K)
         (p_gradtol p * (1 + b) + abs_pull dh (length il + length il) j * clean_tol
          + (cut_of (lower (c_xmin o) j) (upper (c_xmax o) j)
             + lsum (fun i => fabs (at_ (c_A o) i j) * cut_of (lower (c_l o) i) (upper (c_u o) i)) (seq 0 (nrows (c_A o)))))%K.
Proof.
  destruct (solved cis cabs sin_ cos_ atan2 norm2 solve ln ign lim B bus gen branch gencost U o WU ONE SET cp p res RUN)
    as (Ybus & Yf & Yt & rate & Yfl & Ytl & x0 & s & ih & ilo & ivl & iang & S & HY & H0 & HR & Hfl & Htl & HS & HU & X & FV & ES).
  destruct (c_lengths _ _ _ _ _ _ _ _ _ _ _ o ih ilo ivl iang S) as (L1 & L2 & L3 & L4 & WA & CA).
  pose proof (ac_start_length _ _ _ _ _ _ _ _ _ _ _ o ih ilo ivl iang S x0 H0) as Lx0.
  assert (shaped_opt (length x0) (some_rows (c_A o))) as SA.
  { unfold some_rows. destruct (nrows (c_A o) =? 0); cbn; auto. split; [auto|]. split; [congruence|]. unfold wf in WA. rewrite Lx0, <- CA. exact WA. }
  pose proof MO as MO'. rewrite !Forall_app in MO'. destruct MO' as (M1 & M2 & M3 & M4).
  assert (forall (b : list (ext K)) i, Forall moderate b -> moderate (lower b i) /\ moderate (upper b i)) as MB.
  { intros b i HF. unfold lower, upper. rewrite !bound_nth. rewrite Forall_forall in HF.
    split; (destruct (lt_dec i (length b)); [apply HF; apply nth_In; auto|rewrite nth_overflow by lia; cbn; auto]). }
  destruct (reported_gradient solve ln _ (ac_options p) x0 (some_rows (c_A o)) (c_l o) (c_u o) (c_xmin o) (c_xmax o)
    (nb + nb) (length (find (map limited rate)) + length (find (map limited rate))) SA
    ltac:(rewrite Lx0; exact (problem_shaped cis cabs _ _ _ _ _ lim _ _ _ _ _ _ o ih ilo ivl iang S Ybus Yf Yt Yfl Ytl cp rate HY HR Hfl Htl))
    ltac:(right; congruence) ltac:(right; congruence) ltac:(right; rewrite rows_some; congruence) ltac:(right; rewrite rows_some; congruence) s HS)
    as (sp & s0 & st & k & f & df & hn & gn & dhn & dgn & SP & S0 & VI & XS & HF & NL & T).
  { rewrite Lx0, rows_some. exact (ac_ordered _ _ _ _ _ _ _ _ _ _ _ o ih ilo ivl iang S LO). }
  { exact mult_pos. }
  { intros j _. apply modest_of; apply MB; auto. }
  { intros i _. apply modest_of; apply MB; auto. }
  { congruence. }
  assert (length (y_x res) = c_nx o) as LX by (rewrite X, XS, <- Lx0; eapply visited_len; eauto).
  rewrite Lx0 in *. rewrite <- X in *.
  unfold nonlinear_at in NL. cbn [p_gh ac_problem] in NL. apply bind_ok in NL as (r & Hr & NL).
  assert (0 < length (find (map limited rate))) as NIL by (destruct (find (map limited rate)); [discriminate|cbn; lia]).
  assert (r = (hn, gn, dhn, dgn)) as -> by (destruct (find (map limited rate)); [discriminate|injection NL as ->; auto]).
  pose proof (ac_update_ok cis B bus gen branch Ybus Yf Yt HY _ (il_ok branch Yf Yt Yfl Ytl rate HR Hfl Htl) (find_NoDup _)
    (as_B _ _ _ _ _ _ _ _ _ _ _ _ _ _ _ _ S) s res HU) as (_ & _ & _ & ML & _).
  exists Ybus, Yf, Yt, rate, Yfl, Ytl, s, st, f, df, hn, gn, dhn, dgn, ih, ilo, ivl, iang. cbv zeta.
  do 7 (split; [assumption|]). split.
  { exists Ybus, Yf, Yt, rate, Yfl, Ytl, x0, sp, s0, k. cbv zeta. auto 12. }
  do 4 (split; [assumption|]). intros lam_n mu_n N1 N2. destruct (T lam_n mu_n N1 N2) as (b & Hb & T'). exists b. split; [auto|].
  intros j Hj. specialize (T' j Hj). rewrite ML. unfold pull_rows in T'. rewrite rows_some in T'.
  rewrite (proj2 (Nat.ltb_lt j (c_nx o)) Hj) in T'.
  assert (lsum (fun i => (match some_rows (c_A o) with Some M => at_ M i j | None => 0 end) *
     (if (c_nx o + i <? c_nx o)%nat then 0 else nth (c_nx o + i - c_nx o)%nat (m_mu_u (r_lmbda s)) 0 - nth (c_nx o + i - c_nx o)%nat (m_mu_l (r_lmbda s)) 0))%K
       (seq 0 (nrows (c_A o)))
   = lsum (fun i => at_ (c_A o) i j * (nth i (m_mu_u (r_lmbda s)) 0 - nth i (m_mu_l (r_lmbda s)) 0))%K (seq 0 (nrows (c_A o)))) as E1.
  { apply lsum_ext. intros i Hi. apply in_seq in Hi. rewrite (proj2 (Nat.ltb_ge (c_nx o + i) (c_nx o))) by lia.
    replace (c_nx o + i - c_nx o) with i by lia. unfold some_rows. destruct (Nat.eqb_spec (nrows (c_A o)) 0); [lia|reflexivity]. }
  assert (lsum (fun i => fabs (match some_rows (c_A o) with Some M => at_ M i j | None => 0 end) * cut_of (lower (c_l o) i) (upper (c_u o) i))%K (seq 0 (nrows (c_A o)))
    = lsum (fun i => fabs (at_ (c_A o) i j) * cut_of (lower (c_l o) i) (upper (c_u o) i))%K (seq 0 (nrows (c_A o)))) as E2.
  { apply lsum_ext. intros i Hi. apply in_seq in Hi. unfold some_rows. destruct (Nat.eqb_spec (nrows (c_A o)) 0); [lia|reflexivity]. }
  rewrite E2 in T'. 
  match type of T' with lt ?u ?v => match goal with |- lt ?u' ?v' => replace u' with u; [exact T'|] end end.
  f_equal. f_equal. f_equal. f_equal. etransitivity; [|exact E1]. apply lsum_ext. intros i Hi.
  destruct (Nat.ltb_spec (c_nx o + i) (c_nx o)); [lia|reflexivity].
Qed.

(** ** the multipliers in the tables *)
Fixpoint pos (l : nat) (idx : list nat) : nat :=
  match idx with [] => 0 | a :: t => if a =? l then 0 else S (pos l t) end.
Lemma pos_nth idx q l : NoDup idx -> nth_error idx q = Some l -> pos l idx = q.
Proof.
  intros ND. revert q. induction ND as [|a t Ha ND IH]; intros [|q] H; cbn in H; try discriminate.
  - injection H as ->. cbn. rewrite Nat.eqb_refl. auto.
  - cbn. apply nth_error_In in H as I. destruct (Nat.eqb_spec a l) as [->|]; [contradiction|]. f_equal. auto.
Qed.
Lemma sum_positions (f : nat -> nat -> K) idx : NoDup idx ->
  lsum (fun q => f q (nth q idx 0)) (seq 0 (length idx)) = lsum (fun l => f (pos l idx) l) idx.
Proof.
  intros ND. rewrite (lsum_nth (fun l => f (pos l idx) l) idx 0). apply lsum_ext. intros q Hq. apply in_seq in Hq.
  rewrite (pos_nth idx q (nth q idx 0)); auto. apply nth_error_nth'. lia.
Qed.
Lemma sum_halves (f : nat -> K) n : lsum f (seq 0 (n + n)) = lsum (fun i => f i + f (n + i)%nat)%K (seq 0 n).
Proof.
  rewrite seq_app, lsum_app, lsum_add. f_equal. cbn. rewrite <- (Nat.add_0_r n) at 1.
  replace (seq (n + 0) n) with (map (fun i => n + i) (seq 0 n)); [rewrite lsum_map; reflexivity|].
  clear. revert n. assert (forall n s a, map (fun i => a + i) (seq s n) = seq (a + s) n) as H; [|intros n; apply H].
  induction n; intros s a; cbn; auto. f_equal. rewrite IHn. f_equal. lia.
Qed.

Section Tables.
Variables (Ybus Yf Yt Yfl Ytl : smat (cpx K)) (rate : list K) (s : solution (K := K)).
Variables ih ilo ivl iang : list nat.
Hypothesis S : ac_spec sin_ cos_ atan2 norm2 ign B bus gen branch gencost U o ih ilo ivl iang.
Notation il := (find (map limited rate)).
Hypothesis made : makeYbus cis B bus branch = Ok (Ybus, Yf, Yt).
Hypothesis Hrate : col RATE_A branch = Ok rate.
Hypothesis (Hfl : rowsel Yf il = Ok Yfl) (Htl : rowsel Yt il = Ok Ytl).
Hypothesis UP : ac_update cis B bus gen branch Yf Yt il s = Ok res.
Notation m := (y_lmbda res).

Lemma il_filter : il = filter (fun l => flow_limitedb (nth l branch [])) (seq 0 (length branch)).
Proof.
  pose proof Hrate as HR. apply col_ok in HR as (_ & ->). rewrite map_map. rewrite (find_filter _ []). reflexivity.
Qed.
Lemma sum_limited (f : nat -> K) : lsum f il = lsum (fun l => if flow_limitedb (nth l branch []) then f l else 0%K) (seq 0 (length branch)).
Proof. rewrite il_filter at 1. apply lsum_filter. Qed.

Lemma pull_bus (G : smat K) j : ncols G = nb + nb ->
  pull (Some G) (m_eqnonlin m) j
  = lsum (fun i => B * (at_ G j i * cell (nth i (y_bus res) []) LAM_P + at_ G j (nb + i)%nat * cell (nth i (y_bus res) []) LAM_Q))%K (seq 0 nb).
Proof.
  intros C. unfold pull, lin_val, row_val. rewrite C, sum_halves. apply lsum_ext. intros i Hi. apply in_seq in Hi.
  destruct (ac_update_ok cis B bus gen branch Ybus Yf Yt made _ (il_ok branch Yf Yt Yfl Ytl rate Hrate Hfl Htl) (find_NoDup _)
    (as_B _ _ _ _ _ _ _ _ _ _ _ _ _ _ _ _ S) s res UP) as (_ & _ & _ & M & _ & _ & _ & B1 & _).
  destruct (nth_error_lt bus i ltac:(lia)) as (r & Hr). destruct (B1 i r Hr) as (r' & Hr' & _ & _ & _ & E1 & E2 & _).
  rewrite (nth_error_nth _ _ _ Hr'). rewrite M, <- E1, <- E2. ring.
Qed.
Lemma pull_branch (Mx : smat K) j : ncols Mx = length il + length il ->
  pull (Some Mx) (m_ineqnonlin m) j
  = lsum (fun l => let r := nth l branch [] in let r' := nth l (y_branch res) [] in
      if flow_limitedb r then (at_ Mx j (pos l il) * flow_price B r r' MU_SF + at_ Mx j (length il + pos l il)%nat * flow_price B r r' MU_ST)%K else 0%K)
      (seq 0 (length branch)).
Proof.
  intros C. unfold pull, lin_val, row_val. rewrite C, sum_halves. cbv zeta.
  rewrite <- (sum_limited (fun l => at_ Mx j (pos l il) * flow_price B (nth l branch []) (nth l (y_branch res) []) MU_SF
     + at_ Mx j (length il + pos l il)%nat * flow_price B (nth l branch []) (nth l (y_branch res) []) MU_ST)%K).
  rewrite <- (sum_positions (fun q l => at_ Mx j q * flow_price B (nth l branch []) (nth l (y_branch res) []) MU_SF
     + at_ Mx j (length il + q)%nat * flow_price B (nth l branch []) (nth l (y_branch res) []) MU_ST)%K il (find_NoDup _)).
  apply lsum_ext. intros q Hq. apply in_seq in Hq.
  destruct (ac_update_ok cis B bus gen branch Ybus Yf Yt made _ (il_ok branch Yf Yt Yfl Ytl rate Hrate Hfl Htl) (find_NoDup _)
    (as_B _ _ _ _ _ _ _ _ _ _ _ _ _ _ _ _ S) s res UP) as (_ & _ & _ & M & _ & _ & _ & _ & _ & B3).
  destruct (nth_error_lt il q ltac:(lia)) as (l & Hl).
  destruct (proj1 (il_ok branch Yf Yt Yfl Ytl rate Hrate Hfl Htl l) (nth_error_In _ _ Hl)) as (r & Hr & (NZ & _)).
  destruct (B3 l r Hr) as (r' & Hr' & _ & _ & _ & _ & Q). destruct (Q q Hl) as (Q1 & Q2).
  rewrite (nth_error_nth _ _ _ Hl), (nth_error_nth _ _ _ Hr), (nth_error_nth _ _ _ Hr'). unfold flow_price.
  rewrite Q1, Q2, M. assert ((fofZ 2 : K) <> 0%K) by (apply NetworkE.fofZ_nz; lia). field. auto.
Qed.
Lemma abs_branch (Mx : smat K) j :
  abs_pull (Some Mx) (length il + length il) j
  = lsum (fun l => if flow_limitedb (nth l branch []) then (fabs (at_ Mx j (pos l il)) + fabs (at_ Mx j (length il + pos l il)%nat))%K else 0%K)
      (seq 0 (length branch)).
Proof.
  unfold abs_pull. rewrite sum_halves.
  rewrite <- (sum_limited (fun l => fabs (at_ Mx j (pos l il)) + fabs (at_ Mx j (length il + pos l il)%nat))%K).
  rewrite <- (sum_positions (fun q l => fabs (at_ Mx j q) + fabs (at_ Mx j (length il + q)%nat))%K il (find_NoDup _)). reflexivity.
Qed.
End Tables.

Lemma fabs_0 : fabs 0%K = 0%K :> K.
Proof. unfold fabs. destruct (fltb 0 0)%K; auto. ring. Qed.
(** one generator output: a single bus, no flow, no linear row *)
Lemma collapse (n i0 nl na : nat) (lim_ : nat -> bool) (dp dq df dt lp lq fp tp a w c : nat -> K) (d cp_ cq up lo tol cut : K) :
  i0 < n ->
  (forall i, i < n -> dp i = (0 - (if i =? i0 then cp_ else 0))%K /\ dq i = (0 - (if i =? i0 then cq else 0))%K) ->
  (forall l, l < nl -> lim_ l = true -> df l = 0%K /\ dt l = 0%K) ->
  (forall i, i < na -> a i = 0%K) ->
  lt (fabs ((d + lsum (fun i => B * (dp i * lp i + dq i * lq i)) (seq 0 n)
             + lsum (fun l => if lim_ l then df l * fp l + dt l * tp l else 0) (seq 0 nl)
             + ((up - lo) + lsum (fun i => a i * w i) (seq 0 na))) / fofZ 10000)%K)
     (tol + lsum (fun l => if lim_ l then fabs (df l) + fabs (dt l) else 0) (seq 0 nl) * clean_tol
      + (cut + lsum (fun i => fabs (a i) * c i) (seq 0 na)))%K ->
  lt (fabs ((d - B * (cp_ * lp i0 + cq * lq i0) + (up - lo)) / fofZ 10000)%K) (tol + cut)%K.
Proof.
  intros Hi HD HF HA H.
  rewrite (lsum_ext _ (fun i => if i0 =? i then (- (B * (cp_ * lp i + cq * lq i)))%K else 0%K)) in H.
  2:{ intros i I. apply in_seq in I. destruct (HD i ltac:(lia)) as (-> & ->). rewrite (Nat.eqb_sym i0). destruct (i =? i0); ring. }
  rewrite lsum_seq_single' in H by auto.
  rewrite (lsum_zero _ (seq 0 nl)) in H.
  2:{ intros l I. apply in_seq in I. destruct (lim_ l) eqn:E; auto. destruct (HF l ltac:(lia) E) as (-> & ->). ring. }
  rewrite (lsum_zero _ (seq 0 na)) in H by (intros i I; apply in_seq in I; rewrite HA by lia; ring).
  rewrite (lsum_zero _ (seq 0 nl)) in H.
  2:{ intros l I. apply in_seq in I. destruct (lim_ l) eqn:E; auto. destruct (HF l ltac:(lia) E) as (-> & ->). rewrite fabs_0. ring. }
  rewrite (lsum_zero _ (seq 0 na)) in H by (intros i I; apply in_seq in I; rewrite HA by lia; rewrite fabs_0; ring).
  replace (tol + cut)%K with (tol + 0 * clean_tol + (cut + 0))%K by ring.
  replace (d - B * (cp_ * lp i0 + cq * lq i0) + (up - lo))%K with (d + - (B * (cp_ * lp i0 + cq * lq i0)) + 0 + (up - lo + 0))%K by ring.
  exact H.
Qed.
Lemma price_p (B' mc lp lq u l up lo c t : K) : (B' * l)%K = lo -> (B' * u)%K = up ->
  lt (fabs ((B' * mc - B' * (1 * lp + 0 * lq) + (up - lo)) / c)%K) t -> lt (fabs (B' * (mc - lp + u - l) / c)%K) t.
Proof.
  intros <- <- H. replace (B' * (mc - lp + u - l))%K with (B' * mc - B' * (1 * lp + 0 * lq) + (B' * u - B' * l))%K by ring. exact H.
Qed.
Lemma price_q (B' lp lq u l up lo c t : K) : (B' * l)%K = lo -> (B' * u)%K = up ->
  lt (fabs ((B' * 0 - B' * (0 * lp + 1 * lq) + (up - lo)) / c)%K) t -> lt (fabs (B' * (u - l - lq) / c)%K) t.
Proof.
  intros <- <- H. replace (B' * (u - l - lq))%K with (B' * 0 - B' * (0 * lp + 1 * lq) + (B' * u - B' * l))%K by ring. exact H.
Qed.
End AcPriceA.
