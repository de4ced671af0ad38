(** Second derivatives with respect to the variables of a point, and the Hessians of the constraints. *)
From Coq Require Import Reals Lra.
From Verif Require Import Lib.ListFacts Model.OpfFcn Spec.AcConSpec Spec.AcDeriv Proofs.LinAlgFacts Proofs.SparseFacts
  Proofs.FldFacts Proofs.MatFacts Proofs.NetworkA Proofs.NetworkC Proofs.DerivR Proofs.AcPfA Proofs.PipsF Proofs.AcCostB Proofs.AcCostC
  Proofs.AcCostR Proofs.AcConA Proofs.AcConB Proofs.AcConR Props.P_Derivs.
Local Open Scope nat_scope.

(** ** rules *)
Lemma vp_ext (f g : list R -> R) x j d : (forall y, length y = length x -> f y = g y) -> vpartial f x j d -> vpartial g x j d.
Proof. intros E H. unfold vpartial. eapply dl_ext; [|exact H]. intros t. apply E, upd_len. Qed.
Lemma vp2_ext (f g : list R -> R) x j k h : (forall y, length y = length x -> f y = g y) -> vpartial2 f x j k h -> vpartial2 g x j k h.
Proof.
  intros E (d & r & Hr & A & H). exists d, r. split; auto. split; auto. intros t Ht. eapply vp_ext; [|apply A; auto].
  intros y L. apply E. rewrite L. apply upd_len.
Qed.
Lemma vp2_eq f x j k h h' : vpartial2 f x j k h -> h = h' -> vpartial2 f x j k h'.
Proof. intros H <-. exact H. Qed.
Lemma vp2_add f g x j k a b : vpartial2 f x j k a -> vpartial2 g x j k b -> vpartial2 (fun y => f y + g y)%R x j k (a + b)%R.
Proof.
  intros (d & r & Hr & A & H) (d' & r' & Hr' & A' & H'). exists (fun t => d t + d' t)%R, (Rmin r r').
  split; [apply Rmin_pos; auto|]. split.
  - intros t Ht. pose proof (Rmin_l r r'). pose proof (Rmin_r r r').
    apply (derivable_pt_lim_plus (fun u => f (upd (upd x k t) j u)) (fun u => g (upd (upd x k t) j u))); [apply A; lra|apply A'; lra].
  - apply (derivable_pt_lim_plus d d'); auto.
Qed.
Lemma vp2_scal f x j k a c : vpartial2 f x j k a -> vpartial2 (fun y => c * f y)%R x j k (c * a)%R.
Proof.
  intros (d & r & Hr & A & H). exists (fun t => c * d t)%R, r. split; auto. split.
  - intros t Ht. apply (derivable_pt_lim_scal (fun u => f (upd (upd x k t) j u))). apply A. auto.
  - apply (derivable_pt_lim_scal d). auto.
Qed.
Lemma vp2_affine f x j k d : (forall y, length y = length x -> vpartial f y j d) -> vpartial2 f x j k 0%R.
Proof.
  intros H. exists (fun _ => d), 1%R. split; [lra|]. split; [|apply derivable_pt_lim_const]. intros t _. apply H, upd_len.
Qed.

(** ** functions of the voltages *)
Definition co_of (nb j : nat) : coord := if j <? nb then Ang else Mag.
Definition ix_of (nb j : nat) : nat := if j <? nb then j else j - nb.
Lemma ix_lt nb j : j < nb + nb -> ix_of nb j < nb.
Proof. unfold ix_of. destruct (Nat.ltb_spec j nb); lia. Qed.
Lemma vp_coord nb (f : AcDeriv.state -> R) y j d : nb + nb <= length y -> j < nb + nb ->
  partialR (co_of nb j) (ix_of nb j) f (st_of nb y) d -> vpartial (fun z => f (st_of nb z)) y j d.
Proof.
  intros L Hj P. unfold vpartial, co_of, ix_of in *.
  destruct (Nat.ltb_spec j nb).
  - apply (dl_ext (fun t => f (coord_set Ang j (st_of nb y) t))).
    { intros t. rewrite st_upd by auto. rewrite (proj2 (Nat.ltb_lt _ _)) by auto. reflexivity. }
    unfold partialR in P. cbn [coord_get st_of ang] in P. rewrite nth_sl in P by lia. exact P.
  - apply (dl_ext (fun t => f (coord_set Mag (j - nb) (st_of nb y) t))).
    { intros t. rewrite st_upd by auto. rewrite (proj2 (Nat.ltb_ge _ _)), (proj2 (Nat.ltb_lt _ _)) by auto. reflexivity. }
    unfold partialR in P. cbn [coord_get st_of mag] in P. rewrite nth_sl in P by lia. replace (nb + (j - nb)) with j in P by lia. exact P.
Qed.
Lemma vp_flat nb (f : AcDeriv.state -> R) y j : nb + nb <= length y -> nb + nb <= j -> vpartial (fun z => f (st_of nb z)) y j 0%R.
Proof.
  intros L Hj. unfold vpartial. apply (dl_ext (fun _ => f (st_of nb y))); [|apply derivable_pt_lim_const].
  intros t. rewrite st_upd by auto. rewrite !(proj2 (Nat.ltb_ge _ _)) by lia. reflexivity.
Qed.
Definition mags_pos (nb : nat) (x : list R) : Prop := forall k, k < nb -> (0 < nth (nb + k) x 0)%R.
Lemma pos_near nb x k : nb + nb <= length x -> mags_pos nb x -> k < length x ->
  exists r, (0 < r)%R /\ forall t, (Rabs (t - nth k x 0) < r)%R -> mags_pos nb (upd x k t).
Proof.
  intros L P Hk. destruct (Nat.lt_ge_cases k nb) as [H|H].
  - exists 1%R. split; [lra|]. intros t _ m Hm. rewrite nth_upd by lia. destruct (Nat.eqb_spec (nb + m) k); [lia|]. apply P. auto.
  - destruct (Nat.lt_ge_cases k (nb + nb)) as [H'|H'].
    + exists (nth k x 0%R). split. { replace k with (nb + (k - nb)) by lia. apply P. lia. }
      intros t Ht m Hm. rewrite nth_upd by lia. destruct (Nat.eqb_spec (nb + m) k); [|apply P; auto].
      apply Rabs_def2 in Ht. lra.
    + exists 1%R. split; [lra|]. intros t _ m Hm. rewrite nth_upd by lia. destruct (Nat.eqb_spec (nb + m) k); [lia|]. apply P. auto.
Qed.

(** four blocks as one matrix *)
Definition blk (nb : nat) (aa av va vv : nat -> nat -> R) (j k : nat) : R :=
  if (j <? nb + nb) && (k <? nb + nb) then
    (if j <? nb then (if k <? nb then aa j k else av j (k - nb)) else (if k <? nb then va (j - nb) k else vv (j - nb) (k - nb)))
  else 0%R.
Lemma vp2_state nb (f : AcDeriv.state -> R) (g : list R -> R) x j k aa av va vv :
  nb + nb <= length x -> mags_pos nb x -> k < length x ->
  (forall y, length y = length x -> g y = f (st_of nb y)) ->
  (forall k m, k < nb -> m < nb ->
    partial2R nb Ang k Ang m f (st_of nb x) (aa k m) /\ partial2R nb Ang k Mag m f (st_of nb x) (av k m) /\
    partial2R nb Mag k Ang m f (st_of nb x) (va k m) /\ partial2R nb Mag k Mag m f (st_of nb x) (vv k m)) ->
  vpartial2 g x j k (blk nb aa av va vv j k).
Proof.
  intros L P Hk E H. apply (vp2_ext (fun y => f (st_of nb y))); [intros y Ly; symmetry; apply E; auto|].
  unfold blk. destruct (Nat.ltb_spec j (nb + nb)) as [Hj|Hj]; cbn [andb].
  2:{ exists (fun _ => 0%R), 1%R. split; [lra|]. split; [|apply derivable_pt_lim_const]. intros t _. apply vp_flat; auto. rewrite upd_len. auto. }
  destruct (pos_near nb x k L P Hk) as (r & Hr & A).
  assert (X : forall (G : AcDeriv.state -> R), (forall s', ok nb s' -> partialR (co_of nb j) (ix_of nb j) f s' (G s')) ->
    forall h, vpartial (fun z => G (st_of nb z)) x k h -> vpartial2 (fun y => f (st_of nb y)) x j k h).
  { intros G HG h Hh. exists (fun t => G (st_of nb (upd x k t))), r. split; auto. split; [|exact Hh].
    intros t Ht. apply vp_coord; auto; [rewrite upd_len; auto|]. apply HG. apply st_ok; [rewrite upd_len; auto|]. apply A. auto. }
  assert (Y : forall c m h, m < nb -> partial2R nb (co_of nb j) (ix_of nb j) c m f (st_of nb x) h ->
    c = co_of nb k -> m = ix_of nb k -> k < nb + nb -> vpartial2 (fun y => f (st_of nb y)) x j k h).
  { intros c m h Hm (G & HG & Hh) -> -> Hk'. apply (X G HG). apply vp_coord; auto. }
  pose proof (ix_lt nb j Hj) as IJ.
  destruct (Nat.ltb_spec k (nb + nb)) as [Hk'|Hk'].
  - pose proof (ix_lt nb k Hk') as IK. destruct (H (ix_of nb j) (ix_of nb k) IJ IK) as (H1 & H2 & H3 & H4).
    apply (Y (co_of nb k) (ix_of nb k)); auto. unfold co_of, ix_of in *.
    destruct (Nat.ltb_spec j nb), (Nat.ltb_spec k nb); auto.
  - destruct (H (ix_of nb j) 0 IJ ltac:(lia)) as (H1 & H2 & H3 & H4).
    assert (exists G, forall s', ok nb s' -> partialR (co_of nb j) (ix_of nb j) f s' (G s')) as (G & HG).
    { unfold co_of in *. destruct (j <? nb); [destruct H1 as (G & HG & _)|destruct H3 as (G & HG & _)]; exists G; auto. }
    apply (X G HG). apply vp_flat; auto.
Qed.
Lemma block4_ok {K} {RK : Rng K} (a b c d : smat K) n fa fb fc fd : ismat a n n fa -> ismat b n n fb -> ismat c n n fc -> ismat d n n fd ->
  exists M, block4 a b c d = Ok M /\ ismat M (n + n) (n + n)
    (fun i j => if i <? n then (if j <? n then fa i j else fb i (j - n)) else (if j <? n then fc (i - n) j else fd (i - n) (j - n))).
Proof.
  intros Ha Hb Hc Hd. unfold block4.
  destruct (ismat_hstack _ _ _ _ _ _ _ Ha Hb) as (t & -> & Ht). cbn [bind].
  destruct (ismat_hstack _ _ _ _ _ _ _ Hc Hd) as (u & -> & Hu). cbn [bind].
  destruct (ismat_vstack _ _ _ _ _ _ _ Ht Hu) as (v & -> & Hv). exists v. auto.
Qed.

Lemma re_second n s (f : AcDeriv.state -> CR) Haa Hav Hva Hvv : second_derivs n s f Haa Hav Hva Hvv ->
  forall k m, k < n -> m < n ->
    partial2R n Ang k Ang m (fun s' => re (f s')) s (re (at_ Haa k m)) /\ partial2R n Ang k Mag m (fun s' => re (f s')) s (re (at_ Hav k m)) /\
    partial2R n Mag k Ang m (fun s' => re (f s')) s (re (at_ Hva k m)) /\ partial2R n Mag k Mag m (fun s' => re (f s')) s (re (at_ Hvv k m)).
Proof.
  intros (_ & _ & _ & _ & H) k m Hk Hm.
  assert (X : forall c c' h, partial2 n c k c' m f s h -> partial2R n c k c' m (fun s' => re (f s')) s (re h)).
  { intros c c' h (g & A & Q). exists (fun s' => re (g s')). split; [|apply Q]. intros s' O. apply (A s' O). }
  destruct (H k m Hk Hm) as (H1 & H2 & H3 & H4). do 3 (split; [apply X; auto|]). apply X; auto.
Qed.
Lemma im_second n s (f : AcDeriv.state -> CR) Haa Hav Hva Hvv : second_derivs n s f Haa Hav Hva Hvv ->
  forall k m, k < n -> m < n ->
    partial2R n Ang k Ang m (fun s' => im (f s')) s (im (at_ Haa k m)) /\ partial2R n Ang k Mag m (fun s' => im (f s')) s (im (at_ Hav k m)) /\
    partial2R n Mag k Ang m (fun s' => im (f s')) s (im (at_ Hva k m)) /\ partial2R n Mag k Mag m (fun s' => im (f s')) s (im (at_ Hvv k m)).
Proof.
  intros (_ & _ & _ & _ & H) k m Hk Hm.
  assert (X : forall c c' h, partial2 n c k c' m f s h -> partial2R n c k c' m (fun s' => im (f s')) s (im h)).
  { intros c c' h (g & A & Q). exists (fun s' => im (g s')). split; [|apply Q]. intros s' O. apply (A s' O). }
  destruct (H k m Hk Hm) as (H1 & H2 & H3 & H4). do 3 (split; [apply X; auto|]). apply X; auto.
Qed.

Section Hess.
Variables (D : acdata (K := R)) (lim : flow_lim) (Y Yf Yt : smat (cpx R)) (il : list nat) (x : list R).
Notation B := (a_base D).
Notation bus := (a_bus D).
Notation gen := (a_gen D).
Notation nb := (length (a_bus D)).
Notation ng := (length (a_gen D)).
Notation nl := (length il).
Hypothesis S : con_shape D Y Yf Yt il.
Hypothesis LX : nb + nb + ng + ng <= length x.
Hypothesis PN : 0 < nb.
Hypothesis POS : mags_pos nb x.
Hypothesis PL : 0 < nl.

Definition lagr_p (lam : list R) (y : list R) : R :=
  lsum (fun i => nth i lam 0%R * p_balance cisR B bus gen Y i y)%R (seq 0 nb).
Definition lagr_q (lam : list R) (y : list R) : R :=
  lsum (fun i => nth i lam 0%R * q_balance cisR B bus gen Y i y)%R (seq 0 nb).
Definition lagr_h (col : nat) (M : smat (cpx R)) (mu : list R) (y : list R) : R :=
  lsum (fun l => nth l mu 0%R * overflow cisR lim B nb (brow D il l) col M l y)%R (seq 0 nl).

Lemma affine_sum (c : nat -> R) (f : nat -> list R -> R) (d : nat -> R) n y j :
  (forall i, i < n -> vpartial (f i) y j (d i)) ->
  vpartial (fun z => lsum (fun i => c i * f i z)%R (seq 0 n)) y j (lsum (fun i => c i * d i)%R (seq 0 n)).
Proof.
  intros H. unfold vpartial. apply (dl_lsum (fun i t => c i * f i (upd y j t))%R). intros i Hi. apply in_seq in Hi.
  apply (derivable_pt_lim_scal (fun t => f i (upd y j t))). apply H. lia.
Qed.

Lemma balances_ok lam : length lam = nb -> exists aa av va vv,
  d2Sbus_dV2 cabsR Y (ac_volt cisR nb x) (map ofK lam) = Ok (aa, av, va, vv) /\
  AcDeriv.shaped aa nb nb /\ AcDeriv.shaped av nb nb /\ AcDeriv.shaped va nb nb /\ AcDeriv.shaped vv nb nb /\
  forall j k, k < length x ->
    vpartial2 (lagr_p lam) x j k (blk nb (fun i m => re (at_ aa i m)) (fun i m => re (at_ av i m)) (fun i m => re (at_ va i m)) (fun i m => re (at_ vv i m)) j k) /\
    vpartial2 (lagr_q lam) x j k (blk nb (fun i m => im (at_ aa i m)) (fun i m => im (at_ av i m)) (fun i m => im (at_ va i m)) (fun i m => im (at_ vv i m)) j k).
Proof.
  intros LL. rewrite <- volt_eq by lia. set (s := st_of nb x). assert (OK : ok nb s) by (apply st_ok; auto; lia).
  destruct (C25_bus_injections nb s PN OK Y (map ofK lam) (cn_Y _ _ _ _ _ S)) as (aa & av & va & vv & E & H); [rewrite map_length; auto|].
  exists aa, av, va, vv. split; [exact E|]. pose proof H as (S1 & S2 & S3 & S4 & _). do 4 (split; [assumption|]).
  set (W := weighted (map ofK lam) nb (fun i => power Y i i)) in *.
  assert (WR : forall s', re (W s') = lsum (fun i => nth i lam 0%R * re (power Y i i s'))%R (seq 0 nb)).
  { intros s'. unfold W, weighted. rewrite re_lsum. apply lsum_ext. intros i _. rewrite nth_map_ofK. unfold ofK. cbn. ring. }
  assert (WI : forall s', im (W s') = lsum (fun i => nth i lam 0%R * im (power Y i i s'))%R (seq 0 nb)).
  { intros s'. unfold W, weighted. rewrite im_lsum. apply lsum_ext. intros i _. rewrite nth_map_ofK. unfold ofK. cbn. ring. }
  intros j k Hk. split.
  - eapply vp2_eq; [|apply Rplus_0_r].
    apply (vp2_ext (fun y => re (W (st_of nb y)) + lsum (fun i => nth i lam 0%R * (cell (nth i bus []) PD / B - ac_supply gen nb 0 y i))%R (seq 0 nb))%R).
    { intros y Ly. rewrite WR. unfold lagr_p. change Rplus with (@radd R R_rng). rewrite <- lsum_add. apply lsum_ext. intros i _. unfold p_balance, bus_power.
      rewrite (power_same D x) by auto. kr. ring. }
    apply vp2_add.
    + apply (vp2_state nb (fun s' => re (W s'))); auto; [lia|]. apply re_second. exact H.
    + eapply vp2_affine. intros y Ly. apply affine_sum. intros i Hi.
      apply (derivable_pt_lim_minus (fun _ => cell (nth i bus []) PD / B)%R (fun t => ac_supply gen nb 0 (upd y j t) i)); [apply derivable_pt_lim_const|].
      apply d_supply. lia.
  - eapply vp2_eq; [|apply Rplus_0_r].
    apply (vp2_ext (fun y => im (W (st_of nb y)) + lsum (fun i => nth i lam 0%R * (cell (nth i bus []) QD / B - ac_supply gen nb ng y i))%R (seq 0 nb))%R).
    { intros y Ly. rewrite WI. unfold lagr_q. change Rplus with (@radd R R_rng). rewrite <- lsum_add. apply lsum_ext. intros i _. unfold q_balance, bus_power.
      rewrite (power_same D x) by auto. kr. ring. }
    apply vp2_add.
    + apply (vp2_state nb (fun s' => im (W s'))); auto; [lia|]. apply im_second. exact H.
    + eapply vp2_affine. intros y Ly. apply affine_sum. intros i Hi.
      apply (derivable_pt_lim_minus (fun _ => cell (nth i bus []) QD / B)%R (fun t => ac_supply gen nb ng (upd y j t) i)); [apply derivable_pt_lim_const|].
      apply d_supply. lia.
Qed.

(** Hessians of the flow constraints at one end *)
Definition flow_hess (col : nat) (M : smat (cpx R)) (mu : list R) (h : smat R * smat R * smat R * smat R) : Prop :=
  let '(aa, av, va, vv) := h in
  AcDeriv.shaped aa nb nb /\ AcDeriv.shaped av nb nb /\ AcDeriv.shaped va nb nb /\ AcDeriv.shaped vv nb nb /\
  forall j k, k < length x -> vpartial2 (lagr_h col M mu) x j k (blk nb (at_ aa) (at_ av) (at_ va) (at_ vv) j k).
Lemma flow_hess_ok col M mu aa av va vv : 
  second_derivsR nb (st_of nb x) (weightedR mu nl (fun l => sq_of lim M (bus_no (brow D il l) col) l)) aa av va vv ->
  flow_hess col M mu (aa, av, va, vv).
Proof.
  intros (S1 & S2 & S3 & S4 & H). do 4 (split; [assumption|]). intros j k Hk.
  eapply vp2_eq; [|apply Rplus_0_r].
  apply (vp2_ext (fun y => weightedR mu nl (fun l => sq_of lim M (bus_no (brow D il l) col) l) (st_of nb y)
     + - lsum (fun l => nth l mu 0%R * ((cell (brow D il l) RATE_A / B) * (cell (brow D il l) RATE_A / B)))%R (seq 0 nl))%R).
  { intros y Ly. unfold weightedR, lagr_h. 
    match goal with |- (?a + - ?b)%R = ?c => enough (a = b + c)%R by lra end.
    change Rplus with (@radd R R_rng). rewrite <- lsum_add. apply lsum_ext. intros l _. unfold overflow.
    rewrite <- (end_sq_same D lim x) by auto. kr. ring. }
  apply vp2_add; [apply (vp2_state nb (weightedR mu nl (fun l => sq_of lim M (bus_no (brow D il l) col) l))); auto; lia|].
  apply (vp2_affine _ _ _ _ 0%R). intros y _. apply derivable_pt_lim_const.
Qed.
Lemma pick_rows col : buses_ok nb col (brows D il) -> exists C,
  sparse (repeat (ofK (1%K : R)) nl) (seq 0 nl) (map (fun r => bus_no r col) (brows D il)) nl nb = Ok C /\
  AcDeriv.shaped C nl nb /\
  (forall l m, l < nl -> m < nb -> at_ C l m = (if bus_no (brow D il l) col =? m then 1 else 0)%K).
Proof.
  intros BO.
  destruct (ismat_rows (repeat (ofK (1%K : R)) nl) (map (fun r => bus_no r col) (brows D il)) nl nb) as (C & E & H).
  - apply repeat_length.
  - rewrite map_length. apply brows_len.
  - apply Forall_map. eapply Forall_impl; [|exact BO]. cbn. tauto.
  - exists C. split; [exact E|]. split; [eapply is_shaped; exact H|]. destruct H as (_ & _ & _ & H). intros l m Hl Hm.
    rewrite H by auto. rewrite (nth_map_lt _ _ _ _ []) by (rewrite brows_len; auto). rewrite nth_brows by auto.
    rewrite nth_repeat_lt by auto. reflexivity.
Qed.
Definition flow_part (muF muT : list R) : result ((smat R * smat R * smat R * smat R) * (smat R * smat R * smat R * smat R)) :=
  let V := ac_volt cisR nb x in
  match lim with
    | LimI =>
        '(fa, fm, ta, tm, If, It) <- dIbr_dV cabsR Yf Yt V ;;
        f4 <- d2AIbr_dV2 cabsR fa fm If Yf V (map ofK muF) ;;
        t4 <- d2AIbr_dV2 cabsR ta tm It Yt V (map ofK muT) ;;
        Ok (f4, t4)
    | _ =>
        br <- gather (a_branch D) il ;;
        f <- idxcol OutOfModel F_BUS br ;;
        t <- idxcol OutOfModel T_BUS br ;;
        Cf <- sparse (repeat (ofK (1%K : R)) nl) (seq 0 nl) f nl nb ;;
        Ct <- sparse (repeat (ofK (1%K : R)) nl) (seq 0 nl) t nl nb ;;
        '(fa, fm, ta, tm, Sf, St_) <- dSbr_dV cabsR br Yf Yt V ;;
        let r := match lim with LimP => real_part | _ => fun M => M end in
        let rv := match lim with LimP => map (fun z => ofK (re z)) | _ => fun v => v end in
        f4 <- d2ASbr_dV2 cabsR (r fa) (r fm) (rv Sf) Cf Yf V (map ofK muF) ;;
        t4 <- d2ASbr_dV2 cabsR (r ta) (r tm) (rv St_) Ct Yt V (map ofK muT) ;;
        Ok (f4, t4)
    end.
Lemma flow_part_ok muF muT : length muF = nl -> length muT = nl -> exists f4 t4, flow_part muF muT = Ok (f4, t4) /\
  flow_hess F_BUS Yf muF f4 /\ flow_hess T_BUS Yt muT t4.
Proof.
  intros LF LT. unfold flow_part. cbv zeta. rewrite <- volt_eq by lia. set (s := st_of nb x).
  assert (OK : ok nb s) by (apply st_ok; auto; lia). pose proof S as S'. destruct S' as [CB CBU CG CGB CY CYF CYT CIL CW CF CT CRT].
  pose proof (brows_len D il) as BL.
  assert (WJ : forall j, j <= RATE_A -> Forall (fun r : list R => j < length r) (brows D il)).
  { intros j Hj. eapply Forall_impl; [|exact CW]. cbn. lia. }
  assert (GB : gather (a_branch D) il = Ok (brows D il)).
  { rewrite (gather_def (a_branch D) il []); [reflexivity|]. intros i Hi. rewrite Forall_forall in CIL. auto. }
  assert (EF : idxcol OutOfModel F_BUS (brows D il) = Ok (map (fun r => bus_no r F_BUS) (brows D il))).
  { apply idxcol_def; [apply WJ; unfold F_BUS, RATE_A; lia|]. eapply Forall_impl; [|exact CF]. cbn. tauto. }
  assert (ET : idxcol OutOfModel T_BUS (brows D il) = Ok (map (fun r => bus_no r T_BUS) (brows D il))).
  { apply idxcol_def; [apply WJ; unfold T_BUS, RATE_A; lia|]. eapply Forall_impl; [|exact CT]. cbn. tauto. }
  destruct (pick_rows F_BUS CF) as (Cf & ECf & SCf & HCf). destruct (pick_rows T_BUS CT) as (Ct & ECt & SCt & HCt).
  assert (W : wide T_BUS (brows D il)) by (apply WJ; unfold T_BUS, RATE_A; lia).
  assert (BUS : forall col l, buses_ok nb col (brows D il) -> l < nl -> bus_no (brow D il l) col < nb).
  { intros col l BO Hl. unfold buses_ok in BO. rewrite Forall_forall in BO. rewrite <- nth_brows by auto. apply BO. apply nth_In. lia. }
  assert (FL : exists fa fm ta tm Sf St_, dSbr_dV cabsR (brows D il) Yf Yt (volt s) = Ok (fa, fm, ta, tm, Sf, St_) /\
     first_derivs nb s nl (fun l => power Yf (bus_no (brow D il l) F_BUS) l) fa fm /\ values s nl (fun l => power Yf (bus_no (brow D il l) F_BUS) l) Sf /\
     first_derivs nb s nl (fun l => power Yt (bus_no (brow D il l) T_BUS) l) ta tm /\ values s nl (fun l => power Yt (bus_no (brow D il l) T_BUS) l) St_).
  { destruct (C24_flows nb s PN OK (brows D il) Yf Yt) as (fa & fm & ta & tm & Sf & St_ & E & D1 & V1 & D2 & V2); auto; try (rewrite BL; auto).
    rewrite BL in *. exists fa, fm, ta, tm, Sf, St_. split; [exact E|].
    split; [|split; [|split]].
    - destruct D1 as (A1 & A2 & A3). split; auto. split; auto. intros l k Hl Hk. rewrite <- nth_brows by auto. apply A3; auto.
    - destruct V1 as (A1 & A2). split; auto. intros l Hl. rewrite <- nth_brows by auto. apply A2; auto.
    - destruct D2 as (A1 & A2 & A3). split; auto. split; auto. intros l k Hl Hk. rewrite <- nth_brows by auto. apply A3; auto.
    - destruct V2 as (A1 & A2). split; auto. intros l Hl. rewrite <- nth_brows by auto. apply A2; auto. }
  destruct lim eqn:EL.
  - rewrite GB. cbn [bind]. rewrite EF. cbn [bind]. rewrite ET. cbn [bind]. rewrite ECf. cbn [bind]. rewrite ECt. cbn [bind].
    destruct FL as (fa & fm & ta & tm & Sf & St_ & E & D1 & V1 & D2 & V2). rewrite E. cbn [bind].
    destruct (C48_squared_flows nb s PN OK nl (fun l => bus_no (brow D il l) F_BUS) Cf Yf muF fa fm Sf) as (aa & av & va & vv & E1 & H1); auto.
    rewrite E1. cbn [bind].
    destruct (C48_squared_flows nb s PN OK nl (fun l => bus_no (brow D il l) T_BUS) Ct Yt muT ta tm St_) as (aa' & av' & va' & vv' & E2 & H2); auto.
    rewrite E2. cbn [bind]. eexists _, _. split; [reflexivity|]. split; apply flow_hess_ok; rewrite EL; [exact H1|exact H2].
  - rewrite GB. cbn [bind]. rewrite EF. cbn [bind]. rewrite ET. cbn [bind]. rewrite ECf. cbn [bind]. rewrite ECt. cbn [bind].
    destruct FL as (fa & fm & ta & tm & Sf & St_ & E & D1 & V1 & D2 & V2). rewrite E. cbn [bind].
    destruct (C48_squared_active nb s PN OK nl (fun l => bus_no (brow D il l) F_BUS) Cf Yf muF fa fm Sf) as (aa & av & va & vv & E1 & H1); auto.
    unfold real_part. change (fun z : CR => ofK (re z)) with rpart in *. 
    rewrite E1. cbn [bind].
    destruct (C48_squared_active nb s PN OK nl (fun l => bus_no (brow D il l) T_BUS) Ct Yt muT ta tm St_) as (aa' & av' & va' & vv' & E2 & H2); auto.
    rewrite E2. cbn [bind]. eexists _, _. split; [reflexivity|]. split; apply flow_hess_ok; rewrite EL; [exact H1|exact H2].
  - destruct (C24_currents nb s PN OK nl Yf Yt PL CYF CYT) as (fa & fm & ta & tm & Sf & St_ & E & D1 & V1 & D2 & V2).
    rewrite E. cbn [bind].
    destruct (C48_squared_currents nb s PN OK nl Yf muF fa fm Sf) as (aa & av & va & vv & E1 & H1); auto. rewrite E1. cbn [bind].
    destruct (C48_squared_currents nb s PN OK nl Yt muT ta tm St_) as (aa' & av' & va' & vv' & E2 & H2); auto. rewrite E2. cbn [bind].
    eexists _, _. split; [reflexivity|]. split; apply flow_hess_ok; rewrite EL; [exact H1|exact H2].
Qed.
End Hess.
