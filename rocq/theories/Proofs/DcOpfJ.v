(** Columns of the DC OPF constraints: the conditions on prices. *)
From Verif Require Import Lib.ListFacts Model.DcOpf Spec.DcSpec Spec.PipsRun Proofs.LinAlgFacts Proofs.SparseFacts
  Proofs.BlockFacts Proofs.FldFacts Proofs.OrdFacts Proofs.NetworkA Proofs.NetworkB Proofs.PipsF
  Proofs.NetworkE Proofs.OpfLinA Proofs.OpfLinB Proofs.DcOpfA Proofs.DcOpfB Proofs.DcOpfC Proofs.DcOpfD Proofs.DcOpfF
  Proofs.PipsD Proofs.PipsG Proofs.PipsH Proofs.PipsI Proofs.DcOpfG Proofs.DcOpfE Proofs.DcOpfH Proofs.DcOpfI.
From Coq Require Sorting.Sorted.
From Verif Require Import Proofs.PipsB.
Local Open Scope nat_scope.

Section DcOpfJ.
Context {K : Type} {F : Fld K}.
Add Field KF : (@f_ok K F).

(** ** sums over described rows *)
Fixpoint gsum (G : nat -> row (K := K) -> K) (k : nat) (Rs : list row) : K :=
  match Rs with [] => 0%K | R :: t => (G k R + gsum G (S k) t)%K end.
Lemma gsum_app G k a b : gsum G k (a ++ b) = (gsum G k a + gsum G (k + length a) b)%K.
Proof.
  revert k. induction a as [|R a IH]; intros k; simpl; [rewrite Nat.add_0_r; ring|].
  rewrite IH. replace (S k + length a) with (k + S (length a)) by lia. ring.
Qed.
Lemma gsum_nth G k Rs d : gsum G k Rs = lsum (fun i => G (k + i) (nth i Rs d)) (seq 0 (length Rs)).
Proof.
  revert k. induction Rs as [|R Rs IH]; intros k; simpl; auto. rewrite Nat.add_0_r, IH, <- seq_shift, lsum_map. f_equal.
  apply lsum_ext. intros i _. f_equal. lia.
Qed.
Lemma gsum_map {A} G k (f : A -> row) l d : gsum G k (map f l) = lsum (fun i => G (k + i) (f (nth i l d))) (seq 0 (length l)).
Proof.
  rewrite (gsum_nth _ _ _ (f d)), map_length. apply lsum_ext. intros i _. rewrite map_nth. reflexivity.
Qed.
Lemma gsum_zero G k Rs : (forall i R, In R Rs -> G i R = 0%K) -> gsum G k Rs = 0%K.
Proof.
  revert k. induction Rs as [|R Rs IH]; intros k H; simpl; auto. rewrite H, IH by (intros; try apply H; simpl; auto). ring.
Qed.

Definition coef (nx j : nat) (R : row (K := K)) : K := (snd R (PipsD.unit nx j) - snd R (repeat 0%K nx))%K.
Lemma unit_length nx j : length (PipsD.unit (K := K) nx j) = nx.
Proof. unfold PipsD.unit. rewrite map_length, seq_length. auto. Qed.
Lemma nth_unit nx j i : i < nx -> nth i (PipsD.unit (K := K) nx j) 0%K = (if i =? j then 1%K else 0%K).
Proof. intros H. unfold PipsD.unit. rewrite (nth_map_lt _ _ _ _ 0) by (rewrite seq_length; auto). rewrite seq_nth by auto. reflexivity. Qed.
Lemma nth_unit_ne nx j i : i <> j -> nth i (PipsD.unit (K := K) nx j) 0%K = 0%K.
Proof.
  intros H. destruct (lt_dec i nx).
  - rewrite nth_unit by auto. apply Nat.eqb_neq in H. rewrite H. auto.
  - apply nth_overflow. rewrite unit_length. lia.
Qed.
Lemma desc_gsum nx M l u Rs (G : nat -> K -> ext K -> ext K -> K) j : desc nx M l u Rs -> j < nx ->
  lsum (fun i => G i (at_ M i j) (lower l i) (upper u i)) (seq 0 (nrows M))
  = gsum (fun i R => G i (coef nx j R) (rlo R) (rup R)) 0 Rs.
Proof.
  intros D Hj. pose proof D as (W & N & C & _). rewrite (gsum_nth _ _ _ (ENeg, EPos, fun _ => 0%K)), N. apply lsum_ext. intros i Hi.
  apply in_seq in Hi. destruct (nth_error_lt Rs i) as (R & HR); [lia|]. rewrite (nth_error_nth _ _ _ HR). cbn [Nat.add].
  destruct (desc_nth _ _ _ _ _ _ _ D HR) as (_ & -> & -> & V). f_equal. unfold coef.
  rewrite <- !V by (rewrite ?unit_length, ?repeat_length; auto). rewrite row_val_zero.
  rewrite row_val_mulrow by auto. rewrite <- C. rewrite mulrow_unit by (auto; lia). ring.
Qed.

(** ** the columns of the problem *)
Variables (ign : bool) (B : K) (bus gen branch gencost : list (list K)) (U : user (K := K)).
Notation nb := (length bus).
Notation ng := (length gen).
Notation ny := (length (multi_rows ng gencost)).
Variables (o : dcom (K := K)) (Bb : smat K) (Pbi : list K).
Hypothesis S : setup_spec ign B bus gen branch gencost U o Bb Pbi.
Hypothesis NU : u_A U = None.
Notation nx := (d_nx o).
Notation mis := (mis_rows B bus gen branch Pbi).

Lemma nx_ge : nb + ng + ny <= nx.
Proof. rewrite (nx_eq _ _ _ _ _ _ _ _ _ _ S). lia. Qed.
Lemma angles_unit_out j : nb <= j -> angles nb (PipsD.unit (K := K) nx j) = angles nb (repeat 0%K nx).
Proof.
  intros Hj. pose proof nx_ge. unfold angles. apply nth_ext with (d := 0%K) (d' := 0%K); [rewrite !firstn_length, unit_length, repeat_length; auto|].
  intros i Hi. rewrite firstn_length in Hi. rewrite !PipsG.nth_firstn_lt by lia. rewrite nth_unit_ne, nth_repeat by lia. reflexivity.
Qed.

(** generator column *)
Section Gen.
Variables (k : nat) (g : list K).
Hypothesis Hg : nth_error gen k = Some g.
Hypothesis SG : segmented (nth k gencost []) = false.
Notation j := (nb + k).
Let bg := bus_no g GEN_BUS.

Lemma k_lt : k < ng. Proof. eapply nth_error_some_lt; eauto. Qed.
Lemma bg_lt : bg < nb.
Proof.
  pose proof (ss_gbus _ _ _ _ _ _ _ _ _ _ S) as H. unfold buses_ok in H. rewrite Forall_forall in H.
  apply (H g). eapply nth_error_In; eauto.
Qed.
Lemma injected_unit i : injected gen nb (PipsD.unit nx j) i = (if bg =? i then 1%K else 0%K).
Proof.
  pose proof nx_ge. pose proof k_lt. unfold injected. rewrite (lsum_combine _ _ _ 0 []) by apply seq_length. rewrite seq_length.
  rewrite (lsum_ext _ (fun q => if k =? q then (if bg =? i then 1%K else 0%K) else 0%K)).
  - apply lsum_seq_single'. auto.
  - intros q Hq. apply in_seq in Hq. cbn [fst snd]. rewrite seq_nth by lia. cbn [Nat.add]. unfold output.
    destruct (Nat.eqb_spec k q) as [<-|NE].
    + rewrite (nth_error_nth _ _ _ Hg). fold bg. rewrite nth_unit, Nat.eqb_refl by lia. reflexivity.
    + rewrite nth_unit_ne by lia. destruct (_ =? _); reflexivity.
Qed.
Lemma injected_zero i : injected gen nb (repeat 0%K nx) i = 0%K.
Proof. unfold injected. apply lsum_zero. intros q _. unfold output. rewrite nth_repeat. destruct (_ =? _); reflexivity. Qed.

Lemma gen_mis i : coef nx j (EFin (mis_b B bus Pbi i), EFin (mis_b B bus Pbi i),
    fun x => (net_out (flow_at (angles nb x)) branch i - nth i Pbi 0 - injected gen nb x i)%K) = (if bg =? i then - (1) else 0)%K.
Proof.
  unfold coef. cbn [snd]. rewrite angles_unit_out, injected_unit, injected_zero by lia. destruct (bg =? i); ring.
Qed.
Lemma gen_tail R : In R (pf_rows B bus branch (d_Pfinj o) (d_il o) ++ pt_rows B bus branch (d_Pfinj o) (d_il o)
    ++ ang_rows bus branch (d_iang o) ++ y_rows B bus gen (d_gencost o) ++ user_rows nb ng ny U) -> coef nx j R = 0%K.
Proof.
  unfold user_rows. rewrite NU. rewrite app_nil_r, !in_app_iff. unfold coef. intros [H|[H|[H|H]]].
  - unfold pf_rows in H. apply in_map_iff in H as (p & <- & _). cbn [snd]. rewrite angles_unit_out by lia. ring.
  - unfold pt_rows in H. apply in_map_iff in H as (p & <- & _). cbn [snd]. rewrite angles_unit_out by lia. ring.
  - unfold ang_rows in H. apply in_map_iff in H as (p & <- & _). cbn [snd]. rewrite angles_unit_out by lia. ring.
  - unfold y_rows in H. apply in_flat_map in H as ((q & i) & Hq & H). apply in_map_iff in H as (t & <- & _). cbn [snd fst].
    unfold output. pose proof k_lt.
    assert (i <> k) as NE.
    { intros ->. unfold ypairs in Hq. apply in_combine_r in Hq. rewrite (ss_pwl _ _ _ _ _ _ _ _ _ _ S) in Hq.
      unfold multi_rows in Hq. apply filter_In in Hq as (_ & Hq). congruence. }
    rewrite !nth_repeat, !nth_unit_ne by lia. ring.
Qed.
Lemma gen_col_sum (w : nat -> K) : lsum (fun i => at_ (d_A o) i j * w i)%K (seq 0 (nrows (d_A o))) = (- w bg)%K.
Proof.
  pose proof nx_ge. pose proof k_lt. pose proof bg_lt.
  rewrite (desc_gsum _ _ _ _ _ (fun i c _ _ => (c * w i)%K) j (ss_desc _ _ _ _ _ _ _ _ _ _ S)) by lia.
  rewrite gsum_app, (gsum_zero _ (0 + _)).
  2: { intros i R HR. rewrite gen_tail by auto. ring. }
  unfold mis_rows. rewrite (gsum_map _ _ _ _ 0), seq_length.
  rewrite (lsum_ext _ (fun i => if bg =? i then (- w i)%K else 0%K)).
  - rewrite lsum_seq_single' by auto. ring.
  - intros i Hi. apply in_seq in Hi. rewrite seq_nth by lia. cbn [Nat.add]. rewrite gen_mis. destruct (bg =? i); ring.
Qed.
Lemma gen_col_cut : lsum (fun i => fabs (at_ (d_A o) i j) * cut_of (lower (d_l o) i) (upper (d_u o) i))%K (seq 0 (nrows (d_A o))) = 0%K.
Proof.
  pose proof nx_ge. pose proof k_lt.
  rewrite (desc_gsum _ _ _ _ _ (fun i c a b => (fabs c * cut_of a b)%K) j (ss_desc _ _ _ _ _ _ _ _ _ _ S)) by lia.
  assert (fabs (0 : K)%K = 0%K) as F0 by (unfold fabs; destruct (fltb 0%K 0%K); ring).
  rewrite gsum_app, (gsum_zero _ (0 + _)).
  2: { intros i R HR. rewrite gen_tail by auto. rewrite F0. ring. }
  rewrite gsum_zero; [ring|]. intros i R HR. unfold mis_rows in HR. apply in_map_iff in HR as (q & <- & _).
  unfold rlo, rup. cbn [fst snd]. rewrite (proj1 (cut_of_tight _ _)); [ring|]. cbn.
  replace (mis_b B bus Pbi q - mis_b B bus Pbi q)%K with (0 : K)%K by ring. rewrite F0.
  apply lt_le. unfold eps_. apply div_pos; [apply lt_0_1|apply fofZ_pos; lia].
Qed.
End Gen.

(** angle column *)
Section Angle.
Variable n : nat.
Hypothesis Hn : n < nb.
Hypothesis NA : d_iang o = [].

Lemma angles_unit : angles nb (PipsD.unit (K := K) nx n) = map (fun i => if i =? n then 1%K else 0%K) (seq 0 nb).
Proof.
  pose proof nx_ge. unfold angles. apply nth_ext with (d := 0%K) (d' := 0%K);
    [rewrite firstn_length, unit_length, map_length, seq_length; lia|].
  intros i Hi. rewrite firstn_length in Hi. rewrite PipsG.nth_firstn_lt by lia. rewrite nth_unit by lia.
  rewrite (nth_map_lt _ _ _ _ 0) by (rewrite seq_length; lia). rewrite seq_nth by lia. reflexivity.
Qed.
Lemma angles_zero : angles nb (repeat (0 : K)%K nx) = repeat 0%K nb.
Proof.
  pose proof nx_ge. unfold angles. replace nx with (nb + (nx - nb)) by lia. rewrite repeat_app, firstn_app, repeat_length, Nat.sub_diag, firstn_O, app_nil_r.
  rewrite firstn_all2; auto. rewrite repeat_length. lia.
Qed.
Lemma injected_angle i : injected gen nb (PipsD.unit nx n) i = 0%K.
Proof.
  unfold injected. apply lsum_zero. intros q _. unfold output. rewrite nth_unit_ne by lia. destruct (_ =? _); reflexivity.
Qed.
Lemma ang_mis i : coef nx n (EFin (mis_b B bus Pbi i), EFin (mis_b B bus Pbi i),
    fun x => (net_out (flow_at (angles nb x)) branch i - nth i Pbi 0 - injected gen nb x i)%K)
  = lsum (fun r => flow_by nb r n * ((if bus_no r F_BUS =? i then 1 else 0) - (if bus_no r T_BUS =? i then 1 else 0)))%K branch.
Proof.
  unfold coef. cbn [snd]. rewrite injected_angle, injected_zero, angles_unit, angles_zero. unfold net_out, flow_at.
  match goal with |- (?a - ?c - 0 - (?b - ?c - 0))%K = _ => replace (a - c - 0 - (b - c - 0))%K with (a - b)%K by ring end.
  rewrite <- lsum_sub. apply lsum_ext. intros r _. unfold flow_by. destruct (_ =? _), (_ =? _); ring.
Qed.
Lemma ang_tail R : In R (ang_rows bus branch (d_iang o) ++ y_rows B bus gen (d_gencost o) ++ user_rows nb ng ny U) -> coef nx n R = 0%K.
Proof.
  unfold user_rows. rewrite NU, NA. rewrite app_nil_r. cbn [ang_rows map app]. unfold coef. intros H.
  unfold y_rows in H. apply in_flat_map in H as ((q & i) & Hq & H). apply in_map_iff in H as (t & <- & _). cbn [snd fst].
  unfold output. rewrite !nth_repeat, !nth_unit_ne by lia. ring.
Qed.
Notation limb p := (nth (nth p (d_il o) 0) branch []).
Lemma ang_col (G : nat -> K -> ext K -> ext K -> K) : (forall i a b, G i 0%K a b = 0%K) ->
  lsum (fun i => G i (at_ (d_A o) i n) (lower (d_l o) i) (upper (d_u o) i)) (seq 0 (nrows (d_A o)))
  = (lsum (fun i => G i (lsum (fun r => flow_by nb r n * ((if bus_no r F_BUS =? i then 1 else 0) - (if bus_no r T_BUS =? i then 1 else 0)))%K branch)
        (EFin (mis_b B bus Pbi i)) (EFin (mis_b B bus Pbi i))) (seq 0 nb)
     + (lsum (fun p => G (nb + p)%nat (flow_by nb (limb p) n) ENeg (EFin (cell (limb p) RATE_A / B - nth (nth p (d_il o) 0%nat) (d_Pfinj o) 0))) (seq 0 (length (d_il o)))
        + lsum (fun p => G (nb + length (d_il o) + p)%nat (- flow_by nb (limb p) n) ENeg
             (EFin (cell (limb p) RATE_A / B + nth (nth p (d_il o) 0%nat) (d_Pfinj o) 0))) (seq 0 (length (d_il o)))))%K.
Proof.
  intros G0. pose proof nx_ge.
  rewrite (desc_gsum _ _ _ _ _ G n (ss_desc _ _ _ _ _ _ _ _ _ _ S)) by lia.
  rewrite !gsum_app. rewrite <- (gsum_app _ _ (y_rows _ _ _ _)).
  match goal with |- (?a + (?b + (?c + (?d + ?e))))%K = _ =>
    replace (d + e)%K with (0 : K)%K; [|symmetry; rewrite <- gsum_app; apply gsum_zero; intros i R HR; rewrite ang_tail by auto; apply G0] end.
  unfold mis_rows, pf_rows, pt_rows. rewrite !(gsum_map _ _ _ _ 0), !map_length, !seq_length. unfold rlo, rup. cbn [fst snd].
  f_equal; [|f_equal].
  - apply lsum_ext. intros i Hi. apply in_seq in Hi. rewrite seq_nth by lia. cbn [Nat.add]. rewrite ang_mis. reflexivity.
  - apply lsum_ext. intros p _. cbn [Nat.add]. f_equal. unfold coef. cbn [snd]. rewrite angles_unit, angles_zero. unfold flow_by. ring.
  - match goal with |- (?a + 0)%K = _ => replace (a + 0)%K with a by ring end.
    apply lsum_ext. intros p _. cbn [Nat.add]. f_equal. unfold coef. cbn [snd]. rewrite angles_unit, angles_zero. unfold flow_by. ring.
Qed.
Lemma ang_col_sum (w : nat -> K) : lsum (fun i => at_ (d_A o) i n * w i)%K (seq 0 (nrows (d_A o)))
  = (lsum (fun r => flow_by nb r n * (w (bus_no r F_BUS) - w (bus_no r T_BUS))) branch
     + lsum (fun p => flow_by nb (limb p) n * (w (nb + p)%nat - w (nb + length (d_il o) + p)%nat)) (seq 0 (length (d_il o))))%K.
Proof.
  etransitivity; [apply (ang_col (fun i c _ _ => (c * w i)%K)); intros; ring|]. cbv beta. f_equal.
  - rewrite (lsum_ext _ (fun i => lsum (fun r => flow_by nb r n * ((if bus_no r F_BUS =? i then 1 else 0) - (if bus_no r T_BUS =? i then 1 else 0)) * w i)%K branch))
      by (intros i _; rewrite lsum_scal_r; reflexivity).
    rewrite lsum_swap. apply lsum_ext. intros r Hr.
    pose proof (ss_bdc _ _ _ _ _ _ _ _ _ _ S) as HB. pose proof (bs_from _ _ _ _ _ _ HB) as B1. pose proof (bs_to _ _ _ _ _ _ HB) as B2.
    unfold buses_ok in B1, B2. rewrite Forall_forall in B1, B2. destruct (B1 r Hr) as (_ & B1'). destruct (B2 r Hr) as (_ & B2').
    rewrite (lsum_ext _ (fun i => (if bus_no r F_BUS =? i then flow_by nb r n * w i else 0) - (if bus_no r T_BUS =? i then flow_by nb r n * w i else 0))%K).
    + rewrite lsum_sub, !lsum_seq_single' by auto. ring.
    + intros i _. destruct (_ =? _), (_ =? _); ring.
  - rewrite <- lsum_add. apply lsum_ext. intros p _. ring.
Qed.
Lemma ang_col_cut : lsum (fun i => fabs (at_ (d_A o) i n) * cut_of (lower (d_l o) i) (upper (d_u o) i))%K (seq 0 (nrows (d_A o)))
  = lsum (fun p => (fabs (flow_by nb (limb p) n) * clean_tol + fabs (flow_by nb (limb p) n) * clean_tol))%K (seq 0 (length (d_il o))).
Proof.
  assert (fabs (0 : K)%K = 0%K) as F0 by (unfold fabs; destruct (fltb 0%K 0%K); ring).
  etransitivity; [apply (ang_col (fun i c a b => (fabs c * cut_of a b)%K)); intros; rewrite F0; ring|]. cbv beta.
  rewrite lsum_zero.
  - rewrite <- lsum_add. match goal with |- (0 + ?a)%K = _ => replace (0 + a)%K with a by ring end.
    apply lsum_ext. intros p _. unfold cut_of. rewrite fabs_opp. reflexivity.
  - intros i _. rewrite (proj1 (cut_of_tight _ _)); [ring|]. cbn.
    replace (mis_b B bus Pbi i - mis_b B bus Pbi i)%K with (0 : K)%K by ring. rewrite F0.
    apply lt_le. unfold eps_. apply div_pos; [apply lt_0_1|apply fofZ_pos; lia].
Qed.
End Angle.

(** ** the gradient of the cost *)
Lemma two_K : (fofZ 2 : K) = (1 + 1)%K.
Proof. change 2%Z with (1 + 1)%Z. rewrite fofZ_add, fofZ_1. reflexivity. Qed.
Lemma dbl_inj (a b : K) : (a + a)%K = (b + b)%K -> a = b.
Proof.
  intros H. assert ((fofZ 2 : K) <> 0%K) as N2 by (apply fofZ_nz; lia).
  rewrite two_K in N2. replace a with ((a + a) / (1 + 1))%K by (field; auto). rewrite H. field. auto.
Qed.
Definition shifted (x : list K) (j : nat) (t : K) : list K := map2 radd x (map (rmul t) (PipsD.unit nx j)).
Lemma shifted_length x j t : length x = nx -> length (shifted x j t) = nx.
Proof. intros L. unfold shifted. rewrite map2_length, map_length, unit_length. lia. Qed.
Lemma nth_shifted x j t i : length x = nx -> i < nx -> nth i (shifted x j t) 0%K = (nth i x 0 + (if i =? j then t else 0))%K.
Proof.
  intros L Hi. unfold shifted. rewrite (nth_map2_d _ _ _ _ 0%K 0%K) by (rewrite ?map_length, ?unit_length; lia).
  rewrite (nth_map_lt _ _ _ _ 0%K) by (rewrite unit_length; auto). rewrite nth_unit by auto. destruct (_ =? _); cbn; ring.
Qed.
Variable cp : costp (K := K).
Hypothesis WN : shaped (nrows (k_N cp)) nx (k_N cp).
Hypothesis WH : shaped (nrows (k_N cp)) (nrows (k_N cp)) (k_H cp).
Hypothesis SH : sym_mat (k_H cp).
Lemma grad_diff_u HH CC C0 x j : dc_objective B o cp = Ok (HH, CC, C0) -> length x = nx -> j < nx ->
  let df := (row_val HH x j + nth j CC 0)%K in
  let uc := user_cost (k_N cp) (k_H cp) (k_Cw cp) (k_rh cp) (k_mm cp) in
  (df + df)%K = (gen_cost_by low_order_cost B nb ng gencost (shifted x j 1) + uc (shifted x j 1)
                 - (gen_cost_by low_order_cost B nb ng gencost (shifted x j (- (1))) + uc (shifted x j (- (1)))))%K.
Proof.
  intros HO Lx Hj df uc.
  destruct (objective_ok _ _ _ _ _ _ _ _ _ _ S cp HH CC C0 WN WH SH HO) as (_ & _ & _ & W & N & C & LCC & SY & V).
  pose proof (V _ (shifted_length x j 1%K Lx)) as V1. pose proof (V _ (shifted_length x j (- (1))%K Lx)) as V2.
  fold uc in V1, V2.
  assert (forall t, qform nx HH CC (shifted x j t) = (qform nx HH CC x + t * df + t * t * qform nx HH (repeat 0%K nx) (PipsD.unit nx j))%K) as Q.
  { intros t. unfold shifted. rewrite (qform_step HH CC nx) by (rewrite ?map_length, ?unit_length; auto). f_equal; [f_equal|].
    - rewrite (lsum_ext _ (fun i => if i =? j then ((row_val HH x i + nth i CC 0) * t)%K else 0%K)).
      + rewrite lsum_seq_single. cbn [Nat.leb Nat.add andb]. rewrite (proj2 (Nat.ltb_lt _ _) Hj). unfold df. ring.
      + intros i Hi. apply in_seq in Hi. rewrite (nth_map_lt _ _ _ _ 0%K) by (rewrite unit_length; lia). rewrite nth_unit by lia.
        destruct (_ =? _); ring.
    - assert (forall i, i < nx -> nth i (map (rmul t) (PipsD.unit nx j)) 0%K = (t * nth i (PipsD.unit nx j) 0)%K) as NU'.
      { intros i Hi. rewrite (nth_map_lt _ _ _ _ 0%K) by (rewrite unit_length; lia). reflexivity. }
      unfold qform.
      rewrite (lsum_ext (fun i => nth i (map (rmul t) (PipsD.unit nx j)) 0 * lsum (fun c => at_ HH i c * nth c (map (rmul t) (PipsD.unit nx j)) 0) (seq 0 nx))%K
        (fun i => t * t * (nth i (PipsD.unit nx j) 0 * lsum (fun c => at_ HH i c * nth c (PipsD.unit nx j) 0) (seq 0 nx)))%K).
      2: { intros i Hi. apply in_seq in Hi. rewrite NU' by lia.
           rewrite (lsum_ext _ (fun c => t * (at_ HH i c * nth c (PipsD.unit nx j) 0))%K) by (intros c Hc; apply in_seq in Hc; rewrite NU' by lia; ring).
           rewrite lsum_scal. ring. }
      rewrite lsum_scal. rewrite !(lsum_zero (fun i => nth i (repeat 0%K nx) 0%K * _)%K) by (intros; rewrite nth_repeat; ring).
      ring. }
  rewrite !Q in V1, V2.
  match type of V1 with _ = (?a + ?b + ?c)%K => match type of V2 with _ = (?a' + ?b' + _)%K =>
    replace (a + b - (a' + b'))%K with ((a + b + c) - (a' + b' + c))%K by ring end end.
  rewrite <- V1, <- V2. ring.
Qed.
Lemma marginal_diff r (p t : K) : cost_is 1 r = true \/ lin_or_quad r ->
  (low_order_cost r (p + t) - low_order_cost r (p - t) = t * marginal r p + t * marginal r p)%K.
Proof.
  intros H. unfold low_order_cost, marginal, row_cost. destruct (cost_is 1 r) eqn:E1; cbn [orb].
  - unfold chord. ring.
  - destruct H as [H|(H & N)]; [discriminate|]. rewrite H. cbn [andb].
    replace (feqb _ _ || feqb _ _) with true by (symmetry; apply orb_true_iff; rewrite !feqb_ok; exact N).
    assert (length (coeffs r) <= 3) as L.
    { unfold coeffs. etransitivity; [apply firstn_le_length|]. unfold npoints. destruct N as [-> | ->]; rewrite ftrunc_ofZ; cbn; lia. }
    destruct (coeffs r) as [|a [|b [|c [|d l]]]]; cbn in L |- *; try ring. lia.
Qed.
Lemma gen_diff x k : length x = nx -> k < ng ->
  segmented (nth k gencost []) = false -> cost_is 1 (nth k gencost []) = true \/ lin_or_quad (nth k gencost []) ->
  (gen_cost_by low_order_cost B nb ng gencost (shifted x (nb + k) 1) - gen_cost_by low_order_cost B nb ng gencost (shifted x (nb + k) (- (1)))
   = B * marginal (nth k gencost []) (B * output nb x k) + B * marginal (nth k gencost []) (B * output nb x k))%K.
Proof.
  intros Lx Hk SG CV. pose proof nx_ge.
  unfold gen_cost_by.
  rewrite (lsum_ext (fun j => nth (nb + ng + j) (shifted x (nb + k) 1%K) 0%K) (fun j => nth (nb + ng + j) x 0%K)).
  2: { intros j Hj. apply in_seq in Hj. rewrite nth_shifted by lia. destruct (Nat.eqb_spec (nb + ng + j) (nb + k)); [lia|ring]. }
  rewrite (lsum_ext (fun j => nth (nb + ng + j) (shifted x (nb + k) (- (1))%K) 0%K) (fun j => nth (nb + ng + j) x 0%K)).
  2: { intros j Hj. apply in_seq in Hj. rewrite nth_shifted by lia. destruct (Nat.eqb_spec (nb + ng + j) (nb + k)); [lia|ring]. }
  match goal with |- (?a + ?b - (?a + ?c))%K = _ => replace (a + b - (a + c))%K with (b - c)%K by ring end.
  rewrite <- lsum_sub. set (M := marginal _ _).
  rewrite (lsum_ext _ (fun i => if k =? i then (B * M + B * M)%K else 0%K)).
  - rewrite lsum_seq_single' by auto. reflexivity.
  - intros i Hi. apply in_seq in Hi. cbv zeta. destruct (Nat.eqb_spec k i) as [<-|NE].
    + rewrite SG. unfold output. rewrite !nth_shifted by lia. rewrite Nat.eqb_refl. fold (output nb x k).
      unfold M. rewrite <- (marginal_diff _ (B * output nb x k)%K B CV). unfold output. f_equal; f_equal; ring.
    + clear M; destruct (segmented (nth i gencost [])); [ring|]. unfold output. rewrite !nth_shifted by lia.
      destruct (Nat.eqb_spec (nb + i) (nb + k)); [lia|]. 
      replace (B * (nth (nb + i) x 0 + 0))%K with (B * nth (nb + i) x 0)%K by ring. ring.
Qed.
Hypothesis NC : nrows (k_N cp) = 0.
Lemma grad_diff HH CC C0 x j : dc_objective B o cp = Ok (HH, CC, C0) -> length x = nx -> j < nx ->
  let df := (row_val HH x j + nth j CC 0)%K in
  (df + df)%K = (gen_cost_by low_order_cost B nb ng gencost (shifted x j 1)
                 - gen_cost_by low_order_cost B nb ng gencost (shifted x j (- (1))))%K.
Proof.
  intros HO Lx Hj df. unfold df. rewrite (grad_diff_u HH CC C0 x j HO Lx Hj). unfold user_cost, user_w. rewrite NC. cbn [seq map]. unfold qform.
  cbn [seq lsum]. ring.
Qed.
Lemma gen_gradient HH CC C0 x k : dc_objective B o cp = Ok (HH, CC, C0) -> length x = nx -> k < ng ->
  segmented (nth k gencost []) = false -> cost_is 1 (nth k gencost []) = true \/ lin_or_quad (nth k gencost []) ->
  (row_val HH x (nb + k) + nth (nb + k) CC 0 = B * marginal (nth k gencost []) (B * output nb x k))%K.
Proof.
  intros HO Lx Hk SG CV. pose proof nx_ge. apply dbl_inj. rewrite (grad_diff HH CC C0 x (nb + k) HO Lx) by lia.
  apply gen_diff; auto.
Qed.
Lemma ang_gradient HH CC C0 x n : dc_objective B o cp = Ok (HH, CC, C0) -> length x = nx -> n < nb ->
  (row_val HH x n + nth n CC 0 = 0)%K.
Proof.
  intros HO Lx Hn. pose proof nx_ge. apply dbl_inj. rewrite (grad_diff HH CC C0 x n HO Lx) by lia.
  assert (forall t, gen_cost_by low_order_cost B nb ng gencost (shifted x n t) = gen_cost_by low_order_cost B nb ng gencost x) as E.
  { intros t. unfold gen_cost_by. f_equal; apply lsum_ext; intros i Hi; apply in_seq in Hi; unfold output; rewrite !nth_shifted by lia;
      match goal with |- context [?a =? n] => destruct (Nat.eqb_spec a n); [lia|] end.
    - ring.
    - cbv zeta. replace (nth (nb + i) x 0 + 0)%K with (nth (nb + i) x 0)%K by ring. reflexivity. }
  rewrite !E. ring.
Qed.

(** ** the start *)
Lemma fold_max_in (l : list K) a : fold_left fmax l a = a \/ In (fold_left fmax l a) l.
Proof.
  revert a. induction l as [|b l IH]; intros a; simpl; auto. destruct (IH (fmax a b)) as [E|E]; auto.
  rewrite E. unfold fmax. destruct (fltb a b); auto.
Qed.
Lemma maxh_in (l : list K) : l <> [] -> In (maxh l) l.
Proof. destruct l as [|a l]; intros H; [congruence|]. simpl. destruct (fold_max_in l a) as [->|E]; auto. Qed.
End DcOpfJ.

Section Start.
Context {K : Type} {F : Fld K}.
Add Field KF : (@f_ok K F).
Variables (ign : bool) (B : K) (bus gen branch gencost : list (list K)) (U : user (K := K)).
Notation nb := (length bus).
Notation ng := (length gen).
Notation ny := (length (multi_rows ng gencost)).
Variables (o : dcom (K := K)) (Bb : smat K) (Pbi : list K).
Hypothesis S : setup_spec ign B bus gen branch gencost U o Bb Pbi.
Notation nx := (d_nx o).

Lemma get_cell (r : list K) j v : get r j = Ok v -> v = cell r j.
Proof. intros H. apply get_ok in H. unfold cell. rewrite (nth_error_nth _ _ _ H). reflexivity. Qed.
Lemma start_ok x0 : dc_start o bus = Ok x0 ->
  (exists i r, nth_error bus i = Some r /\ cell r BUS_TYPE = fofZ 3 /\
     (forall i' r', i' < i -> nth_error bus i' = Some r' -> cell r' BUS_TYPE <> fofZ 3) /\
     forall n, n < nb -> nth n x0 0%K = degrees (cell r VA)) /\
  (forall k g, nth_error gen k = Some g -> output nb x0 k = ((cell g PMIN / B + cell g PMAX / B) / fofZ 2)%K) /\
  (forall j, j < ny -> exists i c, In i (multi_rows ng gencost) /\ c = cell (nth i gencost []) (NCOST + 2 * npoints (nth i gencost [])) /\
     (forall i', In i' (multi_rows ng gencost) -> le (cell (nth i' gencost []) (NCOST + 2 * npoints (nth i' gencost []))) c) /\
     nth (nb + ng + j) x0 0%K = (c + fabs c / fofZ 10)%K) /\
  (forall k a b, k < user_vars nb ng (u_A U) -> lower (u_zl U) k = EFin a -> upper (u_zu U) k = EFin b ->
     nth (nb + ng + ny + k) x0 0%K = ((a + b) / fofZ 2)%K).
Proof.
  intros H. pose proof (start_length _ _ _ _ _ _ _ _ _ _ S x0 H) as Lx. unfold dc_start in H.
  destruct (d_lengths _ _ _ _ _ _ _ _ _ _ S) as (L1 & L2 & _).
  pose proof (nx_eq _ _ _ _ _ _ _ _ _ _ S) as NX.
  apply bind_ok in H as (ms & Hm & H). apply bind_ok in H as (x & Hx & H). apply bind_ok in H as (ty & Hty & H).
  apply bind_ok in H as (rb & Hrb & H). apply bind_ok in H as (va & Hva & H). apply bind_ok in H as (a & Ha & H).
  rewrite (ss_nb _ _ _ _ _ _ _ _ _ _ S), (ss_ng _ _ _ _ _ _ _ _ _ _ S), (ss_ny _ _ _ _ _ _ _ _ _ _ S) in H.
  apply ewise_ok in Hm as (_ & ->). pose proof (mapM_length _ _ _ Hx) as Lx'. rewrite map2_length in Lx'.
  assert (length x = nx) as Lxx by lia. clear Lx'.
  set (x1 := repeat (a * (fpi / fofZ 180))%K nb ++ skipn nb x) in H.
  assert (length x1 = nx) as Lx1. { unfold x1. rewrite app_length, repeat_length, skipn_length. lia. }
  assert (forall n, n < nb -> nth n x1 0%K = degrees a) as A1.
  { intros n Hn. unfold x1. rewrite app_nth1 by (rewrite repeat_length; auto). rewrite nth_repeat_lt by auto.
    unfold degrees. assert ((fofZ 180 : K) <> 0%K) by (apply fofZ_nz; lia). field. auto. }
  assert (forall n a b, nb <= n -> n < nx -> lower (d_xmin o) n = EFin a -> upper (d_xmax o) n = EFin b ->
            nth n x1 0%K = ((a + b) / fofZ 2)%K) as A2.
  { intros n a0 b0 Hn Hn' E1 E2. unfold x1. rewrite app_nth2 by (rewrite repeat_length; lia). rewrite repeat_length.
    rewrite PipsG.nth_skipn_d. replace (nb + (n - nb)) with n by lia.
    unfold lower, upper in E1, E2. rewrite bound_nth in E1, E2.
    destruct (mapM_nth _ _ _ n (EFin a0, EFin b0) Hx) as (y & Hy & Hy').
    - unfold map2. rewrite nth_error_map. rewrite (nth_error_nth' _ (ENeg, EPos)) by (rewrite combine_length; lia).
      rewrite combine_nth by lia. rewrite E1, E2. reflexivity.
    - cbn in Hy. injection Hy as <-. apply (nth_error_nth _ _ 0%K) in Hy'. exact Hy'. }
  assert (forall n, n < nb + ng \/ nb + ng + ny <= n -> nth n x0 0%K = nth n x1 0%K) as KEEP.
  { intros n Hn. destruct (Nat.eqb_spec ny 0) as [E0|E0]; [injection H as <-; reflexivity|].
    apply bind_ok in H as (m & _ & H). apply bind_ok in H as (rows & _ & H). apply bind_ok in H as (c & _ & H).
    injection H as <-. destruct Hn as [Hn|Hn].
    - rewrite app_nth1 by (rewrite firstn_length; lia). apply PipsG.nth_firstn_lt. auto.
    - rewrite app_nth2 by (rewrite firstn_length; lia). rewrite firstn_length.
      rewrite app_nth2 by (rewrite repeat_length; lia). rewrite repeat_length. rewrite PipsG.nth_skipn_d. f_equal. lia. }
  split; [|split; [|split]].
  - apply of_option_ok in Ha. 
    destruct rb as [|r rb]; [cbn in Hva; injection Hva as <-; discriminate|].
    set (fd := find _) in Hrb. destruct fd as [|i fd'] eqn:Efd; [cbn in Hrb; discriminate|].
    pose proof (gather_nth _ _ _ 0 i Hrb eq_refl) as G0. cbn in G0. symmetry in G0.
    exists i, r. split; auto.
    assert (forall i' r', nth_error bus i' = Some r' -> nth_error ty i' = Some (cell r' BUS_TYPE)) as TY.
    { intros i' r' Hr'. unfold col in Hty. destruct (mapM_nth _ _ _ _ _ Hty Hr') as (y & Hy & ->). f_equal.
      apply get_cell in Hy. auto. }
    split; [|split].
    + assert (In i (find (map (fun t => feqb t REF_BUS) ty))) as II by (fold fd; rewrite Efd; simpl; auto).
      apply in_find in II. rewrite nth_error_map, (TY _ _ G0) in II. cbn in II. injection II as II. apply feqb_ok in II. exact II.
    + intros i' r' Hi' Hr' E. pose proof (find_sorted (map (fun t => feqb t REF_BUS) ty)) as SS. fold fd in SS. rewrite Efd in SS.
      apply Sorting.Sorted.StronglySorted_inv in SS as (_ & SS).
      assert (In i' (i :: fd')) as II.
      { rewrite <- Efd. unfold fd. apply in_find. rewrite nth_error_map, (TY _ _ Hr'). cbn. f_equal. apply feqb_ok. exact E. }
      destruct II as [->|II]; [lia|]. rewrite Forall_forall in SS. specialize (SS _ II). lia.
    + intros n Hn. rewrite KEEP by lia. rewrite A1 by auto. f_equal.
      unfold col in Hva. destruct (mapM_nth _ _ _ 0 r Hva eq_refl) as (y & Hy & Hy'). apply get_cell in Hy. congruence.
  - intros k g Hg. pose proof (nth_error_some_lt _ _ _ Hg) as Hk. unfold output. rewrite KEEP by lia. apply A2; try lia.
    + unfold lower. rewrite bound_nth, (ss_xmin _ _ _ _ _ _ _ _ _ _ S).
      rewrite app_nth2, map_length by (rewrite map_length; lia). replace (nb + k - nb) with k by lia.
      rewrite app_nth1 by (rewrite map_length; lia). rewrite (nth_map_lt _ _ _ _ []) by lia. rewrite (nth_error_nth _ _ _ Hg). auto.
    + unfold upper. rewrite bound_nth, (ss_xmax _ _ _ _ _ _ _ _ _ _ S).
      rewrite app_nth2, map_length by (rewrite map_length; lia). replace (nb + k - nb) with k by lia.
      rewrite app_nth1 by (rewrite map_length; lia). rewrite (nth_map_lt _ _ _ _ []) by lia. rewrite (nth_error_nth _ _ _ Hg). auto.
  - intros j Hj. destruct (Nat.eqb_spec ny 0) as [E0|E0]; [lia|].
    apply bind_ok in H as (m & Hmo & H). apply bind_ok in H as (rows & Hrows & H). apply bind_ok in H as (c & Hc & H).
    injection H as <-.
    assert (forall i, In i (find (map is_pwl m)) <-> In i (multi_rows ng gencost)) as FD.
    { intros i. rewrite <- (ss_pwl _ _ _ _ _ _ _ _ _ _ S). rewrite in_find, nth_error_map. unfold pwl_rows. rewrite filter_In, in_seq.
      pose proof (mapM_length _ _ _ Hmo) as LM. split.
      - intros HI. destruct (nth_error m i) as [q|] eqn:Eq; [|discriminate]. cbn in HI. injection HI as HI.
        pose proof (nth_error_some_lt _ _ _ Eq). split; [lia|].
        destruct (nth_error_lt (d_gencost o) i) as (r & Hr); [lia|]. destruct (mapM_nth _ _ _ _ _ Hmo Hr) as (y & Hy & Hy').
        apply get_cell in Hy. rewrite (nth_error_nth _ _ _ Hr).
        assert (y = q) as <- by congruence. subst y. exact HI.
      - intros (Hi & HI). destruct (nth_error_lt (d_gencost o) i) as (r & Hr); [lia|]. destruct (mapM_nth _ _ _ _ _ Hmo Hr) as (y & Hy & Hy').
        rewrite Hy'. cbn. f_equal. apply get_cell in Hy. rewrite (nth_error_nth _ _ _ Hr) in HI. subst y. exact HI. }
    assert (forall k i, nth_error (find (map is_pwl m)) k = Some i ->
        nth_error c k = Some (cell (nth i gencost []) (NCOST + 2 * npoints (nth i gencost [])))) as CK.
    { intros k i Hk. pose proof (gather_nth _ _ _ _ _ Hrows Hk) as G.
      pose proof (proj1 (FD i) (nth_error_In _ _ Hk)) as IM.
      pose proof (nth_error_some_lt _ _ _ Hk) as Lk. rewrite <- (gather_length _ _ _ Hrows) in Lk.
      destruct (nth_error_lt rows k Lk) as (r & Hr). rewrite Hr in G. symmetry in G.
      destruct (mapM_nth _ _ _ _ _ Hc Hr) as (y & Hy & ->). f_equal.
      rewrite <- (ss_same _ _ _ _ _ _ _ _ _ _ S i IM). rewrite (nth_error_nth _ _ _ G).
      unfold last_cost in Hy. apply bind_ok in Hy as (q & Hq & Hy). apply bind_ok in Hy as (n & Hn & Hy).
      destruct (feqb q (fofZ (Z.of_nat n))) eqn:Fq; [|discriminate]. apply feqb_ok in Fq. apply of_option_ok in Hy.
      apply get_cell in Hq. subst q. assert (npoints r = n) as ->. { unfold npoints. rewrite Fq, ftrunc_ofZ. lia. }
      unfold cell. apply (nth_error_nth _ _ 0%K) in Hy. congruence. }
    assert (c <> []) as CN.
    { intros ->. destruct (multi_rows ng gencost) as [|i l] eqn:E; [cbn in E0; lia|].
      assert (In i (find (map is_pwl m))) as II by (apply FD; simpl; auto). apply In_nth_error in II as (k & Hk).
      pose proof (CK k i Hk) as X. destruct k; discriminate. }
    assert (length c = length (find (map is_pwl m))) as LC. { rewrite (mapM_length _ _ _ Hc). apply (gather_length _ _ _ Hrows). }
    pose proof (maxh_in c CN) as MI. apply In_nth_error in MI as (k & Hk).
    destruct (nth_error_lt (find (map is_pwl m)) k) as (i & Hi). { rewrite <- LC. eapply nth_error_some_lt; eauto. }
    pose proof (CK k i Hi) as CI.
    exists i, (maxh c). split; [apply FD; eapply nth_error_In; eauto|]. split; [congruence|]. split.
    + intros i' Hi'. apply FD in Hi'. apply In_nth_error in Hi' as (k' & Hk'). apply maxh_ge. eapply nth_error_In. apply CK. exact Hk'.
    + rewrite app_nth2 by (rewrite firstn_length; lia). rewrite firstn_length, Lx1.
      rewrite app_nth1 by (rewrite repeat_length; lia). rewrite nth_repeat_lt by lia.
      unfold dec. change (10 ^ Z.of_nat 1)%Z with 10%Z. assert ((fofZ 10 : K) <> 0%K) by (apply fofZ_nz; lia). rewrite fofZ_1. field. auto.
  - intros k a0 b0 Hk E1 E2. rewrite KEEP by lia. apply A2; try lia.
    + unfold lower at 1. rewrite bound_nth, (ss_xmin _ _ _ _ _ _ _ _ _ _ S).
      rewrite app_nth2, map_length by (rewrite map_length; lia). rewrite app_nth2, map_length by (rewrite map_length; lia).
      rewrite app_nth2, repeat_length by (rewrite repeat_length; lia). rewrite (nth_map_lt _ _ _ _ 0) by (rewrite seq_length; lia).
      rewrite seq_nth by lia. rewrite <- E1. f_equal. lia.
    + unfold upper at 1. rewrite bound_nth, (ss_xmax _ _ _ _ _ _ _ _ _ _ S).
      rewrite app_nth2, map_length by (rewrite map_length; lia). rewrite app_nth2, map_length by (rewrite map_length; lia).
      rewrite app_nth2, repeat_length by (rewrite repeat_length; lia). rewrite (nth_map_lt _ _ _ _ 0) by (rewrite seq_length; lia).
      rewrite seq_nth by lia. rewrite <- E2. f_equal. lia.
Qed.
End Start.
