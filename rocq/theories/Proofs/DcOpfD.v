(** The points of the assembled problem are those of the intended one. *)
From Verif Require Import Lib.ListFacts Model.DcOpf Spec.DcSpec Proofs.LinAlgFacts Proofs.SparseFacts
  Proofs.BlockFacts Proofs.FldFacts Proofs.OrdFacts Proofs.NetworkA Proofs.NetworkB Proofs.PipsF
  Proofs.NetworkE Proofs.OpfLinA Proofs.OpfLinB Proofs.DcOpfA Proofs.DcOpfB Proofs.DcOpfC.
Local Open Scope nat_scope.

Section DcOpfD.
Context {K : Type} {F : Fld K}.
Add Field KF : (@f_ok K F).
Variables E L : K -> Prop.
Hypothesis HEL : forall d, E d <-> L d /\ L (- d)%K.

Lemma inside_eq b v : inside L (EFin b) (EFin b) v <-> E (v - b)%K.
Proof.
  unfold inside. rewrite HEL. assert (b - v = - (v - b))%K as -> by ring. tauto.
Qed.

Lemma Forall_map_iff {A C} (f : A -> C) P l : Forall P (map f l) <-> forall a, In a l -> P (f a).
Proof. rewrite Forall_map, Forall_forall. reflexivity. Qed.

(** a bound vector made of blocks *)
Lemma bound_nth (d : ext K) b i : bound d b i = nth i b d.
Proof. destruct b, i; auto. Qed.
Lemma bounds_app (Q : ext K -> ext K -> nat -> Prop) l1 l2 u1 u2 :
  length l1 = length u1 ->
  ((forall j, j < length l1 + length l2 -> Q (lower (l1 ++ l2) j) (upper (u1 ++ u2) j) j) <->
   (forall j, j < length l1 -> Q (lower l1 j) (upper u1 j) j) /\
   (forall j, j < length l2 -> Q (lower l2 j) (upper u2 j) (length l1 + j))).
Proof.
  intros L1. unfold lower, upper. setoid_rewrite bound_nth. split.
  - intros H. split; intros j Hj.
    + specialize (H j ltac:(lia)). rewrite !app_nth1 in H by lia. exact H.
    + specialize (H (length l1 + j) ltac:(lia)). rewrite !app_nth2 in H by lia.
      replace (length l1 + j - length l1) with j in H by lia. replace (length l1 + j - length u1) with j in H by lia. exact H.
  - intros (H1 & H2) j Hj. destruct (lt_dec j (length l1)) as [C|C].
    + rewrite !app_nth1 by lia. auto.
    + rewrite !app_nth2 by lia. specialize (H2 (j - length l1) ltac:(lia)). rewrite <- L1.
      replace (length l1 + (j - length l1)) with j in H2 by lia. exact H2.
Qed.
Lemma bounds_app' (Q : ext K -> ext K -> nat -> Prop) n n1 n2 l1 l2 u1 u2 :
  length l1 = n1 -> length u1 = n1 -> length l2 = n2 -> n = n1 + n2 ->
  ((forall j, j < n -> Q (lower (l1 ++ l2) j) (upper (u1 ++ u2) j) j) <->
   (forall j, j < n1 -> Q (lower l1 j) (upper u1 j) j) /\
   (forall j, j < n2 -> Q (lower l2 j) (upper u2 j) (n1 + j))).
Proof. intros E1 E2 <- ->. rewrite <- E1. apply bounds_app. congruence. Qed.
Lemma bounds_map {A} (Q : ext K -> ext K -> nat -> Prop) (f g : A -> ext K) s :
  (forall j, j < length s -> Q (lower (map f s) j) (upper (map g s) j) j) <->
  (forall j a, nth_error s j = Some a -> Q (f a) (g a) j).
Proof.
  unfold lower, upper. setoid_rewrite bound_nth. split.
  - intros H j a Ha. pose proof (nth_error_some_lt _ _ _ Ha) as Lj. specialize (H j Lj).
    rewrite (nth_map_lt f s j _ a), (nth_map_lt g s j _ a) in H by auto. rewrite (nth_error_nth _ _ _ Ha) in H. exact H.
  - intros H j Lj. destruct (nth_error_lt s j Lj) as (a & Ha). specialize (H j a Ha).
    rewrite (nth_map_lt f s j _ a), (nth_map_lt g s j _ a) by auto. rewrite (nth_error_nth _ _ _ Ha). exact H.
Qed.

Variables (ign : bool) (B : K) (bus gen branch gencost : list (list K)) (U : user (K := K)).
Notation nb := (length bus).
Notation ng := (length gen).
Notation ny := (length (multi_rows ng gencost)).
Variables (o : dcom (K := K)) (Bb : smat K) (Pbi : list K).
Hypothesis S : setup_spec ign B bus gen branch gencost U o Bb Pbi.

(** every row and variable of the assembled problem *)
Definition all_rows (Q : ext K -> ext K -> K -> Prop) (x : list K) : Prop :=
  (forall k, k < nrows (d_A o) -> Q (lower (d_l o) k) (upper (d_u o) k) (row_val (d_A o) x k)) /\
  (forall j, j < d_nx o -> Q (lower (d_xmin o) j) (upper (d_xmax o) j) (nth j x 0%K)).

Lemma nx_eq : d_nx o = nb + ng + ny + user_vars nb ng (u_A U).
Proof. unfold d_nx. rewrite (ss_nb _ _ _ _ _ _ _ _ _ _ S), (ss_ng _ _ _ _ _ _ _ _ _ _ S), (ss_ny _ _ _ _ _ _ _ _ _ _ S), (ss_nz _ _ _ _ _ _ _ _ _ _ S). reflexivity. Qed.

Lemma all_rows_ok Q x : length x = d_nx o -> all_rows Q x <->
  (forall i, i < nb -> Q (EFin (mis_b B bus Pbi i)) (EFin (mis_b B bus Pbi i))
                         (net_out (flow_at (angles nb x)) branch i - nth i Pbi 0 - injected gen nb x i)%K) /\
  (forall p r, nth_error branch p = Some r -> flow_limited r ->
     Q ENeg (EFin (cell r RATE_A / B - nth p (d_Pfinj o) 0)%K) (dc_flow r (angles nb x) - nth p (d_Pfinj o) 0)%K /\
     Q ENeg (EFin (cell r RATE_A / B + nth p (d_Pfinj o) 0)%K) (- (dc_flow r (angles nb x) - nth p (d_Pfinj o) 0))%K) /\
  (ign = false -> forall r, In r branch -> angle_limited r ->
     Q (ang_bound ENeg (cell r ANGMIN)) (ang_bound EPos (cell r ANGMAX)) (angle_diff r (angles nb x))) /\
  (forall j i a b, nth_error (multi_rows ng gencost) j = Some i ->
     In (a, b) (combine (bpts (nth i gencost [])) (tl (bpts (nth i gencost [])))) ->
     Q ENeg (EFin (seg_b B (a, b))) (seg_m B (a, b) * output nb x i + - (1) * nth (nb + ng + j) x 0)%K) /\
  (forall M i, u_A U = Some M -> i < nrows M -> Q (lower (u_l U) i) (upper (u_u U) i) (user_val nb ng ny M x i)) /\
  (forall i r, nth_error bus i = Some r -> Q (ref_bound ENeg r) (ref_bound EPos r) (nth i x 0%K)) /\
  (forall k g, nth_error gen k = Some g -> Q (EFin (cell g PMIN / B)%K) (EFin (cell g PMAX / B)%K) (output nb x k)) /\
  (forall j, j < ny -> Q ENeg EPos (nth (nb + ng + j) x 0%K)) /\
  (forall k, k < user_vars nb ng (u_A U) -> Q (lower (u_zl U) k) (upper (u_zu U) k) (nth (nb + ng + ny + k) x 0%K)).
Proof.
  intros Lx. unfold all_rows. rewrite (desc_all Q _ _ _ _ _ x (ss_desc _ _ _ _ _ _ _ _ _ _ S) Lx).
  rewrite !Forall_app.
  rewrite (ss_xmin _ _ _ _ _ _ _ _ _ _ S), (ss_xmax _ _ _ _ _ _ _ _ _ _ S).
  set (lo2 := map (fun g => EFin (cell g PMIN / B)%K) gen ++ _). set (up2 := map (fun g => EFin (cell g PMAX / B)%K) gen ++ _).
  assert ((forall j, j < d_nx o -> Q (lower (map (ref_bound ENeg) bus ++ lo2) j) (upper (map (ref_bound EPos) bus ++ up2) j) (nth j x 0%K)) <->
    (forall i r, nth_error bus i = Some r -> Q (ref_bound ENeg r) (ref_bound EPos r) (nth i x 0%K)) /\
    (forall k g, nth_error gen k = Some g -> Q (EFin (cell g PMIN / B)%K) (EFin (cell g PMAX / B)%K) (output nb x k)) /\
    (forall j, j < ny -> Q ENeg EPos (nth (nb + ng + j) x 0%K)) /\
    (forall k, k < user_vars nb ng (u_A U) -> Q (lower (u_zl U) k) (upper (u_zu U) k) (nth (nb + ng + ny + k) x 0%K))) as ->.
  { pose (Q' := fun lo up j => Q lo up (nth j x 0%K)).
    set (nz := user_vars nb ng (u_A U)) in *.
    assert (forall P P' R : Prop, (P <-> P') -> ((R /\ P) <-> (R /\ P'))) as CONJ by tauto.
    etransitivity.
    { apply (bounds_app' Q' (d_nx o) nb (ng + (ny + nz))); rewrite ?map_length; auto.
      - unfold lo2. rewrite !app_length, !map_length, repeat_length, seq_length. reflexivity.
      - rewrite nx_eq. unfold nz. lia. }
    etransitivity.
    { apply CONJ. apply (bounds_app' (fun lo up j => Q' lo up (nb + j)) (ng + (ny + nz)) ng (ny + nz)); rewrite ?map_length; auto.
      rewrite app_length, map_length, repeat_length, seq_length. reflexivity. }
    etransitivity.
    { apply CONJ. apply CONJ. apply (bounds_app' (fun lo up j => Q' lo up (nb + (ng + j))) (ny + nz) ny nz); rewrite ?repeat_length; auto.
      rewrite map_length, seq_length. reflexivity. }
    pose proof (bounds_map (fun lo up j => Q' lo up (nb + (ng + (ny + j)))) (lower (u_zl U)) (upper (u_zu U)) (seq 0 nz)) as BZ.
    rewrite seq_length in BZ.
    rewrite (bounds_map Q' (ref_bound ENeg) (ref_bound EPos) bus).
    rewrite (bounds_map (fun lo up j => Q' lo up (nb + j)) (fun g => EFin (cell g PMIN / B)%K) (fun g => EFin (cell g PMAX / B)%K) gen).
    cbv beta in BZ. etransitivity; [apply CONJ; apply CONJ; apply CONJ; exact BZ|].
    unfold Q'.
    assert ((forall j, j < ny -> Q (lower (repeat ENeg ny) j) (upper (repeat EPos ny) j) (nth (nb + (ng + j)) x 0%K)) <->
            (forall j, j < ny -> Q ENeg EPos (nth (nb + ng + j) x 0%K))) as ->.
    { unfold lower, upper. split; intros H j Hj; specialize (H j Hj); rewrite !bound_nth in *; rewrite !nth_repeat in *;
        rewrite <- ?Nat.add_assoc in *; exact H. }
    assert ((forall j a, nth_error (seq 0 nz) j = Some a ->
               Q (lower (u_zl U) a) (upper (u_zu U) a) (nth (nb + (ng + (ny + j))) x 0%K)) <->
            (forall k, k < nz -> Q (lower (u_zl U) k) (upper (u_zu U) k) (nth (nb + ng + ny + k) x 0%K))) as ->.
    { split.
      - intros H k Hk. specialize (H k k). rewrite <- !Nat.add_assoc. apply H. rewrite seq_nth_error by auto. reflexivity.
      - intros H j a Ha. pose proof (nth_error_some_lt _ _ _ Ha) as Lj. rewrite seq_length in Lj.
        rewrite seq_nth_error in Ha by auto. injection Ha as <-. cbn [Nat.add]. rewrite !Nat.add_assoc. apply H. auto. }
    unfold output. tauto. }
  assert (Forall (fun r => Q (rlo r) (rup r) (snd r x)) (mis_rows B bus gen branch Pbi) <->
    (forall i, i < nb -> Q (EFin (mis_b B bus Pbi i)) (EFin (mis_b B bus Pbi i))
                         (net_out (flow_at (angles nb x)) branch i - nth i Pbi 0 - injected gen nb x i)%K)) as ->.
  { unfold mis_rows. rewrite Forall_map_iff. unfold rlo, rup. cbn [fst snd]. setoid_rewrite in_seq.
    split; intros H i Hi; apply H; lia. }
  assert (Forall (fun r => Q (rlo r) (rup r) (snd r x)) (pf_rows B bus branch (d_Pfinj o) (d_il o)) /\
          Forall (fun r => Q (rlo r) (rup r) (snd r x)) (pt_rows B bus branch (d_Pfinj o) (d_il o)) <->
    (forall p r, nth_error branch p = Some r -> flow_limited r ->
     Q ENeg (EFin (cell r RATE_A / B - nth p (d_Pfinj o) 0)%K) (dc_flow r (angles nb x) - nth p (d_Pfinj o) 0)%K /\
     Q ENeg (EFin (cell r RATE_A / B + nth p (d_Pfinj o) 0)%K) (- (dc_flow r (angles nb x) - nth p (d_Pfinj o) 0))%K)) as FL.
  { unfold pf_rows, pt_rows. rewrite !Forall_map_iff. unfold rlo, rup. cbn [fst snd].
    pose proof (ss_il _ _ _ _ _ _ _ _ _ _ S) as IL. split.
    - intros (H1 & H2) p r Hp Hr. assert (In p (d_il o)) as Ip by (apply IL; eauto).
      specialize (H1 p Ip). specialize (H2 p Ip). rewrite (nth_error_nth _ _ _ Hp) in H1, H2. auto.
    - intros H. split; intros p Ip; apply IL in Ip as (r & Hp & Hr); destruct (H p r Hp Hr) as (H1 & H2);
        rewrite (nth_error_nth _ _ _ Hp); auto. }
  assert (Forall (fun r => Q (rlo r) (rup r) (snd r x)) (ang_rows bus branch (d_iang o)) <->
    (ign = false -> forall r, In r branch -> angle_limited r ->
     Q (ang_bound ENeg (cell r ANGMIN)) (ang_bound EPos (cell r ANGMAX)) (angle_diff r (angles nb x)))) as ->.
  { unfold ang_rows. rewrite Forall_map_iff. unfold rlo, rup. cbn [fst snd].
    pose proof (ss_iang _ _ _ _ _ _ _ _ _ _ S) as IA. split.
    - intros H IG r Hr HA. apply In_nth_error in Hr as (p & Hp). specialize (H p ltac:(apply IA; eauto)).
      rewrite (nth_error_nth _ _ _ Hp) in H. exact H.
    - intros H p Hp. apply IA in Hp as (IG & r & Hp & HA). rewrite (nth_error_nth _ _ _ Hp).
      apply H; auto. eapply nth_error_In; eauto. }
  assert (Forall (fun r => Q (rlo r) (rup r) (snd r x)) (y_rows B bus gen (d_gencost o)) <->
   (forall j i a b, nth_error (multi_rows ng gencost) j = Some i ->
     In (a, b) (combine (bpts (nth i gencost [])) (tl (bpts (nth i gencost [])))) ->
     Q ENeg (EFin (seg_b B (a, b))) (seg_m B (a, b) * output nb x i + - (1) * nth (nb + ng + j) x 0)%K)) as ->.
  { unfold y_rows. rewrite Forall_flat_map, Forall_forall.
    pose proof (ss_pwl _ _ _ _ _ _ _ _ _ _ S) as PW. pose proof (ss_same _ _ _ _ _ _ _ _ _ _ S) as SM. split.
    - intros H j i a b Hj Hab. specialize (H (j, i)). cbn [fst snd] in H. rewrite in_ypairs, PW in H. specialize (H Hj).
      rewrite Forall_map_iff in H. specialize (H (a, b)). unfold rlo, rup in H. cbn [fst snd] in H. apply H.
      unfold segs. rewrite SM by (eapply nth_error_In; eauto). exact Hab.
    - intros H (j, i) Hj. cbn [fst snd]. rewrite in_ypairs, PW in Hj. rewrite Forall_map_iff. intros (a, b) Hab.
      unfold rlo, rup. cbn [fst snd]. apply H; auto. unfold segs in Hab. rewrite SM in Hab by (eapply nth_error_In; eauto). exact Hab. }
  assert (Forall (fun r => Q (rlo r) (rup r) (snd r x)) (user_rows nb ng ny U) <->
    (forall M i, u_A U = Some M -> i < nrows M -> Q (lower (u_l U) i) (upper (u_u U) i) (user_val nb ng ny M x i))) as ->.
  { unfold user_rows. destruct (u_A U) as [M|].
    - rewrite Forall_map_iff. unfold rlo, rup. cbn [fst snd]. setoid_rewrite in_seq. split.
      + intros H M' i E' Hi. injection E' as <-. apply H. lia.
      + intros H i Hi. apply H; auto. lia.
    - split; [discriminate|constructor]. }
  tauto.
Qed.

Theorem dc_point_ok x : length x = d_nx o ->
  (all_rows (inside L) x <-> dc_point E L ign B bus gen branch gencost (u_A U) (u_l U) (u_u U) (u_zl U) (u_zu U) x).
Proof.
  intros Lx. rewrite all_rows_ok by auto. pose proof (ss_B _ _ _ _ _ _ _ _ _ _ S) as NB.
  assert ((forall i, i < nb -> inside L (EFin (mis_b B bus Pbi i)) (EFin (mis_b B bus Pbi i))
             (net_out (flow_at (angles nb x)) branch i - nth i Pbi 0 - injected gen nb x i)%K) <->
    (forall i r, nth_error bus i = Some r ->
      E (net_out (flow_at (angles nb x)) branch i + (cell r PD + cell r Idx.GS) / B - injected gen nb x i)%K)) as ->.
  { assert (forall i r, nth_error bus i = Some r ->
      (net_out (flow_at (angles nb x)) branch i + (cell r PD + cell r Idx.GS) / B - injected gen nb x i
       = net_out (flow_at (angles nb x)) branch i - nth i Pbi 0 - injected gen nb x i - mis_b B bus Pbi i)%K) as EQ.
    { intros i r Hr. unfold mis_b. rewrite (nth_error_nth _ _ _ Hr). field. auto. }
    split.
    - intros H i r Hr. rewrite (EQ i r Hr). apply inside_eq. apply H. eapply nth_error_some_lt; eauto.
    - intros H i Hi. destruct (nth_error_lt bus i Hi) as (r & Hr). apply inside_eq. rewrite <- (EQ i r Hr). eauto. }
  assert ((forall p r, nth_error branch p = Some r -> flow_limited r ->
     inside L ENeg (EFin (cell r RATE_A / B - nth p (d_Pfinj o) 0)%K) (dc_flow r (angles nb x) - nth p (d_Pfinj o) 0)%K /\
     inside L ENeg (EFin (cell r RATE_A / B + nth p (d_Pfinj o) 0)%K) (- (dc_flow r (angles nb x) - nth p (d_Pfinj o) 0))%K) <->
    (forall r, In r branch -> flow_limited r ->
      L (dc_flow r (angles nb x) - cell r RATE_A / B)%K /\ L (- dc_flow r (angles nb x) - cell r RATE_A / B)%K)) as ->.
  { assert (forall p r,
       (dc_flow r (angles nb x) - nth p (d_Pfinj o) 0 - (cell r RATE_A / B - nth p (d_Pfinj o) 0)
         = dc_flow r (angles nb x) - cell r RATE_A / B)%K /\
       (- (dc_flow r (angles nb x) - nth p (d_Pfinj o) 0) - (cell r RATE_A / B + nth p (d_Pfinj o) 0)
         = - dc_flow r (angles nb x) - cell r RATE_A / B)%K) as EQ by (intros p r; split; field; auto).
    unfold inside. split.
    - intros H r Hr HL. apply In_nth_error in Hr as (p & Hp). destruct (H p r Hp HL) as ((_ & H1) & (_ & H2)).
      destruct (EQ p r) as (E1 & E2). rewrite E1 in H1. rewrite E2 in H2. auto.
    - intros H p r Hp HL. destruct (H r (nth_error_In _ _ Hp) HL). destruct (EQ p r) as (-> & ->). auto. }
  assert ((forall r, In r branch -> angle_limited r ->
     inside L (ang_bound ENeg (cell r ANGMIN)) (ang_bound EPos (cell r ANGMAX)) (angle_diff r (angles nb x))) <->
    (forall r, In r branch -> angle_limited r ->
    (cell r ANGMIN <> 0%K -> L (degrees (cell r ANGMIN) - angle_diff r (angles nb x))%K) /\
    (cell r ANGMAX <> 0%K -> L (angle_diff r (angles nb x) - degrees (cell r ANGMAX))%K))) as AN.
  { assert (forall r, inside L (ang_bound ENeg (cell r ANGMIN)) (ang_bound EPos (cell r ANGMAX)) (angle_diff r (angles nb x)) <->
      (cell r ANGMIN <> 0%K -> L (degrees (cell r ANGMIN) - angle_diff r (angles nb x))%K) /\
      (cell r ANGMAX <> 0%K -> L (angle_diff r (angles nb x) - degrees (cell r ANGMAX))%K)) as EQ.
    { intros r. unfold inside, ang_bound, degrees.
      destruct (feqb (cell r ANGMIN) 0%K) eqn:E1; [apply feqb_ok in E1|apply feqb_false in E1];
      (destruct (feqb (cell r ANGMAX) 0%K) eqn:E2; [apply feqb_ok in E2|apply feqb_false in E2]); tauto. }
    split; intros H r Hr HA; apply EQ; auto. }
  assert ((forall j i a b, nth_error (multi_rows ng gencost) j = Some i ->
     In (a, b) (combine (bpts (nth i gencost [])) (tl (bpts (nth i gencost [])))) ->
     inside L ENeg (EFin (seg_b B (a, b))) (seg_m B (a, b) * output nb x i + - (1) * nth (nb + ng + j) x 0)%K) <->
    (forall j i a b, nth_error (multi_rows ng gencost) j = Some i ->
     In (a, b) (combine (bpts (nth i gencost [])) (tl (bpts (nth i gencost [])))) ->
    L (chord a b (B * output nb x i) - nth (nb + ng + j) x 0)%K)) as ->.
  { assert (forall i j a b, (seg_m B (a, b) * output nb x i + - (1) * nth (nb + ng + j) x 0 - seg_b B (a, b)
       = chord a b (B * output nb x i) - nth (nb + ng + j) x 0)%K) as EQ
      by (intros; unfold seg_m, seg_b, chord; cbn [fst snd]; ring).
    unfold inside. split; intros H j i a b Hj Hab; specialize (H j i a b Hj Hab); rewrite EQ in *; tauto. }
  assert ((forall i r, nth_error bus i = Some r -> inside L (ref_bound ENeg r) (ref_bound EPos r) (nth i x 0%K)) <->
    (forall i r, nth_error bus i = Some r -> cell r BUS_TYPE = fofZ 3 -> E (nth i x 0 - degrees (cell r VA))%K)) as ->.
  { assert (forall r v, inside L (ref_bound ENeg r) (ref_bound EPos r) v <-> (cell r BUS_TYPE = fofZ 3 -> E (v - degrees (cell r VA))%K)) as EQ.
    { intros r v. unfold ref_bound. destruct (feqb (cell r BUS_TYPE) (fofZ 3)) eqn:E1; [apply feqb_ok in E1|apply feqb_false in E1].
      - rewrite inside_eq. tauto.
      - unfold inside. tauto. }
    split; intros H i r Hr; apply EQ; auto. }
  assert ((forall j, j < ny -> inside L ENeg EPos (nth (nb + ng + j) x 0%K)) <-> True) as -> by (unfold inside; tauto).
  split.
  - intros (H1 & H2 & H3 & H4 & H5 & H6 & H7 & _ & H9). constructor; auto.
    intros IG. apply AN. auto.
  - intros [H1 H2 H3 H4 H5 H6 H7 H8]. split; [exact H1|]. split; [exact H2|]. split; [intros IG; apply AN; auto|].
    split; [exact H6|]. split; [exact H7|]. split; [exact H4|]. split; [exact H3|]. split; [exact I|]. exact H8.
Qed.
End DcOpfD.
