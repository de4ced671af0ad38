(** Columns of the DC problem with reserves: prices of reserves and of energy. *)
From Verif Require Import Lib.ListFacts Model.Reserves Spec.ReserveSpec Spec.PipsRun Proofs.SparseFacts Proofs.FldFacts
  Proofs.OrdFacts Proofs.OpfLinA Proofs.OpfLinB Proofs.DcOpfA Proofs.DcOpfB Proofs.DcOpfC Proofs.DcOpfD Proofs.PipsI Proofs.DcOpfJ
  Proofs.ReserveA Proofs.ReserveB Proofs.ReserveD Proofs.ReserveE.
Local Open Scope nat_scope.

Section F.
Context {K : Type} {F : Fld K}.
Add Field KF : (@f_ok K F).
Variables (ign : bool) (B : K) (bus gen branch gencost : list (list K)) (U : user (K := K)) (req Cw : list K) (ri : rint (K := K))
  (A : smat K).
Notation nb := (length bus).
Notation ng := (length gen).
Notation ny := (length (multi_rows ng gencost)).
Notation igr := (ri_igr ri).
Notation ngr := (length (ri_igr ri)).
Notation nrz := (length (ri_zones ri)).
Hypothesis FO : formed B nb gen req ri U Cw A.
Hypothesis GB : buses_ok nb GEN_BUS gen.
Hypothesis NZ : ngr <> 0.
Hypothesis ND : NoDup igr.
Hypothesis RQ : length req = nrz.
Variables (o : dcom (K := K)) (Bb : smat K) (Pbi : list K).
Hypothesis S : setup_spec ign B bus gen branch gencost U o Bb Pbi.
Notation nx := (d_nx o).
Notation N := (nrows (d_A o)).
Notation cpr := (res_costs Cw nx).

Lemma nx_r : nx = nb + ng + ny + ngr.
Proof. rewrite (nx_eq _ _ _ _ _ _ _ _ _ _ S), (uv B bus gen U req Cw ri A FO GB NZ ND RQ). auto. Qed.

Lemma user_rows_r : user_rows nb ng ny U
  = map (fun i => (lower (u_l U) i, upper (u_u U) i, fun x => user_val nb ng ny A x i)) (seq 0 (ngr + nrz)).
Proof. unfold user_rows. rewrite (fo_A _ _ _ _ _ _ _ _ FO), (nrows_A B bus gen U req Cw ri A FO). reflexivity. Qed.

Lemma rows_ge : ngr + nrz <= N.
Proof.
  destruct (ss_desc _ _ _ _ _ _ _ _ _ _ S) as (_ & E & _). rewrite E, !app_length, user_rows_r, map_length, seq_length. lia.
Qed.

(** columns other than those of angles and of segmented costs *)
Definition plain_col (j : nat) : Prop := nb <= j /\ ~ (nb + ng <= j < nb + ng + ny) /\
  forall k, k < ng -> j = nb + k -> segmented (nth k gencost []) = false.

Lemma fixed_coef j R : plain_col j -> In R (pf_rows B bus branch (d_Pfinj o) (d_il o) ++ pt_rows B bus branch (d_Pfinj o) (d_il o)
    ++ ang_rows bus branch (d_iang o) ++ y_rows B bus gen (d_gencost o)) -> coef nx j R = 0%K.
Proof.
  intros (Hj & NY & NS). rewrite !in_app_iff. unfold coef. pose proof (angles_unit_out _ _ _ _ _ _ _ _ _ _ S j Hj) as AU. intros [H|[H|[H|H]]].
  - unfold pf_rows in H. apply in_map_iff in H as (p & <- & _). cbn [snd]. rewrite AU. ring.
  - unfold pt_rows in H. apply in_map_iff in H as (p & <- & _). cbn [snd]. rewrite AU. ring.
  - unfold ang_rows in H. apply in_map_iff in H as (p & <- & _). cbn [snd]. rewrite AU. ring.
  - unfold y_rows in H. apply in_flat_map in H as ((q & i) & Hq & H). apply in_map_iff in H as (t & <- & _). cbn [snd fst].
    unfold output. unfold ypairs in Hq. rewrite (ss_pwl _ _ _ _ _ _ _ _ _ _ S) in Hq.
    pose proof (in_combine_r _ _ _ _ Hq) as Hi. apply in_combine_l in Hq. apply in_seq in Hq.
    unfold multi_rows in Hi. apply filter_In in Hi as (Hi1 & Hi). apply in_seq in Hi1.
    assert (nb + i <> j). { intros E. rewrite (NS i) in Hi by lia. discriminate. }
    rewrite !nth_repeat, !nth_unit_ne by lia. ring.
Qed.

Lemma col_split (G : nat -> K -> ext K -> ext K -> K) j : (forall i a b, G i 0%K a b = 0%K) -> plain_col j -> j < nx ->
  lsum (fun i => G i (at_ (d_A o) i j) (lower (d_l o) i) (upper (d_u o) i)) (seq 0 N)
  = (gsum (fun i R => G i (coef nx j R) (rlo R) (rup R)) 0 (mis_rows B bus gen branch Pbi)
     + gsum (fun i R => G i (coef nx j R) (rlo R) (rup R)) (N - (ngr + nrz)) (user_rows nb ng ny U))%K.
Proof.
  intros G0 P Hj. rewrite (desc_gsum _ _ _ _ _ G j (ss_desc _ _ _ _ _ _ _ _ _ _ S) Hj).
  destruct (ss_desc _ _ _ _ _ _ _ _ _ _ S) as (_ & E & _).
  rewrite gsum_app. f_equal. rewrite !app_assoc in E |- *. set (M := mis_rows _ _ _ _ _) in *.
  rewrite <- !app_assoc in E |- *.
  rewrite (app_assoc (ang_rows _ _ _)), (app_assoc (pt_rows _ _ _ _ _)), (app_assoc (pf_rows _ _ _ _ _)).
  rewrite gsum_app, gsum_zero.
  - rewrite !app_length in E. rewrite user_rows_r, map_length, seq_length in E. rewrite !app_length.
    match goal with |- (0 + ?a)%K = ?b => replace a with b; [ring|f_equal; lia] end.
  - intros i R HR. rewrite (fixed_coef j R P); auto.
Qed.

Definition one_at (i j : nat) : K := if i =? j then 1%K else 0%K.
Lemma lsum_from n m (f : nat -> K) : lsum f (seq n m) = lsum (fun i => f (n + i)) (seq 0 m).
Proof.
  revert n f. induction m as [|m IH]; intros n f; cbn; auto. rewrite Nat.add_0_r. f_equal. rewrite (IH (Datatypes.S n)), (IH 1).
  apply lsum_ext. intros i _. f_equal. lia.
Qed.

Lemma user_gsum (G : nat -> K -> ext K -> ext K -> K) j base : 
  gsum (fun i R => G i (coef nx j R) (rlo R) (rup R)) base (user_rows nb ng ny U)
  = (lsum (fun m => G (base + m)%nat (one_at (nb + nth m igr 0%nat) j + one_at (nb + ng + ny + m) j)%K
                      ENeg (upper (u_u U) m)) (seq 0 ngr)
     + lsum (fun i => G (base + ngr + i)%nat (lsum (fun m => nth (nth m igr 0%nat) (nth i (ri_zones ri) []) 0 * one_at (nb + ng + ny + m) j)%K (seq 0 ngr))
                      (lower (u_l U) (ngr + i)) EPos) (seq 0 nrz))%K.
Proof.
  rewrite user_rows_r, (@gsum_map K F nat _ _ _ _ 0), seq_length. cbv beta.
  rewrite (lsum_ext _ (fun i => G (base + i) (coef nx j (lower (u_l U) i, upper (u_u U) i, fun x => user_val nb ng ny A x i))
     (lower (u_l U) i) (upper (u_u U) i))).
  2:{ intros i Hi. apply in_seq in Hi. rewrite seq_nth by lia. reflexivity. }
  rewrite seq_app, lsum_app. cbn [Nat.add]. pose proof nx_r as NX. f_equal.
  - apply lsum_ext. intros m Hm. apply in_seq in Hm.
    rewrite (l_unit B bus gen U req Cw ri A FO) by lia. f_equal. unfold coef. cbn [snd].
    destruct (nth_error_lt igr m) as [k Hk]; [lia|]. rewrite (nth_error_nth _ _ _ Hk).
    rewrite !(val_unit B bus gen gencost U req Cw ri A FO GB NZ ND RQ _ m k) by (auto; rewrite ?unit_length, ?repeat_length; auto).
    unfold output, res_at. assert (k < ng) by (apply (fo_igr _ _ _ _ _ _ _ _ FO); eapply nth_error_In; eauto).
    rewrite !nth_unit, !nth_repeat by lia. unfold one_at. ring.
  - rewrite lsum_from. apply lsum_ext. intros i Hi. apply in_seq in Hi.
    rewrite (u_zone B bus gen U req Cw ri A FO) by lia.
    replace (base + (ngr + i)) with (base + ngr + i) by lia. f_equal. unfold coef. cbn [snd].
    destruct (nth_error_lt (ri_zones ri) i) as [w Hw]; [lia|]. rewrite (nth_error_nth _ _ _ Hw).
    rewrite !(val_zone B bus gen gencost U req Cw ri A FO GB NZ ND RQ _ i w) by (auto; rewrite ?unit_length, ?repeat_length; auto).
    rewrite <- lsum_sub. apply lsum_ext. intros m Hm. apply in_seq in Hm. unfold res_at. rewrite nth_unit, nth_repeat by lia.
    unfold one_at. destruct (_ =? _); ring.
Qed.

Lemma upper_unit m k : nth_error igr m = Some k -> upper (u_u U) m = EFin (cell (nth k gen []) PMAX / B)%K.
Proof. apply (u_unit B bus gen U req Cw ri A FO). Qed.

(** the column of a reserve *)
Section Res.
Variables (m k : nat).
Hypothesis Hm : nth_error igr m = Some k.
Notation j := (nb + ng + ny + m).

Lemma m_lt : m < ngr. Proof. eapply nth_error_some_lt; eauto. Qed.
Lemma k_lt_r : k < ng. Proof. apply (fo_igr _ _ _ _ _ _ _ _ FO). eapply nth_error_In; eauto. Qed.
Lemma res_plain : plain_col j.
Proof. split; [lia|]. split; [lia|]. intros; lia. Qed.

Lemma res_mis (G : nat -> K -> ext K -> ext K -> K) : (forall i a b, G i 0%K a b = 0%K) ->
  gsum (fun i R => G i (coef nx j R) (rlo R) (rup R)) 0 (mis_rows B bus gen branch Pbi) = 0%K.
Proof.
  intros G0. apply gsum_zero. intros i R HR. unfold mis_rows in HR. apply in_map_iff in HR as (q & <- & _).
  assert (coef nx j (EFin (mis_b B bus Pbi q), EFin (mis_b B bus Pbi q),
    fun x => (net_out (flow_at (angles nb x)) branch q - nth q Pbi 0 - injected gen nb x q)%K) = 0%K) as ->; [|apply G0].
  unfold coef. cbn [snd]. rewrite (angles_unit_out _ _ _ _ _ _ _ _ _ _ S) by lia.
  assert (injected gen nb (PipsD.unit nx j) q = injected gen nb (repeat 0%K nx) q) as ->; [|ring].
  unfold injected. rewrite !(lsum_combine _ _ _ 0 []) by apply seq_length. apply lsum_ext. intros c Hc. rewrite seq_length in Hc. apply in_seq in Hc.
  cbn [fst snd]. rewrite seq_nth by lia. unfold output. rewrite nth_unit_ne, nth_repeat by lia. reflexivity.
Qed.

Lemma res_col (G : nat -> K -> ext K -> ext K -> K) : (forall i a b, G i 0%K a b = 0%K) ->
  lsum (fun i => G i (at_ (d_A o) i j) (lower (d_l o) i) (upper (d_u o) i)) (seq 0 N)
  = (G (N - nrz - ngr + m)%nat 1 ENeg (EFin (cell (nth k gen []) PMAX / B))
     + lsum (fun i => G (N - nrz + i)%nat (nth k (nth i (ri_zones ri) []) 0) (lower (u_l U) (ngr + i)) EPos) (seq 0 nrz))%K.
Proof.
  intros G0. pose proof nx_r as NX. pose proof m_lt. pose proof rows_ge as RG.
  rewrite (col_split G j G0 res_plain) by lia. rewrite res_mis, user_gsum by auto.
  rewrite (lsum_ext (fun m0 => G (N - (ngr + nrz) + m0)%nat _ _ _) (fun m0 => if m =? m0 then G (N - nrz - ngr + m0)%nat 1%K ENeg (upper (u_u U) m0) else 0%K)).
  - rewrite lsum_seq_single' by auto. rewrite (upper_unit m k Hm).
    rewrite (lsum_ext (fun i => G (N - (ngr + nrz) + ngr + i)%nat _ _ _) (fun i => G (N - nrz + i)%nat (nth k (nth i (ri_zones ri) []) 0%K) (lower (u_l U) (ngr + i)) EPos)).
    + ring.
    + intros i Hi. replace (N - (ngr + nrz) + ngr + i) with (N - nrz + i) by lia. f_equal.
      rewrite (lsum_ext _ (fun m0 => if m =? m0 then nth (nth m0 igr 0) (nth i (ri_zones ri) []) 0%K else 0%K)).
      * rewrite lsum_seq_single' by auto. rewrite (nth_error_nth _ _ _ Hm). reflexivity.
      * intros m0 H0. unfold one_at. destruct (Nat.eqb_spec m m0) as [<-|NE]; [rewrite Nat.eqb_refl; ring|].
        destruct (Nat.eqb_spec (nb + ng + ny + m0) j); [lia|ring].
  - intros m0 H0. apply in_seq in H0. unfold one_at.
    destruct (nth_error_lt igr m0) as [k0 Hk0]; [lia|]. rewrite (nth_error_nth _ _ _ Hk0).
    assert (k0 < ng) by (apply (fo_igr _ _ _ _ _ _ _ _ FO); eapply nth_error_In; eauto).
    destruct (Nat.eqb_spec (nb + k0) j); [lia|]. destruct (Nat.eqb_spec m m0) as [<-|NE].
    + rewrite Nat.eqb_refl. replace (N - (ngr + nrz) + m) with (N - nrz - ngr + m) by lia. f_equal. ring.
    + destruct (Nat.eqb_spec (nb + ng + ny + m0) j); [lia|]. match goal with |- G _ ?a _ _ = _ => replace a with (0%K : K) by ring end. apply G0.
Qed.
End Res.

(** the column of a generator *)
Section Gen.
Variables (k : nat) (g : list K).
Hypothesis Hg : nth_error gen k = Some g.
Hypothesis SG : segmented (nth k gencost []) = false.
Notation bg := (bus_no g GEN_BUS).

Lemma gen_plain : plain_col (nb + k).
Proof.
  assert (k < ng) by (eapply nth_error_some_lt; eauto). split; [lia|]. split; [lia|]. intros k' H1 H2. replace k' with k by lia. auto.
Qed.

Lemma gen_col_r (G : nat -> K -> ext K -> ext K -> K) : (forall i a b, G i 0%K a b = 0%K) ->
  lsum (fun i => G i (at_ (d_A o) i (nb + k)) (lower (d_l o) i) (upper (d_u o) i)) (seq 0 N)
  = (G bg (- (1)) (EFin (mis_b B bus Pbi bg)) (EFin (mis_b B bus Pbi bg))
     + lsum (fun m => if nth m igr 0%nat =? k then G (N - nrz - ngr + m)%nat 1 ENeg (EFin (cell g PMAX / B)) else 0) (seq 0 ngr))%K.
Proof.
  intros G0. pose proof nx_r as NX. assert (k < ng) as Lk by (eapply nth_error_some_lt; eauto). pose proof rows_ge as RG.
  rewrite (col_split G (nb + k) G0 gen_plain) by lia. rewrite user_gsum. f_equal.
  - unfold mis_rows. rewrite (@gsum_map K F nat _ _ _ _ 0), seq_length.
    rewrite (lsum_ext _ (fun i => if bg =? i then G i (- (1))%K (EFin (mis_b B bus Pbi i)) (EFin (mis_b B bus Pbi i)) else 0%K)).
    + rewrite lsum_seq_single'; [reflexivity|]. exact (bg_lt _ _ _ _ _ _ _ _ _ _ S k g Hg).
    + intros i Hi. apply in_seq in Hi. rewrite seq_nth by lia. cbn [Nat.add].
      rewrite (gen_mis _ _ _ _ _ _ _ _ _ _ S k g Hg). unfold rlo, rup. cbn [fst snd].
      destruct (bg =? i); auto.
  - rewrite (lsum_zero _ (seq 0 nrz)).
    2:{ intros i _. rewrite lsum_zero; [apply G0|]. intros m Hm. unfold one_at. destruct (Nat.eqb_spec (nb + ng + ny + m) (nb + k)); [lia|ring]. }
    match goal with |- (?a + 0)%K = _ => transitivity a; [ring|] end.
    apply lsum_ext. intros m Hm. apply in_seq in Hm. destruct (nth_error_lt igr m) as [k0 Hk0]; [lia|].
    rewrite (upper_unit m k0 Hk0), (nth_error_nth _ _ _ Hk0). unfold one_at.
    destruct (Nat.eqb_spec (nb + ng + ny + m) (nb + k)); [lia|].
    destruct (Nat.eqb_spec k0 k) as [->|NE].
    + rewrite Nat.eqb_refl, (nth_error_nth _ _ _ Hg). replace (N - (ngr + nrz) + m) with (N - nrz - ngr + m) by lia. f_equal. ring.
    + destruct (Nat.eqb_spec (nb + k0) (nb + k)); [lia|]. match goal with |- G _ ?a _ _ = _ => replace a with (0%K : K) by ring end. apply G0.
Qed.
End Gen.

(** ** gradients *)
Lemma Cw_length : length Cw = ngr.
Proof. rewrite (fo_Cw _ _ _ _ _ _ _ _ FO), map_length. auto. Qed.

Lemma res_gradient HH CC C0 x m : dc_objective B o cpr = Ok (HH, CC, C0) -> length x = nx -> m < ngr ->
  (row_val HH x (nb + ng + ny + m) + nth (nb + ng + ny + m) CC 0 = nth m Cw 0)%K.
Proof.
  intros HO Lx Hm. pose proof nx_r as NX. pose proof Cw_length as LC.
  destruct (res_costs_shaped Cw nx) as (WN & WH & SH & _ & UC); [lia|]. cbv zeta in *.
  apply dbl_inj. rewrite (grad_diff_u _ _ _ _ _ _ _ _ _ _ S cpr WN WH SH HH CC C0 x (nb + ng + ny + m) HO Lx) by lia.
  rewrite !UC by (apply shifted_length; auto).
  assert (E : forall t, gen_cost_by low_order_cost B nb ng gencost (shifted o x (nb + ng + ny + m) t) = gen_cost_by low_order_cost B nb ng gencost x).
  { intros t. unfold gen_cost_by. f_equal; apply lsum_ext; intros i Hi; apply in_seq in Hi; unfold output; rewrite !nth_shifted by lia;
      match goal with |- context [?a =? nb + ng + ny + m] => destruct (Nat.eqb_spec a (nb + ng + ny + m)); [lia|] end.
    - ring.
    - cbv zeta. replace (nth (nb + i) x 0 + 0)%K with (nth (nb + i) x 0)%K by ring. reflexivity. }
  rewrite !E, LC.
  match goal with |- (?a + ?b - (?a + ?c))%K = _ => transitivity (b - c)%K; [ring|] end.
  rewrite <- lsum_sub.
  rewrite (lsum_ext _ (fun i => if m =? i then (nth i Cw 0 + nth i Cw 0)%K else 0%K)).
  - rewrite lsum_seq_single' by auto. reflexivity.
  - intros i Hi. apply in_seq in Hi. rewrite !nth_shifted by lia. replace (nx - ngr + i) with (nb + ng + ny + i) by lia.
    destruct (Nat.eqb_spec m i) as [->|NE]; [rewrite Nat.eqb_refl; ring|].
    destruct (Nat.eqb_spec (nb + ng + ny + i) (nb + ng + ny + m)); [lia|ring].
Qed.

Lemma gen_gradient_r HH CC C0 x k : dc_objective B o cpr = Ok (HH, CC, C0) -> length x = nx -> k < ng ->
  segmented (nth k gencost []) = false -> cost_is 1 (nth k gencost []) = true \/ lin_or_quad (nth k gencost []) ->
  (row_val HH x (nb + k) + nth (nb + k) CC 0 = B * marginal (nth k gencost []) (B * output nb x k))%K.
Proof.
  intros HO Lx Hk SG CV. pose proof nx_r as NX. pose proof Cw_length as LC.
  destruct (res_costs_shaped Cw nx) as (WN & WH & SH & _ & UC); [lia|]. cbv zeta in *.
  apply dbl_inj. rewrite (grad_diff_u _ _ _ _ _ _ _ _ _ _ S cpr WN WH SH HH CC C0 x (nb + k) HO Lx) by lia.
  rewrite !UC by (apply shifted_length; auto).
  rewrite <- (gen_diff _ _ _ _ _ _ _ _ _ _ S x k Lx Hk SG CV).
  match goal with |- (?a + ?b - (?c + ?d))%K = _ => assert (b = d) as ->; [|ring] end.
  apply lsum_ext. intros i Hi. apply in_seq in Hi. rewrite !nth_shifted by lia.
  destruct (Nat.eqb_spec (nx - length Cw + i) (nb + k)); [lia|reflexivity].
Qed.
End F.
