(** What a point of the DC problem with reserves satisfies. *)
From Verif Require Import Lib.ListFacts Model.Reserves Spec.ReserveSpec Proofs.SparseFacts Proofs.FldFacts
  Proofs.OrdFacts Proofs.DcOpfA Proofs.DcOpfB Proofs.ReserveA Proofs.ReserveB Proofs.ReserveD.
Local Open Scope nat_scope.

Section E.
Context {K : Type} {F : Fld K}.
Add Field KF : (@f_ok K F).
Variables (ign : bool) (B : K) (bus gen branch gencost : list (list K)) (U : user (K := K)) (req Cw : list K) (ri : rint (K := K))
  (A : smat K).
Notation nb := (length bus).
Notation ng := (length gen).
Notation ny := (length (multi_rows ng gencost)).
Notation igr := (ri_igr ri).
Notation ngr := (length (ri_igr ri)).
Notation nrz := (length (ri_zones ri)).
Hypothesis FO : formed B nb gen req ri U Cw A.
Hypothesis GB : buses_ok nb GEN_BUS gen.
Hypothesis NZ : ngr <> 0.
Hypothesis ND : NoDup igr.
Hypothesis RQ : length req = nrz.

Lemma ngr_le : ngr <= ng.
Proof.
  assert (incl igr (seq 0 ng)) as I.
  { intros k Hk. apply in_seq. pose proof (fo_igr _ _ _ _ _ _ _ _ FO k Hk). lia. }
  pose proof (NoDup_incl_length ND I) as L. rewrite seq_length in L. auto.
Qed.

Lemma nb_pos : 0 < nb.
Proof.
  pose proof ngr_le as L. destruct gen as [|g gs]; [cbn in L; lia|]. inversion GB as [|? ? (_ & H) _]. lia.
Qed.

Lemma ncols_A : ncols A = nb + ng + ngr.
Proof. apply (fo_shape _ _ _ _ _ _ _ _ FO). Qed.
Lemma nrows_A : nrows A = ngr + nrz.
Proof. apply (fo_shape _ _ _ _ _ _ _ _ FO). Qed.

Lemma not_ac : ac_sized nb ng A = false.
Proof. unfold ac_sized. rewrite ncols_A. apply Nat.leb_gt. pose proof ngr_le. pose proof nb_pos. lia. Qed.

Lemma uv : user_vars nb ng (u_A U) = ngr.
Proof. rewrite (fo_A _ _ _ _ _ _ _ _ FO). unfold user_vars. rewrite not_ac, ncols_A. lia. Qed.

Lemma uv_shaped M : u_A U = Some M -> shaped (nrows M) (ncols M) M.
Proof.
  rewrite (fo_A _ _ _ _ _ _ _ _ FO). intros E. assert (M = A) by congruence. subst M.
  pose proof (fo_shape _ _ _ _ _ _ _ _ FO) as (-> & -> & W). split; [|split]; auto; apply (fo_shape _ _ _ _ _ _ _ _ FO).
Qed.

(** reserve [m] at a point *)
Definition res_at (x : list K) (m : nat) : K := nth (nb + ng + ny + m) x 0%K.

Lemma wy_length (x : list K) : length x = nb + ng + ny + ngr -> length (without_y (nb + ng) ny x) = nb + ng + ngr.
Proof. intros L. unfold without_y. rewrite app_length, firstn_length, skipn_length. lia. Qed.

Lemma val_unit x m k : length x = nb + ng + ny + ngr -> nth_error igr m = Some k ->
  user_val nb ng ny A x m = (output nb x k + res_at x m)%K.
Proof.
  intros L Hk. unfold user_val. cbv zeta. rewrite not_ac. rewrite (fo_unit _ _ _ _ _ _ _ _ FO _ _ k); auto using wy_length.
  assert (k < ng) by (apply (fo_igr _ _ _ _ _ _ _ _ FO); eapply nth_error_In; eauto).
  rewrite !nth_without_y by lia. destruct (Nat.ltb_spec (nb + k) (nb + ng)); [|lia]. destruct (Nat.ltb_spec (nb + ng + m) (nb + ng)); [lia|].
  unfold output, res_at. f_equal. f_equal. lia.
Qed.

Lemma val_zone x i w : length x = nb + ng + ny + ngr -> nth_error (ri_zones ri) i = Some w ->
  user_val nb ng ny A x (ngr + i) = lsum (fun m => nth (nth m igr 0%nat) w 0 * res_at x m)%K (seq 0 ngr).
Proof.
  intros L Hw. unfold user_val. cbv zeta. rewrite not_ac. rewrite (fo_zone _ _ _ _ _ _ _ _ FO _ _ w); auto using wy_length.
  apply lsum_ext. intros m Hm. f_equal. rewrite nth_without_y by lia. destruct (Nat.ltb_spec (nb + ng + m) (nb + ng)); [lia|].
  unfold res_at. f_equal. lia.
Qed.

(** bounds *)
Lemma l_unit m : m < ngr -> lower (u_l U) m = ENeg.
Proof.
  intros L. unfold lower. rewrite bound_nth, (fo_l _ _ _ _ _ _ _ _ FO), app_nth1 by (rewrite repeat_length; auto).
  apply nth_repeat.
Qed.
Lemma u_unit m k : nth_error igr m = Some k -> upper (u_u U) m = EFin (cell (nth k gen []) PMAX / B)%K.
Proof.
  intros H. assert (m < ngr) by (eapply nth_error_some_lt; eauto).
  unfold upper. rewrite bound_nth, (fo_u _ _ _ _ _ _ _ _ FO), app_nth1 by (rewrite map_length; auto).
  apply nth_error_nth. rewrite nth_error_map, H. reflexivity.
Qed.
Lemma l_zone i d : nth_error req i = Some d -> lower (u_l U) (ngr + i) = EFin (d / B)%K.
Proof.
  intros H. unfold lower. rewrite bound_nth, (fo_l _ _ _ _ _ _ _ _ FO), app_nth2 by (rewrite repeat_length; lia).
  rewrite repeat_length. replace (ngr + i - ngr) with i by lia. apply nth_error_nth. rewrite nth_error_map, H. reflexivity.
Qed.
Lemma u_zone i : i < nrz -> upper (u_u U) (ngr + i) = EPos.
Proof.
  intros H. unfold upper. rewrite bound_nth, (fo_u _ _ _ _ _ _ _ _ FO), app_nth2 by (rewrite map_length; lia).
  rewrite map_length. apply nth_repeat.
Qed.
Lemma zl_at m : m < ngr -> lower (u_zl U) m = EFin 0%K.
Proof.
  intros L. unfold lower. rewrite bound_nth, (fo_zl _ _ _ _ _ _ _ _ FO). apply nth_error_nth, nth_error_repeat. auto.
Qed.
Lemma zu_at m k : nth_error igr m = Some k -> upper (u_zu U) m = rmax B (cell (nth k gen []) RAMP_10)
  (match ri_qty ri with Some w => Some (nth k w 0%K) | None => None end).
Proof.
  intros H. unfold upper. rewrite bound_nth, (fo_zu _ _ _ _ _ _ _ _ FO). apply nth_error_nth. rewrite nth_error_map, H. reflexivity.
Qed.

Lemma limits_with_reserves : lt 0%K B ->
  limits_ordered ign B bus gen branch None [] [] [] [] ->
  (forall k, In k igr -> le 0%K (cell (nth k gen []) RAMP_10)) ->
  (forall k w, In k igr -> ri_qty ri = Some w -> le 0%K (nth k w 0%K)) ->
  limits_ordered ign B bus gen branch (u_A U) (u_l U) (u_u U) (u_zl U) (u_zu U).
Proof.
  intros HB (L1 & L2 & _ & _) HR HQ. split; auto. split; auto. split.
  - intros M i EM Hi. rewrite (fo_A _ _ _ _ _ _ _ _ FO) in EM. assert (M = A) by congruence. subst M.
    rewrite nrows_A in Hi. destruct (Nat.lt_ge_cases i ngr) as [L|L].
    + destruct (nth_error_lt igr i L) as [k Hk]. rewrite l_unit, (u_unit _ k) by auto. cbn. auto.
    + replace i with (ngr + (i - ngr)) by lia. destruct (nth_error_lt req (i - ngr)) as [d Hd]; [lia|].
      rewrite (l_zone _ d), u_zone by (auto; lia). cbn. auto.
  - intros m Hm. rewrite uv in Hm. destruct (nth_error_lt igr m Hm) as [k Hk]. rewrite zl_at, (zu_at _ k) by auto.
    assert (In k igr) by (eapply nth_error_In; eauto).
    apply rmax_ordered; auto. intros a Ea. destruct (ri_qty ri) as [w|] eqn:Q; [|discriminate].
    assert (a = nth k w 0%K) as -> by congruence. apply HQ; auto.
Qed.

Variable t : K.
Variable x : list K.
Hypothesis Lx : length x = nb + ng + ny + ngr.
Hypothesis D : dc_point (equal_to t) (excess_to t) ign B bus gen branch gencost (u_A U) (u_l U) (u_u U) (u_zl U) (u_zu U) x.

Lemma point_plain : dc_point (equal_to t) (excess_to t) ign B bus gen branch gencost None [] [] [] [] x.
Proof. destruct D. constructor; auto; [discriminate|]. intros k Hk. cbn in Hk. lia. Qed.

Lemma point_unit m k : lt 0%K B -> nth_error igr m = Some k ->
  excess_to t (- res_at x m)%K /\
  (cell (nth k gen []) RAMP_10 <> 0%K -> excess_to t (res_at x m - cell (nth k gen []) RAMP_10 / B)%K) /\
  (forall w, ri_qty ri = Some w -> excess_to t (res_at x m - nth k w 0 / B)%K) /\
  excess_to t (output nb x k + res_at x m - cell (nth k gen []) PMAX / B)%K.
Proof.
  intros HB Hk. assert (m < ngr) as L by (eapply nth_error_some_lt; eauto).
  destruct (dp_z _ _ _ _ _ _ _ _ _ _ _ _ _ _ D m) as (Z1 & Z2); [rewrite uv; auto|].
  rewrite zl_at in Z1 by auto. rewrite (zu_at _ k) in Z2 by auto. fold (res_at x m) in Z1, Z2.
  destruct (rmax_excess _ _ _ _ _ HB Z2) as (Q1 & Q2).
  destruct (dp_user _ _ _ _ _ _ _ _ _ _ _ _ _ _ D A m (fo_A _ _ _ _ _ _ _ _ FO)) as (_ & U2); [rewrite nrows_A; lia|].
  rewrite (u_unit _ k) in U2 by auto. rewrite (val_unit x m k Lx Hk) in U2.
  split. { assert ((- res_at x m = 0 - res_at x m)%K) as -> by ring. exact Z1. }
  split; auto. split; auto. intros w Hw. apply Q2. rewrite Hw. reflexivity.
Qed.

Lemma point_zone i w d : nth_error (ri_zones ri) i = Some w -> nth_error req i = Some d ->
  excess_to t (d / B - lsum (fun m => nth (nth m igr 0%nat) w 0 * res_at x m) (seq 0 ngr))%K.
Proof.
  intros Hw Hd. assert (i < nrz) as L by (eapply nth_error_some_lt; eauto).
  destruct (dp_user _ _ _ _ _ _ _ _ _ _ _ _ _ _ D A (ngr + i) (fo_A _ _ _ _ _ _ _ _ FO)) as (U1 & _); [rewrite nrows_A; lia|].
  rewrite (l_zone _ d Hd), (val_zone x i w Lx Hw) in U1. exact U1.
Qed.
End E.
