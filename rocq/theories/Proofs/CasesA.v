(** Checks of a bundled case on the numbers as written, and what they give for the case over any field. *)
From Coq Require Import Lia.
From Verif Require Import Lib.Fld Lib.ListFacts Model.Idx Model.Ext2int Model.Cases Spec.CaseSpec Spec.PipsSpec Spec.OpfSpec Spec.DcSpec.
From Verif Require Import Proofs.OrdFacts Proofs.NetworkA Proofs.NetworkE.
Local Open Scope Z_scope.

Definition col (k : nat) (r : list dec) : dec := nth k r (0, 1%positive).
Definition whole (a : dec) : bool := Pos.eqb (snd a) 1.
Definition dle (a b : dec) : bool := fst a * Zpos (snd b) <=? fst b * Zpos (snd a).
Definition dis (a : dec) (z : Z) : bool := whole a && (fst a =? z).
(** equal as written, or a thousandth apart *)
Definition dclear (a b : dec) : bool :=
  ((fst a =? fst b) && Pos.eqb (snd a) (snd b)) ||
  (Zpos (snd a) * Zpos (snd b) <=? 1000 * (fst b * Zpos (snd a) - fst a * Zpos (snd b))).
Definition wide (w : nat) (t : list (list dec)) : bool := forallb (fun r => Nat.eqb (length r) w) t.
Definition numbers (t : list (list dec)) : list Z := map (fun r => fst (col BUS_I r)) t.
Fixpoint distinct (l : list Z) : bool :=
  match l with [] => true | z :: l => negb (existsb (Z.eqb z) l) && distinct l end.
Definition listed_in (zs : list Z) (k : nat) (r : list dec) : bool := whole (col k r) && existsb (Z.eqb (fst (col k r))) zs.

Definition tables_ok (b : bundle) : bool :=
  let zs := numbers (b_bus b) in
  wide 13 (b_bus b) && wide 21 (b_gen b) && wide 13 (b_branch b)
  && forallb (fun r => whole (col BUS_I r) && (0 <=? fst (col BUS_I r))) (b_bus b)
  && distinct zs
  && forallb (fun r => whole (col BUS_TYPE r) && (1 <=? fst (col BUS_TYPE r)) && (fst (col BUS_TYPE r) <=? 4)) (b_bus b)
  && existsb (fun r => whole (col BUS_TYPE r) && negb (fst (col BUS_TYPE r) =? 4)) (b_bus b)
  && forallb (listed_in zs GEN_BUS) (b_gen b)
  && forallb (fun r => listed_in zs F_BUS r && listed_in zs T_BUS r) (b_branch b)
  && forallb (fun r => dis (col BR_STATUS r) 0 || dis (col BR_STATUS r) 1) (b_branch b)
  && match b_areas b with None => true | Some a => wide 2 a && forallb (listed_in zs PRICE_REF_BUS) a end
  && match b_gencost b with None => true | Some g => Nat.leb (length (b_gen b)) (length g) end.

Definition limits_ok (b : bundle) : bool :=
  (1 <=? b_base b) && (b_base b <=? 1000)
  && forallb (fun r => dle (col VMIN r) (col VMAX r)) (b_bus b)
  && forallb (fun r => dle (col PMIN r) (col PMAX r) && dle (col QMIN r) (col QMAX r) && dclear (col PMIN r) (col PMAX r)) (b_gen b)
  && forallb (fun r => dis (col ANGMIN r) (-360) && dis (col ANGMAX r) 360) (b_branch b).

Definition costs_ok (b : bundle) : bool :=
  match b_gencost b with
  | None => false
  | Some g => forallb (fun r => Nat.leb 5 (length r) && (dis (col MODEL r) 1 ||
      (dis (col MODEL r) 2 && (dis (col NCOST r) 2 || (dis (col NCOST r) 3 && dle (0, 1%positive) (col COST r)))))) g
  end.

Section Sound.
Context {K : Type} {F : Fld K}.
Add Field KF : (@f_ok K F).

Lemma fofZ_opp a : fofZ (- a) = (- fofZ a : K)%K.
Proof.
  pose proof (fofZ_add (Z.opp a) a : _ = (_ : K)) as H. rewrite Z.add_opp_diag_l, fofZ_0 in H.
  set (x := fofZ (Z.opp a)) in *. set (y := fofZ a) in *.
  transitivity (x + y - y)%K; [ring|]. rewrite <- H. ring.
Qed.
Lemma fofZ_sub a b : fofZ (a - b) = (fofZ a - fofZ b : K)%K.
Proof. unfold Z.sub. rewrite fofZ_add, fofZ_opp. ring. Qed.
Lemma fofZ_mul a b : fofZ (a * b) = (fofZ a * fofZ b : K)%K.
Proof.
  revert b. induction a as [|a IH|a IH] using Z.peano_ind; intros b.
  - rewrite Z.mul_0_l, fofZ_0. ring.
  - replace (Z.succ a * b) with (a * b + b) by lia. unfold Z.succ. rewrite !fofZ_add, IH, fofZ_1. ring.
  - replace (Z.pred a * b) with (a * b - b) by lia. unfold Z.pred. rewrite fofZ_sub, fofZ_add, IH.
    change (-1) with (Z.opp 1). rewrite fofZ_opp, fofZ_1. ring.
Qed.

Lemma whole_value a : whole a = true -> value a = (fofZ (fst a) : K).
Proof. unfold whole, value. intros ->. reflexivity. Qed.
Lemma dis_value a z : dis a z = true -> value a = (fofZ z : K).
Proof. unfold dis. intros H. apply andb_true_iff in H as (H & E). apply Z.eqb_eq in E as <-. apply whole_value, H. Qed.
Lemma den_pos p : lt 0%K (fofZ (Zpos p) : K).
Proof. apply fofZ_pos. lia. Qed.
Lemma value_frac a : value a = (fofZ (fst a) / fofZ (Zpos (snd a)) : K)%K.
Proof.
  unfold value. destruct (Pos.eqb_spec (snd a) 1) as [->|]; [|reflexivity]. rewrite fofZ_1. field. apply pos_nz, lt_0_1.
Qed.
Lemma cross a b : (value b - value a : K)%K =
  (fofZ (fst b * Zpos (snd a) - fst a * Zpos (snd b)) / (fofZ (Zpos (snd a)) * fofZ (Zpos (snd b))))%K.
Proof.
  rewrite !value_frac. pose proof (pos_nz _ (den_pos (snd a))). pose proof (pos_nz _ (den_pos (snd b))).
  rewrite fofZ_sub, !fofZ_mul. field. split; assumption.
Qed.
Lemma dle_ok a b : dle a b = true -> le (value a : K) (value b).
Proof.
  intros H. apply Z.leb_le in H. apply le_sub. rewrite cross. apply div_nn; [|apply mul_pos; apply den_pos].
  destruct (Z.eq_dec (fst b * Zpos (snd a) - fst a * Zpos (snd b)) 0) as [->|]; [rewrite fofZ_0; apply le_refl|].
  apply lt_le, fofZ_pos. lia.
Qed.

Lemma cell_value k r : (k < length r)%nat -> nth_error (map value r) k = Some (value (col k r) : K).
Proof.
  intros H. rewrite nth_error_map. unfold col. rewrite (nth_error_nth' r (0, 1%positive) H). reflexivity.
Qed.
Lemma cell_col k r : (k < length r)%nat -> cell (map value r) k = (value (col k r) : K).
Proof. intros H. unfold cell. apply (nth_error_nth _ _ 0%K), cell_value, H. Qed.

Lemma values_inv (t : list (list dec)) i r : nth_error (values t) i = Some (r : list K) ->
  exists x, nth_error t i = Some x /\ In x t /\ r = map value x.
Proof.
  unfold values. rewrite nth_error_map. destruct (nth_error t i) as [x|] eqn:E; [|discriminate].
  intros H. injection H as <-. exists x. split; [reflexivity|]. split; [eapply nth_error_In; eauto|reflexivity].
Qed.
Lemma values_in (t : list (list dec)) r : In r (values t : list (list K)) -> exists x, In x t /\ r = map value x.
Proof. unfold values. intros H. apply in_map_iff in H as (x & <- & H). eauto. Qed.

Lemma wide_rect k w t : (k <= w)%nat -> wide w t = true -> rect k (values t : list (list K)).
Proof.
  intros Hk H. exists w. split; [exact Hk|]. apply Forall_forall. intros r Hr. apply values_in in Hr as (x & Hx & ->).
  rewrite map_length. apply Nat.eqb_eq. exact (proj1 (forallb_forall _ _) H x Hx).
Qed.
Lemma wide_len w t x : wide w t = true -> In x t -> length x = w.
Proof. intros H Hx. apply Nat.eqb_eq. exact (proj1 (forallb_forall _ _) H x Hx). Qed.

Lemma distinct_nth l : distinct l = true -> forall i j z, nth_error l i = Some z -> nth_error l j = Some z -> i = j.
Proof.
  induction l as [|a l IH]; intros H i j z Hi Hj; [destruct i; discriminate|].
  cbn in H. apply andb_true_iff in H as (H1 & H2). apply negb_true_iff in H1.
  assert (N : forall k, nth_error l k = Some a -> False).
  { intros k Hk. apply nth_error_In in Hk. assert (existsb (Z.eqb a) l = true); [|congruence].
    apply existsb_exists. exists a. split; [exact Hk|apply Z.eqb_refl]. }
  destruct i as [|i], j as [|j]; cbn in Hi, Hj; [reflexivity| | |f_equal; eapply IH; eauto].
  - injection Hi as ->. destruct (N _ Hj).
  - injection Hj as ->. destruct (N _ Hi).
Qed.

Lemma names_ok b k r : wide 13 (b_bus b) = true ->
  forallb (fun r => whole (col BUS_I r) && (0 <=? fst (col BUS_I r))) (b_bus b) = true ->
  (k < length r)%nat -> listed_in (numbers (b_bus b)) k r = true -> exists z, names_bus (case_of b) k (map value r : list K) z.
Proof.
  intros HW HI Hk H. apply andb_true_iff in H as (H1 & H2). apply existsb_exists in H2 as (z & Hz & E).
  apply Z.eqb_eq in E. exists z. split.
  - rewrite (cell_value _ _ Hk), (whole_value _ H1), E. reflexivity.
  - apply in_map_iff in Hz as (x & Ex & Hx). apply In_nth_error in Hx as (i & Hi). exists i, (map value x).
    assert (Hx := nth_error_In _ _ Hi). split; [cbn; unfold values; rewrite nth_error_map, Hi; reflexivity|].
    pose proof (proj1 (forallb_forall _ _) HI x Hx) as Hw. apply andb_true_iff in Hw as (Hw & _).
    rewrite cell_value by (rewrite (wide_len _ _ _ HW Hx); unfold BUS_I; lia). rewrite (whole_value _ Hw), Ex. reflexivity.
Qed.

Theorem tables_wf b : tables_ok b = true -> wf_case (case_of b : ppc_of K).
Proof.
  unfold tables_ok. intros H.
  apply andb_true_iff in H as (H & H12). apply andb_true_iff in H as (H & H11). apply andb_true_iff in H as (H & H10).
  apply andb_true_iff in H as (H & H9). apply andb_true_iff in H as (H & H8). apply andb_true_iff in H as (H & H7).
  apply andb_true_iff in H as (H & H6). apply andb_true_iff in H as (H & H5). apply andb_true_iff in H as (H & H4).
  apply andb_true_iff in H as (H & H3). apply andb_true_iff in H as (H1 & H2).
  constructor.
  - apply (wide_rect 2 13); [lia|exact H1].
  - apply (wide_rect 8 21); [lia|exact H2].
  - apply (wide_rect 11 13); [lia|exact H3].
  - cbn [case_of p_bus p_gen p_branch p_areas p_gencost]. intros a Ha. destruct (b_areas b) as [t|]; [|discriminate]. injection Ha as <-.
    apply andb_true_iff in H11 as (H11 & _). apply (wide_rect 2 2); [lia|exact H11].
  - cbn [case_of p_bus p_gen p_branch p_areas p_gencost]. intros i r Hr. apply values_inv in Hr as (x & _ & Hx & ->).
    pose proof (proj1 (forallb_forall _ _) H4 x Hx) as Hw. apply andb_true_iff in Hw as (Hw & Hz).
    exists (fst (col BUS_I x)). split; [apply Z.leb_le, Hz|].
    rewrite cell_value by (rewrite (wide_len _ _ _ H1 Hx); unfold BUS_I; lia). rewrite (whole_value _ Hw). reflexivity.
  - intros z i j (r & Hr & Hz) (r' & Hr' & Hz'). cbn [case_of p_bus] in Hr, Hr'.
    apply values_inv in Hr as (x & Hi & Hx & ->). apply values_inv in Hr' as (x' & Hj & Hx' & ->).
    rewrite cell_value in Hz by (rewrite (wide_len _ _ _ H1 Hx); unfold BUS_I; lia).
    rewrite cell_value in Hz' by (rewrite (wide_len _ _ _ H1 Hx'); unfold BUS_I; lia).
    pose proof (proj1 (forallb_forall _ _) H4 x Hx) as Hw. apply andb_true_iff in Hw as (Hw & _).
    pose proof (proj1 (forallb_forall _ _) H4 x' Hx') as Hw'. apply andb_true_iff in Hw' as (Hw' & _).
    rewrite (whole_value _ Hw) in Hz. rewrite (whole_value _ Hw') in Hz'. injection Hz as Hz. injection Hz' as Hz'.
    apply fofZ_inj in Hz, Hz'.
    apply (distinct_nth _ H5 i j z); unfold numbers; rewrite nth_error_map; [rewrite Hi|rewrite Hj]; cbn; congruence.
  - cbn [case_of p_bus p_gen p_branch p_areas p_gencost]. intros i r Hr. apply values_inv in Hr as (x & _ & Hx & ->).
    pose proof (proj1 (forallb_forall _ _) H6 x Hx) as Hw. apply andb_true_iff in Hw as (Hw & Hz2). apply andb_true_iff in Hw as (Hw & Hz1).
    exists (fst (col BUS_TYPE x)). split; [apply Z.leb_le in Hz1, Hz2; lia|].
    rewrite cell_value by (rewrite (wide_len _ _ _ H1 Hx); unfold BUS_TYPE; lia). rewrite (whole_value _ Hw). reflexivity.
  - apply existsb_exists in H7 as (x & Hx & Hw). apply andb_true_iff in Hw as (Hw & Hn). apply negb_true_iff, Z.eqb_neq in Hn.
    apply In_nth_error in Hx as (i & Hi). assert (Hx := nth_error_In _ _ Hi). exists i, (map value x). split.
    + cbn. unfold values. rewrite nth_error_map, Hi. reflexivity.
    + rewrite cell_value by (rewrite (wide_len _ _ _ H1 Hx); unfold BUS_TYPE; lia). rewrite (whole_value _ Hw).
      intros C. injection C as C. apply fofZ_inj in C. contradiction.
  - cbn [case_of p_bus p_gen p_branch p_areas p_gencost]. intros r Hr. apply values_in in Hr as (x & Hx & ->). apply names_ok; auto.
    + rewrite (wide_len _ _ _ H2 Hx). unfold GEN_BUS. lia.
    + exact (proj1 (forallb_forall _ _) H8 x Hx).
  - cbn [case_of p_bus p_gen p_branch p_areas p_gencost]. intros r Hr. apply values_in in Hr as (x & Hx & ->).
    pose proof (proj1 (forallb_forall _ _) H9 x Hx) as Hw. apply andb_true_iff in Hw as (Hw1 & Hw2).
    split; apply names_ok; auto; rewrite (wide_len _ _ _ H3 Hx); unfold F_BUS, T_BUS; lia.
  - cbn [case_of p_bus p_gen p_branch p_areas p_gencost]. intros r Hr. apply values_in in Hr as (x & Hx & ->).
    pose proof (proj1 (forallb_forall _ _) H10 x Hx) as Hw.
    rewrite cell_value by (rewrite (wide_len _ _ _ H3 Hx); unfold BR_STATUS; lia).
    apply orb_true_iff in Hw as [Hw|Hw]; rewrite (dis_value _ _ Hw); [left|right]; reflexivity.
  - cbn [case_of p_bus p_gen p_branch p_areas p_gencost]. intros a r Ha Hr. destruct (b_areas b) as [t|]; [|discriminate]. injection Ha as <-.
    apply andb_true_iff in H11 as (H11 & H11'). apply values_in in Hr as (x & Hx & ->). apply names_ok; auto.
    + rewrite (wide_len _ _ _ H11 Hx). unfold PRICE_REF_BUS. lia.
    + exact (proj1 (forallb_forall _ _) H11' x Hx).
  - cbn [case_of p_bus p_gen p_branch p_areas p_gencost]. intros g Hg. destruct (b_gencost b) as [t|]; [|discriminate]. injection Hg as <-.
    unfold values. rewrite !map_length. apply Nat.leb_le, H12.
  - discriminate.
  - discriminate.
Qed.

(** the limits of a case do not contradict each other *)
Lemma volt_ok b : tables_ok b = true -> limits_ok b = true -> forall r, In r (p_bus (case_of b : ppc_of K)) -> le (cell r VMIN) (cell r VMAX).
Proof.
  unfold tables_ok, limits_ok. intros T L r Hr. cbn in Hr. apply values_in in Hr as (x & Hx & ->).
  repeat match type of T with (_ && _ = true) => apply andb_true_iff in T as (T & _) end.
  apply andb_true_iff in L as (L & _). apply andb_true_iff in L as (L & _). apply andb_true_iff in L as (_ & L).
  pose proof (proj1 (forallb_forall _ _) L x Hx) as Hw.
  rewrite !cell_col by (rewrite (wide_len _ _ _ T Hx); unfold VMIN, VMAX; lia). apply dle_ok, Hw.
Qed.

Lemma gen_ok b : tables_ok b = true -> limits_ok b = true -> forall r, In r (p_gen (case_of b : ppc_of K)) ->
  le (cell r PMIN) (cell r PMAX) /\ le (cell r QMIN) (cell r QMAX) /\
  clear_cut (EFin (cell r PMIN / fofZ (b_base b))%K) (EFin (cell r PMAX / fofZ (b_base b))%K).
Proof.
  unfold tables_ok, limits_ok. intros T L r Hr. cbn in Hr. apply values_in in Hr as (x & Hx & ->).
  do 10 (apply andb_true_iff in T as (T & _)). apply andb_true_iff in T as (_ & T).
  apply andb_true_iff in L as (L & _). apply andb_true_iff in L as (L & L3). apply andb_true_iff in L as (L & _).
  apply andb_true_iff in L as (L1 & L2). apply Z.leb_le in L1, L2.
  pose proof (proj1 (forallb_forall _ _) L3 x Hx) as Hw. apply andb_true_iff in Hw as (Hw & Hc). apply andb_true_iff in Hw as (Hp & Hq).
  rewrite !cell_col by (rewrite (wide_len _ _ _ T Hx); unfold PMIN, PMAX, QMIN, QMAX; lia).
  split; [apply dle_ok, Hp|]. split; [apply dle_ok, Hq|].
  unfold clear_cut, tight. intros TI. f_equal.
  apply orb_true_iff in Hc as [Hc|Hc].
  - apply andb_true_iff in Hc as (E1 & E2). apply Z.eqb_eq in E1. apply Pos.eqb_eq in E2.
    assert (col PMIN x = col PMAX x) as -> by (destruct (col PMIN x), (col PMAX x); cbn in *; congruence). reflexivity.
  - exfalso. apply Z.leb_le in Hc. apply fabs_le in TI as (_ & TI). revert TI. apply lt_not_le.
    set (n := fst (col PMAX x) * Zpos (snd (col PMIN x)) - fst (col PMIN x) * Zpos (snd (col PMAX x))) in *.
    assert (HB : lt 0%K (fofZ (b_base b) : K)) by (apply fofZ_pos; lia).
    pose proof (pos_nz _ HB) as NB. pose proof (den_pos (snd (col PMIN x))) as D1. pose proof (den_pos (snd (col PMAX x))) as D2.
    pose proof (pos_nz _ D1) as N1. pose proof (pos_nz _ D2) as N2.
    assert (N3 : (fofZ 4503599627370496 : K) <> 0%K) by (apply fofZ_nz; lia).
    assert (E : (value (col PMAX x) / fofZ (b_base b) - value (col PMIN x) / fofZ (b_base b) - eps_ : K)%K =
                (fofZ (n * 4503599627370496 - b_base b * (Zpos (snd (col PMIN x)) * Zpos (snd (col PMAX x))))
                 / (fofZ (b_base b) * (fofZ (Zpos (snd (col PMIN x))) * fofZ (Zpos (snd (col PMAX x)))) * fofZ 4503599627370496))%K).
    { transitivity ((value (col PMAX x) - value (col PMIN x)) / fofZ (b_base b) - eps_ : K)%K; [field; exact NB|].
      rewrite cross. fold n. unfold eps_. rewrite fofZ_sub, !fofZ_mul. field. repeat split; assumption. }
    apply lt_sub. rewrite E. apply div_pos.
    + apply fofZ_pos. nia.
    + apply mul_pos; [|apply fofZ_pos; lia]. apply mul_pos; [exact HB|]. apply mul_pos; assumption.
Qed.

Hypothesis PI : lt 1%K (fpi : K).
Lemma ang_ok b : tables_ok b = true -> limits_ok b = true -> forall r, In r (p_branch (case_of b : ppc_of K)) ->
  le (degrees (cell r ANGMIN)) (degrees (cell r ANGMAX)) /\
  clear_cut (EFin (degrees (cell r ANGMIN))) (EFin (degrees (cell r ANGMAX))).
Proof.
  unfold tables_ok, limits_ok. intros T L r Hr. cbn in Hr. apply values_in in Hr as (x & Hx & ->).
  do 9 (apply andb_true_iff in T as (T & _)). apply andb_true_iff in T as (_ & T).
  apply andb_true_iff in L as (_ & L). pose proof (proj1 (forallb_forall _ _) L x Hx) as Hw. apply andb_true_iff in Hw as (H1 & H2).
  rewrite !cell_col by (rewrite (wide_len _ _ _ T Hx); unfold ANGMIN, ANGMAX; lia).
  rewrite (dis_value _ _ H1), (dis_value _ _ H2). unfold degrees.
  assert (N180 : (fofZ 180 : K) <> 0%K) by (apply fofZ_nz; lia).
  assert (E : (fofZ 360 * fpi / fofZ 180 - fofZ (-360) * fpi / fofZ 180 : K)%K = (fofZ 4 * fpi)%K).
  { change (-360) with (Z.opp (2 * 180)). change 360 with (2 * 180). change 4 with (2 + 2). rewrite fofZ_opp, fofZ_mul, fofZ_add. field. exact N180. }
  assert (P : lt 0%K (fpi : K)) by (eapply lt_trans; [apply lt_0_1|exact PI]).
  assert (P4 : lt 0%K (fofZ 4 * fpi : K)%K) by (apply mul_pos; [apply fofZ_pos; lia|exact P]).
  split; [apply lt_le, lt_sub; rewrite E; exact P4|].
  unfold clear_cut, tight. intros TI. exfalso. apply fabs_le in TI as (_ & TI). revert TI. apply lt_not_le. rewrite E.
  apply lt_trans with 1%K.
  - unfold eps_. apply div_lt; [apply fofZ_pos; lia|]. rewrite <- fofZ_1, <- fofZ_mul. apply lt_sub. rewrite <- fofZ_sub. apply fofZ_pos. lia.
  - eapply lt_trans; [exact PI|]. apply lt_sub. replace (fofZ 4 * fpi - fpi : K)%K with (fofZ 3 * fpi : K)%K.
    + apply mul_pos; [apply fofZ_pos; lia|exact P].
    + change 4 with (3 + 1). rewrite fofZ_add, fofZ_1. ring.
Qed.

Lemma cost_ok b g : costs_ok b = true -> p_gencost (case_of b : ppc_of K) = Some g -> forall j, (j < length g)%nat ->
  (cost_is 1 (nth j g []) = true \/ lin_or_quad (nth j g [])) /\ quad_rising (nth j g []).
Proof.
  unfold costs_ok. cbn [case_of p_gencost option_map]. destruct (b_gencost b) as [t|]; [|discriminate]. intros H Hg j Hj. injection Hg as <-.
  assert (Hin : In (nth j (values t) []) (values t : list (list K))) by (apply nth_In, Hj).
  set (r := nth j (values t) []) in *. clearbody r. apply values_in in Hin as (x & Hx & ->).
  pose proof (proj1 (forallb_forall _ _) H x Hx) as Hw. apply andb_true_iff in Hw as (Hl & Hw). apply Nat.leb_le in Hl.
  unfold lin_or_quad, quad_rising, cost_is. rewrite !cell_col by (unfold MODEL, NCOST, COST; lia).
  apply orb_true_iff in Hw as [Hw|Hw].
  - rewrite !(dis_value _ _ Hw). split; [left; apply feqb_ok; reflexivity|].
    intros C. apply feqb_ok, fofZ_inj in C. discriminate.
  - apply andb_true_iff in Hw as (Hm & Hw). rewrite !(dis_value _ _ Hm). split.
    + right. split; [apply feqb_ok; reflexivity|]. apply orb_true_iff in Hw as [Hw|Hw].
      * left. apply dis_value, Hw.
      * apply andb_true_iff in Hw as (Hw & _). right. apply dis_value, Hw.
    + intros _ C. apply orb_true_iff in Hw as [Hw|Hw].
      * rewrite (dis_value _ _ Hw) in C. apply fofZ_inj in C. discriminate.
      * apply andb_true_iff in Hw as (_ & Hw). rewrite <- fofZ_0.
        change (fofZ 0 : K) with (value (0, 1%positive) : K). apply dle_ok, Hw.
Qed.
End Sound.
