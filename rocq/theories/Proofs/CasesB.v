(** Checks that a bundled case is connected, and what they give. *)
From Coq Require Import Lia.
From Verif Require Import Lib.Fld Lib.ListFacts Model.Idx Model.Ext2int Model.Cases Spec.FlowSpec.
From Verif Require Import Proofs.OrdFacts Proofs.NetworkA Proofs.NetworkE Proofs.RunPfB Proofs.CasesA.
Local Open Scope Z_scope.

Definition is_ref (r : list dec) : bool := dis (col BUS_TYPE r) 3.
Definition refs (b : bundle) : list Z := map (fun r => fst (col BUS_I r)) (filter is_ref (b_bus b)).
Definition joins (b : bundle) (e : Z * Z) : bool :=
  existsb (fun r => dis (col BR_STATUS r) 1 &&
    ((fst (col F_BUS r) =? fst e) && (fst (col T_BUS r) =? snd e) || (fst (col F_BUS r) =? snd e) && (fst (col T_BUS r) =? fst e))) (b_branch b).
Fixpoint grow (b : bundle) (t : list (Z * Z)) (zs : list Z) : option (list Z) :=
  match t with
  | [] => Some zs
  | e :: t => if existsb (Z.eqb (fst e)) zs && joins b e then grow b t (snd e :: zs) else None
  end.
Definition flow_ok (b : bundle) (t : list (Z * Z)) : bool :=
  forallb (fun r => fst (col BUS_TYPE r) <=? 3) (b_bus b)
  && forallb (fun r => (0 <? fst (col BR_X r)) && (dis (col TAP r) 0 || (0 <? fst (col TAP r)))) (b_branch b)
  && existsb is_ref (b_bus b)
  && forallb (fun z => existsb (fun g => (fst (col GEN_BUS g) =? z) && (0 <? fst (col GEN_STATUS g))) (b_gen b)) (refs b)
  && match grow b t (refs b) with Some zs => forallb (fun z => existsb (Z.eqb z) zs) (numbers (b_bus b)) | None => false end.

Section Sound.
Context {K : Type} {F : Fld K}.
Add Field KF : (@f_ok K F).
Variables (b : bundle) (t : list (Z * Z)).
Hypothesis TOK : tables_ok b = true.
Hypothesis FOK : flow_ok b t = true.
Notation p := (case_of b : ppc_of K).

Lemma pos_value a : 0 < fst a -> lt 0%K (value a : K).
Proof. intros H. rewrite value_frac. apply div_pos; [apply fofZ_pos, H|apply den_pos]. Qed.

Lemma wides : wide 13 (b_bus b) = true /\ wide 21 (b_gen b) = true /\ wide 13 (b_branch b) = true /\
  (forall x, In x (b_bus b) -> whole (col BUS_I x) = true /\ whole (col BUS_TYPE x) = true) /\
  (forall x, In x (b_gen b) -> listed_in (numbers (b_bus b)) GEN_BUS x = true) /\
  (forall x, In x (b_branch b) -> listed_in (numbers (b_bus b)) F_BUS x = true /\ listed_in (numbers (b_bus b)) T_BUS x = true).
Proof.
  pose proof TOK as H. unfold tables_ok in H.
  apply andb_true_iff in H as (H & H12). apply andb_true_iff in H as (H & H11). apply andb_true_iff in H as (H & H10).
  apply andb_true_iff in H as (H & H9). apply andb_true_iff in H as (H & H8). apply andb_true_iff in H as (H & H7).
  apply andb_true_iff in H as (H & H6). apply andb_true_iff in H as (H & H5). apply andb_true_iff in H as (H & H4).
  apply andb_true_iff in H as (H & H3). apply andb_true_iff in H as (H1 & H2).
  split; auto. split; auto. split; auto. split; [|split].
  - intros x Hx. pose proof (proj1 (forallb_forall _ _) H4 x Hx) as A. pose proof (proj1 (forallb_forall _ _) H6 x Hx) as B.
    apply andb_true_iff in A as (A & _). apply andb_true_iff in B as (B & _). apply andb_true_iff in B as (B & _). auto.
  - intros x Hx. exact (proj1 (forallb_forall _ _) H8 x Hx).
  - intros x Hx. apply andb_true_iff. exact (proj1 (forallb_forall _ _) H9 x Hx).
Qed.

Lemma bus_row i x : nth_error (b_bus b) i = Some x ->
  nth_error (p_bus p) i = Some (map value x) /\ bus_at p (fst (col BUS_I x)) i /\ bus_in_service p i /\
  cell (map value x) BUS_TYPE = (fofZ (fst (col BUS_TYPE x)) : K).
Proof.
  intros H. destruct wides as (W1 & _ & _ & W4 & _). assert (Hx := nth_error_In _ _ H). destruct (W4 x Hx) as (A & B).
  assert (H' : nth_error (p_bus p) i = Some (map value x : list K)) by (cbn; unfold values; rewrite nth_error_map, H; reflexivity).
  assert (C : nth_error (map value x) BUS_TYPE = Some (fofZ (fst (col BUS_TYPE x)) : K)).
  { rewrite cell_value by (rewrite (wide_len _ _ _ W1 Hx); unfold BUS_TYPE; lia). rewrite (whole_value _ B). reflexivity. }
  split; auto. split; [|split].
  - exists (map value x). split; auto. rewrite cell_value by (rewrite (wide_len _ _ _ W1 Hx); unfold BUS_I; lia).
    rewrite (whole_value _ A). reflexivity.
  - exists (map value x). split; auto. rewrite C. intros D. injection D as D. apply fofZ_inj in D.
    unfold flow_ok in FOK. do 4 (apply andb_true_iff in FOK as (FOK & _)). pose proof (proj1 (forallb_forall _ _) FOK x Hx) as L.
    apply Z.leb_le in L. lia.
  - unfold cell. apply nth_error_nth, C.
Qed.

Lemma reaches k x w : (k < length x)%nat -> listed_in (numbers (b_bus b)) k x = true -> w = fst (col k x) ->
  connected p k (map value x) /\ nth_error (map value x) k = Some (ofZ w : K).
Proof.
  intros L H ->. apply andb_true_iff in H as (H1 & H2). apply existsb_exists in H2 as (z & Hz & E). apply Z.eqb_eq in E.
  assert (C : nth_error (map value x) k = Some (ofZ (fst (col k x)) : K)) by (rewrite (cell_value _ _ L), (whole_value _ H1); reflexivity).
  split; auto. apply in_map_iff in Hz as (y & Ey & Hy). apply In_nth_error in Hy as (i & Hi).
  destruct (bus_row i y Hi) as (_ & A & S & _). exists z, i. rewrite C, E. rewrite Ey in A. auto.
Qed.

Theorem flow_reactive : reactive p.
Proof.
  intros j l (l' & Hl' & _) Hl. assert (l' = l) by congruence. subst l'. cbn in Hl. apply values_inv in Hl as (x & _ & Hx & ->).
  destruct wides as (_ & _ & W3 & _). pose proof (wide_len _ _ _ W3 Hx) as L.
  unfold flow_ok in FOK. do 3 (apply andb_true_iff in FOK as (FOK & _)). apply andb_true_iff in FOK as (_ & P).
  pose proof (proj1 (forallb_forall _ _) P x Hx) as Q. apply andb_true_iff in Q as (Q1 & Q2).
  rewrite cell_col by (rewrite L; unfold BR_X; lia). apply mul_pos; [apply pos_value; apply Z.ltb_lt in Q1; exact Q1|].
  unfold tap_ratio. rewrite cell_col by (rewrite L; unfold TAP; lia). apply orb_true_iff in Q2 as [Q2|Q2].
  - rewrite (dis_value _ _ Q2), fofZ_0. replace (feqb (0%K : K) 0%K) with true by (symmetry; apply feqb_ok; reflexivity). apply lt_0_1.
  - apply Z.ltb_lt in Q2. pose proof (pos_value _ Q2) as Q3. destruct (feqb (value (col TAP x)) 0%K) eqn:E; [apply lt_0_1|exact Q3].
Qed.

Lemma ref_row i x : nth_error (b_bus b) i = Some x -> (is_ref x = true <-> reference p (fst (col BUS_I x))).
Proof.
  intros H. destruct (bus_row i x H) as (A & B & C & D). split.
  - intros R. exists i, (map value x). split; auto. split; auto. split; auto. rewrite D.
    unfold is_ref, dis in R. apply andb_true_iff in R as (_ & R). apply Z.eqb_eq in R. rewrite R. reflexivity.
  - intros (i' & y & S & A' & Hy & T). assert (i' = i) by (eapply (wf_bus_distinct _ (tables_wf b TOK)); eauto). subst i'.
    rewrite A in Hy. injection Hy as <-. rewrite D in T. apply fofZ_inj in T.
    destruct wides as (_ & _ & _ & W4 & _). destruct (W4 x (nth_error_In _ _ H)) as (_ & W). unfold is_ref, dis. rewrite W, T. reflexivity.
Qed.

Lemma in_refs z : In z (refs b) <-> reference p z.
Proof.
  split.
  - intros H. apply in_map_iff in H as (x & <- & H). apply filter_In in H as (H & R). apply In_nth_error in H as (i & Hi).
    apply (ref_row i x Hi), R.
  - intros H. pose proof H as (i & y & S & A & Hy & T). cbn in Hy. apply values_inv in Hy as (x & Hx & I & ->).
    destruct (bus_row i x Hx) as (A1 & A2 & _). apply in_map_iff. exists x.
    assert (fst (col BUS_I x) = z) as Z.
    { destruct A as (r & Hr & Hz). destruct A2 as (r' & Hr' & Hz'). assert (r = r') by congruence. subst r'. rewrite Hz in Hz'.
      injection Hz' as Hz'. apply fofZ_inj in Hz'. auto. }
    split; auto. apply filter_In. split; auto. apply (ref_row i x Hx). rewrite Z. exact H.
Qed.

Theorem flow_served : references_served p.
Proof.
  destruct wides as (W1 & W2 & _ & _ & W5 & _). pose proof FOK as H. unfold flow_ok in H. apply andb_true_iff in H as (H & _).
  apply andb_true_iff in H as (H & HG). apply andb_true_iff in H as (_ & HR). split.
  - apply existsb_exists in HR as (x & Hx & R). apply In_nth_error in Hx as (i & Hi). exists (fst (col BUS_I x)). apply (ref_row i x Hi), R.
  - intros z R. apply in_refs in R. pose proof (proj1 (forallb_forall _ _) HG z R) as Q. apply existsb_exists in Q as (g & Hg & Q).
    apply andb_true_iff in Q as (Q1 & Q2). apply Z.eqb_eq in Q1. apply Z.ltb_lt in Q2. pose proof (wide_len _ _ _ W2 Hg) as L.
    destruct (reaches GEN_BUS g z) as (C & D); [rewrite L; unfold GEN_BUS; lia|auto|auto|].
    apply In_nth_error in Hg as (j & Hj). exists (map value g), j.
    assert (Hp : nth_error (p_gen p) j = Some (map value g : list K)) by (cbn; unfold values; rewrite nth_error_map, Hj; reflexivity).
    split; [|auto]. exists (map value g), (value (col GEN_STATUS g)). split; auto.
    split; [apply cell_value; rewrite L; unfold GEN_STATUS; lia|]. split; [|exact C]. exact (pos_value _ Q2).
Qed.

Lemma joins_joined e : joins b e = true -> joined p (fst e) (snd e).
Proof.
  destruct wides as (_ & _ & W3 & _ & _ & W6). unfold joins. intros H. apply existsb_exists in H as (x & Hx & H).
  apply andb_true_iff in H as (H1 & H2). pose proof (wide_len _ _ _ W3 Hx) as L. destruct (W6 x Hx) as (N1 & N2).
  destruct (reaches F_BUS x _ ltac:(rewrite L; unfold F_BUS; lia) N1 eq_refl) as (C1 & D1).
  destruct (reaches T_BUS x _ ltac:(rewrite L; unfold T_BUS; lia) N2 eq_refl) as (C2 & D2).
  apply In_nth_error in Hx as (j & Hj).
  assert (Hp : nth_error (p_branch p) j = Some (map value x : list K)) by (cbn; unfold values; rewrite nth_error_map, Hj; reflexivity).
  exists j, (map value x). split; [|split; [auto|]].
  - exists (map value x). split; auto. split; auto. rewrite cell_value by (rewrite L; unfold BR_STATUS; lia).
    rewrite (dis_value _ _ H1). reflexivity.
  - unfold names. rewrite (cell_ofZ _ _ _ D1), (cell_ofZ _ _ _ D2).
    apply orb_true_iff in H2 as [H2|H2]; apply andb_true_iff in H2 as (E1 & E2); apply Z.eqb_eq in E1, E2; auto.
Qed.

Lemma grow_fed t' : forall zs zs', grow b t' zs = Some zs' -> (forall z, In z zs -> fed p z) -> forall z, In z zs' -> fed p z.
Proof.
  induction t' as [|e t' IH]; cbn; intros zs zs' H A z Hz; [injection H as <-; auto|].
  destruct (existsb _ zs && joins b e) eqn:Q; [|discriminate]. apply andb_true_iff in Q as (Q1 & Q2).
  eapply IH; eauto. intros w [<-|Hw]; auto. apply existsb_exists in Q1 as (v & Hv & E). apply Z.eqb_eq in E. subst v.
  eapply fed_joined; [apply A; exact Hv|]. apply joins_joined; auto.
Qed.

Theorem flow_fed : all_fed p.
Proof.
  intros i z S A. pose proof FOK as H. unfold flow_ok in H. apply andb_true_iff in H as (_ & H).
  destruct (grow b t (refs b)) as [zs|] eqn:G; [|discriminate].
  apply (grow_fed t _ _ G). { intros w Hw. apply fed_reference, in_refs, Hw. }
  pose proof A as (r & Hr & Hz). cbn in Hr. apply values_inv in Hr as (x & Hx & I & ->).
  destruct (bus_row i x Hx) as (A1 & (r' & Hr' & Hz') & _). rewrite A1 in Hr'. injection Hr' as <-. rewrite Hz in Hz'. injection Hz' as Hz'.
  apply fofZ_inj in Hz'. subst z.
  pose proof (proj1 (forallb_forall _ _) H _ (in_map _ _ _ I)) as Q. apply existsb_exists in Q as (v & Hv & E). apply Z.eqb_eq in E. subst v. exact Hv.
Qed.
End Sound.
