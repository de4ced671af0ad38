(** Blending operating conditions blends the solutions of the power flow equations. *)
From Coq Require Import Lia.
From Verif Require Import Lib.ListFacts Spec.BlendSpec Proofs.SparseFacts Proofs.NetworkA Proofs.NetworkE Proofs.FldFacts Proofs.RunPfB Proofs.FlowA.
Local Open Scope nat_scope.

Section Blend.
Context {K : Type} {F : Fld K}.
Add Field KF : (@f_ok K F).

Lemma same_cell (a b : list K) k : nth_error a k = nth_error b k -> cell a k = cell b k.
Proof. intros H. unfold cell. rewrite <- !nth_default_eq. unfold nth_default. rewrite H. reflexivity. Qed.

(** equipment in service depends on numbers, types and status only *)
Section Alike.
Variables p p' : ppc_of K.
Definition alike (cols : list nat) (t t' : list (list K)) : Prop :=
  length t' = length t /\ forall i r r', nth_error t i = Some r -> nth_error t' i = Some r' -> forall k, In k cols -> nth_error r' k = nth_error r k.
Hypothesis AB : alike [BUS_I; BUS_TYPE] (p_bus p) (p_bus p').
Hypothesis AG : alike [GEN_BUS; GEN_STATUS] (p_gen p) (p_gen p').
Hypothesis AL : alike [F_BUS; T_BUS; BR_STATUS; BR_X; TAP] (p_branch p) (p_branch p').

Lemma alike_row cols t t' i r : alike cols t t' -> nth_error t i = Some r -> exists r', nth_error t' i = Some r' /\
  forall k, In k cols -> nth_error r' k = nth_error r k.
Proof.
  intros (L & H) Hr. destruct (nth_error_lt t' i) as [r' Hr']; [rewrite L; eapply nth_error_some_lt; eauto|]. eauto.
Qed.
Lemma alike_bus_at z i : bus_at p z i -> bus_at p' z i.
Proof. intros (b & Hb & Hz). destruct (alike_row _ _ _ _ _ AB Hb) as (b' & Hb' & C). exists b'. split; auto. rewrite C by (cbn; auto). exact Hz. Qed.
Lemma alike_bus i : bus_in_service p i -> bus_in_service p' i.
Proof. intros (b & Hb & T). destruct (alike_row _ _ _ _ _ AB Hb) as (b' & Hb' & C). exists b'. split; auto. rewrite C by (cbn; auto). exact T. Qed.
Lemma alike_connected c r r' : nth_error r' c = nth_error r c -> connected p c r -> connected p' c r'.
Proof. intros E (z & i & Hz & A & S). exists z, i. split; [congruence|]. split; [apply alike_bus_at, A|apply alike_bus, S]. Qed.
Lemma alike_gen j : gen_in_service p j -> gen_in_service p' j.
Proof.
  intros (g & s & Hg & Hs & P & C). destruct (alike_row _ _ _ _ _ AG Hg) as (g' & Hg' & E). exists g', s. split; auto.
  split; [rewrite E by (cbn; auto); auto|]. split; auto. eapply alike_connected; [|eauto]. apply E. cbn; auto.
Qed.
Lemma alike_branch j : branch_in_service p j -> branch_in_service p' j.
Proof.
  intros (g & Hg & Hs & C1 & C2). destruct (alike_row _ _ _ _ _ AL Hg) as (g' & Hg' & E). exists g'. split; auto.
  split; [rewrite E by (cbn; auto); auto|]. split; (eapply alike_connected; [|eauto]; apply E; cbn; auto).
Qed.
Lemma alike_reference z : reference p z -> reference p' z.
Proof.
  intros (i & b & S & A & Hb & T). destruct (alike_row _ _ _ _ _ AB Hb) as (b' & Hb' & C). exists i, b'. split; [apply alike_bus, S|].
  split; [apply alike_bus_at, A|]. split; auto. rewrite <- T. apply same_cell, C. cbn; auto.
Qed.
Lemma alike_served : references_served p -> (forall z, reference p' z -> reference p z) -> references_served p'.
Proof.
  intros ((z & R) & H) Q. split; [exists z; apply alike_reference, R|]. intros y Ry. destruct (H y (Q y Ry)) as (g & j & J & Hg & Hz).
  destruct (alike_row _ _ _ _ _ AG Hg) as (g' & Hg' & E). exists g', j. split; [apply alike_gen, J|]. split; auto. rewrite E by (cbn; auto). exact Hz.
Qed.
End Alike.

Lemma alike_sym cols (t t' : list (list K)) : alike cols t t' -> alike cols t' t.
Proof. intros (L & H). split; [auto|]. intros i r r' Hr Hr' k Hk. symmetry. eapply H; eauto. Qed.
Variables (B t : K) (p1 p2 p : ppc_of K).
Hypothesis BL : blended t p1 p2 p.

Lemma blended_alike : (alike [BUS_I; BUS_TYPE] (p_bus p) (p_bus p1) /\ alike [BUS_I; BUS_TYPE] (p_bus p) (p_bus p2)) /\
  (alike [GEN_BUS; GEN_STATUS] (p_gen p) (p_gen p1) /\ alike [GEN_BUS; GEN_STATUS] (p_gen p) (p_gen p2)) /\
  (alike [F_BUS; T_BUS; BR_STATUS; BR_X; TAP] (p_branch p) (p_branch p1) /\ alike [F_BUS; T_BUS; BR_STATUS; BR_X; TAP] (p_branch p) (p_branch p2)).
Proof.
  destruct (bl_len_bus _ _ _ _ BL) as (L1 & L2). destruct (bl_len_gen _ _ _ _ BL) as (L3 & L4). destruct (bl_len_branch _ _ _ _ BL) as (L5 & L6).
  split; [|split]; split; (split; [assumption|]); intros i r r' Hr Hr' k Hk.
  - destruct (nth_error_lt (p_bus p2) i) as [x Hx]; [rewrite L2; eapply nth_error_some_lt; eauto|]. apply (bl_bus _ _ _ _ BL i r' x r Hr' Hx Hr); auto.
  - destruct (nth_error_lt (p_bus p1) i) as [x Hx]; [rewrite L1; eapply nth_error_some_lt; eauto|]. apply (bl_bus _ _ _ _ BL i x r' r Hx Hr' Hr); auto.
  - destruct (nth_error_lt (p_gen p2) i) as [x Hx]; [rewrite L4; eapply nth_error_some_lt; eauto|]. apply (bl_gen _ _ _ _ BL i r' x r Hr' Hx Hr); auto.
  - destruct (nth_error_lt (p_gen p1) i) as [x Hx]; [rewrite L3; eapply nth_error_some_lt; eauto|]. apply (bl_gen _ _ _ _ BL i x r' r Hx Hr' Hr); auto.
  - destruct (nth_error_lt (p_branch p2) i) as [x Hx]; [rewrite L6; eapply nth_error_some_lt; eauto|]. apply (bl_branch _ _ _ _ BL i r' x r Hr' Hx Hr); auto.
  - destruct (nth_error_lt (p_branch p1) i) as [x Hx]; [rewrite L5; eapply nth_error_some_lt; eauto|]. apply (bl_branch _ _ _ _ BL i x r' r Hx Hr' Hr); auto.
Qed.

Lemma blend_sum {T} (f f1 f2 : T -> K) l : (forall x, In x l -> f x = blend t (f1 x) (f2 x)) -> lsum f l = blend t (lsum f1 l) (lsum f2 l).
Proof.
  intros H. unfold blend. rewrite <- !lsum_scal, <- lsum_add. apply lsum_ext. exact H.
Qed.

Lemma blend_line th1 th2 j l1 l2 l : nth_error (p_branch p1) j = Some l1 -> nth_error (p_branch p2) j = Some l2 -> nth_error (p_branch p) j = Some l ->
  (cell l BR_X * tap_ratio l)%K <> 0%K ->
  names l1 F_BUS = names l F_BUS /\ names l1 T_BUS = names l T_BUS /\ names l2 F_BUS = names l F_BUS /\ names l2 T_BUS = names l T_BUS /\
  line_flow B (fun z => blend t (th1 z) (th2 z)) l = blend t (line_flow B th1 l1) (line_flow B th2 l2).
Proof.
  intros H1 H2 H NZ. destruct (bl_branch _ _ _ _ BL j l1 l2 l H1 H2 H) as (C & SH).
  assert (Q : forall k, In k [F_BUS; T_BUS; BR_STATUS; BR_X; TAP] -> cell l1 k = cell l k /\ cell l2 k = cell l k).
  { intros k Hk. destruct (C k Hk) as (E1 & E2). split; apply same_cell; auto. }
  destruct (Q F_BUS) as (F1 & F2); [cbn; auto|]. destruct (Q T_BUS) as (T1 & T2); [cbn; auto|].
  destruct (Q BR_X) as (X1 & X2); [cbn; auto|]. destruct (Q TAP) as (P1 & P2); [cbn; auto 6|].
  unfold names. rewrite F1, F2, T1, T2. repeat split; auto.
  unfold line_flow, across, tap_ratio, names in *. rewrite F1, F2, T1, T2, X1, X2, P1, P2, SH. unfold degrees, blend.
  assert (N180 : (fofZ 180 : K) <> 0%K) by (apply fofZ_nz; lia). set (w := (if feqb (cell l TAP) 0 then 1 else cell l TAP)%K) in *.
  assert (N1 : cell l BR_X <> 0%K) by (intros Z0; apply NZ; rewrite Z0; ring).
  assert (N2 : w <> 0%K) by (intros Z0; apply NZ; rewrite Z0; ring).
  field. auto.
Qed.

Theorem blend_flow gens brs th1 th2 : wf_case p ->
  lists_exactly gens (gen_in_service p) -> lists_exactly brs (branch_in_service p) ->
  (forall j l, branch_in_service p j -> nth_error (p_branch p) j = Some l -> (cell l BR_X * tap_ratio l)%K <> 0%K) ->
  power_flow B p1 gens brs th1 -> power_flow B p2 gens brs th2 -> power_flow B p gens brs (fun z => blend t (th1 z) (th2 z)).
Proof.
  intros W G L NZ PF1 PF2. destruct blended_alike as ((B1 & B2) & (G1 & G2) & (L1 & L2)).
  split; intros i b z I A Hb R.
  - destruct (alike_row _ _ _ _ _ B1 Hb) as (b1 & Hb1 & _). destruct (alike_row _ _ _ _ _ B2 Hb) as (b2 & Hb2 & _).
    destruct (bl_bus _ _ _ _ BL i b1 b2 b Hb1 Hb2 Hb) as (_ & D & S & _).
    assert (R1 : ~ reference p1 z) by (intros Q; apply R; eapply alike_reference; [apply alike_sym, B1|exact Q]).
    assert (R2 : ~ reference p2 z) by (intros Q; apply R; eapply alike_reference; [apply alike_sym, B2|exact Q]).
    pose proof (fl_balance _ _ _ _ _ PF1 i b1 z (alike_bus _ _ B1 _ I) (alike_bus_at _ _ B1 _ _ A) Hb1 R1) as Q1.
    pose proof (fl_balance _ _ _ _ _ PF2 i b2 z (alike_bus _ _ B2 _ I) (alike_bus_at _ _ B2 _ _ A) Hb2 R2) as Q2.
    transitivity (blend t (served p1 gens (fun g => cell g PG) z) (served p2 gens (fun g => cell g PG) z)).
    { unfold served. apply blend_sum. intros j Hj. apply G in Hj. pose proof Hj as (g & _ & Hg & _).
      destruct (alike_row _ _ _ _ _ G1 Hg) as (g1 & Hg1 & _). destruct (alike_row _ _ _ _ _ G2 Hg) as (g2 & Hg2 & _).
      destruct (bl_gen _ _ _ _ BL j g1 g2 g Hg1 Hg2 Hg) as (C & E). destruct (C GEN_BUS) as (E1 & E2); [cbn; auto|].
      cbn beta zeta. rewrite (nth_error_nth _ _ _ Hg), (nth_error_nth _ _ _ Hg1), (nth_error_nth _ _ _ Hg2), (same_cell _ _ _ E1), (same_cell _ _ _ E2).
      destruct (_ =? z)%Z; [exact E|unfold blend; ring]. }
    rewrite Q1, Q2, D, S.
    rewrite (blend_sum (fun j => leaves B (fun z => blend t (th1 z) (th2 z)) z (nth j (p_branch p) [])) (fun j => leaves B th1 z (nth j (p_branch p1) [])) (fun j => leaves B th2 z (nth j (p_branch p2) []))); [unfold blend; ring|].
    intros j Hj. apply L in Hj. pose proof Hj as (l & Hl & _).
    destruct (alike_row _ _ _ _ _ L1 Hl) as (l1 & Hl1 & _). destruct (alike_row _ _ _ _ _ L2 Hl) as (l2 & Hl2 & _).
    destruct (blend_line th1 th2 j l1 l2 l Hl1 Hl2 Hl (NZ _ _ Hj Hl)) as (N1 & N2 & N3 & N4 & E).
    rewrite (nth_error_nth _ _ _ Hl), (nth_error_nth _ _ _ Hl1), (nth_error_nth _ _ _ Hl2). unfold leaves. rewrite N1, N2, N3, N4, E.
    unfold blend. destruct (names l F_BUS =? z)%Z, (names l T_BUS =? z)%Z; ring.
  - destruct (alike_row _ _ _ _ _ B1 Hb) as (b1 & Hb1 & _). destruct (alike_row _ _ _ _ _ B2 Hb) as (b2 & Hb2 & _).
    destruct (bl_bus _ _ _ _ BL i b1 b2 b Hb1 Hb2 Hb) as (_ & _ & _ & V).
    rewrite (fl_reference _ _ _ _ _ PF1 i b1 z (alike_bus _ _ B1 _ I) (alike_bus_at _ _ B1 _ _ A) Hb1 (alike_reference _ _ B1 _ R)).
    rewrite (fl_reference _ _ _ _ _ PF2 i b2 z (alike_bus _ _ B2 _ I) (alike_bus_at _ _ B2 _ _ A) Hb2 (alike_reference _ _ B2 _ R)).
    destruct R as (k & c & Ik & Ak & Hc & Tc). assert (k = i) by (eapply (wf_bus_distinct _ W); eauto). subst k.
    assert (c = b) by congruence. subst c. rewrite (V Tc). unfold degrees, blend.
    assert (N180 : (fofZ 180 : K) <> 0%K) by (apply fofZ_nz; lia). field. exact N180.
Qed.
End Blend.
