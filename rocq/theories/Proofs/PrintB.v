(** Reports: losses and charging of a branch are what enters at its two ends. *)
From Verif Require Import Lib.ListFacts Model.PrintPf Spec.PrintSpec Spec.PfSpec
  Proofs.SparseFacts Proofs.FldFacts Proofs.NetworkE Proofs.PrintA.
Local Open Scope nat_scope.

Section PrintB.
Context {K : Type} {F : Fld K}.
Add Field KFpb : (@f_ok K F).
Variables (cis : K -> cpx K) (cabs : cpx K -> K).
Hypothesis circ : circular cis.
Hypothesis cabs_ok : modulus cabs.

Lemma cpx_eq (a b : cpx K) : re a = re b -> im a = im b -> a = b.
Proof. destruct a, b; cbn; congruence. Qed.
Ltac cring := apply cpx_eq; cbn [re im cadd csub cmul conj ofK jK copp radd rsub rmul ropp r0 r1 cpx_rng nrm2]; unfold nrm2; cbn [re im]; ring.

Lemma print_volt_conj vm va : print_volt cis vm va = conj (ofK vm * cis (degrees va))%K.
Proof.
  unfold print_volt, degrees. rewrite (proj1 circ).
  replace (fpi / fofZ 180 * va)%K with (va * fpi / fofZ 180)%K by (field; apply fofZ_nz; lia).
  destruct (cis _) as [c s]. cring.
Qed.
Lemma print_tap_conj l : print_tap cis (cell l TAP) (cell l SHIFT) = conj (turns cis l).
Proof.
  unfold print_tap, turns, tap_ratio, nz. rewrite (proj1 circ). destruct (cis _) as [c s].
  destruct (feqb (cell l TAP) 0%K); cbn [negb]; cring.
Qed.
Lemma conj_nrm2 (z : cpx K) : nrm2 (conj z) = nrm2 z.
Proof. unfold nrm2, conj. cbn [re im]. ring. Qed.
Lemma nrm2_mul (z w : cpx K) : nrm2 (z * w)%K = (nrm2 z * nrm2 w)%K.
Proof. destruct z, w. unfold nrm2. cbn. ring. Qed.

Lemma circuit_power l vf vt cf ct : pi_circuit cis l vf vt cf ct ->
  exists vi c, vf = (turns cis l * vi)%K /\ (Cx (cell l BR_R) (cell l BR_X) * c)%K = (vi - vt)%K /\
    (vf * conj cf + vt * conj ct)%K =
    (Cx (cell l BR_R) (cell l BR_X) * ofK (nrm2 c) - jK (cell l BR_B / fofZ 2 * (nrm2 vi + nrm2 vt)))%K.
Proof.
  intros (vi & i1 & c & E1 & E2 & E3 & E4 & E5). exists vi, c. split; [exact E1|]. split; [exact E3|].
  set (b := (cell l BR_B / fofZ 2)%K) in *. clearbody b. set (z := Cx (cell l BR_R) (cell l BR_X)) in *. clearbody z.
  set (n := turns cis l) in *. clearbody n.
  assert (vf * conj cf = vi * conj i1)%K as -> by (rewrite E1, E2; destruct n, vi, cf; cring).
  rewrite E4, E5.
  transitivity ((vi - vt) * conj c - jK (b * (nrm2 vi + nrm2 vt)))%K; [destruct vi, vt, c; cring|].
  rewrite <- E3. destruct z, c. cring.
Qed.

Lemma loss_row_off dc baseMVA bus l : live l = false -> loss_row cis cabs dc baseMVA bus l = Ok loss_zero.
Proof. unfold live. intros H. unfold loss_row, branch_loss. destruct (feqb (cell l BR_STATUS) 0%K); [reflexivity|discriminate]. Qed.

Lemma loss_row_on baseMVA bus l bf bt vi c w : live l = true -> named bus F_BUS l = bf -> named bus T_BUS l = bt ->
  volt cis bf = (turns cis l * vi)%K -> (Cx (cell l BR_R) (cell l BR_X) * c)%K = (vi - volt cis bt)%K ->
  loss_row cis cabs false baseMVA bus l = Ok w ->
  w = ((ofK (baseMVA * nrm2 c) * Cx (cell l BR_R) (cell l BR_X))%K,
       (nrm2 vi * cell l BR_B * baseMVA / fofZ 2)%K, (nrm2 (volt cis bt) * cell l BR_B * baseMVA / fofZ 2)%K).
Proof.
  intros L <- <- E1 E3 H. unfold loss_row, branch_loss in H. unfold live in L.
  destruct (feqb (cell l BR_STATUS) 0%K); [discriminate|]. cbv zeta in H.
  rewrite print_tap_conj, !print_volt_conj in H.
  change (ofK (cell (named bus F_BUS l) VM) * cis (degrees (cell (named bus F_BUS l) VA)))%K with (volt cis (named bus F_BUS l)) in H.
  change (ofK (cell (named bus T_BUS l) VM) * cis (degrees (cell (named bus T_BUS l) VA)))%K with (volt cis (named bus T_BUS l)) in H.
  rewrite conj_nrm2 in H. destruct (feqb (nrm2 (turns cis l)) 0%K) eqn:En; [discriminate|].
  assert (nrm2 (turns cis l) <> 0%K) as Nn by (intros E; apply feqb_ok in E; congruence).
  assert (cdiv (conj (volt cis (named bus F_BUS l))) (conj (turns cis l)) = conj vi) as Ev.
  { rewrite E1. unfold cdiv. rewrite conj_nrm2. destruct (turns cis l) as [n m], vi as [v u]. apply cpx_eq; cbn in *; unfold nrm2 in *; cbn in *; field; exact Nn. }
  rewrite Ev in H. set (vt := volt cis (named bus T_BUS l)) in *.
  assert (nrm2 (Cx (cell l BR_R) (- cell l BR_X)%K) = nrm2 (Cx (cell l BR_R) (cell l BR_X))) as Ez by (unfold nrm2; cbn; ring).
  rewrite Ez in H. destruct (feqb (nrm2 (Cx (cell l BR_R) (cell l BR_X))) 0%K) eqn:Ezz; [discriminate|].
  assert (nrm2 (Cx (cell l BR_R) (cell l BR_X)) <> 0%K) as Nz by (intros E; apply feqb_ok in E; congruence).
  assert (sq (cabs (conj vi)) = nrm2 vi) as Q1 by (unfold sq; rewrite cabs_ok; apply conj_nrm2).
  assert (sq (cabs (conj vt)) = nrm2 vt) as Q2 by (unfold sq; rewrite cabs_ok; apply conj_nrm2).
  assert (sq (cabs (csub (conj vi) (conj vt))) = nrm2 (Cx (cell l BR_R) (cell l BR_X)) * nrm2 c)%K as Q3.
  { unfold sq. rewrite cabs_ok. rewrite <- nrm2_mul, E3. destruct vi, vt. unfold nrm2. cbn. ring. }
  rewrite Q1, Q2, Q3 in H. assert (w = (cdiv (ofK (baseMVA * (nrm2 (Cx (cell l BR_R) (cell l BR_X)) * nrm2 c))%K) (Cx (cell l BR_R) (- cell l BR_X)%K),
     (nrm2 vi * cell l BR_B * baseMVA / fofZ 2)%K, (nrm2 vt * cell l BR_B * baseMVA / fofZ 2)%K)) as -> by congruence.
  f_equal. f_equal. unfold cdiv. rewrite Ez. set (q := nrm2 c). clearbody q.
  apply cpx_eq; cbn [re im ofK rmul cpx_rng cmul]; field; exact Nz.
Qed.

(** loss and charging against the flows of the table *)
Lemma loss_flow baseMVA bus branch l z fc tc : NoDup (map bus_num bus) -> In l branch ->
  (exists b, names bus l F_BUS b) -> (exists b, names bus l T_BUS b) ->
  flow_of cis baseMVA bus l -> loss_row cis cabs false baseMVA bus l = Ok (z, fc, tc) ->
  (cell l PF + cell l PT)%K = re z /\ (cell l QF + cell l QT)%K = (im z - (fc + tc))%K.
Proof.
  intros ND I (bf & Nf) (bt & Nt) FO H. unfold flow_of in FO. destruct (live l) eqn:L.
  - destruct (FO bf bt Nf Nt) as (cf & ct & PI & Sf & St). apply circuit_power in PI as (vi & c & E1 & E3 & ES).
    pose proof (loss_row_on baseMVA bus l bf bt vi c _ L (named_ok _ _ _ _ ND Nf) (named_ok _ _ _ _ ND Nt) E1 E3 H) as W.
    injection W as -> -> ->.
    assert (Cx (cell l PF + cell l PT) (cell l QF + cell l QT) =
            ofK baseMVA * (Cx (cell l BR_R) (cell l BR_X) * ofK (nrm2 c) - jK (cell l BR_B / fofZ 2 * (nrm2 vi + nrm2 (volt cis bt)))))%K as ET.
    { rewrite <- ES. transitivity (Cx (cell l PF) (cell l QF) + Cx (cell l PT) (cell l QT))%K; [reflexivity|].
      rewrite Sf, St. destruct (volt cis bf * conj cf)%K, (volt cis bt * conj ct)%K. cring. }
    assert (N2 : (fofZ 2 : K) <> 0%K) by (apply fofZ_nz; lia).
    pose proof (f_equal re ET) as P. pose proof (f_equal im ET) as Q. cbn in P, Q. rewrite P, Q.
    cbn. split; field; exact N2.
  - rewrite (loss_row_off _ _ _ _ L) in H. injection H as <- <- <-. destruct FO as (-> & -> & -> & ->). cbn. split; ring.
Qed.
End PrintB.
