(** A point of the internal AC problem, reported in the external tables. *)
From Coq Require Import Permutation.
From Verif Require Import Lib.ListFacts Model.RunAcOpf Spec.RunAcOpfSpec Proofs.SparseFacts Proofs.FldFacts
  Proofs.OrdFacts Proofs.PfsolnA Proofs.TableEdit Proofs.Ext2intB Proofs.RunPfA Proofs.RunPfB Proofs.DcOpfA Proofs.RunOpfA
  Proofs.RunOpfB Proofs.RunOpfC.
Local Open Scope nat_scope.

Section Transfer.
Context {K : Type} {F : Fld K}.
Add Field KF : (@f_ok K F).
Variables (cis : K -> cpx K) (sin_ cos_ : K -> K) (atan2 norm2 : K -> K -> K).
Variables (p q r : ppc_of K) (sb sg sl sa : list nat) (bus' gen' branch' : list (list K)).
Variables (ign : bool) (lim : flow_lim) (B t : K) (x : list K) (gcq : list (list K)) (If It : list (cpx K)).
Notation nb := (length (p_bus q)).
Notation ng := (length (p_gen q)).
Notation V := (ac_volt cis nb x).
Definition ac_bc := [VM; VA; LAM_P; LAM_Q; MU_VMIN; MU_VMAX].
Definition ac_gc := [PG; QG; VG; MU_PMIN; MU_PMAX; MU_QMIN; MU_QMAX].
Definition ac_lc := [PF; QF; PT; QT; MU_SF; MU_ST; MU_ANGMIN; MU_ANGMAX].
Hypothesis IF : internal_form p q sb sg sl sa.
Hypothesis CAR : carried p q bus' gen' branch' r sb sg sl.
Hypothesis GT : forall k i z c, nth_error sb k = Some i -> bus_at p z i -> In c [PG; QG] ->
  total_at GEN_BUS (fun g => cell g c) (p_gen r) z = lsum (fun g => if bus_no g GEN_BUS =? k then cell g c else 0%K) gen'.
Hypothesis LT : forall k i z c d, nth_error sb k = Some i -> bus_at p z i -> In c [PF; QF] -> In d [PT; QT] ->
  (total_at F_BUS (fun g => cell g c) (p_branch r) z + total_at T_BUS (fun g => cell g d) (p_branch r) z)%K
  = drawn (fun g => cell g c) (fun g => cell g d) branch' k.
Hypothesis HB : forall k y b, nth_error (p_bus q) k = Some y -> nth_error bus' k = Some b ->
  cell b VM = nth (nb + k) x 0%K /\ degrees (cell b VA) = nth k x 0%K /\
  forall c, ~ In c ac_bc -> cell b c = cell y c.
Hypothesis HG : forall k y g, nth_error (p_gen q) k = Some y -> nth_error gen' k = Some g ->
  cell g PG = (B * ac_output nb x k)%K /\ cell g QG = (B * ac_output nb x (ng + k))%K /\
  cell g VG = nth (nb + bus_no y GEN_BUS) x 0%K /\ forall c, ~ In c ac_gc -> cell g c = cell y c.
Hypothesis HL : forall k y g, nth_error (p_branch q) k = Some y -> nth_error branch' k = Some g ->
  Cx (cell g PF) (cell g QF) = (ofK B * (nth (bus_no y F_BUS) V 0 * conj (nth k If 0)))%K /\
  Cx (cell g PT) (cell g QT) = (ofK B * (nth (bus_no y T_BUS) V 0 * conj (nth k It 0)))%K /\
  forall c, ~ In c ac_lc -> cell g c = cell y c.
Hypothesis EC : end_currents cis (p_branch q) V If It.
Hypothesis HBpos : lt 0%K B.
Hypothesis UNIT : forall a, nrm2 (cis a) = 1%K.
Hypothesis LIN : ac_linear (equal_to t) (excess_to t) sin_ cos_ atan2 norm2 ign B (p_bus q) (p_gen q) (p_branch q) gcq None [] [] [] [] x.
Hypothesis NET : ac_network (equal_to t) (excess_to t) cis lim B (p_bus q) (p_gen q) (p_branch q) If It x.

Let Bnz : B <> 0%K.
Proof. apply pos_nz. auto. Qed.

Lemma equal_scale_pos (a b d d' : K) : lt 0%K b -> equal_to a d -> d' = (b * d)%K -> equal_to (b * a)%K d'.
Proof.
  intros Hb H ->. unfold equal_to in *. change (lt (fabs d) a) with (fltb (fabs d) a = true) in H.
  apply fabs_lt in H as (H1 & H2). change (fltb (fabs (b * d)%K) (b * a)%K = true). apply fabs_lt.
  pose proof (lt_mul_l _ _ _ Hb H1) as G1. pose proof (lt_mul_l _ _ _ Hb H2) as G2. split; auto.
  change (lt (- (b * a))%K (b * d)%K). assert ((- (b * a) = b * - a)%K) as -> by ring. exact G1.
Qed.

Lemma nth_volt k : k < nb -> nth k V 0%K = (ofK (nth (nb + k) x 0) * cis (nth k x 0))%K.
Proof.
  intros H. unfold ac_volt. rewrite (nth_map_lt _ _ _ _ 0) by (rewrite seq_length; auto). rewrite seq_nth by auto. reflexivity.
Qed.

(** ** rows *)
Lemma bus_row i b : bus_in_service p i -> nth_error (p_bus r) i = Some b -> exists k x0 y,
  nth_error sb k = Some i /\ nth_error (p_bus p) i = Some x0 /\ nth_error (p_bus q) k = Some y /\
  cell b VM = nth (nb + k) x 0%K /\ degrees (cell b VA) = nth k x 0%K /\ (forall c, c <> BUS_I -> cell y c = cell x0 c) /\
  (forall c, c <> BUS_I -> ~ In c ac_bc -> cell b c = cell y c).
Proof.
  intros Si Hb. apply (if_sb _ _ _ _ _ _ IF) in Si. apply In_nth_error in Si as (k & Hk).
  destruct (nth_error_lt bus' k) as [b' Hb']; [rewrite (ca_bus_len _ _ _ _ _ _ _ _ _ CAR); eapply nth_error_some_lt; eauto|].
  destruct (ca_bus _ _ _ _ _ _ _ _ _ CAR _ _ _ Hk Hb') as (x0 & y & a & Hx & Hy & Ha & E1 & E2).
  assert (a = b) by congruence. subst a. destruct (HB _ _ _ Hy Hb') as (M & A & KP).
  exists k, x0, y. do 3 (split; [auto|]). rewrite (E2 VM), (E2 VA) by discriminate. do 2 (split; [auto|]). split; auto.
  intros c N1 N2. rewrite (E2 c N1). auto.
Qed.

Lemma end_ok c n z (a : list K) : cell a c = ofZ z -> stands_for p sb n z -> exists b,
  bus_of p r a c b /\ cell b VM = nth (nb + n) x 0%K /\ degrees (cell b VA) = nth n (angles nb x) 0%K /\
  volt cis b = nth n V 0%K.
Proof.
  intros Hc (i & Hi & Bi).
  destruct (nth_error_lt bus' n) as [b' Hb']; [rewrite (ca_bus_len _ _ _ _ _ _ _ _ _ CAR); eapply nth_error_some_lt; eauto|].
  destruct (ca_bus _ _ _ _ _ _ _ _ _ CAR _ _ _ Hi Hb') as (x0 & y & a' & Hx & Hy & Ha & E1 & E2).
  destruct (HB _ _ _ Hy Hb') as (M & A & _). pose proof (nth_error_some_lt _ _ _ Hy) as Ln.
  rewrite <- (E2 VM) in M by discriminate. rewrite <- (E2 VA) in A by discriminate.
  exists a'. split; [exists z, i; auto|]. split; auto.
  split; [unfold angles; rewrite nth_firstn_lt by auto; auto|]. rewrite nth_volt by auto. unfold volt. rewrite M, A. reflexivity.
Qed.

Lemma gen_row j g : gen_in_service p j -> nth_error (p_gen r) j = Some g -> exists k x0 y n b,
  nth_error sg k = Some j /\ nth_error (p_gen p) j = Some x0 /\ nth_error (p_gen q) k = Some y /\
  cell g PG = (B * ac_output nb x k)%K /\ cell g QG = (B * ac_output nb x (ng + k))%K /\
  bus_no y GEN_BUS = n /\ bus_of p r g GEN_BUS b /\ cell g VG = cell b VM /\
  (forall c, c <> GEN_BUS -> ~ In c ac_gc -> cell g c = cell y c).
Proof.
  intros Sj Hg. apply (if_sg _ _ _ _ _ _ IF) in Sj. apply In_nth_error in Sj as (k & Hk).
  destruct (nth_error_lt gen' k) as [g' Hg']; [rewrite (ca_gen_len _ _ _ _ _ _ _ _ _ CAR); eapply nth_error_some_lt; eauto|].
  destruct (ca_gen _ _ _ _ _ _ _ _ _ CAR _ _ _ Hk Hg') as (x0 & y & a & z & n & Hx & Hy & Ha & Hz & ST & Ny & Ex & ON & E1 & E2).
  assert (a = g) by congruence. subst a. destruct (HG _ _ _ Hy Hg') as (V1 & V2 & V3 & KP).
  assert (cell g GEN_BUS = ofZ z) as Ez by (rewrite Ex; apply nth_error_cell; auto).
  destruct (end_ok GEN_BUS n z g Ez ST) as (b & BO & VMb & _).
  exists k, x0, y, n, b. do 3 (split; [auto|]).
  split; [rewrite (E2 PG) by discriminate; auto|]. split; [rewrite (E2 QG) by discriminate; auto|].
  split; [apply ofN_no; auto|]. split; auto.
  split; [rewrite (E2 VG) by discriminate; rewrite V3, VMb, (ofN_no y GEN_BUS n Ny); auto|].
  intros c N1 N2. rewrite (E2 c N1). auto.
Qed.

Lemma gens_on k y : nth_error (p_gen q) k = Some y -> in_service y = true.
Proof.
  intros Hy.
  destruct (nth_error_lt sg k) as [j Hj]; [rewrite <- (if_gen_len _ _ _ _ _ _ IF); eapply nth_error_some_lt; eauto|].
  destruct (nth_error_lt gen' k) as [g Hg]; [rewrite (ca_gen_len _ _ _ _ _ _ _ _ _ CAR); eapply nth_error_some_lt; eauto|].
  destruct (ca_gen _ _ _ _ _ _ _ _ _ CAR _ _ _ Hj Hg) as (x0 & y' & a & z & n & Hx & Hy' & Ha & Hz & ST & Ny & Ex & ON & E1 & E2).
  assert (y' = y) by congruence. subst y'. unfold in_service in *. rewrite (E1 GEN_STATUS) by discriminate. auto.
Qed.

(** ** totals *)
Lemma supply_total k off c : (forall i y g, nth_error (p_gen q) i = Some y -> nth_error gen' i = Some g ->
    cell g c = (B * ac_output nb x (off + i))%K) ->
  lsum (fun g => if bus_no g GEN_BUS =? k then cell g c else 0%K) gen' = (B * ac_supply (p_gen q) nb off x k)%K.
Proof.
  intros HC. unfold ac_supply. rewrite <- lsum_scal. apply lsum_pair.
  { rewrite seq_length, (ca_gen_len _ _ _ _ _ _ _ _ _ CAR), (if_gen_len _ _ _ _ _ _ IF). reflexivity. }
  intros m g a Hg Ha.
  assert (a = m /\ m < ng) as (-> & Lm).
  { pose proof (nth_error_some_lt _ _ _ Ha) as L. rewrite seq_length in L. rewrite seq_nth_error in Ha by auto. cbn in Ha. split; congruence. }
  destruct (nth_error_lt (p_gen q) m Lm) as [y Hy]. cbv zeta. rewrite (nth_error_nth _ _ _ Hy), (gens_on _ _ Hy). cbn [andb].
  destruct (HG _ _ _ Hy Hg) as (_ & _ & _ & KP). unfold bus_no. rewrite (KP GEN_BUS) by (cbn; intuition discriminate).
  rewrite (HC _ _ _ Hy Hg). destruct (_ =? k); ring.
Qed.

Lemma cx_parts (a b : K) (z : cpx K) : Cx a b = z -> a = re z /\ b = im z.
Proof. intros <-. split; reflexivity. Qed.

Lemma draw_lsum {X} (h : X -> cpx K) (v : cpx K) l :
  re (ofK B * (v * conj (lsum h l)))%K = lsum (fun a => re (ofK B * (v * conj (h a)))%K) l /\
  im (ofK B * (v * conj (lsum h l)))%K = lsum (fun a => im (ofK B * (v * conj (h a)))%K) l.
Proof.
  induction l as [|a l (IH1 & IH2)]; cbn [lsum].
  - cbn. split; ring.
  - rewrite <- IH1, <- IH2. cbn. split; ring.
Qed.

Lemma flow_total k : 
  drawn (fun g => cell g PF) (fun g => cell g PT) branch' k = re (ofK B * (nth k V 0 * conj (into_branches (p_branch q) If It k)))%K /\
  drawn (fun g => cell g QF) (fun g => cell g QT) branch' k = im (ofK B * (nth k V 0 * conj (into_branches (p_branch q) If It k)))%K.
Proof.
  unfold drawn, into_branches. destruct (draw_lsum (fun p => (if (bus_no (snd p) F_BUS =? k)%nat then nth (fst p) If 0 else 0)
               + (if (bus_no (snd p) T_BUS =? k)%nat then nth (fst p) It 0 else 0))%K (nth k V 0%K)
    (combine (seq 0 (length (p_branch q))) (p_branch q))) as (-> & ->).
  split; (apply lsum_pair; [rewrite combine_length, seq_length, (ca_br_len _ _ _ _ _ _ _ _ _ CAR), (if_br_len _ _ _ _ _ _ IF); lia|]);
    intros m g (m', y) Hg Hy; apply combine_seq in Hy as (Hy & E); cbn [fst snd] in *; subst m'; cbn [Nat.add];
    destruct (HL _ _ _ Hy Hg) as (E1 & E2 & KP); apply cx_parts in E1 as (P1 & Q1), E2 as (P2 & Q2);
    unfold bus_no at 1 2; rewrite (KP F_BUS), (KP T_BUS) by (cbn; intuition discriminate);
    rewrite ?P1, ?P2, ?Q1, ?Q2; fold (bus_no y F_BUS); fold (bus_no y T_BUS);
    destruct (Nat.eqb_spec (bus_no y F_BUS) k) as [->|_], (Nat.eqb_spec (bus_no y T_BUS) k) as [->|_]; cbn; ring.
Qed.

Lemma volt_sq k : k < nb -> nrm2 (nth k V 0)%K = (nth (nb + k) x 0 * nth (nb + k) x 0)%K.
Proof.
  intros H. rewrite nth_volt by auto. pose proof (UNIT (nth k x 0%K)) as U. unfold nrm2 in *. cbn in *.
  match goal with |- ?l = ?r => transitivity (nth (nb + k) x 0 * nth (nb + k) x 0 * (re (cis (nth k x 0)) * re (cis (nth k x 0)) + im (cis (nth k x 0)) * im (cis (nth k x 0))))%K end.
  - cbn. ring.
  - rewrite U. ring.
Qed.

Lemma bus_total k y : nth_error (p_bus q) k = Some y ->
  let S := (nth k V 0 * conj (into_branches (p_branch q) If It k))%K in
  re (bus_draw B (p_bus q) (p_branch q) V If It k) = (re S + cell y GS / B * (nth (nb + k) x 0 * nth (nb + k) x 0))%K /\
  im (bus_draw B (p_bus q) (p_branch q) V If It k) = (im S - cell y BS / B * (nth (nb + k) x 0 * nth (nb + k) x 0))%K.
Proof.
  intros Hy S. unfold bus_draw. rewrite (nth_error_nth _ _ _ Hy). rewrite <- (volt_sq k) by (eapply nth_error_some_lt; eauto).
  unfold S, shunt, nrm2. cbn. split; ring.
Qed.

Theorem ac_transfer : ac_report cis sin_ cos_ atan2 norm2 ign lim t B p r.
Proof.
  constructor.
  - intros i b z Si Bi Hb. destruct (bus_row _ _ Si Hb) as (k & x0 & y & Hk & Hx & Hy & M & A & E1 & E2).
    apply (equal_scale _ _ _ _ HBpos (an_active _ _ _ _ _ _ _ _ _ _ _ NET k y Hy)). unfold spare_p.
    destruct (flow_total k) as (FT & _). destruct (bus_total k y Hy) as (BT & _). rewrite BT.
    rewrite (GT _ _ _ PG Hk Bi), (LT _ _ _ PF PT Hk Bi) by (cbn; auto). rewrite FT.
    rewrite (supply_total k 0 PG) by (intros m y' g Hy' Hg; apply (HG _ _ _ Hy' Hg)).
    rewrite (E2 PD), (E2 GS) by (cbn; intuition discriminate). rewrite M. cbn. field. auto.
  - intros i b z Si Bi Hb. destruct (bus_row _ _ Si Hb) as (k & x0 & y & Hk & Hx & Hy & M & A & E1 & E2).
    apply (equal_scale _ _ _ _ HBpos (an_reactive _ _ _ _ _ _ _ _ _ _ _ NET k y Hy)). unfold spare_q.
    destruct (flow_total k) as (_ & FT). destruct (bus_total k y Hy) as (_ & BT). rewrite BT.
    rewrite (GT _ _ _ QG Hk Bi), (LT _ _ _ QF QT Hk Bi) by (cbn; auto). rewrite FT.
    rewrite (supply_total k ng QG) by (intros m y' g Hy' Hg; apply (HG _ _ _ Hy' Hg)).
    rewrite (E2 QD), (E2 BS) by (cbn; intuition discriminate). rewrite M. cbn. field. auto.
  - intros i b Si Hb. destruct (bus_row _ _ Si Hb) as (k & x0 & y & Hk & Hx & Hy & M & A & E1 & E2).
    rewrite (E2 VMIN), (E2 VMAX) by (cbn; intuition discriminate). rewrite M.
    exact (al_voltage _ _ _ _ _ _ _ _ _ _ _ _ _ _ _ _ _ _ LIN k y Hy).
  - intros i b b' Si Hb Hb' TY. destruct (bus_row _ _ Si Hb') as (k & x0 & y & Hk & Hx & Hy & M & A & E1 & E2).
    assert (x0 = b) by congruence. subst x0. rewrite A. rewrite <- (E1 VA) by discriminate.
    apply (al_reference _ _ _ _ _ _ _ _ _ _ _ _ _ _ _ _ _ _ LIN k y Hy). rewrite E1 by discriminate. auto.
  - intros j g Sj Hg. destruct (gen_row _ _ Sj Hg) as (k & x0 & y & n & b & Hk & Hx & Hy & P1 & Q1 & _ & _ & _ & E2).
    destruct (al_active _ _ _ _ _ _ _ _ _ _ _ _ _ _ _ _ _ _ LIN k y Hy) as (O1 & O2).
    destruct (al_reactive _ _ _ _ _ _ _ _ _ _ _ _ _ _ _ _ _ _ LIN k y Hy) as (O3 & O4).
    rewrite (E2 PMIN), (E2 PMAX), (E2 QMIN), (E2 QMAX) by (cbn; intuition discriminate). rewrite P1, Q1.
    split; [apply (excess_scale _ _ _ _ HBpos O1)|split; [apply (excess_scale _ _ _ _ HBpos O2)|
      split; [apply (excess_scale _ _ _ _ HBpos O3)|apply (excess_scale _ _ _ _ HBpos O4)]]]; field; auto.
  - intros j g Sj Hg. destruct (gen_row _ _ Sj Hg) as (k & x0 & y & n & b & Hk & Hx & Hy & P1 & Q1 & _ & _ & _ & E2).
    unfold cuts_upper, cuts_lower, has_curve, over_upper, under_lower.
    rewrite (E2 PC1), (E2 PC2), (E2 QC1MAX), (E2 QC2MAX), (E2 QC1MIN), (E2 QC2MIN), (E2 QMAX), (E2 QMIN), (E2 PMAX)
      by (cbn; intuition discriminate). rewrite P1, Q1.
    split; intros C.
    + refine (excess_scale _ _ _ _ HBpos (al_upper _ _ _ _ _ _ _ _ _ _ _ _ _ _ _ _ _ _ LIN k y Hy C) _).
      unfold over_upper. field. auto.
    + refine (excess_scale _ _ _ _ HBpos (al_lower _ _ _ _ _ _ _ _ _ _ _ _ _ _ _ _ _ _ LIN k y Hy C) _).
      unfold under_lower. field. auto.
  - intros j g Sj Hg VL. destruct (gen_row _ _ Sj Hg) as (k & x0 & y & n & b & Hk & Hx & Hy & P1 & Q1 & _ & _ & _ & E2).
    unfold var_load, is_load, pf_angle, pf_limit in *.
    rewrite ?(E2 PMIN), ?(E2 QMIN), ?(E2 QMAX), ?(E2 PMAX) in * by (cbn; intuition discriminate). rewrite P1, Q1.
    refine (equal_scale_pos _ _ _ _ HBpos (al_load _ _ _ _ _ _ _ _ _ _ _ _ _ _ _ _ _ _ LIN k y Hy VL) _).
    unfold off_line, pf_angle, pf_limit. ring.
  - intros j g Sj Hg. destruct (gen_row _ _ Sj Hg) as (k & x0 & y & n & b & Hk & Hx & Hy & _ & _ & _ & BO & VG_ & _). eauto.
  - intros j g Sj Hg. apply (if_sl _ _ _ _ _ _ IF) in Sj. apply In_nth_error in Sj as (k & Hk).
    destruct (nth_error_lt branch' k) as [g' Hg']; [rewrite (ca_br_len _ _ _ _ _ _ _ _ _ CAR); eapply nth_error_some_lt; eauto|].
    destruct (ca_br _ _ _ _ _ _ _ _ _ CAR _ _ _ Hk Hg')
      as (x0 & y & a & zf & zt & nf & nt & Hx & Hy & Ha & Zf & Sf & Nf & Zt & Stt & Nt & Ef & Et & ON & E1 & E2).
    assert (a = g) by congruence. subst a. destruct (HL _ _ _ Hy Hg') as (F1 & F2 & KP).
    assert (KK : forall c, c <> F_BUS -> c <> T_BUS -> ~ In c ac_lc -> cell g c = cell y c).
    { intros c N1 N2 N3. rewrite (E2 c N1 N2). auto. }
    rewrite <- (E2 PF), <- (E2 QF) in F1 by discriminate. rewrite <- (E2 PT), <- (E2 QT) in F2 by discriminate.
    destruct (end_ok F_BUS nf zf g) as (bf & Bf & _ & Af & Vf); [rewrite Ef; apply nth_error_cell; auto|auto|].
    destruct (end_ok T_BUS nt zt g) as (bt & Bt & _ & At & Vt); [rewrite Et; apply nth_error_cell; auto|auto|].
    pose proof (ofN_no y F_BUS nf Nf) as EF. pose proof (ofN_no y T_BUS nt Nt) as ET. rewrite EF in F1. rewrite ET in F2.
    destruct EC as (_ & _ & EC'). destruct (EC' k y Hy) as (PI & _).
    assert (cell y BR_STATUS = 1%K) as ON'.
    { rewrite (E1 BR_STATUS) by discriminate. rewrite (nth_error_cell _ _ _ ON). apply fofZ_1. }
    specialize (PI ON'). rewrite EF, ET, <- Vf, <- Vt in PI.
    exists bf, bt, (nth k If 0%K), (nth k It 0%K). split; auto. split; auto.
    split. { unfold pi_circuit, turns, tap_ratio in *.
             rewrite (KK BR_R), (KK BR_X), (KK BR_B), (KK TAP), (KK SHIFT) by (cbn; intuition discriminate). exact PI. }
    rewrite Vf, Vt. split; auto. split; auto. split.
    + intros FL. assert (flow_limited y) as FL'.
      { unfold flow_limited in *. rewrite (KK RATE_A) in FL by (cbn; intuition discriminate). exact FL. }
      rewrite (KK RATE_A) by (cbn; intuition discriminate).
      pose proof (an_flow _ _ _ _ _ _ _ _ _ _ _ NET k y Hy FL') as H. cbv zeta in H. destruct H as (L1 & L2).
      rewrite EF in L1. rewrite ET in L2. apply cx_parts in F1 as (P1 & Q1). apply cx_parts in F2 as (P2 & Q2).
      pose proof (mul_pos _ _ HBpos HBpos) as BB.
      split; [refine (excess_scale _ _ _ _ BB L1 _)|refine (excess_scale _ _ _ _ BB L2 _)];
        rewrite ?P1, ?Q1, ?P2, ?Q2; unfold loading_sq, flow_sq, nrm2; destruct lim; cbn; field; auto.
    + cbv zeta. intros NI HA. rewrite Af, At. assert (angle_limited y) as HA'.
      { unfold angle_limited in *. rewrite (KK ANGMIN), (KK ANGMAX) in HA by (cbn; intuition discriminate). exact HA. }
      rewrite (KK ANGMIN), (KK ANGMAX) by (cbn; intuition discriminate).
      pose proof (al_angles _ _ _ _ _ _ _ _ _ _ _ _ _ _ _ _ _ _ LIN NI y (nth_error_In _ _ Hy) HA') as H.
      unfold angle_diff in H. rewrite EF, ET in H. exact H.
Qed.
End Transfer.
