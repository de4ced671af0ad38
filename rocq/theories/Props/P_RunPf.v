(** C80, C81: a whole power flow run, from the tables of a loaded case to the reported tables. *)
From Coq Require Import Permutation Reals Lra.
From Verif Require Import Lib.ListFacts Lib.QcFacts Model.RunPf Spec.RunSpec Spec.PfSpec Proofs.SparseFacts
  Proofs.NetworkA Proofs.Ext2intB Proofs.RunPfA Proofs.RunPfB Proofs.AcPfC Proofs.PfsolnC Proofs.NetworkE Proofs.FldFacts
  Props.P_Network Props.P_Ybus Props.P_AcPf.
Local Open Scope nat_scope.

Section Theorems.
Context {K : Type} {F : Fld K}.
Add Field KF : (@f_ok K F).
Variable argsort : list Z -> list nat.
Variables (cis : K -> cpx K) (cabs cang : cpx K -> K).
Variables (solve : list (list K) -> list K -> result (list K))
          (splu : list (list K) -> result (list K -> result (list K))).
Hypothesis Has : argsort_spec argsort.

(** ** only result columns change in the tables of the solvers *)
Lemma dc_keeps baseMVA bus gen branch bus' gen' branch' : solver_exact solve -> NetSpec.types_ok bus ->
  runpf_dc solve baseMVA bus gen branch = Ok (bus', gen', branch') ->
  keeps [VM; VA] bus bus' /\ keeps [PG; QG] gen gen' /\ keeps [PF; QF; PT; QT] branch branch'.
Proof.
  intros SE TY H. destruct (runpf_dc_ok _ _ _ _ _ _ _ _ SE TY H) as (Va & ref & pv & pq & rg & HB & _).
  destruct (C17_buses _ _ _ _ _ _ _ _ _ _ _ SE TY H HB) as (LB & B).
  destruct (C17_branches _ _ _ _ _ _ _ _ SE TY H) as (LL & L).
  destruct (C17_generators _ _ _ _ _ _ _ _ _ _ _ SE TY H HB) as (LG & G).
  split; [|split]; (split; [assumption|]); intros i r Hr.
  - destruct (nth_error_lt bus' i) as [b Hb]; [rewrite LB; eapply nth_error_some_lt; eauto|].
    destruct (B _ _ _ Hr Hb) as (L1 & _ & C & _). exists b. split; auto. split; auto. intros j N.
    apply C; intros ->; apply N; cbn; auto.
  - destruct (nth_error_lt gen' i) as [g Hg]; [rewrite LG; eapply nth_error_some_lt; eauto|].
    destruct (G _ _ _ Hr Hg) as ((x & ->) & _). exists (upd r PG x). split; auto. split; [apply upd_length|].
    intros j N. apply upd_cell_other. intros <-. apply N. cbn. auto.
  - destruct (nth_error_lt branch' i) as [g Hg]; [rewrite LL; eapply nth_error_some_lt; eauto|].
    destruct (L _ _ _ Hr Hg) as (_ & _ & _ & _ & L1 & C). exists g. split; auto. split; auto. intros j N.
    apply C; intros ->; apply N; cbn; auto.
Qed.

Lemma ac_keeps alg tol max_it baseMVA bus gen branch bus' gen' branch' c : polar_ok cis cabs cang ->
  NetSpec.types_ok bus ->
  runpf_ac cis cabs cang solve splu alg tol max_it baseMVA bus gen branch = Ok (bus', gen', branch', c) ->
  keeps [VM; VA] bus bus' /\ keeps [PG; QG] gen gen' /\ keeps [PF; QF; PT; QT] branch branch'.
Proof.
  intros PO TY H. destruct (runpf_ac_ok _ _ _ _ _ _ _ _ _ _ _ _ _ _ _ _ H PO TY)
    as (ref & pv & pq & V0 & Y & Yf & Yt & S & V & HB & _ & YS & _ & _ & _ & _ & HP).
  pose proof (C15_partition _ _ _ _ _ HB TY) as PE.
  assert (square (length bus) Y) as SQ by (apply wf_fits; destruct YS; auto).
  assert (fits (length branch) (length bus) Yf) as SF by (apply wf_fits; destruct YS; auto).
  assert (fits (length branch) (length bus) Yt) as ST by (apply wf_fits; destruct YS; auto).
  assert (NoDup ref) as NR.
  { apply (NoDup_app_l _ (pv ++ pq)). eapply Permutation_NoDup; [apply Permutation_sym; exact PE|apply seq_NoDup]. }
  destruct (C22_buses _ _ _ _ _ _ _ _ _ _ _ _ _ _ HP SQ SF ST NR) as (LB & _ & B).
  destruct (C22_generators _ _ _ _ _ _ _ _ _ _ _ _ _ _ HP SQ SF ST NR) as (LG & G).
  destruct (C22_branches _ _ _ _ _ _ _ _ _ _ _ _ _ _ HP SQ SF ST NR) as (LL & L).
  split; [|split]; (split; [assumption|]); intros i r Hr.
  - destruct (B _ _ Hr) as (b & Hb & L1 & _ & _ & C). exists b. split; auto. split; auto. intros j N.
    apply C; intros ->; apply N; cbn; auto.
  - destruct (G _ _ Hr) as (b & Hb & L1 & _ & C & _). exists b. split; auto. split; auto. intros j N.
    apply C; intros ->; apply N; cbn; auto.
  - destruct (L _ _ Hr) as (b & Hb & L1 & C & _). exists b. split; auto. split; auto. intros j N.
    apply C; intros ->; apply N; cbn; auto.
Qed.

Section Run.
Variables (baseMVA : K) (p r : ppc_of K) (ok : bool).
Hypothesis W : wf_case p.
Hypothesis E : in_ext_state p.

(** ** C80: DC power flow *)
Section DC.
Hypothesis SE : solver_exact solve.
Hypothesis run : runpf argsort cis cabs cang solve splu DC baseMVA p = Ok (r, ok).

Lemma dc_all bus gen branch bus' gen' branch' c : NetSpec.types_ok bus ->
  solve_internal cis cabs cang solve splu DC baseMVA bus gen branch = Ok (bus', gen', branch', c) ->
  keeps [VM; VA] bus bus' /\ keeps [PG; QG] gen gen' /\ keeps [PF; QF; PT; QT] branch branch'.
Proof.
  intros TY H. cbn [solve_internal] in H. apply bind_ok in H as ([[b g] l] & H & Eq). injection Eq as <- <- <- <-.
  eapply dc_keeps; eauto.
Qed.

(** in the reported case, power generated at every bus that is not isolated is the load, the shunt, and what
    the reported flows carry away; generators and branches are counted by the bus numbers of the case *)
Theorem C80_balance : forall i b z, bus_in_service p i -> bus_at p z i -> nth_error (p_bus r) i = Some b ->
  (total_at GEN_BUS (fun g => cell g PG) (p_gen r) z - cell b PD - cell b GS)%K
  = (total_at F_BUS (fun g => cell g PF) (p_branch r) z + total_at T_BUS (fun g => cell g PT) (p_branch r) z)%K.
Proof.
  intros i b z IS BA Hb.
  destruct (run_report _ _ _ _ _ _ _ _ _ _ _ Has W E run dc_all)
    as (q & sb & bus' & gen' & branch' & _ & TY & HS & _ & SB & LB & _ & HB & HT).
  apply SB in IS. apply In_nth_error in IS as (k & Hk).
  destruct (nth_error_lt bus' k) as [b' Hb']; [rewrite LB; eapply nth_error_some_lt; eauto|].
  destruct (HB _ _ _ Hk Hb') as (b1 & Hb1 & C). assert (b1 = b) by congruence. subst b1.
  destruct (HT _ _ _ Hk BA) as (TG & _ & _ & _ & _ & TB).
  cbn [solve_internal] in HS. apply bind_ok in HS as ([[x y] w] & HS & Eq). injection Eq as -> -> -> <-.
  pose proof (C17_balance _ _ _ _ _ _ _ _ SE TY HS _ _ Hb') as BAL.
  rewrite TG by (cbn; auto). rewrite TB by (cbn; auto). rewrite !C by discriminate. exact BAL.
Qed.

(** nothing else changes *)
Theorem C80_reported : ok = true /\ reports p r.
Proof.
  destruct (run_report _ _ _ _ _ _ _ _ _ _ _ Has W E run dc_all)
    as (q & sb & bus' & gen' & branch' & _ & TY & HS & _ & SB & LB & R & _).
  split; auto. cbn [solve_internal] in HS. apply bind_ok in HS as ([[x y] w] & HS & Eq). congruence.
Qed.
End DC.

(** ** C81: AC power flow *)
Section AC.
Variables (alg : pf_alg) (tol : K) (max_it : nat).
Hypothesis polar : polar_ok cis cabs cang.
Hypothesis run : runpf argsort cis cabs cang solve splu (AC alg tol max_it) baseMVA p = Ok (r, ok).

Lemma ac_all bus gen branch bus' gen' branch' c : NetSpec.types_ok bus ->
  solve_internal cis cabs cang solve splu (AC alg tol max_it) baseMVA bus gen branch = Ok (bus', gen', branch', c) ->
  keeps [VM; VA] bus bus' /\ keeps [PG; QG] gen gen' /\ keeps [PF; QF; PT; QT] branch branch'.
Proof. intros TY H. exact (ac_keeps _ _ _ _ _ _ _ _ _ _ _ polar TY H). Qed.

Theorem C81_reported : reports p r.
Proof.
  destruct (run_report _ _ _ _ _ _ _ _ _ _ _ Has W E run ac_all)
    as (q & sb & bus' & gen' & branch' & _ & TY & HS & _ & SB & LB & R & _). exact R.
Qed.

(** active and reactive power left over at the bus numbered [z] according to the reported tables *)
Definition left_p (z : Z) (b : list K) : K :=
  (total_at GEN_BUS (fun g => cell g PG) (p_gen r) z - cell b PD - cell b GS * (cell b VM * cell b VM)
   - (total_at F_BUS (fun g => cell g PF) (p_branch r) z + total_at T_BUS (fun g => cell g PT) (p_branch r) z))%K.
Definition left_q (z : Z) (b : list K) : K :=
  (total_at GEN_BUS (fun g => cell g QG) (p_gen r) z - cell b QD + cell b BS * (cell b VM * cell b VM)
   - (total_at F_BUS (fun g => cell g QF) (p_branch r) z + total_at T_BUS (fun g => cell g QT) (p_branch r) z))%K.

(** after a successful run active power balances at every bus that is not isolated, to within the tolerance *)
Theorem C81_active : ok = true -> fltb 0%K baseMVA = true -> modulus cabs ->
  forall i b z, bus_in_service p i -> bus_at p z i -> nth_error (p_bus r) i = Some b ->
  left_p z b = 0%K \/ PfSpec.within (run_tol alg tol b * baseMVA)%K (left_p z b).
Proof.
  intros OK BP MO i b z IS BA Hb.
  destruct (run_report _ _ _ _ _ _ _ _ _ _ _ Has W E run ac_all)
    as (q & sb & bus' & gen' & branch' & _ & TY & HS & _ & SB & LB & _ & HB & HT).
  apply SB in IS. apply In_nth_error in IS as (k & Hk).
  destruct (nth_error_lt bus' k) as [b' Hb']; [rewrite LB; eapply nth_error_some_lt; eauto|].
  destruct (HB _ _ _ Hk Hb') as (b1 & Hb1 & C). assert (b1 = b) by congruence. subst b1.
  destruct (HT _ _ _ Hk BA) as (TG & _ & _ & _ & _ & TB).
  destruct (C49_active_balance _ _ _ _ _ _ _ _ _ _ _ _ _ _ _ _ HS polar TY k b' OK BP MO Hb') as (_ & BAL).
  assert (left_p z b = surplus_p gen' branch' k b') as ->.
  { unfold left_p, surplus_p. rewrite TG by (cbn; auto). rewrite TB by (cbn; auto).
    rewrite !C by discriminate. reflexivity. }
  assert (run_tol alg tol b = run_tol alg tol b') as ->; auto.
  unfold run_tol. rewrite C by discriminate. reflexivity.
Qed.

(** reactive power balances to within the tolerance at buses without generator; at the others it balances
    exactly or up to the share of EPS that the division among the generators leaves out *)
Theorem C81_reactive : ok = true -> fltb 0%K baseMVA = true -> modulus cabs ->
  forall i b z, bus_in_service p i -> bus_at p z i -> nth_error (p_bus r) i = Some b ->
  ((~ exists g, serves p z g) -> PfSpec.within (run_tol alg tol b * baseMVA)%K (left_q z b)) /\
  ((exists g, serves p z g) -> forall idx, lists_exactly idx (gen_in_service p) ->
   let lo := served p idx (fun g => cell g QMIN) z in
   let hi := served p idx (fun g => cell g QMAX) z in
   left_q z b = 0%K \/
   exists need, left_q z b = (- ((need - lo) * EPS / (hi - lo + EPS)))%K /\
                total_at GEN_BUS (fun g => cell g QG) (p_gen r) z = (need + left_q z b)%K).
Proof.
  intros OK BP MO i b z IS BA Hb.
  destruct (run_report _ _ _ _ _ _ _ _ _ _ _ Has W E run ac_all)
    as (q & sb & bus' & gen' & branch' & _ & TY & HS & _ & SB & LB & _ & HB & HT).
  apply SB in IS. apply In_nth_error in IS as (k & Hk).
  destruct (nth_error_lt bus' k) as [b' Hb']; [rewrite LB; eapply nth_error_some_lt; eauto|].
  destruct (HB _ _ _ Hk Hb') as (b1 & Hb1 & C). assert (b1 = b) by congruence. subst b1.
  destruct (HT _ _ _ Hk BA) as (TG & G1 & G2 & TS & _ & TB).
  destruct (C49_reactive_balance _ _ _ _ _ _ _ _ _ _ _ _ _ _ _ _ HS polar TY k b' OK BP MO Hb') as (BG & BN).
  assert (left_q z b = surplus_q gen' branch' k b') as ->.
  { unfold left_q, surplus_q. rewrite TG by (cbn; auto). rewrite TB by (cbn; auto).
    rewrite !C by discriminate. reflexivity. }
  assert (run_tol alg tol b = run_tol alg tol b') as ->.
  { unfold run_tol. rewrite C by discriminate. reflexivity. }
  split.
  - intros N. apply BN. intros (g & Ig & Sg & Bg). destruct (G1 _ Ig Sg Bg) as (g0 & S0 & _). eauto.
  - intros (g0 & S0) idx IX. cbv zeta. rewrite TG by (cbn; auto).
    rewrite <- !(TS idx _ IX) by discriminate. apply BG. eapply G2; eauto.
Qed.

(** at a PV or reference bus with a generator in service the reported magnitude is the set-point of one *)
Theorem C81_magnitude : forall i b b0 z t g, bus_in_service p i -> bus_at p z i ->
  nth_error (p_bus p) i = Some b0 -> nth_error b0 BUS_TYPE = Some (ofZ t) -> t = 2%Z \/ t = 3%Z ->
  serves p z g -> nth_error (p_bus r) i = Some b ->
  exists g', serves p z g' /\ cell b VM = fabs (cell g' VG).
Proof.
  intros i b b0 z t g IS BA Hb0 Ht T23 SG Hb.
  destruct (run_report _ _ _ _ _ _ _ _ _ _ _ Has W E run ac_all)
    as (q & sb & bus' & gen' & branch' & _ & TY & HS & _ & SB & LB & _ & HB & HT).
  apply SB in IS. apply In_nth_error in IS as (k & Hk).
  destruct (nth_error_lt bus' k) as [b' Hb']; [rewrite LB; eapply nth_error_some_lt; eauto|].
  destruct (HB _ _ _ Hk Hb') as (b1 & Hb1 & C). assert (b1 = b) by congruence. subst b1.
  destruct (HT _ _ _ Hk BA) as (_ & G1 & G2 & _ & TT & _).
  destruct (runpf_ac_ok _ _ _ _ _ _ _ _ _ _ _ _ _ _ _ _ HS polar TY)
    as (ref & pv & pq & _ & _ & _ & _ & _ & _ & HBT & _).
  assert (has_type (p_bus q) k t) as HTY. { apply TT. exists b0. split; auto. apply nth_error_cell. exact Ht. }
  assert (In k (ref ++ pv)) as I.
  { pose proof (C15_partition _ _ _ _ _ HBT TY) as PE. destruct (C15_members _ _ _ _ _ HBT) as (MQ & _).
    assert (k < length (p_bus q)) as Lk. { destruct HTY as (x & Hx & _). eapply nth_error_some_lt; eauto. }
    assert (In k (ref ++ pv ++ pq)) as I.
    { apply (Permutation_in k (Permutation_sym PE)). apply in_seq. lia. }
    rewrite app_assoc in I. apply in_app_or in I as [I|I]; auto. exfalso. apply MQ in I as [(x & Hx & X)|(_ & N)].
    - destruct HTY as (y & Hy & Y). assert (y = x) by congruence. subst y. rewrite X in Y.
      apply fofZ_inj in Y. lia.
    - apply N. eapply G2; eauto. }
  destruct (C50_magnitude _ _ _ _ _ _ _ _ _ _ _ _ _ _ _ _ HS polar TY ref pv pq k HBT I)
    as (m & gi & b2 & (Hm & Sm & Bm & _) & Hb2 & EV). assert (b2 = b') by congruence. subst b2.
  destruct (G1 gi (nth_error_In _ _ Hm) Sm Bm) as (g' & S' & C'). exists g'. split; auto.
  rewrite C by discriminate. rewrite EV, C'; auto. discriminate.
Qed.
End AC.
End Run.
End Theorems.

(** ** Examples *)

(** buses 10 (reference), 3 (isolated), 7 (load and shunt), 2 (PV); generators out of bus order, one off,
    one at the isolated bus; one branch off, one to the isolated bus; no columns for the flows yet *)
Definition zr (l : list Z) : list Qc := map ofZ l.
Definition xb n t pd gs : list Qc := zr [n; t; pd; 0; gs; 0; 1; 1; 5; 1; 1; 1; 1]%Z.
Definition xg n pg st : list Qc := zr [n; pg; 9; 10; -10; 1; 100; st; 500; 0]%Z.
Definition xl f t (x : Qc) st : list Qc := zr [f; t; 0]%Z ++ x :: zr [0; 0; 0; 0; 0; 0; st; 0; 0]%Z.
Definition xp : ppc_of Qc :=
  {| p_bus := [xb 10 3 0 0; xb 3 4 11 0; xb 7 1 90 5; xb 2 2 0 0];
     p_gen := [xg 2 40 1; xg 3 33 1; xg 10 10 1; xg 10 77 0; xg 10 3 1];
     p_branch := [xl 10 7 (qc 1 10) 1; xl 7 3 (qc 1 10) 1; xl 7 2 (qc 1 5) 1; xl 10 2 (qc 1 4) 1; xl 2 10 (qc 1 4) 0];
     p_gencost := None; p_areas := None; p_A := None; p_N := None; p_order := None |}.

Ltac xrow := repeat match goal with
  | H : nth_error ?l ?i = Some _ |- _ =>
      is_var i; destruct i; cbn [nth_error xp p_bus] in H; try discriminate H
  end.
Ltac xsub := repeat match goal with
  | H : Some ?x = Some ?r |- _ => is_var r; assert (r = x) by congruence; clear H; subst r end.
Lemma some_zc a b : Some (ofZ a : Qc) = Some (ofZ b) -> a = b.
Proof. intros H. apply (@ofZ_some Qc _) in H. exact H. Qed.

Lemma xp_wf : wf_case xp.
Proof.
  constructor; try discriminate.
  - exists 13; split; [lia|]. repeat constructor.
  - exists 10; split; [lia|]. repeat constructor.
  - exists 13; split; [lia|]. repeat constructor.
  - intros i r H. xrow; xsub; eexists; (split; [|reflexivity]); lia.
  - intros z i j (r & H & Hc) (r' & H' & Hc'). cbn [xp p_bus] in H, H'.
    xrow; auto; exfalso; xsub; unfold xb, BUS_I in Hc, Hc'; cbn [nth_error zr map] in Hc, Hc';
      apply some_zc in Hc; apply some_zc in Hc'; lia.
  - intros i r H. xrow; xsub; eexists; (split; [|reflexivity]); lia.
  - exists 0. eexists. split; [reflexivity|]. intros C. cbn [nth_error zr map xb BUS_TYPE] in C. apply some_zc in C; lia.
  - intros r Hr. repeat (destruct Hr as [<-|Hr]); [..|destruct Hr];
      (eexists; split; [reflexivity|]);
      first [exists 0; eexists; split; reflexivity|exists 1; eexists; split; reflexivity
            |exists 2; eexists; split; reflexivity|exists 3; eexists; split; reflexivity].
  - intros r Hr. repeat (destruct Hr as [<-|Hr]); [..|destruct Hr]; split;
      (eexists; split; [reflexivity|]);
      first [exists 0; eexists; split; reflexivity|exists 1; eexists; split; reflexivity
            |exists 2; eexists; split; reflexivity|exists 3; eexists; split; reflexivity].
  - intros r Hr. repeat (destruct Hr as [<-|Hr]); [..|destruct Hr]; (left; reflexivity) || (right; reflexivity).
Qed.

Definition xp_dc := runpf argsort_stable cis_q (fun z => re z) (fun _ => zc 0) (checked cramer2)
  (fun A => Ok (checked cramer2 A)) DC (zc 100) xp.
(** 95 MW of load and shunt in service: 40 at bus 2, the rest at bus 10; the idle unit, the one at the isolated
    bus and the open branches report zero; the isolated bus keeps its row *)
Example C80_example :
  match xp_dc with
  | Ok (r, true) =>
      (length (nth 0 (p_branch r) []) =? 17)
      && qc_eqb (total_at GEN_BUS (fun g => cell g PG) (p_gen r) 10) (zc 55)
      && qc_eqb (total_at GEN_BUS (fun g => cell g PG) (p_gen r) 2) (zc 40)
      && qc_eqb (total_at F_BUS (fun g => cell g PF) (p_branch r) 7
                 + total_at T_BUS (fun g => cell g PT) (p_branch r) 7)%K (zc (-95))
      && qc_eqb (cell (nth 1 (p_gen r) []) PG) (zc 0) && qc_eqb (cell (nth 3 (p_gen r) []) PG) (zc 0)
      && qc_eqb (cell (nth 2 (p_gen r) []) PG) (zc 52) && qc_eqb (cell (nth 4 (p_gen r) []) PG) (zc 3)
      && qc_eqb (cell (nth 4 (p_branch r) []) PF) (zc 0) && qc_eqb (cell (nth 1 (p_bus r) []) VA) (zc 5)
      && negb (qc_eqb (cell (nth 3 (p_branch r) []) PF) (zc 0))
  | _ => false
  end = true.
Proof. vm_compute. reflexivity. Qed.

(** the same with resistances only and no PV bus, by Newton's method *)
Definition yl f t (x : Qc) st : list Qc := zr [f; t]%Z ++ x :: zr [0; 0; 0; 0; 0; 0; 0; st; 0; 0]%Z.
Definition yb n t pd : list Qc := zr [n; t; pd; 0; 0; 0; 1; 1; 0; 1; 1; 1; 1]%Z.
Definition yp : ppc_of Qc :=
  {| p_bus := [xb 3 4 11 0; yb 7 1 10; yb 10 3 0];
     p_gen := [xg 3 33 1; xg 10 10 1; xg 10 77 0; xg 10 3 1];
     p_branch := [yl 7 3 (qc 1 10) 1; yl 10 7 (qc 1 10) 1; yl 10 7 (qc 1 10) 0];
     p_gencost := None; p_areas := None; p_A := None; p_N := None; p_order := None |}.
Definition yp_ac := runpf argsort_stable cis_q (fun z => re z) (fun _ => zc 0) (checked cramer2)
  (fun A => Ok (checked cramer2 A)) (AC NR (qc 1 100) 10) (zc 100) yp.
Example C81_example :
  match yp_ac with
  | Ok (r, true) =>
      qc_eqb (left_p r 10 (nth 2 (p_bus r) [])) (zc 0)
      && qc_ltb (fabs (left_p r 7 (nth 1 (p_bus r) []))) (zc 1)
      && qc_eqb (total_at GEN_BUS (fun g => cell g PG) (p_gen r) 10) (zc 10)
      && qc_eqb (cell (nth 0 (p_gen r) []) PG) (zc 0) && qc_eqb (cell (nth 2 (p_gen r) []) PG) (zc 0)
      && qc_eqb (cell (nth 2 (p_branch r) []) PF) (zc 0) && qc_eqb (cell (nth 0 (p_bus r) []) VA) (zc 5)
      && qc_ltb (cell (nth 1 (p_bus r) []) VM) (zc 1)
  | _ => false
  end = true.
Proof. vm_compute. reflexivity. Qed.

(** the oracles asked for exist: over the reals [polar_R], [modulus_R]; an exact solver is [checked_exact] *)
Print Assumptions C80_balance.
Print Assumptions C80_reported.
Print Assumptions C81_reported.
Print Assumptions C81_active.
Print Assumptions C81_reactive.
Print Assumptions C81_magnitude.
