(** C103: no schedule of the case is much cheaper than the result of a DC optimal power flow run. *)
From Verif Require Import Proofs.Ext2intA Lib.ListFacts Lib.QcFacts Lib.GaussQ Model.RunOpf Spec.ScheduleSpec Spec.PipsRun
  Proofs.SparseFacts Proofs.FldFacts Proofs.OrdFacts Proofs.PfsolnA Proofs.TableEdit Proofs.OpfLinA Proofs.DcOpfA
  Proofs.DcOpfC Proofs.DcOpfD Proofs.DcOpfE Proofs.PipsI Proofs.Ext2intB Proofs.RunPfA Proofs.RunPfB Proofs.RunOpfA Proofs.RunOpfB
  Proofs.RunOpfC Proofs.RunOpfD Proofs.Schedule Props.P_DcOpf Props.P_DcOpt Props.P_RunOpf.
From Coq Require Import Permutation.
Local Open Scope nat_scope.

Section Theorems.
Context {K : Type} {F : Fld K}.
Add Field KF : (@f_ok K F).
Variable argsort : list Z -> list nat.
Hypothesis Has : argsort_spec argsort.
Variable solve : smat K -> list K -> result (option (list K)).
Variable ln : K -> K.
Variables (ign : bool) (opts : dcopt (K := K)) (B : K) (p r : ppc_of K) (f : K) (ok : bool).
Hypothesis W : wf_case p.
Hypothesis E : in_ext_state p.
Hypothesis RUN : dc_opf argsort solve ln ign opts B p = Ok (r, f, ok).
Hypothesis HB : lt 0%K B.
(** limits in order, and equal or clearly apart *)
Hypothesis OUT : forall j g, gen_in_service p j -> nth_error (p_gen p) j = Some g -> le (cell g PMIN) (cell g PMAX).
Hypothesis ANG : ign = false -> forall j g, branch_in_service p j -> nth_error (p_branch p) j = Some g ->
  cell g ANGMIN <> 0%K -> cell g ANGMAX <> 0%K -> le (degrees (cell g ANGMIN)) (degrees (cell g ANGMAX)).
Hypothesis OUTC : forall j g, gen_in_service p j -> nth_error (p_gen p) j = Some g ->
  clear_cut (EFin (cell g PMIN / B)%K) (EFin (cell g PMAX / B)%K).
Hypothesis ANGC : ign = false -> forall j g, branch_in_service p j -> nth_error (p_branch p) j = Some g ->
  cell g ANGMIN <> 0%K -> cell g ANGMAX <> 0%K -> clear_cut (EFin (degrees (cell g ANGMIN))) (EFin (degrees (cell g ANGMAX))).
(** costs: piecewise linear, linear or quadratic curved upwards *)
Variable gencost : list (list K).
Hypothesis GCO : p_gencost p = Some gencost.
Hypothesis COV : forall j, gen_in_service p j -> cost_is 1 (nth j gencost []) = true \/ lin_or_quad (nth j gencost []).
Hypothesis RIS : forall j, gen_in_service p j -> quad_rising (nth j gencost []).
Notation p1 := (opf_columns p).

Lemma clear_in q sb sg sl sa bus' gen' br : internal_form p1 q sb sg sl sa -> carried p1 q bus' gen' br r sb sg sl ->
  limits_clear ign B (p_bus q) (p_gen q) (p_branch q) None [] [] [] [].
Proof.
  intros IF CAR. split; [|split; [|split; [discriminate|]]].
  - intros g I. apply In_nth_error in I as (k & Hg).
    destruct (nth_error_lt sg k) as [j Hj]; [rewrite <- (if_gen_len _ _ _ _ _ _ IF); eapply nth_error_some_lt; eauto|].
    destruct (sch_gen p q r sb sg sl sa bus' gen' br W IF CAR _ _ Hj) as (x2 & y2 & a2 & n2 & g2 & G1 & G2 & _ & _ & G3 & G4 & Sj & KP & _).
    assert (y2 = g) by congruence. subst y2. rewrite (KP PMIN), (KP PMAX) by discriminate. apply (OUTC j); auto.
  - intros NI l I AL N1 N2. apply In_nth_error in I as (k & Hl).
    destruct (nth_error_lt sl k) as [j Hj]; [rewrite <- (if_br_len _ _ _ _ _ _ IF); eapply nth_error_some_lt; eauto|].
    destruct (sch_br p q r sb sg sl sa bus' gen' br W IF CAR _ _ Hj) as (x2 & y2 & nf & nt & G1 & G2 & _ & _ & _ & _ & Sj & _ & KP).
    assert (y2 = l) by congruence. subst y2. rewrite (KP ANGMIN) in * by discriminate. rewrite (KP ANGMAX) in * by discriminate.
    apply (ANGC NI j); auto.
  - intros k Hk. cbn in Hk. lia.
Qed.

(** on success: the reported cost is at most that of any schedule that meets all loads and limits, plus what the
    tolerances of the solver allow *)
Theorem C103_near_optimal : ok = true -> exists q gc o z x0 HH CC C0 sp s0 s k yr,
  stages argsort solve ln ign opts B p q gc o z /\
  dc_start o (p_bus q) = Ok x0 /\ dc_objective B o (no_user_costs (d_nx o)) = Ok (HH, CC, C0) /\
  split_bounds (d_nx o) (Some (d_A o)) (d_l o) (d_u o) (d_xmin o) (d_xmax o) = Ok sp /\
  start ln (qp HH CC) (pips_options opts) sp x0 = Ok s0 /\
  visited solve ln (qp HH CC) (pips_options opts) sp (d_nx o) s0 k s /\ z_x z = t_x s /\
  (forall gens, lists_exactly gens (gen_in_service p) ->
     f = schedule_cost gens (fun j => cell (nth j (p_gen r) []) PG) gencost yr) /\
  forall xn zn lam_n mu_n, is_norm (t_x s) xn -> is_norm (t_z s) zn -> is_norm (t_lam s) lam_n -> is_norm (t_mu s) mu_n ->
  exists a b, (a = xn \/ a = zn) /\ (b = lam_n \/ b = mu_n) /\
  forall buses gens brs th pg y, lists_exactly buses (bus_in_service p) -> schedule ign B p gens brs th pg ->
    above_segments gens pg gencost y ->
    le f (schedule_cost gens pg gencost y
          + (p_gradtol opts * (1 + b) * distance_from B p gens th pg gencost y r buses yr
             + o_feastol (pips_options opts) * (1 + a) * lsum fabs (t_lam s)
             + p_comptol opts * (1 + xn)
             + lsum (fun i => nth i (t_mu s) 0 * fabs (nth i (e_h (t_e s)) 0 + nth i (t_z s) 0)) (seq 0 (length (t_mu s)))))%K.
Proof.
  intros OKT.
  destruct (parts argsort Has solve ln ign opts B p r f ok W E RUN)
    as (q & gc & o & z & sb & sg & sl & sa & br & ST & Hf & Hok & IF & RI & CAR & GT & LT & TB & TG & TL & TM).
  pose proof (ordered_in ign B p W HB OUT ANG _ _ _ _ _ IF) as LO. pose proof ST as (S1 & S2 & S3 & S4).
  pose proof (clear_in _ _ _ _ _ _ _ _ IF CAR) as LC.
  assert (shaped 0 (d_nx o) (k_N (no_user_costs (K := K) (d_nx o)))) as WN by (split; [reflexivity|]; split; [reflexivity|constructor]).
  assert (shaped 0 0 (k_H (no_user_costs (K := K) (d_nx o)))) as WH by (split; [reflexivity|]; split; [reflexivity|constructor]).
  assert (sym_mat (k_H (no_user_costs (K := K) (d_nx o)))) as SH by (intros ? ?; reflexivity).
  assert (forall i, i < length (p_gen q) -> exists j, gen_in_service p j /\ nth i gc [] = nth j gencost []) as GR.
  { intros i Hi. destruct (nth_error_lt sg i) as [j Hj]; [rewrite <- (if_gen_len _ _ _ _ _ _ IF); auto|]. exists j.
    split; [|exact (cost_row p1 q sb sg sl sa gencost gc IF GCO S2 i j Hj)].
    apply gen_service_wide; auto. apply (if_sg _ _ _ _ _ _ IF). eapply nth_error_In; eauto. }
  assert (covered (p_gen q) gc) as CV by (intros i Hi; destruct (GR i Hi) as (j & Sj & ->); auto).
  assert (unshifted (no_user_costs (K := K) (d_nx o))) as US by constructor.
  destruct (C58_near_optimal solve ln ign B _ _ _ gc no_user o ltac:(discriminate) S3 (no_user_costs (d_nx o)) WN WH SH opts z CV US)
    as (x0 & HH & CC & C0 & sp & s0 & s & k & P1 & P2 & P3 & P4 & P5 & P6 & P7); auto.
  { intros i Hi; destruct (GR i Hi) as (j & Sj & ->); auto. }
  { intros w Lw. cbn in Lw. destruct w; [|discriminate Lw]. unfold qform. cbn. 
    match goal with |- le _ ?a => replace a with (0%K : K) by ring end. apply le_refl. }
  { congruence. }
  destruct (C30_reported solve ln ign B _ _ _ gc no_user o ltac:(discriminate) S3 (no_user_costs (d_nx o)) WN WH SH opts z CV US LO S4) as (LX & FC).
  assert (f = gen_cost B (length (p_bus q)) (length (p_gen q)) gc (z_x z)) as HF.
  { rewrite Hf, FC. unfold user_cost, qform. cbn. ring. }
  assert (HB' : forall k y b, nth_error (p_bus q) k = Some y -> nth_error (z_bus z) k = Some b -> degrees (cell b VA) = nth k (z_x z) 0%K).
  { intros k' y b Hy Hb. destruct (TB _ _ _ Hy Hb) as (V & _). auto. }
  assert (HG' : forall k y g, nth_error (p_gen q) k = Some y -> nth_error (z_gen z) k = Some g -> cell g PG = (B * output (length (p_bus q)) (z_x z) k)%K).
  { intros k' y b Hy Hb. destruct (TG _ _ _ Hy Hb) as (V & _). auto. }
  exists q, gc, o, z, x0, HH, CC, C0, sp, s0, s, k, (ext_y q sg (z_x z) gc). do 7 (split; [auto|]). split.
  { intros gens LG. rewrite HF. exact (reported_cost p q r sb sg sl sa _ _ _ B gencost gc W IF CAR GCO S2 gens (z_x z) HG' LG). }
  intros xn zn lam_n mu_n N1 N2 N3 N4. destruct (P7 xn zn lam_n mu_n N1 N2 N3 N4) as (a & b & Ha & Hb & T). exists a, b. do 2 (split; [auto|]).
  intros buses gens brs th pg y LB SC AB.
  destruct (set_ok ign B _ _ _ gc no_user o ltac:(discriminate) S3) as (Bb & Pbi & S).
  pose proof (nx_eq _ _ _ _ _ _ _ _ _ _ S) as NX. cbn [no_user u_A user_vars] in NX. rewrite Nat.add_0_r in NX.
  destruct (v_len p q sb sg sl sa B gc IF th pg y) as (_ & _ & LV).
  specialize (T (v_all p q sb sg B gc th pg y)).
  pose proof (schedule_point p q r sb sg sl sa _ _ _ ign B gencost gc W IF CAR HB GCO S2 gens brs th pg y SC AB) as DP.
  specialize (T ltac:(congruence) DP).
  rewrite (schedule_gen_cost p q sb sg sl sa ign B gencost gc W IF HB GCO S2 gens brs th pg y SC) in T.
  rewrite NX in T.
  rewrite (schedule_apart p q r sb sg sl sa _ _ _ ign B gencost gc W IF CAR HB GCO S2 gens brs th pg y SC (z_x z) HB' HG' buses LB) in T.
  rewrite Hf.
  match type of T with le _ (?u + ?v + ?w)%K => assert (v = 0%K) as V0 by (unfold user_cost, qform; cbn; ring); rewrite V0 in T;
    match goal with |- le _ ?g => replace g with (u + 0 + w)%K by ring; exact T end end.
Qed.

Lemma add_assoc3 (f0 a b c d e : K) : le f0 (a + (b + c + d + e))%K -> le f0 (a + (b + (c + d + e)))%K.
Proof. intros H. match goal with |- le _ ?g => match type of H with le _ ?h => replace g with h by ring end end. exact H. Qed.
End Theorems.

(** ** Example *)

(** buses 20 (reference), 5 (isolated), 7 with a load of 50 MW; generators at 7 for 30 an MWh, at 20 with cost
    p^2 + 10 p + 7; a line to the isolated bus and an open line *)
Definition wgc : list (list Qc) := [zs [2; 0; 0; 2; 30; 6; 0]%Z; zs [2; 0; 0; 3; 1; 10; 7]%Z].
Definition wp : ppc_of Qc :=
  {| p_bus := [eb 20 3 0; eb 5 4 11; eb 7 1 50];
     p_gen := [eg 7 1; eg 20 1];
     p_branch := [el 7 5 1; el 20 7 1; el 20 7 0];
     p_gencost := Some wgc; p_areas := None; p_A := None; p_N := None; p_order := None |}.
(** a linear solver that rounds *)
Definition wround (a : Qc) : Qc := Q2Qc (Qmake (Z.div (Qnum (this a) * 1000) (Zpos (Qden (this a)))) 1000).
Definition wsolve M b :=
  match solveQ (mapm wround M) (map wround b) with Ok (Some v) => Ok (Some (map wround v)) | e => e end.
Definition wrun := dc_opf argsort_stable wsolve (fun a => a) false (ex_p 2) (zc 100) wp.
Definition wshow :=
  match wrun with
  | Ok (r, f, ok) => (ok, mil f, map (fun b => (mil (cell b VA), mil (cell b LAM_P))) (p_bus r), map (fun g => mil (cell g PG)) (p_gen r))
  | Err _ => (false, 0%Z, [], [])
  end.
(** 10 MW at 20, where one more costs 30, and the rest at 7; 0.1 MW of the load is not met within the coarse tolerance *)
Example C103_example : wshow = (true, 1410000, [(0, 29998); (0, 0); (-2923, 29999)], [39900; 10000])%Z.
Proof. vm_compute. reflexivity. Qed.

Ltac wrow := repeat match goal with
  | H : nth_error ?l ?i = Some _ |- _ => is_var i; destruct i; cbn [nth_error wp p_bus p_gen p_branch] in H; try discriminate H
  end.
Lemma wp_wf : wf_case wp.
Proof.
  constructor; try discriminate.
  - exists 13; split; [lia|]. repeat constructor.
  - exists 10; split; [lia|]. repeat constructor.
  - exists 13; split; [lia|]. repeat constructor.
  - intros i r H. wrow; esub; eexists; (split; [|reflexivity]); lia.
  - intros z i j (r & H & Hc) (r' & H' & Hc'). cbn [wp p_bus] in H, H'.
    wrow; auto; exfalso; esub; unfold eb, BUS_I in Hc, Hc'; cbn [nth_error zs map] in Hc, Hc';
      apply some_zc in Hc; apply some_zc in Hc'; lia.
  - intros i r H. wrow; esub; eexists; (split; [|reflexivity]); lia.
  - exists 0. eexists. split; [reflexivity|]. intros C. cbn [nth_error zs map eb BUS_TYPE] in C. apply some_zc in C; lia.
  - intros r Hr. repeat (destruct Hr as [<-|Hr]); [..|destruct Hr];
      (eexists; split; [reflexivity|]);
      first [exists 0; eexists; split; reflexivity|exists 1; eexists; split; reflexivity|exists 2; eexists; split; reflexivity].
  - intros r Hr. repeat (destruct Hr as [<-|Hr]); [..|destruct Hr]; split;
      (eexists; split; [reflexivity|]);
      first [exists 0; eexists; split; reflexivity|exists 1; eexists; split; reflexivity|exists 2; eexists; split; reflexivity].
  - intros r Hr. repeat (destruct Hr as [<-|Hr]); [..|destruct Hr]; (left; reflexivity) || (right; reflexivity).
  - intros g Hg. assert (g = wgc) by (cbn in Hg; congruence). subst g. cbn. lia.
Qed.
Lemma w_buses i : bus_in_service wp i <-> In i [0; 2].
Proof.
  split.
  - intros (x & Hx & NT). cbn [wp p_bus] in Hx. destruct i as [|[|[|[|?]]]]; cbn [nth_error] in Hx; try discriminate Hx; cbn; auto.
    exfalso. esub. apply NT. reflexivity.
  - intros [<-|[<-|[]]]; (eexists; split; [reflexivity|]; intros C; cbn [nth_error zs map eb BUS_TYPE] in C; apply some_zc in C; lia).
Qed.
Lemma w_gens j : gen_in_service wp j <-> In j [0; 1].
Proof.
  split.
  - intros (x & s & Hx & _). cbn [wp p_gen] in Hx. destruct j as [|[|[|?]]]; cbn [nth_error] in Hx; try discriminate Hx; cbn; auto.
  - intros [<-|[<-|[]]]; eexists; exists (zc 1); (split; [reflexivity|]; split; [reflexivity|]; split; [vm_compute; reflexivity|]).
    + exists 7%Z, 2. split; [reflexivity|]. split; [eexists; split; reflexivity|]. apply w_buses; cbn; auto.
    + exists 20%Z, 0. split; [reflexivity|]. split; [eexists; split; reflexivity|]. apply w_buses; cbn; auto.
Qed.
Lemma w_branches j : branch_in_service wp j <-> In j [1].
Proof.
  split.
  - intros (x & Hx & Hs & C1 & C2). cbn [wp p_branch] in Hx. destruct j as [|[|[|[|?]]]]; cbn [nth_error] in Hx; try discriminate Hx; cbn; auto; exfalso; esub.
    + destruct C2 as (z & i & Hz & Bi & (r & Hr & Ht)). unfold el, T_BUS in Hz. cbn [nth_error app zs map] in Hz. apply some_zc in Hz. subst z.
      destruct Bi as (r' & Hr' & Hb). assert (r' = r) by congruence. subst r'. cbn [wp p_bus] in Hr. clear Hr'.
      destruct i as [|[|[|[|?]]]]; cbn [nth_error] in Hr; try discriminate Hr; esub; cbn [nth_error zs map eb BUS_I BUS_TYPE] in Hb, Ht;
        first [apply some_zc in Hb; lia|apply Ht; reflexivity].
    + cbn [nth_error el app zs map BR_STATUS] in Hs. apply some_zc in Hs. lia.
  - intros [<-|[]]. exists (el 20 7 1). split; [reflexivity|]. split; [reflexivity|].
    split; [exists 20%Z, 0|exists 7%Z, 2]; (split; [reflexivity|]; split; [eexists; split; reflexivity|]); apply w_buses; cbn; auto.
Qed.

(** two schedules: all from the generator at 20, or as at the optimum *)
Definition w_th (n d : Z) (z : Z) : Qc := if (z =? 7)%Z then Q2Qc (Qmake n (Z.to_pos d)) else zc 0.
Definition w_pg (a b : Z) (j : nat) : Qc := if j =? 0 then zc a else zc b.
Lemma w_schedule n d a b : n = (-1)%Z /\ d = 4%Z /\ a = 0%Z /\ b = 50%Z \/ n = (-1)%Z /\ d = 20%Z /\ a = 40%Z /\ b = 10%Z ->
  schedule false (zc 100) wp [0; 1] [1] (w_th n d) (w_pg a b).
Proof.
  intros V. constructor.
  - split; [repeat constructor; cbn; intuition lia|]. intros j. symmetry. apply w_gens.
  - split; [repeat constructor; cbn; intuition lia|]. intros j. symmetry. apply w_branches.
  - intros i x z Si (x' & Hx' & Hz) Hx. assert (x' = x) by congruence. subst x'. clear Hx'. apply w_buses in Si. cbn [wp p_bus] in Hx.
    destruct Si as [<-|[<-|[]]]; cbn [nth_error] in Hx; esub; cbn [nth_error zs map eb BUS_I] in Hz; apply some_zc in Hz; subst z;
      destruct V as [(-> & -> & -> & ->)|(-> & -> & -> & ->)]; apply qc_eqb_eq; vm_compute; reflexivity.
  - intros j g Sj Hg. apply w_gens in Sj. destruct Sj as [<-|[<-|[]]]; cbn [wp p_gen nth_error] in Hg; esub;
      destruct V as [(-> & -> & -> & ->)|(-> & -> & -> & ->)]; split; vm_compute; reflexivity.
  - intros j l Sj Hl _. apply w_branches in Sj. destruct Sj as [<-|[]]; cbn [wp p_branch nth_error] in Hl; esub;
      destruct V as [(-> & -> & -> & ->)|(-> & -> & -> & ->)]; split; vm_compute; reflexivity.
  - intros i x z Si (x' & Hx' & Hz) Hx. assert (x' = x) by congruence. subst x'. clear Hx'. apply w_buses in Si. cbn [wp p_bus] in Hx.
    destruct Si as [<-|[<-|[]]]; cbn [nth_error] in Hx; esub; cbn [nth_error zs map eb BUS_I] in Hz; apply some_zc in Hz; subst z; intros TY.
    + apply qc_eqb_eq; vm_compute; reflexivity.
    + exfalso. vm_compute in TY. discriminate TY.
  - intros _ j l Sj Hl _. apply w_branches in Sj. destruct Sj as [<-|[]]; cbn [wp p_branch nth_error] in Hl; esub;
      destruct V as [(-> & -> & -> & ->)|(-> & -> & -> & ->)]; split; intros N; try (vm_compute; reflexivity); exfalso; apply N; apply Qc_is_canon; reflexivity.
Qed.
(** their costs *)
Example C103_example_costs :
  map mil [schedule_cost [0; 1] (w_pg 0 50) wgc (fun _ => zc 0); schedule_cost [0; 1] (w_pg 40 10) wgc (fun _ => zc 0)] = [3013000; 1413000]%Z.
Proof. vm_compute. reflexivity. Qed.

(** all hypotheses hold for the run and these schedules *)
Example C103_example_bound r f : wrun = Ok (r, f, true) -> exists yr (c gap : Qc), forall n d a b,
  n = (-1)%Z /\ d = 4%Z /\ a = 0%Z /\ b = 50%Z \/ n = (-1)%Z /\ d = 20%Z /\ a = 40%Z /\ b = 10%Z ->
  le f (schedule_cost [0%nat; 1%nat] (w_pg a b) wgc (fun _ => zc 0)
        + (c * distance_from (zc 100) wp [0%nat; 1%nat] (w_th n d) (w_pg a b) wgc (fun _ => zc 0) r [0%nat; 2%nat] yr + gap))%K.
Proof.
  unfold wrun. intros RUN.
  assert (H1 : in_ext_state wp) by exact I.
  assert (H2 : lt 0%K (zc 100)) by (vm_compute; reflexivity).
  assert (H3 : forall j g, gen_in_service wp j -> nth_error (p_gen wp) j = Some g -> le (cell g PMIN) (cell g PMAX)).
  { intros j g0 Sj Hg0. apply w_gens in Sj. destruct Sj as [<-|[<-|[]]]; cbn [wp p_gen nth_error] in Hg0; esub; vm_compute; reflexivity. }
  assert (H4 : false = false -> forall j g, branch_in_service wp j -> nth_error (p_branch wp) j = Some g ->
    cell g ANGMIN <> 0%K -> cell g ANGMAX <> 0%K -> le (degrees (cell g ANGMIN)) (degrees (cell g ANGMAX))).
  { intros _ j g Sj Hg N. exfalso. apply N. apply w_branches in Sj. destruct Sj as [<-|[]]; cbn [wp p_branch nth_error] in Hg; esub; apply Qc_is_canon; reflexivity. }
  assert (H5 : forall j g, gen_in_service wp j -> nth_error (p_gen wp) j = Some g ->
    clear_cut (EFin (cell g PMIN / zc 100)%K) (EFin (cell g PMAX / zc 100)%K)).
  { intros j g0 Sj Hg0 T. exfalso. apply w_gens in Sj. destruct Sj as [<-|[<-|[]]]; cbn [wp p_gen nth_error] in Hg0; esub; vm_compute in T; discriminate T. }
  assert (H6 : false = false -> forall j g, branch_in_service wp j -> nth_error (p_branch wp) j = Some g ->
    cell g ANGMIN <> 0%K -> cell g ANGMAX <> 0%K -> clear_cut (EFin (degrees (cell g ANGMIN))) (EFin (degrees (cell g ANGMAX)))).
  { intros _ j g Sj Hg N. exfalso. apply N. apply w_branches in Sj. destruct Sj as [<-|[]]; cbn [wp p_branch nth_error] in Hg; esub; apply Qc_is_canon; reflexivity. }
  assert (H7 : forall j, gen_in_service wp j -> cost_is 1 (nth j wgc []) = true \/ lin_or_quad (nth j wgc [])).
  { intros j Sj. apply w_gens in Sj. destruct Sj as [<-|[<-|[]]]; right; (split; [vm_compute; reflexivity|]);
      [left|right]; apply qc_eqb_eq; vm_compute; reflexivity. }
  assert (H8 : forall j, gen_in_service wp j -> quad_rising (nth j wgc [])).
  { intros j Sj _ _. apply w_gens in Sj. destruct Sj as [<-|[<-|[]]]; vm_compute; reflexivity. }
  pose proof (C103_near_optimal argsort_stable argsort_stable_spec wsolve (fun a => a) false (ex_p 2) (zc 100) wp r f true
      wp_wf H1 RUN H2 H3 H4 H5 H6 wgc eq_refl H7 H8 eq_refl) as X. clear RUN.
  destruct X as (q & gc & o & z & x0 & HH & CC & C0 & sp & s0 & s & k & yr & _ & _ & _ & _ & _ & _ & _ & _ & H).
  destruct (C83_norms (t_x s)) as (n1 & N1). destruct (C83_norms (t_z s)) as (n2 & N2).
  destruct (C83_norms (t_lam s)) as (n3 & N3). destruct (C83_norms (t_mu s)) as (n4 & N4).
  destruct (H n1 n2 n3 n4 N1 N2 N3 N4) as (a & b & _ & _ & T). exists yr.
  match type of T with forall _ _ _ _ _ _, _ -> _ -> _ -> le _ (_ + (?c * _ + ?u + ?v + ?w))%K => exists c, (u + v + w)%K end.
  intros n d a' b' V. pose proof (T [0; 2] [0; 1] [1] (w_th n d) (w_pg a' b') (fun _ => zc 0)) as T'.
  assert (L1 : lists_exactly [0; 2] (bus_in_service wp)).
  { split; [repeat constructor; cbn; intuition lia|]. intros j. symmetry. apply w_buses. }
  assert (L2 : above_segments [0; 1] (w_pg a' b') wgc (fun _ => zc 0)).
  { intros j u v Ij. cbv zeta. intros SG. exfalso. destruct Ij as [<-|[<-|[]]]; vm_compute in SG; discriminate SG. }
  specialize (T' L1 (w_schedule _ _ _ _ V) L2).
  exact (@add_assoc3 Qc _ _ _ _ _ _ _ T').
Qed.

Print Assumptions C103_near_optimal.
