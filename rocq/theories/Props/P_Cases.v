(** Property C108: the bundled cases meet what the theorems about runs ask of a case, so those theorems speak about them. *)
From Coq Require Import Lia List.
From Verif Require Import Proofs.Ext2intA Lib.ListFacts Lib.QcFacts Lib.GaussQ Model.RunOpf Spec.ScheduleSpec Spec.PipsRun
  Proofs.SparseFacts Proofs.FldFacts Proofs.OrdFacts Proofs.PfsolnA Proofs.TableEdit Proofs.OpfLinA Proofs.DcOpfA
  Proofs.DcOpfC Proofs.DcOpfD Proofs.DcOpfE Proofs.PipsI Proofs.Ext2intB Proofs.RunPfA Proofs.RunPfB Proofs.RunOpfA Proofs.RunOpfB
  Proofs.RunOpfC Proofs.RunOpfD Proofs.Schedule Props.P_DcOpf Props.P_DcOpt Props.P_RunOpf Props.P_RunBest Model.Cases Proofs.CasesA.
Import ListNotations.
Local Open Scope nat_scope.

Lemma all_tables : forallb tables_ok bundled = true.
Proof. vm_compute. reflexivity. Qed.
Lemma all_limits : forallb limits_ok bundled = true.
Proof. vm_compute. reflexivity. Qed.
(** all but case4gs carry costs *)
Definition with_costs : list bundle := tl bundled.
Lemma all_costs : forallb costs_ok with_costs = true.
Proof. vm_compute. reflexivity. Qed.

Lemma check (f : bundle -> bool) l b : forallb f l = true -> In b l -> f b = true.
Proof. intros H I. exact (proj1 (forallb_forall f l) H b I). Qed.
Lemma costs_bundled b : In b with_costs -> In b bundled.
Proof. intros H. right. exact H. Qed.

Section Bundled.
Context {K : Type} {F : Fld K}.
Hypothesis PI : lt 1%K (fpi : K).

(** consistent numbers, types, references and shapes *)
Theorem C108_well_formed b : In b bundled -> wf_case (case_of b : ppc_of K) /\ in_ext_state (case_of b : ppc_of K).
Proof. intros I. split; [|exact Logic.I]. apply tables_wf, (check _ _ _ all_tables I). Qed.

(** limits that do not contradict each other *)
Theorem C108_limits b : In b bundled ->
  (forall r, In r (p_bus (case_of b : ppc_of K)) -> le (cell r VMIN) (cell r VMAX)) /\
  (forall r, In r (p_gen (case_of b : ppc_of K)) -> le (cell r PMIN) (cell r PMAX) /\ le (cell r QMIN) (cell r QMAX)) /\
  (forall r, In r (p_branch (case_of b : ppc_of K)) -> le (degrees (cell r ANGMIN)) (degrees (cell r ANGMAX))).
Proof.
  intros I. pose proof (check _ _ _ all_tables I) as T. pose proof (check _ _ _ all_limits I) as L. split; [|split]; intros r Hr.
  - exact (volt_ok b T L r Hr).
  - destruct (gen_ok b T L r Hr) as (A & B & _). split; assumption.
  - exact (proj1 (ang_ok PI b T L r Hr)).
Qed.

(** a successful DC optimal power flow on a bundled case is near-optimal among all schedules of the case *)
Theorem C108_near_optimal argsort solve ln ign opts b gencost r f :
  argsort_spec argsort -> In b with_costs -> p_gencost (case_of b : ppc_of K) = Some gencost ->
  dc_opf argsort solve ln ign opts (fofZ (b_base b)) (case_of b : ppc_of K) = Ok (r, f, true) ->
  exists q gc o z x0 HH CC C0 sp s0 s k yr,
  stages argsort solve ln ign opts (fofZ (b_base b)) (case_of b) q gc o z /\
  dc_start o (p_bus q) = Ok x0 /\ dc_objective (fofZ (b_base b)) o (no_user_costs (d_nx o)) = Ok (HH, CC, C0) /\
  split_bounds (d_nx o) (Some (d_A o)) (d_l o) (d_u o) (d_xmin o) (d_xmax o) = Ok sp /\
  start ln (qp HH CC) (pips_options opts) sp x0 = Ok s0 /\
  visited solve ln (qp HH CC) (pips_options opts) sp (d_nx o) s0 k s /\ z_x z = t_x s /\
  (forall gens, lists_exactly gens (gen_in_service (case_of b)) ->
     f = schedule_cost gens (fun j => cell (nth j (p_gen r) []) PG) gencost yr) /\
  forall xn zn lam_n mu_n, is_norm (t_x s) xn -> is_norm (t_z s) zn -> is_norm (t_lam s) lam_n -> is_norm (t_mu s) mu_n ->
  exists a b', (a = xn \/ a = zn) /\ (b' = lam_n \/ b' = mu_n) /\
  forall buses gens brs th pg y, lists_exactly buses (bus_in_service (case_of b)) ->
    schedule ign (fofZ (b_base b)) (case_of b) gens brs th pg -> above_segments gens pg gencost y ->
    le f (schedule_cost gens pg gencost y
          + (p_gradtol opts * (1 + b') * distance_from (fofZ (b_base b)) (case_of b) gens th pg gencost y r buses yr
             + o_feastol (pips_options opts) * (1 + a) * lsum fabs (t_lam s)
             + p_comptol opts * (1 + xn)
             + lsum (fun i => nth i (t_mu s) 0 * fabs (nth i (e_h (t_e s)) 0 + nth i (t_z s) 0)) (seq 0 (length (t_mu s)))))%K.
Proof.
  intros Has I GC RUN. pose proof (costs_bundled _ I) as IB.
  pose proof (check _ _ _ all_tables IB) as T. pose proof (check _ _ _ all_limits IB) as L. pose proof (check _ _ _ all_costs I) as C.
  destruct (C108_well_formed b IB) as (W & E).
  assert (HB : lt 0%K (fofZ (b_base b) : K)).
  { apply fofZ_pos. unfold limits_ok in L. do 4 (apply andb_true_iff in L as (L & _)). apply Z.leb_le in L. lia. }
  assert (IN : forall j, gen_in_service (case_of b : ppc_of K) j -> j < length gencost).
  { intros j (x & s & Hx & _). apply nth_error_some_lt in Hx. pose proof (wf_gencost _ W _ GC). lia. }
  eapply (C103_near_optimal argsort Has solve ln ign opts (fofZ (b_base b)) (case_of b) r f true W E RUN HB); try reflexivity.
  - intros j g _ Hg. apply (gen_ok b T L g). eapply nth_error_In; eauto.
  - intros _ j g _ Hg _ _. apply (ang_ok PI b T L g). eapply nth_error_In; eauto.
  - intros j g _ Hg. apply (gen_ok b T L g). eapply nth_error_In; eauto.
  - intros _ j g _ Hg _ _. apply (ang_ok PI b T L g). eapply nth_error_In; eauto.
  - exact GC.
  - intros j Sj. exact (proj1 (cost_ok b gencost C GC j (IN j Sj))).
  - intros j Sj. exact (proj2 (cost_ok b gencost C GC j (IN j Sj))).
Qed.
End Bundled.

(** the numbers in which the code runs: pi is above one *)
Example C108_pi : lt 1%K (fpi : Qc).
Proof. vm_compute. reflexivity. Qed.
(** the third case, as the code reads it *)
Example C108_example :
  In case9 with_costs /\ length (p_bus (case_of case9 : ppc_of Qc)) = 9 /\
  (cell (nth 1 (p_branch (case_of case9 : ppc_of Qc)) []) BR_X : Qc) = (zc 92 / zc 1000)%Qc /\
  (cell (nth 4 (p_bus (case_of case9 : ppc_of Qc)) []) PD : Qc) = zc 90.
Proof.
  split; [right; left; reflexivity|]. split; [reflexivity|]. split; apply qc_eqb_eq; vm_compute; reflexivity.
Qed.

Print Assumptions C108_well_formed.
Print Assumptions C108_limits.
Print Assumptions C108_near_optimal.
