(** C40: what the AC power flow returns when generator reactive limits are enforced; C70: cases in
    which a limit is violated. *)
From Coq Require Import Permutation.
From Verif Require Import Lib.ListFacts Lib.QcFacts Model.Qlim Spec.PfSpec Spec.AcSpec
  Proofs.LinAlgFacts Proofs.SparseFacts Proofs.FldFacts Proofs.NetworkA Proofs.NetworkB Proofs.NetworkC Proofs.NetworkD Proofs.NetworkE Proofs.YbusA Proofs.MatFacts
  Proofs.AcPfA Proofs.AcPfB Proofs.PfsolnA Proofs.PfsolnB Proofs.PfsolnC Proofs.AcPfC Proofs.PipsA Props.P_Network Props.P_Ybus
  Props.P_AcPf.
Local Open Scope nat_scope.

Section Theorems.
Context {K : Type} {F : Fld K}.
Variables (cis : K -> cpx K) (cabs cang : cpx K -> K).
Variable solve : list (list K) -> list K -> result (list K).
Variable splu : list (list K) -> result (list K -> result (list K)).

(** an in-service generator beyond its limits by more than [viol] *)
Definition breaks (viol : K) (g : list K) : Prop :=
  in_service g = true /\
  (fltb (cell g QMAX + viol)%K (cell g QG) = true \/ fltb (cell g QG) (cell g QMIN - viol)%K = true).

Lemma nil_len {A} (l : list A) : (0 <? length l) = false <-> l = [].
Proof. destruct l; simpl; split; auto; discriminate. Qed.

Lemma marked (f : K -> K -> bool) (s : K -> bool) a b c gen k g :
  nth_error gen k = Some g ->
  In k (find (map2 andb (map s (map (fun r => nth c r 0%K) gen))
                (map2 f (map (fun r => nth a r 0%K) gen) (map (fun r => nth b r 0%K) gen))))
  <-> s (cell g c) && f (cell g a) (cell g b) = true.
Proof.
  intros G. pose proof (nth_error_some_lt _ _ _ G) as L.
  rewrite (in_find_map2 _ _ _ _ false false) by (unfold map2; rewrite !map_length, combine_length, !map_length; lia).
  rewrite !map_length. rewrite (nth_map_lt _ _ _ _ 0%K) by (rewrite map_length; lia).
  rewrite (nth_map_lt _ _ _ _ []) by lia.
  rewrite (nth_map2_d _ _ _ _ 0%K 0%K) by (rewrite !map_length; lia).
  rewrite !(nth_map_lt _ _ _ _ []) by lia. rewrite (nth_error_nth _ _ _ G). unfold cell. tauto.
Qed.

(** the two lists together hold exactly the violating generators *)
Lemma violations viol gen mx mn : over_max viol gen = Ok mx -> under_min viol gen = Ok mn ->
  forall k g, nth_error gen k = Some g -> (In k (mx ++ mn) <-> breaks viol g).
Proof.
  intros HX HN k g G. unfold over_max in HX. unfold under_min in HN.
  apply bind_ok in HX as (st & S & HX). apply bind_ok in HX as (q & Q & HX). apply bind_ok in HX as (m & M & HX).
  apply bind_ok in HN as (st' & S' & HN). apply bind_ok in HN as (q' & Q' & HN). apply bind_ok in HN as (m' & M' & HN).
  injection HX as <-. injection HN as <-.
  apply col_ok in S as (_ & ->). apply col_ok in Q as (_ & ->). apply col_ok in M as (_ & ->).
  apply col_ok in S' as (_ & ->). apply col_ok in Q' as (_ & ->). apply col_ok in M' as (_ & ->).
  rewrite in_app_iff. rewrite (marked (fun q m => fltb (m + viol)%K q) _ _ _ _ _ _ _ G).
  rewrite (marked (fun q m => fltb q (m - viol)%K) _ _ _ _ _ _ _ G).
  rewrite !andb_true_iff. unfold breaks, in_service. tauto.
Qed.

Lemma in_range viol gen mx mn : over_max viol gen = Ok mx -> under_min viol gen = Ok mn ->
  (forall k, In k (mx ++ mn) -> exists g, nth_error gen k = Some g).
Proof.
  intros HX HN k I. unfold over_max in HX. unfold under_min in HN.
  apply bind_ok in HX as (st & S & HX). apply bind_ok in HX as (q & Q & HX). apply bind_ok in HX as (m & M & HX).
  apply bind_ok in HN as (st' & S' & HN). apply bind_ok in HN as (q' & Q' & HN). apply bind_ok in HN as (m' & M' & HN).
  injection HX as <-. injection HN as <-. apply col_ok in S as (_ & ->). apply col_ok in S' as (_ & ->).
  apply nth_error_lt. rewrite in_app_iff, !in_find in I.
  destruct I as [I|I]; apply nth_error_some_lt in I; unfold map2 in I;
    rewrite map_length, combine_length, !map_length in I; lia.
Qed.

Section Run.
Variables (fi : bool) (qlim : nat) (viol : K) (alg : pf_alg) (tol : K) (max_it : nat) (baseMVA : K).
Variables (bus gen branch : list (list K)).
Let plain := runpf_ac cis cabs cang solve splu alg tol max_it baseMVA bus gen branch.
Let limited := runpf_qlim cis cabs cang solve splu fi qlim viol alg tol max_it baseMVA bus gen branch.

(** whatever is returned is the plain power flow solution *)
Theorem C40_same r : limited = Ok r -> plain = Ok r.
Proof.
  unfold limited, runpf_qlim. fold plain. intros H. apply bind_ok in H as ([[[b g] br] s] & P & H). rewrite P.
  destruct (qlim =? 0). { auto. }
  apply bind_ok in H as (mx & _ & H). apply bind_ok in H as (mn & _ & H).
  destruct ((0 <? length mx) || (0 <? length mn)); [discriminate|auto].
Qed.

(** and no in-service generator in it, wherever connected, is beyond its limits *)
Theorem C40_within bus' gen' branch' c : limited = Ok (bus', gen', branch', c) -> qlim <> 0 ->
  forall k g, nth_error gen' k = Some g -> ~ breaks viol g.
Proof.
  unfold limited, runpf_qlim. fold plain. intros H N k g G. apply bind_ok in H as ([[[b g'] br] s] & P & H).
  destruct (Nat.eqb_spec qlim 0) as [|_]; [contradiction|].
  apply bind_ok in H as (mx & X & H). apply bind_ok in H as (mn & M & H).
  destruct (0 <? length mx) eqn:E1; [discriminate|]. destruct (0 <? length mn) eqn:E2; [discriminate|].
  apply nil_len in E1. apply nil_len in E2. subst. injection H as -> -> -> ->.
  rewrite <- (violations _ _ _ _ X M _ _ G). simpl. tauto.
Qed.

(** in terms of the case given: the limits are those of the input table, and bus types, loads, generator
    statuses and connections come back as they went in *)
Theorem C40_tables bus' gen' branch' c : limited = Ok (bus', gen', branch', c) -> qlim <> 0 ->
  polar_ok cis cabs cang -> types_ok bus ->
  (forall k g, nth_error gen k = Some g -> exists g', nth_error gen' k = Some g' /\
     (in_service g = true -> fltb (cell g QMAX + viol)%K (cell g' QG) = false /\
                             fltb (cell g' QG) (cell g QMIN - viol)%K = false) /\
     (forall j, j <> QG -> j <> PG -> cell g' j = cell g j)) /\
  (forall i b, nth_error bus i = Some b -> exists b', nth_error bus' i = Some b' /\
     forall j, j <> VM -> j <> VA -> cell b' j = cell b j).
Proof.
  intros H N PO TY. pose proof (C40_same _ H) as P. unfold plain in P.
  destruct (runpf_ac_ok _ _ _ _ _ _ _ _ _ _ _ _ _ _ _ _ P PO TY)
    as (ref & pv & pq & V0 & Y & Yf & Yt & S & V & HB & _ & YS & HS & C & _ & _ & HP).
  pose proof (bustypes_partition _ _ _ _ _ HB TY) as PE.
  assert (square (length bus) Y) as SQ by (apply wf_fits; destruct YS; auto).
  assert (fits (length branch) (length bus) Yf) as SF by (apply wf_fits; destruct YS; auto).
  assert (fits (length branch) (length bus) Yt) as ST by (apply wf_fits; destruct YS; auto).
  assert (NoDup ref) as NR.
  { apply (NoDup_app_l _ (pv ++ pq)). eapply Permutation_NoDup; [apply Permutation_sym; exact PE|apply seq_NoDup]. }
  split.
  - intros k g G. destruct (C22_generators _ _ _ _ _ _ _ _ _ _ _ _ _ _ HP SQ SF ST NR) as (_ & GE).
    destruct (GE _ _ G) as (g' & G' & _ & _ & O & _). exists g'. split; auto. split; auto. intros I.
    pose proof (C40_within _ _ _ _ H N _ _ G') as W. unfold breaks in W.
    assert (in_service g' = true) as I'.
    { unfold in_service in *. rewrite (O GEN_STATUS) by (cbv; lia). auto. }
    rewrite (O QMAX), (O QMIN), I' in W by (cbv; lia).
    split; apply not_true_iff_false; tauto.
  - intros i b B. destruct (C22_buses _ _ _ _ _ _ _ _ _ _ _ _ _ _ HP SQ SF ST NR) as (_ & _ & BU).
    destruct (BU _ _ B) as (b' & B' & _ & _ & _ & O). eauto.
Qed.

(** enforcement completes exactly when the plain solution already respects the limits *)
Theorem C70_solved_partial bus' gen' branch' c : plain = Ok (bus', gen', branch', c) -> qlim <> 0 ->
  limited = Ok (bus', gen', branch', c) <->
  (Forall (fun g => GEN_STATUS < length g /\ QG < length g /\ QMAX < length g /\ QMIN < length g) gen' /\
   Forall (fun g => ~ breaks viol g) gen').
Proof.
  unfold limited, runpf_qlim. fold plain. intros -> N. cbn [bind]. destruct (Nat.eqb_spec qlim 0) as [|_]; [contradiction|].
  split; intros H.
  - apply bind_ok in H as (mx & X & H). apply bind_ok in H as (mn & M & H).
    destruct (0 <? length mx) eqn:E1; [discriminate|]. destruct (0 <? length mn) eqn:E2; [discriminate|].
    apply nil_len in E1. apply nil_len in E2. subst. split.
    + unfold over_max in X. unfold under_min in M.
      apply bind_ok in X as (st & S & X). apply bind_ok in X as (q & Q & X). apply bind_ok in X as (m & MM & X).
      apply bind_ok in M as (st' & S' & HN). apply bind_ok in HN as (q' & Q' & HN). apply bind_ok in HN as (m' & M' & HN).
      apply col_ok in S as (S & _). apply col_ok in Q as (Q & _). apply col_ok in MM as (MM & _). apply col_ok in M' as (M' & _).
      rewrite Forall_forall in *. auto.
    + apply Forall_forall. intros g I. apply In_nth_error in I as (k & G).
      rewrite <- (violations _ _ _ _ X M _ _ G). simpl. tauto.
  - destruct H as (W & B).
    assert (forall j, (forall g, In g gen' -> j < length g) -> col j gen' = Ok (map (fun r => nth j r 0%K) gen')) as CO.
    { intros j L. apply col_def, Forall_forall. auto. }
    rewrite Forall_forall in W.
    assert (exists mx, over_max viol gen' = Ok mx) as (mx & X).
    { unfold over_max. rewrite !CO by (intros g I; apply W in I; tauto). cbn [bind]. eauto. }
    assert (exists mn, under_min viol gen' = Ok mn) as (mn & M).
    { unfold under_min. rewrite !CO by (intros g I; apply W in I; tauto). cbn [bind]. eauto. }
    rewrite X, M. cbn [bind].
    assert (forall k, ~ In k (mx ++ mn)) as NO.
    { intros k I. destruct (in_range _ _ _ _ X M _ I) as (g & G).
      rewrite Forall_forall in B. apply (B g (nth_error_In _ _ G)). apply (violations _ _ _ _ X M _ _ G); auto. }
    assert (mx ++ mn = []) as E. { destruct (mx ++ mn) as [|k l]; auto. destruct (NO k). left; auto. }
    apply app_eq_nil in E as (-> & ->). reflexivity.
Qed.

(** with one violation the run raises, for every case, algorithm and solver: no generator is ever
    converted to a fixed injection *)
Theorem C70_violation bus' gen' branch' c g : plain = Ok (bus', gen', branch', c) -> qlim <> 0 ->
  In g gen' -> breaks viol g -> forall r, limited <> Ok r.
Proof.
  intros P N I B r H. pose proof (C40_same _ H) as P'. rewrite P in P'. injection P' as <-.
  apply (C70_solved_partial _ _ _ _ P N) in H as (_ & H). rewrite Forall_forall in H. apply (H g I B).
Qed.
End Run.
End Theorems.

(** ** Examples *)
Definition q_run fi qlim viol gen :=
  runpf_qlim cis_q (fun z => re z) (fun _ => zc 0) (checked cramer2)
    (fun A => Ok (checked cramer2 A)) fi qlim viol NR (qc 1 100) 10 (zc 100) pf_bus gen pf_branch.
(** the same case with the reactive range of both running generators too small *)
Definition tight_gen : list (list Qc) :=
  [[zc 0; zc 0; zc 0; zc 3; zc (-10); zc 1; zc 100; zc 1; zc 500; zc 0];
   [zc 0; zc 7; zc 9; zc 5; zc (-5); zc 1; zc 100; zc 0; zc 500; zc 0];
   [zc 0; zc 30; zc 0; zc 4; zc 0; zc 1; zc 100; zc 1; zc 500; zc 0]].

Definition err_of {A} (r : result A) : option exn := match r with Ok _ => None | Err e => Some e end.

(** limits met: the run completes with the plain answer *)
Example C40_example : pf_check (q_run false 1 (qc 1 1000) pf_gen) true = true.
Proof. vm_compute. reflexivity. Qed.
Example C40_violation :
  map err_of [q_run false 0 (qc 1 1000) tight_gen; q_run false 1 (qc 1 1000) tight_gen;
              q_run true 2 (qc 1 1000) tight_gen; q_run false 1 (zc 20) tight_gen]
  = [None; Some IndexError; Some TypeError; None].
Proof. vm_compute. reflexivity. Qed.

(** a case the plain power flow solves cannot be run with limits enforced *)
Theorem C70_refuted : exists gen : list (list Qc),
  (exists r, q_run false 0 (qc 1 1000) gen = Ok r /\ snd r = true) /\
  forall fi qlim, qlim <> 0 -> q_run fi qlim (qc 1 1000) gen = Err (if fi then TypeError else IndexError).
Proof.
  exists tight_gen. split.
  - destruct (q_run false 0 (qc 1 1000) tight_gen) as [r|e] eqn:E.
    + exists r. split; auto.
      assert ((match q_run false 0 (qc 1 1000) tight_gen with Ok r => snd r | Err _ => false end) = true) as C by (vm_compute; reflexivity).
      rewrite E in C. exact C.
    + assert (err_of (q_run false 0 (qc 1 1000) tight_gen) = None) as C by (vm_compute; reflexivity).
      rewrite E in C. discriminate.
  - intros fi qlim N. destruct qlim as [|q]; [contradiction|].
    assert (err_of (q_run fi (S q) (qc 1 1000) tight_gen) = Some (if fi then TypeError else IndexError)) as C
      by (destruct fi; vm_compute; reflexivity).
    destruct (q_run fi (S q) (qc 1 1000) tight_gen); simpl in C; congruence.
Qed.

Print Assumptions C40_same.
Print Assumptions C40_within.
Print Assumptions C40_tables.
Print Assumptions C70_solved_partial.
Print Assumptions C70_violation.
Print Assumptions C70_refuted.
