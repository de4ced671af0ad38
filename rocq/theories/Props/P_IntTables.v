(** Property C116: a DC power flow gives the same results whether the numbers of a case are written with or without a decimal
    point.  False: numpy holds a table without decimal points as integers and drops the fraction of every result. *)
From Coq Require Import Lia.
From Verif Require Import Lib.ListFacts Lib.QcFacts Model.IntTables Spec.RunSpec Proofs.RunPfB Proofs.IntA Lib.GaussQ Model.Cases Proofs.CasesA
  Props.P_Network Props.P_Ybus Props.P_AcPf Props.P_RunPf Props.P_Flow.
Local Open Scope nat_scope.

Section Theorems.
Context {K : Type} {F : Fld K}.
Variable argsort : list Z -> list nat.
Variables (cis : K -> cpx K) (cabs cang : cpx K -> K).
Variables (solve : list (list K) -> list K -> result (list K))
          (splu : list (list K) -> result (list K -> result (list K))).
Variables (B : K) (p : ppc_of K) (int_bus int_gen : bool).
Hypothesis W : wf_case p.
Hypothesis E : in_ext_state p.

(** only whole numbers in the table *)
Definition whole (t : list (list K)) : Prop := forall r x, In r t -> In x r -> exists z, x = fofZ z.
Hypothesis HB : int_bus = true -> whole (p_bus p).
Hypothesis HG : int_gen = true -> whole (p_gen p).

(** the table [t'] is [t] without the fractions *)
Definition cut (int : bool) (t t' : list (list K)) : Prop :=
  length t' = length t /\ forall i r r', nth_error t i = Some r -> nth_error t' i = Some r' ->
    length r' = length r /\ forall j x x', nth_error r j = Some x -> nth_error r' j = Some x' -> x' = if int then fofZ (ftrunc x) else x.

Lemma whole_kept (b : bool) t : (b = true -> whole t) -> kept b t.
Proof. intros H r x Hr Hx. destruct b; [|reflexivity]. destruct (H eq_refl r x Hr Hx) as (z & ->). apply store_ofZ. Qed.
Lemma cut_map (b : bool) t : cut b t (map (map (store b)) t).
Proof.
  split; [apply map_length|]. intros i r r' Hr Hr'. rewrite nth_error_map, Hr in Hr'. injection Hr' as <-. split; [apply map_length|].
  intros j x x' Hx Hx'. rewrite nth_error_map, Hx in Hx'. injection Hx' as <-. reflexivity.
Qed.

(** the run on integer tables fails where the exact run does, and reports its tables without the fractions; flows are not affected *)
Theorem C116_cut_partial :
  match runpf_typed argsort solve int_bus int_gen B p, runpf argsort cis cabs cang solve splu DC B p with
  | Ok (r', ok'), Ok (r, ok) => ok' = ok /\ cut int_bus (p_bus r) (p_bus r') /\ cut int_gen (p_gen r) (p_gen r') /\ p_branch r' = p_branch r
  | Err e', Err e => e' = e
  | _, _ => False
  end.
Proof.
  pose proof (run_dropped argsort solve int_bus int_gen cis cabs cang splu B p (wf_widened _ W) E (whole_kept _ _ HB) (whole_kept _ _ HG)) as D.
  destruct (runpf_typed _ _ _ _ _ _) as [[r' ok']|], (runpf _ _ _ _ _ _ _ _ _) as [[r ok]|]; cbn [both fst snd] in D; auto.
  destruct D as ((D1 & D2 & D3) & D4). rewrite D1, D2. auto using cut_map.
Qed.

(** the results are the same exactly if the exact run has whole results *)
Theorem C116_same_partial r' ok' r ok :
  runpf_typed argsort solve int_bus int_gen B p = Ok (r', ok') -> runpf argsort cis cabs cang solve splu DC B p = Ok (r, ok) ->
  (p_bus r' = p_bus r /\ p_gen r' = p_gen r) <-> ((int_bus = true -> whole (p_bus r)) /\ (int_gen = true -> whole (p_gen r))).
Proof.
  intros R1 R2.
  pose proof (run_dropped argsort solve int_bus int_gen cis cabs cang splu B p (wf_widened _ W) E (whole_kept _ _ HB) (whole_kept _ _ HG)) as D.
  rewrite R1, R2 in D. cbn [both fst snd] in D. destruct D as ((D1 & D2 & D3) & D4).
  assert (Q : forall (t : list (list K)), map (map (store true)) t = t -> whole t).
  { intros t H r0 x Hr Hx. apply In_nth_error in Hr as (i & Hi). apply In_nth_error in Hx as (j & Hj).
    pose proof (f_equal (fun t => nth_error t i) H) as H1. cbn beta in H1. rewrite nth_error_map, Hi in H1. injection H1 as H1.
    pose proof (f_equal (fun t => nth_error t j) H1) as H2. cbn beta in H2. rewrite nth_error_map, Hj in H2. injection H2 as H2. exists (ftrunc x). symmetry. exact H2. }
  rewrite D1, D2. split.
  - intros (H1 & H2). split; intros ->; auto.
  - intros (H1 & H2). split; apply kept_map, whole_kept; assumption.
Qed.
End Theorems.
Print Assumptions C116_cut_partial.
Print Assumptions C116_same_partial.

(** ** two buses, a load of 101/2 MW, generators in an integer table *)
Definition whole_row (l : list Z) : list dec := map (fun z => (z, 1%positive)) l.
Definition half_load : bundle := {| b_name := b_name case9; b_base := 100;
  b_bus := [whole_row [1; 3; 0; 0; 0; 0; 1; 1; 0; 345; 1; 1; 1]; upd (whole_row [2; 1; 0; 0; 0; 0; 1; 1; 0; 345; 1; 1; 1]) PD (101, 2%positive)]%Z;
  b_gen := [nth 0 (b_gen case9) []];
  b_branch := [upd (whole_row [1; 2; 0; 0; 0; 250; 250; 250; 0; 0; 1; -360; 360]) BR_X (1, 10%positive)]%Z; b_areas := None; b_gencost := None |}.
Definition half_run int_gen := runpf_typed argsort_stable (checked gaussq) false int_gen (zc 100) (case_of half_load).
Definition half_exact := runpf argsort_stable cis_q (fun z => re z) (fun _ => zc 0) (checked gaussq) (fun A => Ok (checked gaussq A)) DC (zc 100) (case_of half_load).
Example C116_example_ok : tables_ok half_load = true.
Proof. vm_compute. reflexivity. Qed.
(** the generator table of the bundled case9 has whole numbers only *)
Lemma whole_dec {K} {F : Fld K} (l : list (list dec)) : forallb (forallb (fun a => Pos.eqb (snd a) 1)) l = true -> whole (values l : list (list K)).
Proof.
  intros H r x Hr Hx. unfold values in Hr. apply in_map_iff in Hr as (d & <- & Hd). apply in_map_iff in Hx as (a & <- & Ha).
  pose proof (proj1 (forallb_forall _ _) (proj1 (forallb_forall _ _) H _ Hd) _ Ha) as Q. cbn beta in Q. unfold value. rewrite Q. eauto.
Qed.
Example C116_case9 : whole (p_gen (case_of case9 : ppc_of Qc)).
Proof. apply (whole_dec (b_gen case9)). reflexivity. Qed.
Example C116_example :
  match half_run false, half_run true, half_exact with
  | Ok (r0, true), Ok (r1, true), Ok (r, true) =>
      qc_eqb (cell (nth 0 (p_gen r0) []) PG) (qc 101 2) && qc_eqb (cell (nth 0 (p_gen r1) []) PG) (zc 50) && qc_eqb (cell (nth 0 (p_gen r) []) PG) (qc 101 2)
      && qc_eqb (cell (nth 0 (p_branch r1) []) PF) (qc 101 2)
  | _, _, _ => false
  end = true.
Proof. vm_compute. reflexivity. Qed.

(** a case whose generator table holds whole numbers: the reported generation does not cover the load and the flows at a bus *)
Theorem C116_refuted : exists (p : ppc_of Qc) r i z b, wf_case p /\ whole (p_gen p) /\
  runpf_typed argsort_stable (checked gaussq) false true (zc 100) p = Ok (r, true) /\
  bus_in_service p i /\ bus_at p z i /\ nth_error (p_bus r) i = Some b /\
  (total_at GEN_BUS (fun g => cell g PG) (p_gen r) z - cell b PD - cell b Idx.GS
   <> total_at F_BUS (fun g => cell g PF) (p_branch r) z + total_at T_BUS (fun g => cell g PT) (p_branch r) z)%Qc.
Proof.
  destruct (half_run true) as [[r [|]]|] eqn:H; [|exfalso; vm_compute in H; discriminate H..].
  exists (case_of half_load), r, 0, 1%Z.
  assert (Q : match half_run true with Ok (r, _) => match nth_error (p_bus r) 0 with Some b =>
     qc_eqb (total_at GEN_BUS (fun g => cell g PG) (p_gen r) 1 - cell b PD - cell b Idx.GS)
       (total_at F_BUS (fun g => cell g PF) (p_branch r) 1 + total_at T_BUS (fun g => cell g PT) (p_branch r) 1) | None => true end | _ => true end = false)
    by (vm_compute; reflexivity).
  rewrite H in Q. destruct (nth_error (p_bus r) 0) as [b|] eqn:Hb; [|discriminate]. exists b. apply qc_eqb_neq in Q.
  split; [apply (tables_wf half_load); vm_compute; reflexivity|]. split; [apply (whole_dec (b_gen half_load)); reflexivity|]. split; [exact H|].
  split; [eexists; split; [reflexivity|intros C; apply some_zc in C; vm_compute in C; discriminate C]|]. split; [eexists; split; reflexivity|]. split; [reflexivity|]. exact Q.
Qed.
Print Assumptions C116_refuted.
