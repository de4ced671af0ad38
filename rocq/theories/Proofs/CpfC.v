(** Continuation power flow: the whole run. *)
From Coq Require Import Permutation.
From Verif Require Import Lib.ListFacts Model.Cpf Spec.PfSpec Spec.AcSpec Spec.CpfSpec Proofs.LinAlgFacts Proofs.SparseFacts Proofs.FldFacts
  Proofs.NetworkA Proofs.NetworkB Proofs.NetworkC Proofs.NetworkD Proofs.YbusA Proofs.MatFacts Proofs.AcPfA Proofs.PfsolnA Proofs.PfsolnB
  Proofs.PfsolnC Proofs.AcPfC Proofs.NewtonA Proofs.CpfA Proofs.CpfB.
Local Open Scope nat_scope.

Section CpfC.
Context {K : Type} {F : Fld K}.
Add Field KF : (@f_ok K F).
Variables (cis : K -> cpx K) (cabs cang : cpx K -> K).
Variable norm2 : list K -> K.
Variable solve : list (list K) -> list K -> result (list K).

Lemma guard_ok b e u : guard b e = Ok u -> b = true.
Proof. destruct b; [auto|discriminate]. Qed.

(** the start of the loop *)
Definition start (o : cpf_opt) (V : list (cpx K)) (same ok : bool) : cstate :=
  CS V 0%K V 0%K (repeat 0%K (2 * length V) ++ [1%K]) (cp_step o) (cp_par o) (cp_adapt o) same ok 0 [Pt V 0%K V 0%K].

Lemma runcpf_ok fuel o baseb busb genb branchb baset bust gent brancht r :
  runcpf cis cabs cang norm2 solve fuel o baseb busb genb branchb baset bust gent brancht = Ok (Some r) ->
  exists ref pv pq V0 Y Yf Yt Sb St V ok m c,
    bustypes busb genb = Ok (ref, pv, pq) /\
    start_voltage cis cabs busb genb (onl genb) (gbs genb) pq = Ok V0 /\
    makeYbus cis baseb busb branchb = Ok (Y, Yf, Yt) /\ square (length busb) Y /\
    makeSbus baseb busb genb = Ok Sb /\ makeSbus baset bust gent = Ok St /\ length St = length Sb /\
    newtonpf cis cabs cang solve Y Sb V0 pv pq (cp_tol o) (cp_max_it o) = Ok (V, ok, m) /\
    let Sx := map2 csub St Sb in
    let same := forallb czero Sx in
    cpf_loop cis cabs cang norm2 solve o Y Sb Sx pv pq fuel (start o V same ok) = Ok (Some c) /\
    (same = true -> cs_success c = true) /\
    (exists bus1 bus2 gen1,
       blend (cs_lam c) PD busb bust = Ok bus1 /\ blend (cs_lam c) QD busb bus1 = Ok bus2 /\
       blend (cs_lam c) PG genb gent = Ok gen1 /\
       pfsoln cabs cang baset bus2 gen1 brancht Y Yf Yt (cs_V c) ref = Ok (cr_bus r, cr_gen r, cr_branch r)) /\
    cr_success r = cs_success c /\ cr_lam r = cs_lam c /\
    (cs_success c = true -> cr_points r = cs_points c /\ cr_iterations r = length (cs_points c) - 1 /\
       (1 < length (cs_points c) \/ length (cs_V c) = 1) /\
       exists ml, cr_max_lam r = Some ml /\ amax (map lam_c (cs_points c)) = Ok ml) /\
    (cs_success c = false -> cr_points r = [] /\ cr_max_lam r = None).
Proof.
  intros H. unfold runcpf in H. apply bind_ok in H as ([[ref pv] pq] & HB & H).
  apply bind_ok in H as (st & Hst & H). apply col_ok in Hst as (WG & ->).
  rewrite map_map in H. change (fun x : list K => pos_status (nth GEN_STATUS x 0%K)) with (@in_service K F) in H.
  cbv zeta in H. apply bind_ok in H as (go & Hgo & H). rewrite gather_find in Hgo. injection Hgo as <-.
  apply bind_ok in H as (gb & Hgb & H). apply idxcol_ok in Hgb as (_ & _ & ->).
  fold (gon genb) in H. fold (gbs genb) in H. fold (onl genb) in H.
  apply bind_ok in H as (V0 & HV0 & H). apply bind_ok in H as ([[Y Yf] Yt] & HY & H).
  apply bind_ok in H as (Sb & HSb & H). apply bind_ok in H as (St & HSt & H). apply bind_ok in H as (Sx & HSx & H).
  apply ewise_ok in HSx as (LS & ->).
  apply bind_ok in H as ([[V ok] m] & HV & H). apply bind_ok in H as (r1 & HL & H).
  destruct r1 as [c|]; [|discriminate].
  apply bind_ok in H as (? & HG & H). apply guard_ok in HG.
  apply bind_ok in H as (bus1 & H1 & H). apply bind_ok in H as (bus2 & H2 & H). apply bind_ok in H as (gen1 & H3 & H).
  apply bind_ok in H as ([[b' g'] br'] & HP & H).
  exists ref, pv, pq, V0, Y, Yf, Yt, Sb, St, V, ok, m, c.
  pose proof (makeYbus_ok _ _ _ _ _ _ _ HY) as YS.
  split; auto. split; auto. split; auto. split; [apply wf_fits; destruct YS; auto|].
  split; auto. split; auto. split; auto. split; auto. cbv zeta. split; [exact HL|].
  split. { intros E. rewrite E in HG. cbn [negb] in HG. rewrite orb_false_r in HG. auto. }
  destruct (cs_success c) eqn:SU.
  - apply bind_ok in H as (? & HG2 & H). apply guard_ok in HG2. apply bind_ok in H as (ml & HM & H). injection H as <-. cbn.
    split; [eauto 8|]. split; auto. split; auto. split; [|discriminate]. intros _. split; auto. split; auto. split; [|eauto].
    apply orb_true_iff in HG2 as [G|G]; [left; apply Nat.ltb_lt; auto|right; apply Nat.eqb_eq; auto].
  - injection H as <-. cbn. split; [eauto 8|]. split; auto. split; auto. split; [discriminate|auto].
Qed.
End CpfC.
