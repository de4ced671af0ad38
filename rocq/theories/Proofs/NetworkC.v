(** Injections and the DC power flow (C17). *)
From Coq Require Import Permutation.
From Verif Require Import Lib.ListFacts Lib.Sparse Proofs.LinAlgFacts Proofs.SparseFacts
  Model.Network Spec.NetSpec Proofs.NetworkA Proofs.NetworkB.
Local Open Scope nat_scope.

Lemma gather_find {A} (p : A -> bool) (l : list A) :
  gather l (find (map p l)) = Ok (filter p l).
Proof.
  unfold gather, find.
  assert (forall pre, mapM (get (pre ++ l)) (find_from (length pre) (map p l))
                      = Ok (filter p l)) as G.
  { induction l as [|a l IH]; intros pre; simpl; auto.
    replace (pre ++ a :: l) with ((pre ++ [a]) ++ l) by (rewrite <- app_assoc; reflexivity).
    specialize (IH (pre ++ [a])). rewrite app_length in IH. simpl in IH.
    rewrite Nat.add_1_r in IH. destruct (p a); auto. cbn [mapM]. rewrite IH.
    assert (get ((pre ++ [a]) ++ l) (length pre) = Ok a) as ->; auto.
    apply get_ok. rewrite nth_error_app1 by (rewrite app_length; simpl; lia).
    rewrite nth_error_app2, Nat.sub_diag by lia. reflexivity. }
  apply (G []).
Qed.

Lemma nth_error_find {A} (p : A -> bool) (l : list A) k i :
  nth_error (find (map p l)) k = Some i ->
  exists a, nth_error l i = Some a /\ p a = true /\ nth_error (filter p l) k = Some a.
Proof.
  intros H. assert (In i (find (map p l))) as Hi by (eapply nth_error_In; eauto).
  apply in_find in Hi. rewrite nth_error_map in Hi.
  destruct (nth_error l i) as [a|] eqn:E; [|discriminate]. simpl in Hi. injection Hi as Hp.
  exists a. repeat split; auto.
  pose proof (gather_nth _ _ _ _ _ (gather_find p l) H) as G. rewrite E in G. auto.
Qed.

Lemma NoDup_app_r {A} (l l' : list A) : NoDup (l ++ l') -> NoDup l'.
Proof. induction l; simpl; auto. inversion 1; auto. Qed.

Section Sbus.
Context {K : Type} {F : Fld K}.
Add Ring KR : (@r_ok K _).
Add Field KF : (@f_ok K _).

Lemma re_lsum {A} (f : A -> cpx K) l : re (lsum f l) = lsum (fun x => re (f x)) l.
Proof. induction l; simpl; congruence. Qed.
Lemma im_lsum {A} (f : A -> cpx K) l : im (lsum f l) = lsum (fun x => im (f x)) l.
Proof. induction l; simpl; congruence. Qed.

Lemma makeSbus_ok baseMVA bus gen S : makeSbus baseMVA bus gen = Ok S ->
  baseMVA <> 0%K /\ wide QD bus /\ wide GEN_STATUS gen /\
  S = map (fun i => let b := nth i bus [] in
        Cx ((gen_total (fun g => cell g PG) gen i - cell b PD) / baseMVA)
           ((gen_total (fun g => cell g QG) gen i - cell b QD) / baseMVA))%K
      (seq 0 (length bus)).
Proof.
  unfold makeSbus. intros H.
  apply bind_ok in H as (st & Hst & H). apply col_ok in Hst as [Wst ->]. cbv zeta in H.
  rewrite map_map in H.
  change (fun x : list K => pos_status (nth GEN_STATUS x 0%K)) with in_service in H.
  rewrite gather_find in H. cbn [bind] in H.
  apply bind_ok in H as (gb & Hgb & H). apply idxcol_ok in Hgb as (_ & _ & ->).
  apply bind_ok in H as (Cg & HC & H). apply bind_ok in H as (pg & Hpg & H).
  apply bind_ok in H as (qg & Hqg & H). apply bind_ok in H as (Sg & HS & H).
  apply bind_ok in H as (pd & Hpd & H). apply bind_ok in H as (qd & Hqd & H).
  destruct (feqb baseMVA 0%K) eqn:E0; [discriminate|]. injection H as <-.
  apply col_ok in Hpg as [_ ->]. apply col_ok in Hqg as [_ ->].
  apply col_ok in Hpd as [_ ->]. apply col_ok in Hqd as [Wqd ->].
  split. { intros ->. assert (feqb (r0:K) 0%K = true) by (apply feqb_ok; auto). congruence. }
  split; [exact Wqd|]. split; [exact Wst|].
  rewrite map2_map in *.
  set (gon := filter in_service gen) in *.
  apply sparse_ok in HC as (L1 & L2 & _ & _ & EC).
  rewrite map_length, repeat_length in L1.
  apply mulv_ok in HS as (_ & LS & NS). assert (nrows Cg = length bus) as EN by (rewrite EC; auto). rewrite EN in LS, NS.
  assert (forall i, mulrow Cg (map (fun x => Cx (nth PG x 0%K) (nth QG x 0%K)) gon) i
     = Cx (gen_total (fun g => cell g PG) gen i) (gen_total (fun g => cell g QG) gen i)) as M.
  { intros i. rewrite EC. unfold mulrow. cbn [ents]. rewrite <- L1.
    rewrite (lsum_zip3 _ _ _ _ (length gon)) by (rewrite ?map_length, ?seq_length, ?repeat_length; auto).
    pose (h := fun g : list K =>
       if bus_no g GEN_BUS =? i then Cx (cell g PG) (cell g QG) else (0%K : cpx K)).
    rewrite (lsum_ext _ (fun k => h (nth k gon []))).
    - rewrite <- (lsum_nth h gon []). unfold gon. rewrite lsum_filter.
      apply cpx_eq; rewrite ?re_lsum, ?im_lsum; cbn [re im]; unfold gen_total;
        apply lsum_ext; intros g _; unfold h;
        destruct (in_service g); destruct (bus_no g GEN_BUS =? i); reflexivity.
    - intros k Hk. apply in_seq in Hk. cbn [erow ecol ev]. unfold h.
      rewrite !(nth_map_lt _ gon k _ []) by lia. destruct (_ =? i); auto.
      rewrite seq_nth by lia. rewrite nth_repeat_lt by lia.
      simpl plus. rewrite (nth_map_lt _ gon k _ []) by lia. unfold cell.
      apply cpx_eq; simpl; ring. }
  apply nth_error_ext. intros i. rewrite nth_error_map.
  destruct (Nat.lt_ge_cases i (length bus)) as [L|L].
  - rewrite seq_nth_error by auto. cbn [option_map].
    unfold map2. rewrite nth_error_map.
    assert (nth_error (combine Sg (map (fun x => Cx (nth PD x 0%K) (nth QD x 0%K)) bus)) i
      = Some (nth i Sg 0%K, nth i (map (fun x => Cx (nth PD x 0%K) (nth QD x 0%K)) bus) 0%K)) as ->.
    { rewrite (nth_error_nth' _ (0%K, 0%K)) by (rewrite combine_length, map_length; lia).
      rewrite combine_nth by (rewrite map_length; lia). reflexivity. }
    cbn [option_map]. rewrite (nth_map_lt _ bus i _ []) by auto.
    rewrite (nth_error_nth _ _ 0%K (NS i L)), M. reflexivity.
  - rewrite (proj2 (nth_error_None _ _)), (proj2 (nth_error_None _ _)); auto.
    + rewrite seq_length; auto.
    + unfold map2. rewrite map_length, combine_length. lia.
Qed.

(** ** dcpf *)
Definition dotl (u v : list K) : K := lsum (fun p => fst p * snd p)%K (combine u v).

Lemma dotl_map (g : nat -> K) idx x : length x = length idx ->
  dotl (map g idx) x = lsum (fun k => g (nth k idx 0%nat) * nth k x 0)%K (seq 0 (length idx)).
Proof.
  intros L. unfold dotl. rewrite (lsum_combine _ _ _ 0%K 0%K) by (rewrite map_length; auto).
  rewrite map_length. apply lsum_ext. intros k Hk. apply in_seq in Hk. cbn [fst snd].
  rewrite (nth_map_lt _ idx k _ 0) by lia. reflexivity.
Qed.

Lemma scatter_checked_ok {A} (l : list A) idx vals l' : scatter_checked l idx vals = Ok l' ->
  length idx = length vals /\ Forall (fun i => i < length l) idx /\ l' = scatter l idx vals.
Proof.
  unfold scatter_checked. destruct (Nat.eqb_spec (length idx) (length vals)); simpl; [|discriminate].
  destruct (forallb _ idx) eqn:E; [|discriminate]. intros H; injection H as <-.
  repeat split; auto. rewrite forallb_forall in E. apply Forall_forall. intros i Hi.
  apply Nat.ltb_lt; auto.
Qed.

Lemma nth_scatter_at (l : list K) idx vals k : NoDup idx -> length vals = length idx ->
  Forall (fun i => i < length l) idx -> k < length idx ->
  nth (nth k idx 0) (scatter l idx vals) 0%K = nth k vals 0%K.
Proof.
  intros N L R Hk. destruct (nth_error_lt idx k Hk) as (i & Hi).
  destruct (nth_error_lt vals k) as (v & Hv); [lia|].
  rewrite (nth_error_nth _ _ _ Hi), (nth_error_nth _ _ _ Hv).
  apply nth_error_nth. eapply scatter_at; eauto.
  rewrite Forall_forall in R. apply R. eapply nth_error_In; eauto.
Qed.

Lemma nth_scatter_other (l : list K) idx vals i : ~ In i idx ->
  nth i (scatter l idx vals) 0%K = nth i l 0%K.
Proof.
  intros H. pose proof (scatter_other idx l vals i H) as E.
  destruct (nth_error l i) as [a|] eqn:E'.
  - rewrite (nth_error_nth _ _ _ E), (nth_error_nth _ _ _ E'). reflexivity.
  - rewrite !nth_overflow; auto; apply nth_error_None; auto.
Qed.

Lemma dcpf_ok solve B Pbus Va0 ref pv pq Va nb :
  solver_exact solve -> dcpf solve B Pbus Va0 ref pv pq = Ok Va ->
  wf B -> ncols B = nb -> length Va0 = nb ->
  Permutation (ref ++ pv ++ pq) (seq 0 nb) ->
  length Va = nb /\
  (forall i, In i ref -> nth i Va 0%K = nth i Va0 0%K) /\
  (forall i, In i (pv ++ pq) -> mulrow B Va i = nth i Pbus 0%K).
Proof.
  intros SE H W NC L0 P. unfold dcpf in H.
  apply bind_ok in H as (Pp & HP & H). apply bind_ok in H as (Vr & HV & H).
  apply bind_ok in H as (rhs & HR & H). apply bind_ok in H as (x & HX & H).
  apply scatter_checked_ok in H as (Lx & RG & ->).
  apply ewise_ok in HR as (LR & ER). destruct (SE _ _ _ HX) as [RL EQ].
  set (pvpq := pv ++ pq) in *.
  assert (NoDup (ref ++ pvpq)) as N
    by (eapply Permutation_NoDup; [symmetry; exact P|apply seq_NoDup]).
  assert (NoDup pvpq) as N1 by (eapply NoDup_app_r; eauto).
  split; [rewrite scatter_length; auto|].
  assert (forall i, In i ref -> ~ In i pvpq) as D.
  { intros i Hi Hj. clear -N Hi Hj. induction ref as [|a l IH]; [contradiction|].
    inversion N; subst. destruct Hi as [->|Hi]; auto.
    apply H1. apply in_or_app. auto. }
  split.
  - intros i Hi. apply nth_scatter_other. auto.
  - intros i Hi. rewrite mulrow_at by auto. rewrite NC.
    rewrite <- (lsum_perm _ _ _ P), lsum_app.
    apply In_nth_error in Hi. destruct Hi as (k & Hk).
    assert (k < length pvpq) as Lk by (eapply nth_error_some_lt; eauto).
    assert (dotl (map (at_ B i) pvpq) x = nth k rhs 0%K) as E.
    { rewrite <- EQ. unfold submat. rewrite map_map. rewrite (nth_map_lt _ pvpq k _ 0) by auto.
      rewrite (nth_error_nth _ _ _ Hk). reflexivity. }
    pose proof (gather_length _ _ _ HP) as LP. pose proof (gather_length _ _ _ HV) as LV.
    assert (nth k rhs 0%K = (nth i Pbus 0 - dotl (map (at_ B i) ref) Vr)%K) as E2.
    { rewrite ER. rewrite (nth_map2_d _ _ _ _ 0%K 0%K) by (unfold matvec_k, submat in *; rewrite ?map_length in *; lia).
      f_equal.
      - pose proof (gather_nth _ _ _ _ _ HP Hk) as G. rewrite (nth_error_nth' Pp 0%K) in G by lia.
        symmetry in G. symmetry. apply nth_error_nth. auto.
      - unfold matvec_k, submat. rewrite map_map. rewrite (nth_map_lt _ pvpq k _ 0) by auto.
        rewrite (nth_error_nth _ _ _ Hk). reflexivity. }
    rewrite E2 in E. rewrite dotl_map in E by lia. rewrite dotl_map in E by lia.
    rewrite (lsum_nth _ ref 0), (lsum_nth _ pvpq 0).
    rewrite (lsum_ext (fun k0 => (at_ B i (nth k0 pvpq 0%nat) * nth (nth k0 pvpq 0%nat) (scatter Va0 pvpq x) 0)%K)
               (fun k0 => (at_ B i (nth k0 pvpq 0%nat) * nth k0 x 0)%K)).
    2: { intros m Hm. apply in_seq in Hm. rewrite nth_scatter_at; auto; lia. }
    rewrite E.
    rewrite (lsum_ext (fun k0 => (at_ B i (nth k0 ref 0%nat) * nth (nth k0 ref 0%nat) (scatter Va0 pvpq x) 0)%K)
               (fun k0 => (at_ B i (nth k0 ref 0%nat) * nth k0 Vr 0)%K)).
    2: { intros m Hm. apply in_seq in Hm. assert (m < length ref) as Lm by lia.
         rewrite nth_scatter_other by (apply D; apply nth_In; auto).
         f_equal. destruct (nth_error_lt ref m Lm) as (j & Hj).
         pose proof (gather_nth _ _ _ _ _ HV Hj) as G. rewrite (nth_error_nth _ _ _ Hj).
         rewrite (nth_error_nth' Vr 0%K) in G by lia.
         symmetry in G. apply nth_error_nth. auto. }
    ring.
Qed.
End Sbus.
