(** C01-C05: external/internal numbering. *)
From Coq Require Import Lia.
From Verif Require Import Lib.Num Lib.ListFacts Model.Idx Model.Ext2int Spec.CaseSpec
  Proofs.Ext2intA Proofs.Ext2intB Proofs.Ext2intC Proofs.Ext2intD Props.ExCase.

(** ** C01: the round trip returns the original tables *)
Theorem C01_round_trip {T} {CC : Cell T} : forall argsort (p : ppc_of T),
  argsort_spec argsort -> wf_case p -> in_ext_state p ->
  exists q r, ext2int argsort p = Ok q /\ int2ext q = Ok r /\
    p_bus r = p_bus p /\ p_gen r = p_gen p /\ p_branch r = p_branch p /\
    p_gencost r = p_gencost p /\ p_A r = p_A p /\ p_N r = p_N p /\
    (p_areas p <> Some [] -> p_areas r = p_areas p).
Proof.
  intros argsort p Has W E.
  destruct (one_cycle argsort Has p W E) as (q & r & Hq & Hr & (H1 & H2 & H3 & H4 & H5 & H6 & H7) & _).
  exists q, r. do 8 (split; auto). intros Hne. rewrite H5.
  destruct (p_areas p) as [[|]|]; auto; congruence.
Qed.
Print Assumptions C01_round_trip.

(** ** C02: the internal form *)
Theorem C02_internal_form {T} {CC : Cell T} : forall argsort (p : ppc_of T),
  argsort_spec argsort -> wf_case p -> in_ext_state p ->
  exists q sb sg sl sa, ext2int argsort p = Ok q /\ internal_form p q sb sg sl sa.
Proof.
  intros argsort p Has W E. rewrite ext2int_unfold by auto.
  destruct (ext2int_conv argsort Has p W) as (q & o & i2eZ & sb & gon & ge & sg & sl & sa & Hq & C).
  exists q, sb, sg, sl, sa. split; auto. apply (cv_form _ _ _ _ _ _ _ _ _ _ _ C).
Qed.
Print Assumptions C02_internal_form.

(** Without the hypothesis that references exist the claim is false: a generator at bus 5, which
    is not in the bus table, is silently attached to the first bus instead of being rejected. *)
Definition p_dangling : ppc :=
  {| p_bus := [mkbus 10 3; mkbus 7 1]; p_gen := [mkgen 5 1 11]; p_branch := [];
     p_gencost := None; p_areas := None; p_A := None; p_N := None; p_order := None |}.
Theorem C02_dangling_reference_refuted :
  exists p q r r', In r (p_gen p) /\ nth_error r GEN_BUS = Some (ofZ 5) /\
    (forall i, ~ bus_at p 5 i) /\
    ext2int argsort_stable p = Ok q /\ p_gen q = [r'] /\ nth_error r' GEN_BUS = Some (ofN 0).
Proof.
  exists p_dangling.
  destruct (ext2int argsort_stable p_dangling) as [q|] eqn:E; [|vm_compute in E; discriminate].
  exists q, (mkgen 5 1 11), (mkgen 0 1 11). split; [left; auto|]. split; [reflexivity|].
  split.
  { intros i (r & H & Hc). destruct i as [|[|i]]; cbn [nth_error p_dangling p_bus] in H.
    - assert (r = mkbus 10 3) by congruence; subst r.
      unfold mkbus, BUS_I in Hc; cbn [nth_error] in Hc. apply some_ofZ in Hc; lia.
    - assert (r = mkbus 7 1) by congruence; subst r.
      unfold mkbus, BUS_I in Hc; cbn [nth_error] in Hc. apply some_ofZ in Hc; lia.
    - destruct i; discriminate. }
  split; auto. split; [|reflexivity].
  assert (p_gen match ext2int argsort_stable p_dangling with Ok q => q | Err _ => p_dangling end
          = [mkgen 0 1 11]) as H by (vm_compute; reflexivity).
  rewrite E in H. exact H.
Qed.
Print Assumptions C02_dangling_reference_refuted.

(** ** C03: results go back to the rows they came from *)
Theorem C03_results_written_back {T} {CC : Cell T} : forall argsort (p : ppc_of T),
  argsort_spec argsort -> wf_case p -> in_ext_state p ->
  exists q sb sg sl sa, ext2int argsort p = Ok q /\ internal_form p q sb sg sl sa /\
    forall bus' gen' branch',
      same_shape [BUS_I] (p_bus q) bus' -> same_shape [GEN_BUS] (p_gen q) gen' ->
      same_shape [F_BUS; T_BUS] (p_branch q) branch' ->
      exists r, int2ext (with_results q bus' gen' branch') = Ok r /\
        written_back [BUS_I] sb (p_bus p) bus' (p_bus r) /\
        written_back [GEN_BUS] sg (p_gen p) gen' (p_gen r) /\
        written_back [F_BUS; T_BUS] sl (p_branch p) branch' (p_branch r) /\
        p_gencost r = p_gencost p /\ p_areas r = drop_empty_areas (p_areas p).
Proof.
  intros argsort p Has W E. rewrite ext2int_unfold by auto.
  destruct (ext2int_conv argsort Has p W) as (q & o & i2eZ & sb & gon & ge & sg & sl & sa & Hq & C).
  exists q, sb, sg, sl, sa. split; auto. split; [apply (cv_form _ _ _ _ _ _ _ _ _ _ _ C)|].
  intros bus' gen' br' Sb Sg Sl.
  destruct (int2ext_back argsort Has p W q o i2eZ sb gon ge sg sl sa C _ _ _ Sb Sg Sl)
    as (r & Hr & H1 & H2 & H3 & H4 & H5 & _).
  exists r. auto 10.
Qed.
Print Assumptions C03_results_written_back.

(** ** C04: state machine *)
Theorem C04_ext2int_on_internal {T} {CC : Cell T} : forall argsort (p : ppc_of T) o,
  p_order p = Some o -> o_state o = StateI -> ext2int argsort p = Ok p.
Proof. intros argsort p o Ho Hs. unfold ext2int. rewrite Ho, Hs. reflexivity. Qed.
Print Assumptions C04_ext2int_on_internal.

Theorem C04_int2ext_on_external {T} {CC : Cell T} : forall p : ppc_of T, in_ext_state p ->
  int2ext p = Err KeyError \/ int2ext p = Ok p.
Proof.
  intros p. unfold in_ext_state, int2ext. destruct (p_order p) as [o|]; auto. intros ->; auto.
Qed.
Print Assumptions C04_int2ext_on_external.

(** any number of round trips leaves the tables as after none, and the next conversion gives the
    same internal case as the first one *)
Theorem C04_cycles_do_not_accumulate {T} {CC : Cell T} : forall argsort (p : ppc_of T) n,
  argsort_spec argsort -> wf_case p -> in_ext_state p ->
  exists r, cycles argsort (S n) p = Ok r /\ same_case p r /\
    ext2int argsort r = ext2int argsort p.
Proof.
  intros argsort p n Has W E.
  destruct (many_cycles argsort Has n p W E) as (r & Hr & Hs & Er).
  exists r. split; auto. split; auto. rewrite !ext2int_unfold by auto. apply body_same; auto.
Qed.
Print Assumptions C04_cycles_do_not_accumulate.

(** ** C05: user data *)
Theorem C05_user_data {T} {CC : Cell T} : forall argsort (p : ppc_of T),
  argsort_spec argsort -> wf_case p -> in_ext_state p ->
  exists q sb sg sl sa, ext2int argsort p = Ok q /\ internal_form p q sb sg sl sa /\
  (* e2i_data picks the entry of the corresponding external row *)
  (forall A k (v : list A), length v = int_len p k ->
     exists w, e2i_data q v (inl k) = Ok (Some w) /\ length w = length (src sb sg sl k) /\
       forall j i, nth_error (src sb sg sl k) j = Some i -> nth_error w j = nth_error v i) /\
  (* i2e_data writes it back and keeps the old value of out-of-service rows *)
  (forall A k (w old : list A),
     length w = length (src sb sg sl k) -> length old = int_len p k ->
     exists v, i2e_data q w old (inl k) = Ok (Some v) /\ length v = length old /\
       (forall i, ~ In i (src sb sg sl k) -> nth_error v i = nth_error old i) /\
       (forall j i, nth_error (src sb sg sl k) j = Some i -> nth_error v i = nth_error w j)) /\
  (* one after the other is the identity *)
  (forall A k (v w : list A), length v = int_len p k ->
     e2i_data q v (inl k) = Ok (Some w) -> i2e_data q w v (inl k) = Ok (Some v)) /\
  (* several orderings: block by block, the remainder is kept *)
  (forall A (blocks : list (okind * list A)) ws rest,
     Forall2 (fun b w => length (snd b) = int_len p (fst b) /\
                         e2i_data q (snd b) (inl (fst b)) = Ok (Some w)) blocks ws ->
     e2i_data q (concat (map snd blocks) ++ rest) (inr (map fst blocks))
       = Ok (Some (concat ws ++ rest))) /\
  (forall A (blocks : list (okind * (list A * list A))) vs rest orest,
     Forall2 (fun b v => length (fst (snd b)) = length (src sb sg sl (fst b)) /\
                         length (snd (snd b)) = int_len p (fst b) /\
                         i2e_data q (fst (snd b)) (snd (snd b)) (inl (fst b)) = Ok (Some v))
             blocks vs ->
     i2e_data q (concat (map (fun b => fst (snd b)) blocks) ++ rest)
                (concat (map (fun b => snd (snd b)) blocks) ++ orest) (inr (map fst blocks))
       = Ok (Some (concat vs ++ rest))).
Proof.
  intros argsort p Has W E. rewrite ext2int_unfold by auto.
  destruct (ext2int_conv argsort Has p W) as (q & o & i2eZ & sb & gon & ge & sg & sl & sa & Hq & C).
  exists q, sb, sg, sl, sa. split; auto. split; [apply (cv_form _ _ _ _ _ _ _ _ _ _ _ C)|].
  pose proof (cv_order _ _ _ _ _ _ _ _ _ _ _ C) as Ho.
  pose proof (cv_state _ _ _ _ _ _ _ _ _ _ _ C) as Hs.
  pose proof (cv_ext _ _ _ _ _ _ _ _ _ _ _ C) as Hx.
  assert (E1 : forall A k (v : list A), e2i_data q v (inl k) =
             (r <- e2i_single o k v ;; Ok (Some r))).
  { intros. unfold e2i_data. rewrite Ho, Hs. reflexivity. }
  assert (I1 : forall A k (w v : list A), i2e_data q w v (inl k) =
             (r <- i2e_single o k w v ;; Ok (Some r))).
  { intros. unfold i2e_data. rewrite Ho, Hs. reflexivity. }
  split; [|split; [|split; [|split]]].
  - intros A k v Hl.
    destruct (e2i_single_ok _ _ _ _ _ _ _ _ _ _ _ C k v Hl) as (w & Hw & H).
    exists w. rewrite E1, Hw. auto.
  - intros A k w old Hw Hold.
    destruct (i2e_single_ok _ Has _ _ _ _ _ _ _ _ _ _ C k w old Hw Hold) as (v & Hv & H).
    exists v. rewrite I1, Hv. auto.
  - intros A k v w Hl H. rewrite E1 in H. apply bind_ok in H as (w' & Hw' & H).
    injection H as ->. rewrite I1.
    rewrite (i2e_e2i _ Has _ _ _ _ _ _ _ _ _ _ C k v w Hl Hw'). reflexivity.
  - intros A blocks ws rest H. unfold e2i_data. rewrite Ho, Hs, Hx. cbn [of_option bind].
    pose proof (e2i_multi_blocks p o blocks ws rest []) as B. unfold extT in B.
    cbn [length app] in B. rewrite B; auto.
    eapply Forall2_impl; [|exact H]. intros [k b] w [H1 H2]. split; auto.
    rewrite E1 in H2. apply bind_ok in H2 as (w' & Hw' & H2). injection H2 as ->. auto.
  - intros A blocks vs rest orest H. unfold i2e_data. rewrite Ho, Hs, Hx. cbn [of_option bind].
    pose proof (i2e_multi_blocks _ _ _ _ _ _ _ _ _ _ _ C blocks vs rest orest [] []) as B.
    unfold extT in B. cbn [length app] in B. rewrite B; auto.
    eapply Forall2_impl; [|exact H]. intros [k [b ob]] v (H1 & H2 & H3). do 2 (split; auto).
    rewrite I1 in H3. apply bind_ok in H3 as (v' & Hv' & H3). injection H3 as ->. auto.
Qed.
Print Assumptions C05_user_data.

(** A sparse user constraint matrix A is not reordered at all: the column of the second internal
    bus (external row 2) still is the column of external bus row 1. *)
Theorem C05_sparse_matrix_refuted :
  exists p q m r, wf_case p /\ in_ext_state p /\ ext2int argsort_stable p = Ok q /\
    p_A p = Some m /\ u_sparse m = true /\ u_rows m = [r] /\ p_A q = Some m /\
    (exists b2, nth_error (p_bus p) 2 = Some b2 /\
                nth_error (p_bus q) 1 = Some (upd b2 BUS_I (ofN 1))) /\
    nth_error r 1 <> nth_error r 2.
Proof.
  destruct (ext2int argsort_stable (p0A (Some (mkA true)))) as [q|] eqn:E;
    [|vm_compute in E; discriminate].
  exists (p0A (Some (mkA true))), q, (mkA true), (map ofZ [0; 1; 2; 3; 4; 5; 6; 7; 8]%Z).
  split; [apply (p0_wf true)|]. split; [exact I|]. split; [exact E|].
  assert (H : exists q', ext2int argsort_stable (p0A (Some (mkA true))) = Ok q' /\
      p_A q' = Some (mkA true) /\ nth_error (p_bus q') 1 = Some (upd (mkbus 7 1) BUS_I (ofN 1))).
  { eexists. split; [vm_compute; reflexivity|]. split; vm_compute; reflexivity. }
  destruct H as (q' & E' & H1 & H2). assert (q' = q) by congruence; subst q'.
  split; [reflexivity|]. split; [reflexivity|]. split; [reflexivity|]. split; [exact H1|].
  split; [exists (mkbus 7 1); split; [reflexivity|exact H2]|].
  cbn [map nth_error]. intros C. apply some_ofZ in C. lia.
Qed.
Print Assumptions C05_sparse_matrix_refuted.

(** ** the hypotheses are satisfiable by a non-trivial case *)
Example ex_wf : wf_case p0 /\ in_ext_state p0 /\ argsort_spec argsort_stable.
Proof. split; [apply (p0_wf false)|]. split; [exact I|apply argsort_stable_spec]. Qed.

Example ex_internal : exists q, ext2int argsort_stable p0 = Ok q /\
  p_bus q = [mkbus 0 3; mkbus 1 1; mkbus 2 2] /\
  p_gen q = [mkgen 0 1 22; mkgen 1 1 11; mkgen 2 1 55] /\
  p_branch q = [mkbr 0 1 1; mkbr 2 1 1] /\
  p_gencost q = Some [[ofZ 2]; [ofZ 1]; [ofZ 5]] /\
  p_areas q = Some [[ofZ 1; ofZ 1]].
Proof. eexists. split; [vm_compute; reflexivity|]. repeat split; vm_compute; reflexivity. Qed.
