(** PTDF and LODF (C18, C19). *)
From Coq Require Import Permutation.
From Verif Require Import Lib.ListFacts Lib.Sparse Proofs.LinAlgFacts Proofs.SparseFacts
  Model.Network Spec.NetSpec Proofs.NetworkA Proofs.NetworkB Proofs.NetworkC Proofs.NetworkD
  Proofs.NetworkE.
Local Open Scope nat_scope.

Section Ptdf.
Context {K : Type} {F : Fld K}.
Add Ring KR : (@r_ok K _).
Add Field KF : (@f_ok K _).

Lemma dth_const r (c : K) nb : bus_no r F_BUS < nb -> bus_no r T_BUS < nb ->
  dth r (repeat c nb) = 0%K.
Proof. intros A B. unfold dth. rewrite !nth_repeat_lt by auto. ring. Qed.

Lemma dotk_nth (u v : list K) n : length u = n -> length v = n ->
  dotk u v = lsum (fun i => nth i u 0 * nth i v 0)%K (seq 0 n).
Proof.
  intros A B. unfold dotk. rewrite (lsum_combine _ _ _ 0%K 0%K) by lia. rewrite A. reflexivity.
Qed.

Section Fixed.
Variables (bus branch : list (list K)) (Bbus Bf : smat K) (Pbi Pfi : list K).
Hypothesis BDC : bdc_spec bus branch Bbus Bf Pbi Pfi.
Let nb := length bus.

Lemma in_range r : In r branch -> bus_no r F_BUS < nb /\ bus_no r T_BUS < nb.
Proof.
  destruct BDC as [_ A B _ _ _ _ _ _ _]. unfold buses_ok in *. rewrite Forall_forall in A, B.
  intros H. split; [apply A|apply B]; auto.
Qed.

Lemma Bbus_row_sum i : lsum (at_ Bbus i) (seq 0 nb) = 0%K.
Proof.
  destruct BDC as [_ _ _ _ (W & _ & NC) _ _ _ INJ _].
  pose proof (mulrow_at Bbus (repeat 1%K nb) i W) as M. rewrite NC in M. fold nb in M.
  rewrite (lsum_ext _ (fun j => at_ Bbus i j * nth j (repeat 1 nb) 0)%K).
  - rewrite <- M, INJ. apply lsum_zero. intros r Hr. destruct (in_range r Hr).
    rewrite dth_const by auto. ring.
  - intros j Hj. apply in_seq in Hj. rewrite nth_repeat_lt by lia. ring.
Qed.

Lemma Bf_row_sum l : l < length branch -> lsum (at_ Bf l) (seq 0 nb) = 0%K.
Proof.
  intros L. destruct BDC as [_ _ _ _ _ (W & _ & NC) FLOW _ _ _].
  pose proof (mulrow_at Bf (repeat 1%K nb) l W) as M. rewrite NC in M. fold nb in M.
  rewrite (lsum_ext _ (fun j => at_ Bf l j * nth j (repeat 1 nb) 0)%K).
  - rewrite <- M. destruct (nth_error_lt branch l L) as (r & Hr). rewrite (FLOW _ _ _ Hr).
    destruct (in_range r (nth_error_In _ _ Hr)). rewrite dth_const by auto. ring.
  - intros j Hj. apply in_seq in Hj. rewrite nth_repeat_lt by lia. ring.
Qed.

(** the injections of any angle vector sum to zero *)
Lemma inj_sum Va : lsum (mulrow Bbus Va) (seq 0 nb) = 0%K.
Proof.
  destruct BDC as [_ _ _ _ _ _ _ _ INJ _].
  rewrite (lsum_ext _ (fun i => lsum (fun r => inc r i * (susc r * dth r Va)) branch)%K)
    by (intros; apply INJ).
  rewrite lsum_swap. apply lsum_zero. intros r Hr. rewrite lsum_scal_r.
  assert (lsum (inc r) (seq 0 nb) = 0%K) as ->; [|ring].
  unfold inc. rewrite lsum_sub. destruct (in_range r Hr).
  rewrite (lsum_seq_single' (fun _ => 1%K)), (lsum_seq_single' (fun _ => 1%K)) by auto. ring.
Qed.

(** a row of the factor matrix: h times Bbus gives the row of Bf *)
Definition is_factor (l : nat) (h : list K) : Prop :=
  length h = nb /\
  forall Va, lsum (fun s => nth s h 0 * mulrow Bbus Va s)%K (seq 0 nb) = mulrow Bf Va l.

Lemma factor_of_columns l h : l < length branch -> length h = nb ->
  (forall r, 1 <= r < nb ->
     lsum (fun s => nth s h 0 * at_ Bbus s r)%K (seq 0 nb) = at_ Bf l r) ->
  is_factor l h.
Proof.
  intros Ll Lh C. split; auto. intros Va.
  assert (forall r, r < nb -> lsum (fun s => nth s h 0 * at_ Bbus s r)%K (seq 0 nb) = at_ Bf l r) as C'.
  { intros [|r] Hr; [|apply C; lia].
    assert (exists m, nb = S m) as (m & Em) by (exists (nb - 1); lia).
    pose proof (Bf_row_sum l Ll) as S1. rewrite Em in S1. simpl seq in S1. cbn [lsum] in S1.
    assert (at_ Bf l 0 = (- lsum (at_ Bf l) (seq 1 m))%K) as ->.
    { apply (f_equal (fun x => (x - lsum (at_ Bf l) (seq 1 m))%K)) in S1.
      transitivity (at_ Bf l 0%nat + lsum (at_ Bf l) (seq 1 m) - lsum (at_ Bf l) (seq 1 m))%K; [ring|].
      rewrite S1. ring. }
    rewrite (lsum_ext (at_ Bf l) (fun r => lsum (fun s => nth s h 0 * at_ Bbus s r)%K (seq 0 nb))).
    2: { intros r Hr'. apply in_seq in Hr'. symmetry. apply C. lia. }
    rewrite lsum_swap, <- lsum_opp. apply lsum_ext. intros s _.
    rewrite lsum_scal. pose proof (Bbus_row_sum s) as S2. rewrite Em in S2. simpl seq in S2.
    cbn [lsum] in S2.
    assert (at_ Bbus s 0 = (- lsum (at_ Bbus s) (seq 1 m))%K) as ->; [|ring].
    transitivity (at_ Bbus s 0%nat + lsum (at_ Bbus s) (seq 1 m) - lsum (at_ Bbus s) (seq 1 m))%K; [ring|].
    rewrite S2. ring. }
  destruct BDC as [_ _ _ _ (WB & _ & NCB) (WF & _ & NCF) _ _ _ _].
  rewrite (mulrow_at Bf) by auto. rewrite NCF. fold nb.
  rewrite (lsum_ext _ (fun s => lsum (fun r => nth s h 0 * at_ Bbus s r * nth r Va 0) (seq 0 nb))%K).
  2: { intros s _. rewrite mulrow_at by auto. rewrite NCB. fold nb. rewrite <- lsum_scal.
       apply lsum_ext. intros; ring. }
  rewrite lsum_swap. apply lsum_ext. intros r Hr. apply in_seq in Hr.
  rewrite lsum_scal_r, C' by lia. reflexivity.
Qed.
End Fixed.

Lemma not_slack_in nb k : forall i, In i (find (map (fun i => negb (i =? k)) (seq 0 nb))) <-> i < nb /\ i <> k.
Proof.
  intros i. rewrite in_find, nth_error_map. split.
  - intros H. destruct (nth_error (seq 0 nb) i) as [j|] eqn:E; [|discriminate].
    assert (i < nb) by (apply nth_error_some_lt in E; rewrite seq_length in E; auto).
    rewrite seq_nth_error in E by auto. injection E as <-. simpl in H. injection H as H.
    apply negb_true_iff, Nat.eqb_neq in H. auto.
  - intros [L N]. rewrite seq_nth_error by auto. simpl. f_equal.
    apply negb_true_iff, Nat.eqb_neq. auto.
Qed.

(** sums over the rows that are not the slack, for a scattered vector *)
Lemma scatter_sum nb idx (h : list K) (g : nat -> K) :
  NoDup idx -> Forall (fun i => i < nb) idx -> length h = length idx ->
  lsum (fun s => nth s (scatter (repeat 0%K nb) idx h) 0 * g s)%K (seq 0 nb)
  = dotl (map g idx) h.
Proof.
  intros N R L. rewrite dotl_map by auto.
  set (v := scatter (repeat 0%K nb) idx h).
  assert (forall s, ~ In s idx -> nth s v 0%K = 0%K) as Z.
  { intros s Hs. unfold v. rewrite nth_scatter_other by auto.
    destruct (Nat.lt_ge_cases s nb); [apply nth_repeat_lt; auto|].
    apply nth_overflow. rewrite repeat_length. auto. }
  transitivity (lsum (fun s => nth s v 0 * g s)%K idx).
  - pose (mem := fun s => if in_dec Nat.eq_dec s idx then true else false).
    rewrite (lsum_ext _ (fun s => if mem s then nth s v 0 * g s else 0)%K).
    2: { intros s _. unfold mem. destruct (in_dec Nat.eq_dec s idx); auto. rewrite Z by auto. ring. }
    rewrite <- (lsum_filter _ mem). apply lsum_perm. apply NoDup_Permutation; auto.
    + apply NoDup_filter, seq_NoDup.
    + intros s. rewrite filter_In, in_seq. unfold mem. destruct (in_dec Nat.eq_dec s idx) as [I|I].
      * rewrite Forall_forall in R. specialize (R s I). split; auto. intros _. split; auto. lia.
      * split; [intros [_ C]; discriminate|contradiction].
  - rewrite (lsum_nth _ idx 0). apply lsum_ext. intros k Hk. apply in_seq in Hk.
    unfold v. rewrite nth_scatter_at; auto; [ring|rewrite repeat_length; auto|lia].
Qed.

(** H before the slack is distributed: every row is a factor row and the slack column is zero *)
Definition base_ptdf (bus branch : list (list K)) Bbus Bf slack_bus (H : list (list K)) : Prop :=
  length H = length branch /\
  forall l h, nth_error H l = Some h ->
    is_factor bus Bbus Bf l h /\ nth slack_bus h 0%K = 0%K.

Lemma base_ptdf_ok solve bus branch Bbus Bf Pbi Pfi slack_bus hs H :
  solver_exact solve -> bdc_spec bus branch Bbus Bf Pbi Pfi ->
  let nb := length bus in
  let noref := seq 1 (nb - 1) in
  let noslack := find (map (fun i => negb (i =? slack_bus)) (seq 0 nb)) in
  mapM (fun l => solve (columns Bbus noslack noref) (map (at_ Bf l) noref))
     (seq 0 (length branch)) = Ok hs ->
  mapM (fun h => scatter_checked (repeat 0%K nb) noslack h) hs = Ok H ->
  base_ptdf bus branch Bbus Bf slack_bus H.
Proof.
  intros SE BDC nb noref noslack H1 H2.
  pose proof (mapM_length _ _ _ H1) as L1. pose proof (mapM_length _ _ _ H2) as L2.
  rewrite seq_length in L1. split; [lia|]. intros l h Hl.
  assert (l < length branch) as Ll by (apply nth_error_some_lt in Hl; lia).
  destruct (nth_error_lt hs l) as (x & Hx); [lia|].
  destruct (mapM_nth _ _ _ l x H2 Hx) as (h' & E2 & Hh').
  rewrite Hl in Hh'. injection Hh' as <-.
  destruct (mapM_nth _ _ _ l l H1) as (x' & E1 & Hx'); [apply seq_nth_error; auto|].
  rewrite Hx in Hx'. injection Hx' as <-.
  apply scatter_checked_ok in E2 as (Lx & R & ->). destruct (SE _ _ _ E1) as [_ EQ].
  rewrite repeat_length in R.
  assert (NoDup noslack) as N by apply find_NoDup.
  split.
  - eapply factor_of_columns; eauto.
    + rewrite scatter_length, repeat_length. reflexivity.
    + intros r Hr. fold nb. rewrite (scatter_sum nb noslack x (fun s => at_ Bbus s r)); auto.
      unfold columns in EQ. rewrite map_map in EQ.
      assert (nth (r - 1) (map (fun j => lsum (fun p => (fst p * snd p)%K)
         (combine (map (fun i => at_ Bbus i j) noslack) x)) noref) 0%K
         = nth (r - 1) (map (at_ Bf l) noref) 0%K) as E by (rewrite EQ; reflexivity).
      assert (r - 1 < length noref) as Lr by (unfold noref; rewrite seq_length; unfold nb; lia).
      rewrite !(nth_map_lt _ noref (r - 1) _ 0) in E by auto.
      assert (nth (r - 1) noref 0 = r) as Er.
      { unfold noref in *. rewrite seq_length in Lr. rewrite seq_nth by auto. lia. }
      rewrite Er in E. exact E.
  - rewrite nth_scatter_other.
    + destruct (Nat.lt_ge_cases slack_bus nb); [apply nth_repeat_lt; auto|].
      apply nth_overflow. rewrite repeat_length. auto.
    + unfold noslack. rewrite not_slack_in. tauto.
Qed.

(** ** all slack choices *)
Definition slack_ok (nb : nat) (s : slack_arg (K := K)) : Prop :=
  match s with SlackMatrix _ => False | _ => True end.

Lemma makePTDF_cases solve bus branch slack H :
  solver_exact solve -> makePTDF solve bus branch slack = Ok H ->
  exists Bbus Bf Pbi Pfi sb H0,
    makeBdc bus branch = Ok (Bbus, Bf, Pbi, Pfi) /\ bdc_spec bus branch Bbus Bf Pbi Pfi /\
    base_ptdf bus branch Bbus Bf sb H0 /\
    match slack with
    | NoSlack => has_type bus sb 3 /\ (forall i, i < sb -> ~ has_type bus i 3) /\ H = H0
    | SlackBus k => sb = k /\ H = H0
    | SlackWeights w =>
        sb = 0 /\ length w = length bus /\ lsum (fun a => a) w <> 0%K /\
        H = map (fun r => map (fun a => a - dotk r (map (fun b => b / lsum (fun a => a) w) w))%K r) H0
    | SlackMatrix w =>
        sb = 0 /\ length w = length bus /\ Forall (fun r => length r = length bus) w /\
        H = densemul (length bus) H0 w
    end.
Proof.
  intros SE HH. unfold makePTDF in HH. apply bind_ok in HH as (s' & Hs & HH).
  apply bind_ok in HH as ([[[Bbus Bf] Pbi] Pfi] & HB & HH).
  apply bind_ok in HH as (hs & Hhs & HH). apply bind_ok in HH as (H0 & HH0 & HH).
  pose proof (makeBdc_ok _ _ _ _ _ _ HB) as BDC.
  pose proof (base_ptdf_ok _ _ _ _ _ _ _ _ _ _ SE BDC Hhs HH0) as BP.
  exists Bbus, Bf, Pbi, Pfi, (match s' with SlackBus k => k | _ => 0 end), H0.
  split; auto. split; auto. split; auto.
  destruct slack as [|k|w|w].
  - apply bind_ok in Hs as (ty & Hty & Hs). apply bind_ok in Hs as (k & Hk & Hs).
    injection Hs as <-. injection HH as <-. apply col_ok in Hty as [_ ->].
    rewrite map_map in Hk.
    remember (find (map (fun x => feqb (nth BUS_TYPE x 0%K) REF_BUS) bus)) as m eqn:Dm.
    destruct m as [|k0 m']; simpl in Hk; [discriminate|]. injection Hk as ->.
    assert (forall i, In i (k :: m') <-> has_type bus i 3) as IN.
    { intros i. rewrite Dm, in_find, nth_error_map. unfold has_type. split.
      - destruct (nth_error bus i) as [r|]; [|discriminate]. simpl. intros E; injection E as E.
        apply feqb_ok in E. eauto.
      - intros (r & -> & E). simpl. f_equal. apply feqb_ok. exact E. }
    split; [apply IN; left; auto|]. split; [|auto].
    intros i Li T. apply IN in T. pose proof (find_sorted (map (fun x => feqb (nth BUS_TYPE x 0%K) REF_BUS) bus)) as SS.
    rewrite <- Dm in SS. inversion SS as [|? ? _ FA]; subst. destruct T as [->|T]; [lia|].
    rewrite Forall_forall in FA. specialize (FA _ T). lia.
  - injection Hs as <-. injection HH as <-. auto.
  - injection Hs as <-. destruct (Nat.eqb_spec (length w) (length bus)); simpl in HH; [|discriminate].
    destruct (feqb _ 0%K) eqn:E; [discriminate|]. injection HH as <-.
    split; auto. split; auto. split; auto. intros C.
    assert (feqb (lsum (fun a => a) w) 0%K = true) by (apply feqb_ok; auto). congruence.
  - injection Hs as <-. destruct (_ && _) eqn:E; [|discriminate]. injection HH as <-.
    apply andb_true_iff in E as [E1 E2]. apply Nat.eqb_eq in E1. rewrite forallb_forall in E2.
    split; auto. split; auto. split; auto. apply Forall_forall. intros r Hr.
    apply Nat.eqb_eq; auto.
Qed.

(** a row predicts flows: its product with the injections is the flow's angle part *)
Definition predicts (bus : list (list K)) (Bbus Bf : smat K) (l : nat) (h : list K) : Prop :=
  is_factor bus Bbus Bf l h.

Lemma ptdf_factor solve bus branch slack H :
  solver_exact solve -> makePTDF solve bus branch slack = Ok H ->
  match slack with SlackMatrix _ => False | _ => True end ->
  exists Bbus Bf Pbi Pfi, makeBdc bus branch = Ok (Bbus, Bf, Pbi, Pfi) /\
    bdc_spec bus branch Bbus Bf Pbi Pfi /\ length H = length branch /\
    forall l h, nth_error H l = Some h -> is_factor bus Bbus Bf l h.
Proof.
  intros SE HH NS. destruct (makePTDF_cases _ _ _ _ _ SE HH)
    as (Bbus & Bf & Pbi & Pfi & sb & H0 & HB & BDC & (L0 & R0) & C).
  exists Bbus, Bf, Pbi, Pfi. split; auto. split; auto.
  destruct slack as [|k|w|w]; [| | |contradiction].
  - destruct C as (_ & _ & ->). split; auto. intros l h Hl. apply R0; auto.
  - destruct C as (_ & ->). split; auto. intros l h Hl. apply R0; auto.
  - destruct C as (_ & Lw & Nw & ->). split; [rewrite map_length; auto|].
    intros l h Hl. rewrite nth_error_map in Hl. destruct (nth_error H0 l) as [h0|] eqn:E; [|discriminate].
    injection Hl as <-. destruct (R0 _ _ E) as ((Lh & FC) & _). split; [rewrite map_length; auto|].
    intros Va. set (c := dotk h0 _).
    rewrite (lsum_ext _ (fun s => nth s h0 0 * mulrow Bbus Va s - c * mulrow Bbus Va s)%K).
    + rewrite lsum_sub, FC, lsum_scal, (inj_sum bus branch Bbus Bf Pbi Pfi BDC). ring.
    + intros s Hs. apply in_seq in Hs. rewrite (nth_map_lt _ h0 s _ 0%K) by lia. ring.
Qed.
End Ptdf.
