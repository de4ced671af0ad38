(** Newton updates of the voltage vector: the pieces shared by newtonpf and the CPF corrector. *)
From Verif Require Import Lib.ListFacts Model.AcPf Spec.PfSpec Proofs.LinAlgFacts Proofs.SparseFacts Proofs.FldFacts
  Proofs.NetworkA Proofs.NetworkC Proofs.YbusA Proofs.MatFacts Proofs.AcPfA Proofs.DcOpfA Proofs.AcCostC.
Local Open Scope nat_scope.

Section NewtonA.
Context {K : Type} {F : Fld K}.
Add Field KF : (@f_ok K F).

Lemma gather_tot {A} (l : list A) idx d : (forall i, In i idx -> i < length l) -> gather l idx = Ok (map (fun i => nth i l d) idx).
Proof.
  induction idx as [|i idx IH]; intros H; auto. unfold gather in *. cbn [mapM map].
  destruct (nth_error_lt l i (H i (or_introl eq_refl))) as (a & E). rewrite IH by (intros; apply H; right; auto).
  unfold get. rewrite E. cbn [of_option bind]. rewrite (nth_error_nth _ _ d E). reflexivity.
Qed.

Lemma add_at_tot (v : list K) idx d : NoDup idx -> (forall i, In i idx -> i < length v) -> length d = length idx ->
  exists v', add_at v idx d = Ok v' /\ length v' = length v /\
    (forall p i, nth_error idx p = Some i -> nth i v' 0%K = (nth i v 0 + nth p d 0)%K) /\
    (forall i, ~ In i idx -> nth i v' 0%K = nth i v 0%K).
Proof.
  intros ND R L. unfold add_at. rewrite (gather_tot v idx 0%K) by auto. cbn [bind]. unfold ewise.
  rewrite map_length, L, Nat.eqb_refl. cbn [bind]. unfold scatter_checked.
  set (w := map2 _ _ _). assert (length w = length idx) as LW.
  { unfold w, map2. rewrite map_length, combine_length, map_length. lia. }
  rewrite LW, Nat.eqb_refl. cbn [negb]. assert (forallb (fun i => i <? length v) idx = true) as ->.
  { apply forallb_forall. intros i I. apply Nat.ltb_lt. auto. }
  eexists. split; [reflexivity|]. split; [apply scatter_length|]. split.
  - intros p i E. pose proof (nth_error_some_lt _ _ _ E) as Lp.
    apply nth_error_nth. apply (scatter_at idx v w p i); auto; [|apply R; eapply nth_error_In; eauto].
    rewrite (nth_error_nth' w 0%K) by lia. f_equal. unfold w.
    rewrite (nth_map2_d _ _ _ _ 0%K 0%K) by (rewrite ?map_length; lia).
    rewrite (nth_map_lt _ _ _ _ 0) by lia. rewrite (nth_error_nth _ _ _ E). reflexivity.
  - intros i N. pose proof (scatter_other idx v w i N) as E.
    destruct (lt_dec i (length v)) as [H|H].
    + destruct (nth_error_lt v i H) as (a & Ha). rewrite Ha in E. rewrite (nth_error_nth _ _ _ E), (nth_error_nth _ _ _ Ha). reflexivity.
    + rewrite !nth_overflow; auto; rewrite ?scatter_length; lia.
Qed.

(** the updates of angles and magnitudes (newtonpf.py:107-114, cpf_corrector.py:101-107) *)
Lemma updates_tot (Va Vm dx : list K) pv pq n : length Va = n -> length Vm = n -> NoDup (pv ++ pq) ->
  (forall i, In i (pv ++ pq) -> i < n) -> length pv + length pq + length pq <= length dx ->
  exists Va1 Va2 Vm2,
    (if length pv =? 0 then Ok Va else add_at Va pv (slice 0 (length pv) dx)) = Ok Va1 /\
    (if length pq =? 0 then Ok Va1 else add_at Va1 pq (slice (length pv) (length pv + length pq) dx)) = Ok Va2 /\
    (if length pq =? 0 then Ok Vm
     else add_at Vm pq (slice (length pv + length pq) (length pv + length pq + length pq) dx)) = Ok Vm2 /\
    length Va2 = n /\ length Vm2 = n /\
    (forall p i, nth_error (pv ++ pq) p = Some i -> nth i Va2 0%K = (nth i Va 0 + nth p dx 0)%K) /\
    (forall i, ~ In i (pv ++ pq) -> nth i Va2 0%K = nth i Va 0%K) /\
    (forall p i, nth_error pq p = Some i -> nth i Vm2 0%K = (nth i Vm 0 + nth (length pv + length pq + p) dx 0)%K) /\
    (forall i, ~ In i pq -> nth i Vm2 0%K = nth i Vm 0%K).
Proof.
  intros LA LM ND R LD. set (npv := length pv) in *. set (npq := length pq) in *.
  assert (NoDup pv /\ NoDup pq /\ forall i, In i pv -> ~ In i pq) as (N1 & N2 & N3).
  { split; [eapply NoDup_app_l; eauto|]. split; [eapply NoDup_app_r; eauto|].
    clear - ND. induction pv as [|a pv IH]; intros i I J; [destruct I|]. simpl in ND. apply NoDup_cons_iff in ND as (N & ND).
    destruct I as [->|I]; [apply N, in_or_app; auto|apply (IH ND i I J)]. }
  assert (forall idx (v d : list K), length v = n -> NoDup idx -> (forall i, In i idx -> i < n) -> length d = length idx ->
     exists v', (if length idx =? 0 then Ok v else add_at v idx d) = Ok v' /\ length v' = n /\
      (forall p i, nth_error idx p = Some i -> nth i v' 0%K = (nth i v 0 + nth p d 0)%K) /\
      (forall i, ~ In i idx -> nth i v' 0%K = nth i v 0%K)) as AT.
  { intros idx v d Lv NI RI Ld. destruct (Nat.eqb_spec (length idx) 0) as [Z|Z].
    - apply length_zero_iff_nil in Z. subst idx. exists v. repeat split; auto. intros [|p] i; discriminate.
    - destruct (add_at_tot v idx d NI) as (v' & A & B & C & D); auto. { rewrite Lv; auto. }
      exists v'. rewrite B. auto. }
  destruct (AT pv Va (slice 0 npv dx)) as (Va1 & E1 & L1 & A1 & O1); auto.
  { intros; apply R, in_or_app; auto. } { rewrite slice_length. unfold npv, npq in *. lia. }
  destruct (AT pq Va1 (slice npv (npv + npq) dx)) as (Va2 & E2 & L2 & A2 & O2); auto.
  { intros; apply R, in_or_app; auto. } { rewrite slice_length. unfold npv, npq in *. lia. }
  destruct (AT pq Vm (slice (npv + npq) (npv + npq + npq) dx)) as (Vm2 & E3 & L3 & A3 & O3); auto.
  { intros; apply R, in_or_app; auto. } { rewrite slice_length. unfold npv, npq in *. lia. }
  exists Va1, Va2, Vm2. repeat (split; [solve [auto]|]). split; [|split; [|split]].
  - intros p i E. destruct (lt_dec p npv) as [H|H].
    + rewrite nth_error_app1 in E by auto. pose proof (nth_error_In _ _ E) as I.
      rewrite O2 by auto. rewrite (A1 _ _ E). f_equal. rewrite nth_slice_d by lia. reflexivity.
    + rewrite nth_error_app2 in E by (fold npv; lia). fold npv in E. pose proof (nth_error_In _ _ E) as I.
      rewrite (A2 _ _ E), O1 by (intros J; apply (N3 i J I)). f_equal.
      pose proof (nth_error_some_lt _ _ _ E) as Lp. fold npq in Lp. rewrite nth_slice_d by lia. f_equal. lia.
  - intros i N. rewrite O2, O1; auto; intros I; apply N, in_or_app; auto.
  - intros p i E. rewrite (A3 _ _ E). f_equal. pose proof (nth_error_some_lt _ _ _ E) as Lp. fold npq in Lp.
    rewrite nth_slice_d by lia. reflexivity.
  - exact O3.
Qed.

Lemma mismatch_tot n Y (S V : list (cpx K)) : square n Y -> length V = n -> length S = n ->
  mismatch Y S V = Ok (map (excess Y S V) (seq 0 n)).
Proof.
  intros SQ LV LS. destruct (mismatch Y S V) as [m|e] eqn:E.
  - apply (mismatch_ok n) in E as (_ & _ & ->); auto.
  - exfalso. unfold mismatch in E. pose proof (square_wf _ _ SQ) as W. rewrite mulv_def in E by (auto; destruct SQ as (_ & -> & _); auto).
    cbn [bind] in E. unfold ewise in E. rewrite map_length, seq_length in E. destruct SQ as (R & _). rewrite R, LV, Nat.eqb_refl in E.
    cbn [bind] in E. unfold map2 in E. rewrite map_length, combine_length, map_length, seq_length, LS, LV, Nat.min_id, Nat.eqb_refl in E. discriminate.
Qed.
Lemma residual_tot (f : nat -> cpx K) n pv pq : (forall i, In i (pv ++ pq) -> i < n) ->
  residual (map f (seq 0 n)) pv pq = Ok (map (fun i => re (f i)) (pv ++ pq) ++ map (fun i => im (f i)) pq).
Proof.
  intros R. assert (forall idx, (forall i, In i idx -> i < n) -> gather (map f (seq 0 n)) idx = Ok (map f idx)) as G.
  { intros idx H. rewrite (gather_tot _ _ (f 0)) by (rewrite map_length, seq_length; auto). f_equal.
    apply map_ext_in. intros i I. rewrite map_nth, seq_nth by auto. reflexivity. }
  unfold residual. rewrite !G by (intros; apply R, in_or_app; auto). cbn [bind]. rewrite !map_map, map_app, app_assoc. reflexivity.
Qed.
Lemma polar_tot (cis : K -> cpx K) Vm Va : length Vm = length Va ->
  polar cis Vm Va = Ok (map2 (fun m a => (ofK m * cis a)%K) Vm Va).
Proof. intros L. unfold polar, ewise. rewrite L, Nat.eqb_refl. reflexivity. Qed.
End NewtonA.
