(** C18 and C19: transfer factors and outage factors predict DC flows exactly. *)
From Verif Require Import Lib.ListFacts Lib.Num Lib.Sparse Proofs.LinAlgFacts Proofs.SparseFacts
  Model.Network Spec.NetSpec Proofs.NetworkA Proofs.NetworkB Proofs.NetworkC Proofs.NetworkD
  Proofs.NetworkE Proofs.PtdfA Proofs.PtdfB Props.P_Network.
Local Open Scope nat_scope.

Section Theorems.
Context {K : Type} {F : Fld K}.
Add Ring KR : (@r_ok K _).
Add Field KF : (@f_ok K _).
Variable solve : list (list K) -> list K -> result (list K).
Hypothesis exact : solver_exact solve.

Lemma inner_nth (u v : list K) n : length u = n -> length v = n ->
  inner u v = lsum (fun i => nth i u 0 * nth i v 0)%K (seq 0 n).
Proof. apply dotk_nth. Qed.

(** single slack bus [k]: changing the injections everywhere but at [k] by [dP] changes every
    flow by the PTDF row times [dP]; whatever the phase shifters, taps and statuses *)
Theorem C18_transfer bus branch k H l h r (V1 V2 dP : list K) :
  makePTDF solve bus branch (SlackBus k) = Ok H ->
  nth_error H l = Some h -> nth_error branch l = Some r -> length dP = length bus ->
  (forall i, i < length bus -> i <> k ->
     net_out (flow_at V2) branch i - net_out (flow_at V1) branch i = nth i dP 0)%K ->
  inner h dP = (dc_flow r V2 - dc_flow r V1)%K.
Proof.
  intros HH Hh Hr LP INJ.
  destruct (makePTDF_cases _ _ _ _ _ exact HH)
    as (Bbus & Bf & Pbi & Pfi & sb & H0 & HB & BDC & (L0 & R0) & -> & ->).
  destruct (R0 _ _ Hh) as [FC Z].
  rewrite <- (factor_transfer _ _ _ _ _ _ _ _ _ V1 V2 BDC Hr FC).
  rewrite (inner_nth _ _ (length bus)); auto; [|apply FC].
  apply lsum_ext. intros i Hi. apply in_seq in Hi.
  destruct (Nat.eq_dec i k) as [->|N]; [rewrite Z; ring|]. rewrite INJ by (lia || auto). reflexivity.
Qed.

(** without phase shifters: PTDF times injections is the flow *)
Theorem C18_flows bus branch k H l h r (Va P : list K) :
  makePTDF solve bus branch (SlackBus k) = Ok H ->
  Forall (fun r => cell r SHIFT = 0%K) branch ->
  nth_error H l = Some h -> nth_error branch l = Some r -> length P = length bus ->
  (forall i, i < length bus -> i <> k -> net_out (flow_at Va) branch i = nth i P 0%K) ->
  inner h P = dc_flow r Va.
Proof.
  intros HH NS Hh Hr LP INJ.
  assert (forall r, In r branch -> dc_flow r (repeat 0%K (length bus)) = 0%K) as Z.
  { intros r0 I. rewrite Forall_forall in NS. unfold dc_flow. rewrite (NS _ I).
    assert (forall j, nth j (repeat (0%K : K) (length bus)) 0%K = 0%K) as E.
    { intros j. destruct (Nat.lt_ge_cases j (length bus)); [apply nth_repeat_lt; auto|].
      apply nth_overflow. rewrite repeat_length; auto. }
    rewrite !E, !(Fdiv_def f_ok). ring. }
  rewrite (C18_transfer bus branch k H l h r (repeat 0%K (length bus)) Va P); auto.
  - rewrite (Z r) by (eapply nth_error_In; eauto). ring.
  - intros i Li N. rewrite INJ by auto. unfold net_out, flow_at.
    rewrite (lsum_zero (fun r => _ - _)%K branch); [ring|]. intros r0 I. rewrite Z by auto.
    destruct (_ =? i); destruct (_ =? i); ring.
Qed.

(** no slack argument: the first reference bus *)
Theorem C18_default bus branch H :
  makePTDF solve bus branch NoSlack = Ok H ->
  exists k, has_type bus k 3 /\ (forall i, i < k -> ~ has_type bus i 3) /\
    makePTDF solve bus branch (SlackBus k) = Ok H.
Proof.
  intros HH. destruct (makePTDF_cases _ _ _ _ _ exact HH)
    as (_ & _ & _ & _ & sb & H0 & _ & _ & _ & T & MIN & _).
  exists sb. split; auto. split; auto.
  unfold makePTDF in HH. apply bind_ok in HH as (s' & Hs & HH).
  apply bind_ok in Hs as (ty & Hty & Hs). apply bind_ok in Hs as (k & Hk & Hs).
  injection Hs as <-. apply col_ok in Hty as [_ ->]. rewrite map_map in Hk.
  assert (k = sb) as <-; [|exact HH].
  remember (find (map (fun x => feqb (nth BUS_TYPE x 0%K) REF_BUS) bus)) as m eqn:Dm.
  destruct m as [|k0 m']; simpl in Hk; [discriminate|]. injection Hk as ->.
  assert (forall i, In i (k :: m') <-> has_type bus i 3) as IN.
  { intros i. rewrite Dm, in_find, nth_error_map. unfold has_type. split.
    - destruct (nth_error bus i) as [r|]; [|discriminate]. simpl. intros E; injection E as E.
      apply feqb_ok in E. eauto.
    - intros (r & -> & E). simpl. f_equal. apply feqb_ok. exact E. }
  pose proof (find_sorted (map (fun x => feqb (nth BUS_TYPE x 0%K) REF_BUS) bus)) as SS.
  rewrite <- Dm in SS. inversion SS as [|? ? _ FA]; subst. rewrite Forall_forall in FA.
  apply IN in T. destruct T as [|T]; auto. specialize (FA _ T).
  exfalso. apply (MIN k); auto. apply IN. left; auto.
Qed.

(** the slack bus column is zero *)
Theorem C18_slack_column bus branch k H l h :
  makePTDF solve bus branch (SlackBus k) = Ok H -> nth_error H l = Some h -> nth k h 0%K = 0%K.
Proof.
  intros HH Hh. destruct (makePTDF_cases _ _ _ _ _ exact HH)
    as (Bbus & Bf & Pbi & Pfi & sb & H0 & HB & BDC & (L0 & R0) & -> & ->).
  apply R0 in Hh. apply Hh.
Qed.

(** distributed slack: bus i takes up the share w_i / sum w of the imbalance *)
Theorem C18_distributed bus branch w H l h r (V1 V2 dP : list K) :
  makePTDF solve bus branch (SlackWeights w) = Ok H ->
  nth_error H l = Some h -> nth_error branch l = Some r -> length dP = length bus ->
  (forall i, i < length bus ->
     net_out (flow_at V2) branch i - net_out (flow_at V1) branch i
     = nth i dP 0 - nth i w 0 / lsum (fun a => a) w * lsum (fun a => a) dP)%K ->
  inner h dP = (dc_flow r V2 - dc_flow r V1)%K.
Proof.
  intros HH Hh Hr LP INJ.
  destruct (makePTDF_cases _ _ _ _ _ exact HH)
    as (Bbus & Bf & Pbi & Pfi & sb & H0 & HB & BDC & (L0 & R0) & -> & Lw & Nw & ->).
  rewrite nth_error_map in Hh. destruct (nth_error H0 l) as [h0|] eqn:E; [|discriminate].
  injection Hh as <-. destruct (R0 _ _ E) as [FC Z].
  rewrite <- (factor_transfer _ _ _ _ _ _ _ _ _ V1 V2 BDC Hr FC).
  assert (length h0 = length bus) as Lh by apply FC.
  rewrite (inner_nth _ _ (length bus)); auto; [|rewrite map_length; auto].
  set (s := lsum (fun a => a) w) in *. set (c := dotk h0 _).
  set (q := lsum (fun a => a) dP) in *.
  rewrite (lsum_ext _ (fun i => nth i h0 0 * nth i dP 0 - c * nth i dP 0)%K).
  2: { intros i Hi. apply in_seq in Hi. rewrite (nth_map_lt _ h0 i _ 0%K) by lia. ring. }
  rewrite lsum_sub, lsum_scal.
  assert (lsum (fun i => nth i dP 0%K) (seq 0 (length bus)) = q) as ->.
  { unfold q. rewrite (lsum_nth (fun a => a) dP 0%K), LP. reflexivity. }
  assert (c = lsum (fun i => nth i h0 0 * (nth i w 0 / s))%K (seq 0 (length bus))) as ->.
  { unfold c. rewrite (dotk_nth _ _ (length bus)) by (rewrite ?map_length; auto).
    apply lsum_ext. intros i Hi. apply in_seq in Hi. rewrite (nth_map_lt _ w i _ 0%K) by lia.
    reflexivity. }
  rewrite <- lsum_scal_r, <- lsum_sub. apply lsum_ext. intros i Hi. apply in_seq in Hi.
  rewrite INJ by lia. ring.
Qed.

(** the weighted combination of the columns vanishes in every row *)
Theorem C18_weighted_columns bus branch w H l h :
  makePTDF solve bus branch (SlackWeights w) = Ok H -> nth_error H l = Some h -> inner h w = 0%K.
Proof.
  intros HH Hh.
  destruct (makePTDF_cases _ _ _ _ _ exact HH)
    as (Bbus & Bf & Pbi & Pfi & sb & H0 & HB & BDC & (L0 & R0) & -> & Lw & Nw & ->).
  rewrite nth_error_map in Hh. destruct (nth_error H0 l) as [h0|] eqn:E; [|discriminate].
  injection Hh as <-. destruct (R0 _ _ E) as [[Lh _] _].
  rewrite (inner_nth _ _ (length bus)); auto; [|rewrite map_length; auto].
  set (s := lsum (fun a => a) w) in *.
  set (c := dotk h0 _).
  rewrite (lsum_ext _ (fun i => nth i h0 0 * nth i w 0 - c * nth i w 0)%K).
  2: { intros i Hi. apply in_seq in Hi. rewrite (nth_map_lt _ h0 i _ 0%K) by lia. ring. }
  rewrite lsum_sub, lsum_scal.
  assert (lsum (fun i => nth i w 0%K) (seq 0 (length bus)) = s) as ->.
  { unfold s. rewrite (lsum_nth (fun a => a) w 0%K), Lw. reflexivity. }
  assert (c * s = lsum (fun i => nth i h0 0 * nth i w 0)%K (seq 0 (length bus)))%K as ->; [|ring].
  unfold c. rewrite (dotk_nth h0 _ (length bus)) by (rewrite ?map_length; auto).
  rewrite <- lsum_scal_r. apply lsum_ext. intros i Hi. apply in_seq in Hi.
  rewrite (nth_map_lt _ w i _ 0%K) by lia. field. exact Nw.
Qed.

(** a slack matrix [w]: column j says which injections an injection at bus j really means *)
Theorem C18_matrix bus branch w H l h r (V1 V2 dP : list K) :
  makePTDF solve bus branch (SlackMatrix w) = Ok H ->
  nth_error H l = Some h -> nth_error branch l = Some r -> length dP = length bus ->
  (forall i, 1 <= i < length bus ->
     net_out (flow_at V2) branch i - net_out (flow_at V1) branch i = inner (nth i w []) dP)%K ->
  inner h dP = (dc_flow r V2 - dc_flow r V1)%K.
Proof.
  intros HH Hh Hr LP INJ.
  destruct (makePTDF_cases _ _ _ _ _ exact HH)
    as (Bbus & Bf & Pbi & Pfi & sb & H0 & HB & BDC & (L0 & R0) & -> & Lw & Ww & ->).
  unfold densemul in Hh.
  rewrite nth_error_map in Hh. destruct (nth_error H0 l) as [h0|] eqn:E; [|discriminate].
  injection Hh as <-. destruct (R0 _ _ E) as [FC Z].
  rewrite <- (factor_transfer _ _ _ _ _ _ _ _ _ V1 V2 BDC Hr FC).
  assert (length h0 = length bus) as Lh by apply FC. rewrite Forall_forall in Ww.
  rewrite (inner_nth _ _ (length bus)); auto; [|rewrite map_length, seq_length; auto].
  rewrite (lsum_ext _ (fun j => lsum (fun i => nth i h0 0 * nth j (nth i w []) 0 * nth j dP 0)%K
                                (seq 0 (length bus)))).
  2: { intros j Hj. apply in_seq in Hj.
       rewrite (nth_map_lt _ (seq 0 (length bus)) j _ 0) by (rewrite seq_length; lia).
       rewrite seq_nth by lia. simpl plus.
       rewrite (dotk_nth _ _ (length bus)) by (rewrite ?map_length; auto).
       rewrite <- lsum_scal_r. apply lsum_ext. intros i Hi. apply in_seq in Hi.
       rewrite (nth_map_lt _ w i _ []) by lia. ring. }
  rewrite lsum_swap. apply lsum_ext. intros i Hi. apply in_seq in Hi.
  destruct i as [|i].
  - rewrite Z. rewrite lsum_zero; [ring|]. intros; ring.
  - rewrite INJ by lia. rewrite (inner_nth _ _ (length bus)); auto.
    + rewrite <- lsum_scal. apply lsum_ext. intros; ring.
    + apply Ww. apply nth_In. lia.
Qed.

(** ** outage factors *)
Section Outage.
Variables (bus branch : list (list K)) (slack : slack_arg (K := K)) (H : list (list K))
  (L : list (list (option K))).
Hypothesis Hptdf : makePTDF solve bus branch slack = Ok H.
Hypothesis Hslack : match slack with SlackMatrix _ => False | _ => True end.
Hypothesis Hlodf : makeLODF branch H (length bus) = Ok L.
Definition lodf (k o : nat) : option K := nth o (nth k L []) None.

Lemma lodf_def k o : k < length branch -> o < length branch ->
  lodf k o = lodf_entry branch H k o.
Proof.
  intros Hk Ho. destruct (ptdf_factor _ _ _ _ _ exact Hptdf Hslack)
    as (Bbus & Bf & Pbi & Pfi & HB & BDC & LH & FC).
  rewrite <- LH in Hk, Ho. unfold lodf. rewrite (makeLODF_ok _ _ _ _ Hlodf) by auto.
  rewrite (nth_map_lt _ _ k _ 0) by (rewrite seq_length; auto). rewrite seq_nth by auto.
  rewrite (nth_map_lt _ _ o _ 0) by (rewrite seq_length; auto). rewrite seq_nth by auto.
  reflexivity.
Qed.

(** the flows after an outage, with the same injections at every bus *)
Theorem C19_post_outage k o rk ro c (V V' : list K) :
  nth_error branch k = Some rk -> nth_error branch o = Some ro -> k <> o ->
  lodf k o = Some c ->
  (forall i, i < length bus ->
     net_out (flow_at V') (outage branch o) i = net_out (flow_at V) branch i) ->
  dc_flow rk V' = (dc_flow rk V + c * dc_flow ro V)%K.
Proof.
  intros Hk Ho N HL INJ. pose proof (nth_error_some_lt _ _ _ Hk) as Lk.
  pose proof (nth_error_some_lt _ _ _ Ho) as Lo. rewrite lodf_def in HL by auto.
  destruct (ptdf_factor _ _ _ _ _ exact Hptdf Hslack)
    as (Bbus & Bf & Pbi & Pfi & HB & BDC & LH & FC).
  destruct (nth_error_lt H k) as (hk & Hhk); [lia|].
  destruct (nth_error_lt H o) as (ho & Hho); [lia|].
  destruct (in_range _ _ _ _ _ _ BDC ro (nth_error_In _ _ Ho)) as [RF RT].
  assert (forall l r h, nth_error branch l = Some r -> nth_error H l = Some h ->
    ((nth (bus_no ro F_BUS) h 0 - nth (bus_no ro T_BUS) h 0) * dc_flow ro V'
     = dc_flow r V' - dc_flow r V)%K) as D.
  { intros l r h Hr Hh. rewrite <- (factor_transfer _ _ _ _ _ _ _ _ _ V V' BDC Hr (FC _ _ Hh)).
    rewrite <- (factor_inc _ _ _ _ _ _ (FC _ _ Hh) RF RT), <- lsum_scal_r.
    apply lsum_ext. intros i Hi. apply in_seq in Hi. specialize (INJ i ltac:(lia)).
    destruct BDC as [W _ _ X _ _ _ _ _ _].
    rewrite (net_out_outage _ _ _ _ _ Ho W X) in INJ. rewrite <- INJ. ring. }
  unfold lodf_entry in HL. cbv zeta in HL.
  rewrite (nth_error_nth _ _ _ Ho), (nth_error_nth _ _ _ Hhk), (nth_error_nth _ _ _ Hho) in HL.
  pose proof (D _ _ _ Hk Hhk) as Dk. pose proof (D _ _ _ Ho Hho) as Do.
  set (hk' := (nth (bus_no ro F_BUS) hk 0 - nth (bus_no ro T_BUS) hk 0)%K) in *.
  set (ho' := (nth (bus_no ro F_BUS) ho 0 - nth (bus_no ro T_BUS) ho 0)%K) in *.
  destruct (feqb (1 - ho')%K 0%K) eqn:E; [discriminate|].
  destruct (Nat.eqb_spec k o); [contradiction|]. injection HL as <-.
  assert ((1 - ho')%K <> 0%K) as NZ.
  { intros C. apply feqb_ok in C. congruence. }
  assert (dc_flow ro V' = (dc_flow ro V / (1 - ho'))%K) as G.
  { assert (dc_flow ro V = ((1 - ho') * dc_flow ro V')%K) as ->; [|field; exact NZ].
    transitivity (dc_flow ro V' - (dc_flow ro V' - dc_flow ro V))%K; [ring|].
    rewrite <- Do. ring. }
  transitivity (dc_flow rk V + (dc_flow rk V' - dc_flow rk V))%K; [ring|].
  rewrite <- Dk, G. field. exact NZ.
Qed.

Theorem C19_diagonal o c : o < length branch -> lodf o o = Some c -> c = ropp 1%K.
Proof.
  intros Lo HL. rewrite lodf_def in HL by auto. unfold lodf_entry in HL. cbv zeta in HL.
  destruct (feqb _ _); [discriminate|]. rewrite Nat.eqb_refl in HL. congruence.
Qed.

(** if the network without branch [o] can still carry a transfer between the ends of [o], the
    whole column of factors is finite *)
Theorem C19_defined k o ro (V0 V1 : list K) :
  k < length branch -> nth_error branch o = Some ro ->
  (forall i, i < length bus ->
     (net_out (flow_at V1) (outage branch o) i - net_out (flow_at V0) (outage branch o) i
      = (if bus_no ro F_BUS =? i then 1 else 0) - (if bus_no ro T_BUS =? i then 1 else 0))%K) ->
  lodf k o <> None.
Proof.
  intros Lk Ho INJ. pose proof (nth_error_some_lt _ _ _ Ho) as Lo. rewrite lodf_def by auto.
  destruct (ptdf_factor _ _ _ _ _ exact Hptdf Hslack)
    as (Bbus & Bf & Pbi & Pfi & HB & BDC & LH & FC).
  destruct (nth_error_lt H o) as (ho & Hho); [lia|].
  destruct (in_range _ _ _ _ _ _ BDC ro (nth_error_In _ _ Ho)) as [RF RT].
  unfold lodf_entry. cbv zeta. rewrite (nth_error_nth _ _ _ Ho), (nth_error_nth _ _ _ Hho).
  set (ho' := (nth (bus_no ro F_BUS) ho 0 - nth (bus_no ro T_BUS) ho 0)%K).
  destruct (feqb (1 - ho')%K 0%K) eqn:E; [|discriminate]. exfalso. apply feqb_ok in E.
  assert (ho' * (1 + (dc_flow ro V1 - dc_flow ro V0)) = dc_flow ro V1 - dc_flow ro V0)%K as D.
  { etransitivity; [|exact (factor_transfer _ _ _ _ _ _ _ _ _ V0 V1 BDC Ho (FC _ _ Hho))].
    unfold ho'. rewrite <- (factor_inc _ _ _ _ _ _ (FC _ _ Hho) RF RT), <- lsum_scal_r.
    apply lsum_ext. intros i Hi. apply in_seq in Hi. specialize (INJ i ltac:(lia)).
    destruct BDC as [W _ _ X _ _ _ _ _ _].
    rewrite !(net_out_outage _ _ _ _ _ Ho W X) in INJ. fold (inc ro i) in INJ.
    replace (net_out (flow_at V1) branch i - net_out (flow_at V0) branch i)%K
      with (inc ro i * (1 + (dc_flow ro V1 - dc_flow ro V0)))%K; [ring|].
    transitivity (inc ro i + inc ro i * (dc_flow ro V1 - dc_flow ro V0))%K; [ring|].
    rewrite <- INJ at 1. ring. }
  apply (F_1_neq_0 f_ok). set (g := (dc_flow ro V1 - dc_flow ro V0)%K) in *.
  transitivity ((1 + g) - ho' * (1 + g))%K; [rewrite D; ring|].
  transitivity ((1 - ho') * (1 + g))%K; [ring|]. rewrite E. ring.
Qed.
End Outage.
End Theorems.

(** ** Examples: the three-bus network of P_Network *)
Definition ex_ptdf := makePTDF (checked cramer2) ex_bus ex_branch NoSlack.
Example C18_example :
  match ex_ptdf with
  | Ok H => (Nat.eqb (length H) 4 && negb (qc_eqb (nth 1 (nth 0 H []) (zc 0)) (zc 0))
             && qc_eqb (nth 0 (nth 0 H []) (zc 1)) (zc 0))%bool
  | Err _ => false
  end = true.
Proof. vm_compute. reflexivity. Qed.
Example C18_example_weights :
  is_ok (makePTDF (checked cramer2) ex_bus ex_branch (SlackWeights [zc 1; zc 0; zc 3])) = true.
Proof. vm_compute. reflexivity. Qed.

(** all outages of the meshed part are predicted; on a radial network the factor is undefined *)
Example C19_example :
  match ex_ptdf with
  | Ok H => match makeLODF ex_branch H 3 with
            | Ok L => match nth 0 (nth 1 L []) None with
                      | Some c => negb (qc_eqb c (zc 0)) | None => false end
            | Err _ => false end
  | Err _ => false end = true.
Proof. vm_compute. reflexivity. Qed.
Example C19_example_island :
  match makePTDF (checked cramer2) ex_bus (firstn 2 ex_branch) NoSlack with
  | Ok H => match makeLODF (firstn 2 ex_branch) H 3 with
            | Ok L => match nth 0 (nth 1 L []) None with Some _ => false | None => true end
            | Err _ => false end
  | Err _ => false end = true.
Proof. vm_compute. reflexivity. Qed.

Print Assumptions C18_transfer.
Print Assumptions C18_flows.
Print Assumptions C18_default.
Print Assumptions C18_slack_column.
Print Assumptions C18_distributed.
Print Assumptions C18_weighted_columns.
Print Assumptions C18_matrix.
Print Assumptions C19_post_outage.
Print Assumptions C19_diagonal.
Print Assumptions C19_defined.
