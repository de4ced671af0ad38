(** Reports: the rows of the branch table; losses and charging from the voltages alone. *)
From Verif Require Import Lib.ListFacts Model.PrintPf Spec.PrintSpec Spec.PfSpec
  Proofs.SparseFacts Proofs.FldFacts Proofs.NetworkE Proofs.OpfLinA Proofs.PrintA Proofs.PrintB Proofs.PrintC.
From Verif Require Import Model.PrintPf.
Local Open Scope nat_scope.

Section PrintH.
Context {K : Type} {F : Fld K}.
Add Field KFph : (@f_ok K F).
Variables (cis : K -> cpx K) (cabs : cpx K -> K).
Variables (baseMVA : K) (bus gen branch : list (list K)) (d : print_data K).
Hypothesis OK : printable bus gen branch.
Hypothesis PR : prepared cis cabs baseMVA bus gen branch d.
Hypothesis circ : circular cis.
Hypothesis cabs_ok : modulus cabs.
Local Notation lossl := (lossl cis cabs baseMVA bus).
Local Notation fchgl := (fchgl cis cabs baseMVA bus).
Local Notation tchgl := (tchgl cis cabs baseMVA bus).

Lemma row_heat l : In l branch -> lossl l = heat cis baseMVA bus l /\ (fchgl l + tchgl l)%K = charging cis baseMVA bus l.
Proof.
  intros I. pose proof (qd_each _ _ _ _ _ _ _ PR l I) as H. change (val loss_zero _) with (PrintC.row cis cabs baseMVA bus l) in H.
  unfold heat, charging. destruct (live l) eqn:L.
  2: { unfold PrintC.lossl, PrintC.fchgl, PrintC.tchgl, PrintC.row. rewrite (loss_row_off cis cabs false baseMVA bus l L). cbn. split; auto. ring. }
  unfold PrintC.lossl, PrintC.fchgl, PrintC.tchgl. destruct (PrintC.row cis cabs baseMVA bus l) as [[z fc] tc]. cbn [fst snd].
  destruct (pr_from _ _ _ OK l I) as (bf & Nf), (pr_to _ _ _ OK l I) as (bt & Nt).
  pose proof (pr_once _ _ _ OK) as ND.
  assert (nrm2 (turns cis l) <> 0%K /\ nrm2 (Cx (cell l BR_R) (cell l BR_X)) <> 0%K) as (Nn & Nz).
  { unfold loss_row, branch_loss in H. unfold live in L. destruct (feqb (cell l BR_STATUS) 0%K); [discriminate|].
    rewrite (print_tap_conj cis circ), conj_nrm2 in H. destruct (feqb (nrm2 (turns cis l)) 0%K) eqn:E; [discriminate|].
    destruct (feqb (nrm2 (Cx (cell l BR_R) (- cell l BR_X)%K)) 0%K) eqn:E2; [discriminate|]. split; intros G.
    - apply feqb_ok in G. congruence.
    - assert (nrm2 (Cx (cell l BR_R) (- cell l BR_X)%K) = 0%K) as G2 by (rewrite <- G; unfold nrm2; cbn; ring). apply feqb_ok in G2. congruence. }
  set (vi := cdiv (volt cis bf) (turns cis l)). set (c := cdiv (vi - volt cis bt)%K (Cx (cell l BR_R) (cell l BR_X))).
  assert (volt cis bf = (turns cis l * vi)%K) as E1.
  { unfold vi, cdiv. destruct (turns cis l) as [n m], (volt cis bf) as [v u]. apply cpx_eq; unfold nrm2 in *; cbn in *; field; exact Nn. }
  assert ((Cx (cell l BR_R) (cell l BR_X) * c)%K = (vi - volt cis bt)%K) as E3.
  { unfold c, cdiv. destruct (vi - volt cis bt)%K as [n m]. revert Nz. generalize (cell l BR_R) (cell l BR_X). intros r x Nz.
    apply cpx_eq; unfold nrm2 in *; cbn in *; field; exact Nz. }
  pose proof (loss_row_on cis cabs circ cabs_ok baseMVA bus l bf bt vi c _ L (named_ok _ _ _ _ ND Nf) (named_ok _ _ _ _ ND Nt) E1 E3 H) as W.
  injection W as -> -> ->. unfold charge_from, charge_to. rewrite (the_bus_named _ _ _ _ ND Nf), (the_bus_named _ _ _ _ ND Nt). auto.
Qed.

(** the rows *)
Lemma branch_rows rows tot : branch_data d = Ok (rows, tot) -> length rows = length branch /\
  (forall i l, nth_error branch i = Some l -> nth_error rows i =
     Some {| b_idx := i; b_from := cell l F_BUS; b_to := cell l T_BUS; b_sf := PQ (cell l PF) (cell l QF); b_st := PQ (cell l PT) (cell l QT);
             b_loss := PQ (re (heat cis baseMVA bus l)) (im (heat cis baseMVA bus l)) |}) /\
  tot = PQ (lsum (fun w => p_part (b_loss w)) rows) (lsum (fun w => q_part (b_loss w)) rows).
Proof.
  unfold branch_data. intros H. apply bind_ok in H as (rs & HR & H). apply bind_ok in H as (s & HS & H).
  assert (rows = rs /\ tot = s) as (-> & ->) by (split; congruence). clear H.
  rewrite (qd_loss _ _ _ _ _ _ _ PR) in HR, HS. rewrite (qd_branch _ _ _ _ _ _ _ PR) in HR.
  change (map _ branch) with (map lossl branch) in HR, HS.
  assert (NE : forall i l, nth_error branch i = Some l -> nth_error (combine (all_of branch) (combine (map lossl branch) branch)) i = Some (i, (lossl l, l))).
  { intros i l E. rewrite !nth_error_combine, nth_error_map, E. unfold all_of. cbn [option_map].
    rewrite (nth_error_nth' _ 0) by (rewrite seq_length; eapply nth_error_some_lt; eauto). rewrite seq_nth by (eapply nth_error_some_lt; eauto). reflexivity. }
  assert (LEN : length rs = length branch).
  { rewrite (mapM_length _ _ _ HR), !combine_length, map_length. unfold all_of. rewrite seq_length. lia. }
  assert (ROW : forall i l, nth_error branch i = Some l -> nth_error rs i =
     Some {| b_idx := i; b_from := cell l F_BUS; b_to := cell l T_BUS; b_sf := PQ (cell l PF) (cell l QF); b_st := PQ (cell l PT) (cell l QT);
             b_loss := PQ (re (heat cis baseMVA bus l)) (im (heat cis baseMVA bus l)) |}).
  { intros i l E. destruct (mapM_nth _ _ _ _ _ HR (NE i l E)) as (w & G & Hw). rewrite Hw. f_equal. unfold branch_data_row in G.
    apply bind_ok in G as (f & H1 & G). apply bind_ok in G as (t & H2 & G). apply bind_ok in G as (pf & H3 & G). apply bind_ok in G as (qf & H4 & G).
    apply bind_ok in G as (pt & H5 & G). apply bind_ok in G as (qt & H6 & G). apply get_ok in H1, H2, H3, H4, H5, H6.
    rewrite <- (proj1 (row_heat l (nth_error_In _ _ E))). unfold cell.
    rewrite (nth_error_nth _ _ _ H1), (nth_error_nth _ _ _ H2), (nth_error_nth _ _ _ H3), (nth_error_nth _ _ _ H4),
      (nth_error_nth _ _ _ H5), (nth_error_nth _ _ _ H6). congruence. }
  split; [exact LEN|]. split; [exact ROW|].
  apply loss_sum_all in HS. subst s.
  assert (forall (g : cpx K -> K) (h : br_line K -> K), (forall i l w, nth_error branch i = Some l -> nth_error rs i = Some w -> g (lossl l) = h w) ->
    lsum (fun l => g (lossl l)) branch = lsum h rs) as S.
  { intros g h. clear - LEN. revert LEN. generalize branch as bs. induction rs as [|r rs IH]; intros [|b bs] LEN; try discriminate; intros E; [reflexivity|].
    cbn. f_equal; [exact (E 0 b r eq_refl eq_refl)|]. apply IH; [cbn in LEN; lia|]. intros i l w A B. exact (E (S i) l w A B). }
  f_equal; [apply (S re (fun w => p_part (b_loss w)))|apply (S im (fun w => q_part (b_loss w)))]; intros i l w E W; rewrite (ROW i l E) in W;
    injection W as <-; cbn; rewrite (proj1 (row_heat l (nth_error_In _ _ E))); reflexivity.
Qed.

(** balance of the summary for any tables *)
Lemma system_gap s : sys_ok cis cabs baseMVA bus gen branch d s ->
  (p_part (y_actual s) - p_part (y_load s) + p_part (y_shunt s) - p_part (y_loss s))%K
  = (lsum (surplus_p gen branch) bus + lsum (fun l => cell l PF + cell l PT - re (heat cis baseMVA bus l)) branch)%K /\
  (q_part (y_actual s) - q_part (y_load s) + q_part (y_shunt s) + y_chg s - q_part (y_loss s))%K
  = (lsum (surplus_q gen branch) bus + lsum (fun l => cell l QF + cell l QT + charging cis baseMVA bus l - im (heat cis baseMVA bus l)) branch)%K.
Proof.
  intros S. rewrite (so_actual _ _ _ _ _ _ _ _ S), (so_load _ _ _ _ _ _ _ _ S), (so_disp_load _ _ _ _ _ _ _ _ S), (so_fixed_load _ _ _ _ _ _ _ _ S),
    (so_shunt _ _ _ _ _ _ _ _ S), (so_loss _ _ _ _ _ _ _ _ S), (so_chg _ _ _ _ _ _ _ _ S).
  cbn [p_part q_part add_pow].
  rewrite (lsum_ext (fun l => re (lossl l)) _ _ (fun l I => f_equal re (proj1 (row_heat l I)))).
  rewrite (lsum_ext (fun l => im (lossl l)) _ _ (fun l I => f_equal im (proj1 (row_heat l I)))).
  rewrite <- (lsum_add fchgl tchgl branch), (lsum_ext _ _ _ (fun l I => proj2 (row_heat l I))).
  rewrite <- !(sum_if_true _ bus), (zone_surplus_p bus gen branch OK), (zone_surplus_q bus gen branch OK).
  rewrite <- !(units_split gen (fun _ => true)). cbn [andb].
  destruct (loads_all bus (fun _ => true)) as (L1 & L2), (shunts_all bus (fun _ => true)) as (S1 & S2). cbn [andb] in *.
  rewrite <- L1, <- L2, <- S1, <- S2, !sum_if_true.
  rewrite !lsum_sub, !lsum_add.
  change (fun g : list K => gen_running g) with (@gen_running K F). change (fun g : list K => load_running g) with (@load_running K F).
  change (fun b : list K => nz_load b) with (@nz_load K F). change (fun b : list K => nz_shunt b) with (@nz_shunt K F).
  split; ring.
Qed.
End PrintH.

(** a test for solved flows *)
Section Test.
Context {K : Type} {F : Fld K}.
Add Field KFpt : (@f_ok K F).
Variable cis : K -> cpx K.
Definition ceqb (a b : cpx K) : bool := feqb (re a) (re b) && feqb (im a) (im b).
Lemma ceqb_eq a b : ceqb a b = true -> a = b.
Proof. unfold ceqb. intros H. apply andb_prop in H as (H1 & H2). apply feqb_ok in H1, H2. apply cpx_eq; auto. Qed.
Definition flow_test (baseMVA : K) (bus : list (list K)) (l : list K) : bool :=
  if live l then
    let vf := volt cis (the_bus bus F_BUS l) in let vt := volt cis (the_bus bus T_BUS l) in
    let n := turns cis l in let z := Cx (cell l BR_R) (cell l BR_X) in
    let vi := cdiv vf n in let c := cdiv (vi - vt)%K z in let y := jK (cell l BR_B / fofZ 2)%K in
    negb (feqb (nrm2 n) 0%K) && negb (feqb (nrm2 z) 0%K) &&
    ceqb (Cx (cell l PF) (cell l QF)) (ofK baseMVA * (vf * conj (cdiv (c + y * vi) (conj n))))%K &&
    ceqb (Cx (cell l PT) (cell l QT)) (ofK baseMVA * (vt * conj (y * vt - c)))%K
  else feqb (cell l PF) 0%K && feqb (cell l QF) 0%K && feqb (cell l PT) 0%K && feqb (cell l QT) 0%K.
Lemma div_back (a n : cpx K) : nrm2 n <> 0%K -> (n * cdiv a n)%K = a.
Proof. intros N. destruct a as [a a'], n as [n m]. unfold cdiv. apply cpx_eq; unfold nrm2 in *; cbn in *; field; exact N. Qed.
Lemma flow_test_ok baseMVA bus l : NoDup (map bus_num bus) -> flow_test baseMVA bus l = true -> flow_of cis baseMVA bus l.
Proof.
  unfold flow_test, flow_of. intros ND H. destruct (live l).
  2: { apply andb_prop in H as (H & H4). apply andb_prop in H as (H & H3). apply andb_prop in H as (H1 & H2).
       apply feqb_ok in H1, H2, H3, H4. auto. }
  intros bf bt Nf Nt. rewrite (the_bus_named _ _ _ _ ND Nf), (the_bus_named _ _ _ _ ND Nt) in H. cbv zeta in H.
  apply andb_prop in H as (H & H4). apply andb_prop in H as (H & H3). apply andb_prop in H as (H1 & H2).
  apply negb_true_iff in H1, H2. apply ceqb_eq in H3, H4.
  assert (N1 : nrm2 (turns cis l) <> 0%K) by (intros E; apply feqb_ok in E; congruence).
  assert (N2 : nrm2 (Cx (cell l BR_R) (cell l BR_X)) <> 0%K) by (intros E; apply feqb_ok in E; congruence).
  eexists _, _. split; [|split; [exact H3|exact H4]].
  exists (cdiv (volt cis bf) (turns cis l)). eexists. eexists. repeat split.
  - symmetry. apply div_back; auto.
  - apply div_back; exact N2.
  - apply div_back. rewrite conj_nrm2. exact N1.
Qed.
Definition zero_surplus (gen branch : list (list K)) (b : list K) : bool :=
  feqb (surplus_p gen branch b) 0%K && feqb (surplus_q gen branch b) 0%K.
Definition is_nil {A} (l : list A) : bool := match l with [] => true | _ => false end.
Definition named_test (bus : list (list K)) (c : nat) (t : list (list K)) : bool :=
  forallb (fun r => existsb (fun b => bus_num b =? ftrunc (cell r c))%Z bus) t.
Definition print_test (bus gen branch : list (list K)) : bool :=
  is_nil (filter (fun i => negb (is_nil (filter (fun j => (nth i (map bus_num bus) 0 =? nth j (map bus_num bus) 0)%Z) (seq 0 i)))) (seq 0 (length bus)))
  && forallb (fun b => 0 <=? bus_num b)%Z bus && named_test bus GEN_BUS gen && named_test bus F_BUS branch && named_test bus T_BUS branch.
Lemma named_test_ok bus c t : named_test bus c t = true -> forall r, In r t -> exists b, names bus r c b.
Proof.
  unfold named_test. intros H r I. rewrite forallb_forall in H. specialize (H r I). apply existsb_exists in H as (b & Ib & E).
  apply Z.eqb_eq in E. exists b. split; auto.
Qed.
Lemma nodup_test (l : list Z) :
  is_nil (filter (fun i => negb (is_nil (filter (fun j => (nth i l 0 =? nth j l 0)%Z) (seq 0 i)))) (seq 0 (length l))) = true -> NoDup l.
Proof.
  intros H. apply (NoDup_nth l 0%Z).
  assert (N : forall i j, i < length l -> j < i -> nth i l 0%Z <> nth j l 0%Z).
  { intros i j Hi Hj E. destruct (filter _ (seq 0 (length l))) as [|k t] eqn:G in H; [|discriminate].
    assert (In i (filter (fun i => negb (is_nil (filter (fun j => (nth i l 0 =? nth j l 0)%Z) (seq 0 i)))) (seq 0 (length l)))) as I.
    { apply filter_In. split; [apply in_seq; lia|]. destruct (filter (fun j => (nth i l 0 =? nth j l 0)%Z) (seq 0 i)) as [|q t] eqn:G2; auto.
      assert (In j (filter (fun j => (nth i l 0 =? nth j l 0)%Z) (seq 0 i))) as I2 by (apply filter_In; split; [apply in_seq; lia|apply Z.eqb_eq; auto]).
      rewrite G2 in I2. destruct I2. }
    rewrite G in I. destruct I. }
  intros i j Hi Hj E. destruct (Nat.lt_trichotomy i j) as [L|[L|L]]; auto; exfalso.
  - apply (N j i Hj L). auto.
  - apply (N i j Hi L). auto.
Qed.
Lemma print_test_ok bus gen branch : print_test bus gen branch = true -> printable bus gen branch.
Proof.
  unfold print_test. intros H. apply andb_prop in H as (H & H5). apply andb_prop in H as (H & H4). apply andb_prop in H as (H & H3).
  apply andb_prop in H as (H1 & H2). split; try (apply named_test_ok; assumption).
  - apply nodup_test. rewrite map_length. exact H1.
  - intros b I. rewrite forallb_forall in H2. apply Z.leb_le. apply (H2 b I).
Qed.
End Test.
