(** Reports: the area summary. *)
From Coq Require Import Permutation Sorted.
From Verif Require Import Lib.ListFacts Model.PrintPf Spec.PrintSpec Spec.PfSpec
  Proofs.SparseFacts Proofs.FldFacts Proofs.NetworkE Proofs.PrintA Proofs.PrintB Proofs.PrintC.
Local Open Scope nat_scope.

Section PrintD.
Context {K : Type} {F : Fld K}.
Add Field KFpd : (@f_ok K F).
Variables (cis : K -> cpx K) (cabs : cpx K -> K).

Section Data.
Variables (baseMVA : K) (bus gen branch : list (list K)) (d : print_data K).
Hypothesis OK : printable bus gen branch.
Hypothesis PR : prepared cis cabs baseMVA bus gen branch d.
Local Notation lossl := (lossl cis cabs baseMVA bus).
Local Notation fchgl := (fchgl cis cabs baseMVA bus).
Local Notation tchgl := (tchgl cis cabs baseMVA bus).
Local Notation N2 := (fofZ_nz 2 ltac:(lia)).

Definition here_gen (a : K) (g : list K) : bool := in_area a (the_bus bus GEN_BUS g).
Definition here_from (a : K) (l : list K) : bool := in_area a (the_bus bus F_BUS l).
Definition here_to (a : K) (l : list K) : bool := in_area a (the_bus bus T_BUS l).
Definition inner (a : K) l := here_from a l && here_to a l.
Definition into (a : K) l := here_to a l && negb (here_from a l).
Definition outof (a : K) l := here_from a l && negb (here_to a l).
Definition qlim (g : list K) : K :=
  ((if feqb (cell g QMIN) 0%K then cell g QMAX else 0) + (if feqb (cell g QMAX) 0%K then cell g QMIN else 0))%K.

Record area_ok (a : K) (r : area_row K) : Prop := {
  ao_num : a_num r = a;
  ao_buses : a_buses r = count_if (fun b => in_area a b) bus;
  ao_gens : a_gens r = count_if (fun g => here_gen a g && negb (load_unit g)) gen;
  ao_committed : a_committed r = count_if (fun g => here_gen a g && gen_running g) gen;
  ao_fixed : a_fixed r = count_if (fun b => in_area a b && nz_load b) bus;
  ao_disp : a_disp r = count_if (fun g => here_gen a g && load_running g) gen;
  ao_loads : a_loads r = a_fixed r + a_disp r;
  ao_shunts : a_shunts r = count_if (fun b => in_area a b && nz_shunt b) bus;
  ao_branches : a_branches r = count_if (inner a) branch;
  ao_xfmrs : a_xfmrs r = count_if (fun l => inner a l && nz (cell l TAP)) branch;
  ao_ties : a_ties r = count_if (outof a) branch + count_if (into a) branch;
  ao_cap : let p := fun g => here_gen a g && negb (load_unit g) in
     a_cap r = Cap (sum_if p (fun g => cell g PMAX) gen) (sum_if p (fun g => cell g QMIN) gen) (sum_if p (fun g => cell g QMAX) gen);
  ao_on_cap : let p := fun g => here_gen a g && gen_running g in
     a_on_cap r = Cap (sum_if p (fun g => cell g PMAX) gen) (sum_if p (fun g => cell g QMIN) gen) (sum_if p (fun g => cell g QMAX) gen);
  ao_actual : let p := fun g => here_gen a g && gen_running g in
     a_actual r = PQ (sum_if p (fun g => cell g PG) gen) (sum_if p (fun g => cell g QG) gen);
  ao_disp_cap : let p := fun g => here_gen a g && load_running g in
     a_disp_cap r = PQ (- sum_if p (fun g => cell g PMIN) gen)%K (- sum_if p qlim gen)%K;
  ao_disp_load : let p := fun g => here_gen a g && load_running g in
     a_disp_load r = PQ (- sum_if p (fun g => cell g PG) gen)%K (- sum_if p (fun g => cell g QG) gen)%K;
  ao_fixed_load : let p := fun b => in_area a b && nz_load b in
     a_fixed_load r = PQ (sum_if p (fun b => cell b PD) bus) (sum_if p (fun b => cell b QD) bus);
  ao_load : a_load r = add_pow (a_disp_load r) (a_fixed_load r);
  ao_shunt : let p := fun b => in_area a b && nz_shunt b in
     a_shunt r = PQ (- sum_if p (fun b => sq (cell b VM) * cell b GS)%K bus)%K (sum_if p (fun b => sq (cell b VM) * cell b BS)%K bus);
  ao_chg : a_chg r = (sum_if (fun l => inner a l && live l) fchgl branch + sum_if (fun l => inner a l && live l) tchgl branch
     + sum_if (fun l => outof a l && live l) fchgl branch + sum_if (fun l => into a l && live l) tchgl branch)%K;
  ao_loss : let part f := (sum_if (fun l => inner a l && live l) f branch
       + (sum_if (fun l => into a l && live l) f branch + sum_if (fun l => outof a l && live l) f branch) / fofZ 2)%K in
     a_loss r = PQ (part (fun l => re (lossl l))) (part (fun l => im (lossl l)));
  ao_export : let part jf jt f := (sum_if (fun l => into a l && live l) (fun l => cell l jt) branch
       + sum_if (fun l => outof a l && live l) (fun l => cell l jf) branch
       - (sum_if (fun l => into a l && live l) f branch + sum_if (fun l => outof a l && live l) f branch) / fofZ 2)%K in
     a_export r = PQ (part PF PT (fun l => re (lossl l))) (part QF QT (fun l => im (lossl l))) }.

Lemma masks_eq {A} (p q : A -> bool) t : (forall x, In x t -> p x = q x) -> find (map p t) = find (map q t).
Proof. intros H. f_equal. apply map_ext_in. exact H. Qed.

Lemma area_row_ok a r : area_summary_row d a = Ok r -> area_ok a r.
Proof.
  unfold area_summary_row, mask2. cbv zeta.
  destruct PR as [E1 E2 E3 EF ET _ E7 E8 E9 _ E11 E12 E13 _ E15 E16 E17 _].
  rewrite E1, E2, E3, EF, ET, E15, E16, E17. intros H.
  apply bind_ok in H as (ar & H1 & H). apply col_cells in H1. subst ar.
  apply bind_ok in H as (n & H1 & H). apply col_cells in H1. subst n.
  apply bind_ok in H as (gb & H1 & H). apply col_cells in H1. subst gb.
  apply bind_ok in H as (gr & H1 & H). rewrite map_map in H1.
  apply (rows_of_map bus GEN_BUS gen gr (pr_pos _ _ _ OK) (pr_gen _ _ _ OK)) in H1. subst gr.
  apply bind_ok in H as (ag & H1 & H). apply (gather_map _ _ _ _ []) in H1 as (-> & _).
  apply bind_ok in H as (ld & H1 & H). apply isload_rows in H1. subst ld.
  apply bind_ok in H as (st & H1 & H). apply col_cells in H1. subst st.
  apply bind_ok in H as (af & H1 & H). apply (gather_map _ _ _ _ []) in H1 as (-> & _).
  apply bind_ok in H as (at' & H1 & H). apply (gather_map _ _ _ _ []) in H1 as (-> & _).
  apply bind_ok in H as (pd & H1 & H). apply col_cells in H1. subst pd.
  apply bind_ok in H as (qd & H1 & H). apply col_cells in H1. subst qd.
  apply bind_ok in H as (gs & H1 & H). apply col_cells in H1. subst gs.
  apply bind_ok in H as (bs & H1 & H). apply col_cells in H1. subst bs.
  apply bind_ok in H as (bst & H1 & H). apply col_cells in H1. subst bst.
  apply bind_ok in H as (tap & H1 & H). apply col_cells in H1. subst tap.
  rewrite !map_map, !map2_same in H.
  (* masks in the words of the specification *)
  assert (MG : forall (q : list K -> bool), find (map (fun g => feqb (cell (nth (row_no bus (ftrunc (cell g GEN_BUS))) bus []) BUS_AREA) a && q g) gen)
    = find (map (fun g => here_gen a g && q g) gen)).
  { intros q. apply masks_eq. intros g I. change (nth (row_no bus (ftrunc (cell g GEN_BUS))) bus []) with (named bus GEN_BUS g).
    rewrite (named_gen bus gen branch OK g I). reflexivity. }
  assert (ML : forall (h : bool -> bool -> list K -> bool),
     find (map (fun l => h (feqb (cell (nth (row_no bus (ftrunc (cell l F_BUS))) bus []) BUS_AREA) a)
                           (feqb (cell (nth (row_no bus (ftrunc (cell l T_BUS))) bus []) BUS_AREA) a) l) branch)
     = find (map (fun l => h (here_from a l) (here_to a l) l) branch)).
  { intros h. apply masks_eq. intros l I.
    change (nth (row_no bus (ftrunc (cell l F_BUS))) bus []) with (named bus F_BUS l).
    change (nth (row_no bus (ftrunc (cell l T_BUS))) bus []) with (named bus T_BUS l).
    rewrite (named_from bus gen branch OK l I), (named_to bus gen branch OK l I). reflexivity. }
  rewrite (MG (fun g => negb (load_unit g))), (MG (fun g => pos_status (cell g GEN_STATUS) && negb (load_unit g))),
    (MG (fun g => pos_status (cell g GEN_STATUS) && load_unit g)) in H.
  rewrite (ML (fun f t l => f && t && nz (cell l TAP))), (ML (fun f t l => f && t && nz (cell l BR_STATUS))),
    (ML (fun f t l => negb f && t && nz (cell l BR_STATUS))), (ML (fun f t l => f && negb t && nz (cell l BR_STATUS))),
    (ML (fun f t l => f && t)), (ML (fun f t l => f && negb t)), (ML (fun f t l => negb f && t)) in H.
  change (fun g => here_gen a g && (pos_status (cell g GEN_STATUS) && negb (load_unit g))) with (fun g => here_gen a g && gen_running g) in H.
  change (fun g => here_gen a g && (pos_status (cell g GEN_STATUS) && load_unit g)) with (fun g => here_gen a g && load_running g) in H.
  assert (IT : forall q : list K -> bool, find (map (fun l => negb (here_from a l) && here_to a l && q l) branch) = find (map (fun l => into a l && q l) branch)).
  { intros q. apply masks_eq. intros l _. unfold into. f_equal. apply andb_comm. }
  rewrite (IT (fun l => nz (cell l BR_STATUS))) in H.
  assert (find (map (fun l => negb (here_from a l) && here_to a l) branch) = find (map (into a) branch)) as IT'
    by (apply masks_eq; intros l _; unfold into; apply andb_comm). rewrite IT' in H. clear IT IT' MG ML.
  change (fun l : list K => into a l && nz (cell l BR_STATUS)) with (fun l => into a l && live l) in H.
  change (fun l : list K => here_from a l && negb (here_to a l) && nz (cell l BR_STATUS)) with (fun l => outof a l && live l) in H.
  change (fun l : list K => here_from a l && here_to a l && nz (cell l BR_STATUS)) with (fun l => inner a l && live l) in H.
  change (fun l : list K => here_from a l && here_to a l && nz (cell l TAP)) with (fun l => inner a l && nz (cell l TAP)) in H.
  change (fun l : list K => here_from a l && here_to a l) with (inner a) in H.
  change (fun l : list K => here_from a l && negb (here_to a l)) with (outof a) in H.
  apply bind_ok in H as (cap & H1 & H). apply cap_sum_map in H1. subst cap.
  apply bind_ok in H as (oc & H1 & H). apply cap_sum_map in H1. subst oc.
  apply bind_ok in H as (ac & H1 & H). apply pow_sum_map in H1. subst ac.
  apply bind_ok in H as (qmin & H1 & H). apply col_cells in H1. subst qmin.
  apply bind_ok in H as (qmax & H1 & H). apply col_cells in H1. subst qmax.
  apply bind_ok in H as (dp & H1 & H). apply colsum_map in H1. subst dp.
  apply bind_ok in H as (dq & H1 & H). rewrite map2_same in H1. apply vsum_map in H1. subst dq.
  apply bind_ok in H as (di & H1 & H). apply pow_sum_map in H1. subst di.
  apply bind_ok in H as (fx & H1 & H). apply pow_sum_map in H1. subst fx.
  apply bind_ok in H as (sh & H1 & H). apply shunt_sum_map in H1. subst sh.
  apply bind_ok in H as (c1 & H1 & H). apply vsum_map in H1. subst c1.
  apply bind_ok in H as (c2 & H1 & H). apply vsum_map in H1. subst c2.
  apply bind_ok in H as (c3 & H1 & H). apply vsum_map in H1. subst c3.
  apply bind_ok in H as (c4 & H1 & H). apply vsum_map in H1. subst c4.
  apply bind_ok in H as (l1 & H1 & H). apply loss_sum_map in H1. subst l1.
  apply bind_ok in H as (l2 & H1 & H). apply loss_sum_two in H1. subst l2.
  apply bind_ok in H as (e1 & H1 & H). apply pow_sum_map in H1. subst e1.
  apply bind_ok in H as (e2 & H1 & H). apply pow_sum_map in H1. subst e2.
  match type of H with Ok ?r0 = Ok _ => assert (r = r0) as -> by congruence end. clear H.
  constructor; cbn; rewrite ?find_count; auto.
Qed.

(** ** what an area row leaves over *)
Hypothesis circ : circular cis.
Hypothesis cabs_ok : modulus cabs.
Hypothesis FS : flows_solved cis baseMVA bus branch.

Lemma flow_live l : In l branch -> live l = false -> cell l PF = 0%K /\ cell l QF = 0%K /\ cell l PT = 0%K /\ cell l QT = 0%K.
Proof. intros I L. pose proof (FS l I) as H. unfold flow_of in H. rewrite L in H. exact H. Qed.

Lemma area_balance_p a r : area_ok a r ->
  (p_part (a_actual r) - p_part (a_load r) + p_part (a_shunt r) - p_part (a_loss r) - p_part (a_export r))%K
  = sum_if (in_area a) (surplus_p gen branch) bus.
Proof.
  intros S. rewrite (ao_actual _ _ S), (ao_load _ _ S), (ao_disp_load _ _ S), (ao_fixed_load _ _ S), (ao_shunt _ _ S), (ao_loss _ _ S), (ao_export _ _ S).
  cbn [p_part q_part add_pow]. rewrite (zone_surplus_p bus gen branch OK (in_area a)).
  rewrite <- (units_split gen (here_gen a)).
  destruct (loads_all bus (in_area a)) as (L1 & _), (shunts_all bus (in_area a)) as (S1 & _). rewrite <- L1, <- S1.
  match goal with |- ?x = (?y - (?f + ?t))%K => assert ((f + t)%K =
    (sum_if (fun l => inner a l && live l) (fun l => re (lossl l)) branch
     + (sum_if (fun l => into a l && live l) (fun l => cell l PT) branch + sum_if (fun l => outof a l && live l) (fun l => cell l PF) branch))%K) as EQ end.
  { unfold sum_if. rewrite <- !lsum_add. apply lsum_ext. intros l I.
    rewrite <- (proj1 (loss_flows cis cabs baseMVA bus gen branch d OK PR circ cabs_ok FS l I)).
    change (in_area a (the_bus bus F_BUS l)) with (here_from a l). change (in_area a (the_bus bus T_BUS l)) with (here_to a l).
    unfold inner, into, outof. destruct (live l) eqn:L.
    - destruct (here_from a l), (here_to a l); cbn; ring.
    - destruct (flow_live l I L) as (-> & _ & -> & _). destruct (here_from a l), (here_to a l); cbn; ring. }
  rewrite EQ. field. apply N2.
Qed.

Lemma loss_row_charge l : In l branch -> live l = true -> fchgl l = charge_from cis baseMVA bus l /\ tchgl l = charge_to cis baseMVA bus l.
Proof.
  intros I L. pose proof (qd_each _ _ _ _ _ _ _ PR l I) as H. change (val loss_zero _) with (row cis cabs baseMVA bus l) in H.
  unfold PrintC.fchgl, PrintC.tchgl. destruct (row cis cabs baseMVA bus l) as [[z fc] tc]. cbn [fst snd].
  destruct (pr_from _ _ _ OK l I) as (bf & Nf), (pr_to _ _ _ OK l I) as (bt & Nt).
  pose proof (FS l I) as FL. unfold flow_of in FL. rewrite L in FL. destruct (FL bf bt Nf Nt) as (cf & ct & PI & _).
  apply circuit_power in PI as (vi & c & E1 & E3 & _). pose proof (pr_once _ _ _ OK) as ND.
  pose proof (loss_row_on cis cabs circ cabs_ok baseMVA bus l bf bt vi c _ L (named_ok _ _ _ _ ND Nf) (named_ok _ _ _ _ ND Nt) E1 E3 H) as W.
  injection W as -> -> ->.
  unfold charge_from, charge_to. rewrite (the_bus_named _ _ _ _ ND Nf), (the_bus_named _ _ _ _ ND Nt), E1.
  assert (nrm2 (turns cis l) <> 0%K) as Nn.
  { unfold loss_row, branch_loss in H. unfold live in L. destruct (feqb (cell l BR_STATUS) 0%K); [discriminate|].
    rewrite (print_tap_conj cis circ), conj_nrm2 in H. destruct (feqb (nrm2 (turns cis l)) 0%K) eqn:E; [discriminate|].
    intros G. apply feqb_ok in G. congruence. }
  assert (cdiv (turns cis l * vi)%K (turns cis l) = vi) as ->; auto.
  unfold cdiv. destruct (turns cis l) as [n m], vi as [v u]. apply cpx_eq; unfold nrm2 in *; cbn in *; field; exact Nn.
Qed.

Lemma area_balance_q a r : area_ok a r ->
  (q_part (a_actual r) - q_part (a_load r) + q_part (a_shunt r) + a_chg r - q_part (a_loss r) - q_part (a_export r))%K
  = (sum_if (in_area a) (surplus_q gen branch) bus + tie_charge cis baseMVA bus branch a)%K.
Proof.
  intros S. rewrite (ao_actual _ _ S), (ao_load _ _ S), (ao_disp_load _ _ S), (ao_fixed_load _ _ S), (ao_shunt _ _ S), (ao_loss _ _ S), (ao_export _ _ S), (ao_chg _ _ S).
  cbn [p_part q_part add_pow]. rewrite (zone_surplus_q bus gen branch OK (in_area a)).
  rewrite <- (units_split gen (here_gen a)).
  destruct (loads_all bus (in_area a)) as (_ & L1), (shunts_all bus (in_area a)) as (_ & S1). rewrite <- L1, <- S1.
  match goal with |- ?x = (?y - (?f + ?t) + _)%K => assert ((f + t)%K =
    (sum_if (fun l => inner a l && live l) (fun l => im (lossl l)) branch
     - sum_if (fun l => inner a l && live l) fchgl branch - sum_if (fun l => inner a l && live l) tchgl branch
     + (sum_if (fun l => into a l && live l) (fun l => cell l QT) branch + sum_if (fun l => outof a l && live l) (fun l => cell l QF) branch))%K) as EQ end.
  { unfold sum_if. rewrite <- !lsum_sub, <- !lsum_add. apply lsum_ext. intros l I.
    pose proof (proj2 (loss_flows cis cabs baseMVA bus gen branch d OK PR circ cabs_ok FS l I)) as E.
    assert (im (lossl l) = cell l QF + cell l QT + (fchgl l + tchgl l))%K as -> by (rewrite E; ring).
    change (in_area a (the_bus bus F_BUS l)) with (here_from a l). change (in_area a (the_bus bus T_BUS l)) with (here_to a l).
    unfold inner, into, outof. destruct (live l) eqn:L.
    - destruct (here_from a l), (here_to a l); cbn; ring.
    - destruct (flow_live l I L) as (_ & -> & _ & ->). destruct (here_from a l), (here_to a l); cbn; ring. }
  rewrite EQ. clear EQ.
  assert (tie_charge cis baseMVA bus branch a = sum_if (fun l => outof a l && live l) fchgl branch + sum_if (fun l => into a l && live l) tchgl branch)%K as ->.
  { unfold tie_charge. f_equal.
    - apply sum_if_ext. intros l I. change (in_area a (the_bus bus F_BUS l)) with (here_from a l). change (in_area a (the_bus bus T_BUS l)) with (here_to a l).
      unfold outof. split; [destruct (live l), (here_from a l), (here_to a l); reflexivity|]. intros L.
      symmetry. apply loss_row_charge; auto. destruct (live l); auto.
    - apply sum_if_ext. intros l I. change (in_area a (the_bus bus F_BUS l)) with (here_from a l). change (in_area a (the_bus bus T_BUS l)) with (here_to a l).
      unfold into. split; [destruct (live l), (here_from a l), (here_to a l); reflexivity|]. intros L.
      symmetry. apply loss_row_charge; auto. destruct (live l); auto. }
  field. apply N2.
Qed.
End Data.
End PrintD.
