(** Reports: the system summary and the row of an area as sums over table rows, and what they leave over. *)
From Verif Require Import Lib.ListFacts Model.PrintPf Spec.PrintSpec Spec.PfSpec
  Proofs.SparseFacts Proofs.FldFacts Proofs.NetworkE Proofs.PrintA Proofs.PrintB.
Local Open Scope nat_scope.

Section PrintC.
Context {K : Type} {F : Fld K}.
Add Field KFpc : (@f_ok K F).
Variables (cis : K -> cpx K) (cabs : cpx K -> K).

Lemma nz_false (a : K) : nz a = false -> a = 0%K.
Proof. unfold nz. intros H. apply negb_false_iff in H. apply feqb_ok in H. exact H. Qed.
Lemma the_bus_named bus c r b : NoDup (map bus_num bus) -> names bus r c b -> the_bus bus c r = b.
Proof.
  intros ND N. unfold the_bus. destruct (List.find _ bus) as [b'|] eqn:E.
  - apply find_some in E as (I & E). apply Z.eqb_eq in E. apply (names_once bus c r b' b ND); auto. split; auto.
  - exfalso. destruct N as (I & Eb). pose proof (find_none _ _ E b I) as G. cbn in G. rewrite Eb, Z.eqb_refl in G. discriminate.
Qed.
Lemma named_the bus c r : NoDup (map bus_num bus) -> (exists b, names bus r c b) -> named bus c r = the_bus bus c r.
Proof. intros ND (b & N). rewrite (named_ok _ _ _ _ ND N), (the_bus_named _ _ _ _ ND N). reflexivity. Qed.

Lemma cap_sum_map p (gen : list (list K)) c : cap_sum gen (find (map p gen)) = Ok c ->
  c = Cap (sum_if p (fun g => cell g PMAX) gen) (sum_if p (fun g => cell g QMIN) gen) (sum_if p (fun g => cell g QMAX) gen).
Proof.
  unfold cap_sum. intros H. apply bind_ok in H as (a & H1 & H). apply bind_ok in H as (b & H2 & H). apply bind_ok in H as (e & H3 & H).
  apply colsum_map in H1, H2, H3. congruence.
Qed.
Lemma pow_sum_map p (t : list (list K)) jp jq c : pow_sum t (find (map p t)) jp jq = Ok c ->
  c = PQ (sum_if p (fun g => cell g jp) t) (sum_if p (fun g => cell g jq) t).
Proof.
  unfold pow_sum. intros H. apply bind_ok in H as (a & H1 & H). apply bind_ok in H as (b & H2 & H). apply colsum_map in H1, H2. congruence.
Qed.
Lemma shunt_sum_map p (t : list (list K)) c : shunt_sum t (find (map p t)) = Ok c ->
  c = PQ (- sum_if p (fun b => sq (cell b VM) * cell b GS)%K t)%K (sum_if p (fun b => sq (cell b VM) * cell b BS)%K t).
Proof.
  unfold shunt_sum. intros H. apply bind_ok in H as (vm & H1 & H). apply bind_ok in H as (gs & H2 & H). apply bind_ok in H as (bs & H3 & H).
  apply col_cells in H1, H2, H3. subst. rewrite !map2_same in H.
  apply bind_ok in H as (a & H1 & H). apply bind_ok in H as (b & H2 & H). apply vsum_map in H1, H2. congruence.
Qed.
Lemma loss_sum_map {A} p (f : A -> cpx K) t c : loss_sum (map f t) (find (map p t)) = Ok c ->
  c = PQ (sum_if p (fun l => re (f l)) t) (sum_if p (fun l => im (f l)) t).
Proof.
  unfold loss_sum. rewrite !map_map. intros H. apply bind_ok in H as (a & H1 & H). apply bind_ok in H as (b & H2 & H).
  apply vsum_map in H1, H2. congruence.
Qed.
Lemma loss_sum_all {A} (f : A -> cpx K) t c : loss_sum (map f t) (all_of (map f t)) = Ok c ->
  c = PQ (lsum (fun l => re (f l)) t) (lsum (fun l => im (f l)) t).
Proof.
  unfold loss_sum. rewrite !map_map. intros H.
  replace (all_of (map f t)) with (all_of (map (fun x => re (f x)) t)) in H by (unfold all_of; rewrite !map_length; auto).
  apply bind_ok in H as (a & H1 & H). apply vsum_all in H1.
  replace (all_of (map (fun x => re (f x)) t)) with (all_of (map (fun x => im (f x)) t)) in H by (unfold all_of; rewrite !map_length; auto).
  apply bind_ok in H as (b & H2 & H). apply vsum_all in H2. congruence.
Qed.
Lemma loss_sum_two {A} p p' (f : A -> cpx K) t c : loss_sum (map f t) (find (map p t) ++ find (map p' t)) = Ok c ->
  c = PQ (sum_if p (fun l => re (f l)) t + sum_if p' (fun l => re (f l)) t)%K (sum_if p (fun l => im (f l)) t + sum_if p' (fun l => im (f l)) t)%K.
Proof.
  unfold loss_sum. rewrite !map_map. intros H. apply bind_ok in H as (a & H1 & H). apply bind_ok in H as (b & H2 & H).
  apply vsum_app in H1 as (a1 & a2 & A1 & A2 & ->), H2 as (b1 & b2 & B1 & B2 & ->). apply vsum_map in A1, A2, B1, B2. congruence.
Qed.

Section Data.
Variables (baseMVA : K) (bus gen branch : list (list K)) (d : print_data K).
Hypothesis OK : printable bus gen branch.
Hypothesis PR : prepared cis cabs baseMVA bus gen branch d.

Definition row (l : list K) := val loss_zero (loss_row cis cabs false baseMVA bus l).
Definition lossl (l : list K) : cpx K := fst (fst (row l)).
Definition fchgl (l : list K) : K := snd (fst (row l)).
Definition tchgl (l : list K) : K := snd (row l).
Definition tie_line (l : list K) : bool := negb (feqb (cell (the_bus bus F_BUS l) BUS_AREA) (cell (the_bus bus T_BUS l) BUS_AREA)).

Lemma named_from l : In l branch -> named bus F_BUS l = the_bus bus F_BUS l.
Proof. intros I. apply named_the; [exact (pr_once _ _ _ OK)|exact (pr_from _ _ _ OK l I)]. Qed.
Lemma named_to l : In l branch -> named bus T_BUS l = the_bus bus T_BUS l.
Proof. intros I. apply named_the; [exact (pr_once _ _ _ OK)|exact (pr_to _ _ _ OK l I)]. Qed.
Lemma named_gen g : In g gen -> named bus GEN_BUS g = the_bus bus GEN_BUS g.
Proof. intros I. apply named_the; [exact (pr_once _ _ _ OK)|exact (pr_gen _ _ _ OK g I)]. Qed.

Record sys_ok (s : sys_sum K) : Prop := {
  so_buses : y_buses s = length bus;
  so_gens : y_gens s = count_if (fun g => negb (load_unit g)) gen;
  so_committed : y_committed s = count_if gen_running gen;
  so_fixed : y_fixed s = count_if nz_load bus;
  so_disp : y_disp s = count_if load_running gen;
  so_loads : y_loads s = y_fixed s + y_disp s;
  so_shunts : y_shunts s = count_if nz_shunt bus;
  so_branches : y_branches s = length branch;
  so_xfmrs : y_xfmrs s = count_if (fun l => nz (cell l TAP)) branch;
  so_ties : y_ties s = count_if tie_line branch;
  so_areas : y_areas s = length (q_areas d);
  so_cap : y_cap s = Cap (sum_if (fun g => negb (load_unit g)) (fun g => cell g PMAX) gen)
             (sum_if (fun g => negb (load_unit g)) (fun g => cell g QMIN) gen) (sum_if (fun g => negb (load_unit g)) (fun g => cell g QMAX) gen);
  so_on_cap : y_on_cap s = Cap (sum_if gen_running (fun g => cell g PMAX) gen)
             (sum_if gen_running (fun g => cell g QMIN) gen) (sum_if gen_running (fun g => cell g QMAX) gen);
  so_actual : y_actual s = PQ (sum_if gen_running (fun g => cell g PG) gen) (sum_if gen_running (fun g => cell g QG) gen);
  so_fixed_load : y_fixed_load s = PQ (sum_if nz_load (fun b => cell b PD) bus) (sum_if nz_load (fun b => cell b QD) bus);
  so_disp_load : y_disp_load s = PQ (- sum_if load_running (fun g => cell g PG) gen)%K (- sum_if load_running (fun g => cell g QG) gen)%K;
  so_load : y_load s = add_pow (y_disp_load s) (y_fixed_load s);
  so_disp_cap : y_disp_cap s = (- sum_if load_running (fun g => cell g PMIN) gen)%K;
  so_shunt : y_shunt s = PQ (- sum_if nz_shunt (fun b => sq (cell b VM) * cell b GS)%K bus)%K (sum_if nz_shunt (fun b => sq (cell b VM) * cell b BS)%K bus);
  so_loss : y_loss s = PQ (lsum (fun l => re (lossl l)) branch) (lsum (fun l => im (lossl l)) branch);
  so_chg : y_chg s = (lsum fchgl branch + lsum tchgl branch)%K }.

Lemma ties_eq : q_ties d = find (map tie_line branch).
Proof.
  rewrite (qd_ties _ _ _ _ _ _ _ PR). f_equal. apply map_ext_in. intros l I. rewrite named_from, named_to by exact I. reflexivity.
Qed.

Lemma system_ok s : system_summary d = Ok s -> sys_ok s.
Proof.
  unfold system_summary. cbv zeta. pose proof ties_eq as ET.
  destruct PR as [E1 E2 E3 _ _ _ E7 E8 E9 _ E11 E12 E13 _ E15 E16 E17 _].
  rewrite ET, E1, E2, E3, E7, E8, E9, E11, E12, E13, E15, E16, E17.
  intros H. apply bind_ok in H as (cap & H1 & H). apply cap_sum_map in H1.
  apply bind_ok in H as (oc & H2 & H). apply cap_sum_map in H2.
  apply bind_ok in H as (ac & H3 & H). apply pow_sum_map in H3.
  apply bind_ok in H as (fx & H4 & H). apply pow_sum_map in H4.
  apply bind_ok in H as (di & H5 & H). apply pow_sum_map in H5.
  apply bind_ok in H as (dp & H6 & H). apply colsum_map in H6.
  apply bind_ok in H as (sh & H7 & H). apply shunt_sum_map in H7.
  apply bind_ok in H as (lo & H8 & H). apply loss_sum_all in H8.
  apply bind_ok in H as (cf & H9 & H). apply vsum_all in H9.
  apply bind_ok in H as (ct & H10 & H). apply vsum_all in H10.
  apply bind_ok in H as (tp & H11 & H). apply bind_ok in H as (tq & H12 & H).
  match type of H with Ok ?r = Ok _ => assert (s = r) as -> by congruence end. clear H. subst.
  constructor; cbn; rewrite ?find_count; auto.
  unfold sub_pow, add_pow. cbn. f_equal; ring.
Qed.

(** ** what is left over at the buses of a zone *)
Lemma zone_surplus_p (z : list K -> bool) : sum_if z (surplus_p gen branch) bus =
  (sum_if (fun g => z (the_bus bus GEN_BUS g)) (fun g => if in_service g then cell g PG else 0) gen
   - sum_if z (fun b => cell b PD) bus - sum_if z (fun b => cell b GS * (cell b VM * cell b VM)) bus
   - (sum_if (fun l => z (the_bus bus F_BUS l)) (fun l => cell l PF) branch + sum_if (fun l => z (the_bus bus T_BUS l)) (fun l => cell l PT) branch))%K.
Proof.
  rewrite <- (sum_if_ext (fun g => z (named bus GEN_BUS g)) (fun g => z (the_bus bus GEN_BUS g)) (fun g => if in_service g then cell g PG else 0%K) _ gen)
    by (intros g I; split; [cbn beta; rewrite (named_gen g I); reflexivity|intros; reflexivity]).
  rewrite <- (sum_if_ext (fun l => z (named bus F_BUS l)) (fun l => z (the_bus bus F_BUS l)) (fun l => cell l PF) _ branch) by (intros l I; split; [cbn beta; rewrite (named_from l I); reflexivity|intros; reflexivity]).
  rewrite <- (sum_if_ext (fun l => z (named bus T_BUS l)) (fun l => z (the_bus bus T_BUS l)) (fun l => cell l PT) _ branch) by (intros l I; split; [cbn beta; rewrite (named_to l I); reflexivity|intros; reflexivity]).
  destruct OK as [ND P GG GF GT].
  rewrite <- !sum_over_buses by auto. unfold sum_if. rewrite <- lsum_add, <- !lsum_sub. apply lsum_ext. intros b _.
  unfold surplus_p. destruct (z b); ring.
Qed.
Lemma zone_surplus_q (z : list K -> bool) : sum_if z (surplus_q gen branch) bus =
  (sum_if (fun g => z (the_bus bus GEN_BUS g)) (fun g => if in_service g then cell g QG else 0) gen
   - sum_if z (fun b => cell b QD) bus + sum_if z (fun b => cell b BS * (cell b VM * cell b VM)) bus
   - (sum_if (fun l => z (the_bus bus F_BUS l)) (fun l => cell l QF) branch + sum_if (fun l => z (the_bus bus T_BUS l)) (fun l => cell l QT) branch))%K.
Proof.
  rewrite <- (sum_if_ext (fun g => z (named bus GEN_BUS g)) (fun g => z (the_bus bus GEN_BUS g)) (fun g => if in_service g then cell g QG else 0%K) _ gen)
    by (intros g I; split; [cbn beta; rewrite (named_gen g I); reflexivity|intros; reflexivity]).
  rewrite <- (sum_if_ext (fun l => z (named bus F_BUS l)) (fun l => z (the_bus bus F_BUS l)) (fun l => cell l QF) _ branch) by (intros l I; split; [cbn beta; rewrite (named_from l I); reflexivity|intros; reflexivity]).
  rewrite <- (sum_if_ext (fun l => z (named bus T_BUS l)) (fun l => z (the_bus bus T_BUS l)) (fun l => cell l QT) _ branch) by (intros l I; split; [cbn beta; rewrite (named_to l I); reflexivity|intros; reflexivity]).
  destruct OK as [ND P GG GF GT].
  rewrite <- !sum_over_buses by auto. unfold sum_if. rewrite <- lsum_add, <- !lsum_sub, <- lsum_add, <- lsum_sub. apply lsum_ext. intros b _.
  unfold surplus_q. destruct (z b); ring.
Qed.

(** generators and dispatchable loads together are the units in service *)
Lemma units_split (z : list K -> bool) j :
  (sum_if (fun g => z g && gen_running g) (fun g => cell g j) gen + sum_if (fun g => z g && load_running g) (fun g => cell g j) gen)%K
  = sum_if z (fun g => if in_service g then cell g j else 0%K) gen.
Proof.
  unfold sum_if. rewrite <- lsum_add. apply lsum_ext. intros g _. unfold gen_running, load_running.
  destruct (z g), (in_service g), (load_unit g); cbn; ring.
Qed.
(** buses that the masks skip contribute nothing *)
Lemma loads_all (z : list K -> bool) : sum_if (fun b => z b && nz_load b) (fun b => cell b PD) bus = sum_if z (fun b => cell b PD) bus /\
  sum_if (fun b => z b && nz_load b) (fun b => cell b QD) bus = sum_if z (fun b => cell b QD) bus.
Proof.
  split; apply sum_if_drop; intros b _ H; unfold nz_load in H; apply orb_false_elim in H as (A & B); apply nz_false; assumption.
Qed.
Lemma shunts_all (z : list K -> bool) :
  sum_if (fun b => z b && nz_shunt b) (fun b => sq (cell b VM) * cell b GS)%K bus = sum_if z (fun b => cell b GS * (cell b VM * cell b VM))%K bus /\
  sum_if (fun b => z b && nz_shunt b) (fun b => sq (cell b VM) * cell b BS)%K bus = sum_if z (fun b => cell b BS * (cell b VM * cell b VM))%K bus.
Proof.
  split.
  - rewrite sum_if_drop; [apply sum_if_ext; intros; split; auto; intros; unfold sq; ring|].
    intros b _ H; unfold nz_shunt in H; apply orb_false_elim in H as (A & B). apply nz_false in A. rewrite A. ring.
  - rewrite sum_if_drop; [apply sum_if_ext; intros; split; auto; intros; unfold sq; ring|].
    intros b _ H; unfold nz_shunt in H; apply orb_false_elim in H as (A & B). apply nz_false in B. rewrite B. ring.
Qed.
Lemma sum_if_true {A} (f : A -> K) t : sum_if (fun _ => true) f t = lsum f t.
Proof. reflexivity. Qed.

Hypothesis circ : circular cis.
Hypothesis cabs_ok : modulus cabs.
Hypothesis FS : flows_solved cis baseMVA bus branch.

Lemma loss_flows l : In l branch ->
  (cell l PF + cell l PT)%K = re (lossl l) /\ (cell l QF + cell l QT)%K = (im (lossl l) - (fchgl l + tchgl l))%K.
Proof.
  intros I. pose proof (qd_each _ _ _ _ _ _ _ PR l I) as H. unfold lossl, fchgl, tchgl. fold (row l) in *. change (val loss_zero _) with (row l) in H.
  destruct (row l) as [[z fc] tc]. cbn [fst snd].
  apply (loss_flow cis cabs circ cabs_ok baseMVA bus branch l z fc tc); auto.
  - exact (pr_once _ _ _ OK).
  - exact (pr_from _ _ _ OK l I).
  - exact (pr_to _ _ _ OK l I).
Qed.

Lemma system_balance s : sys_ok s ->
  (p_part (y_actual s) - p_part (y_load s) + p_part (y_shunt s) - p_part (y_loss s))%K = lsum (surplus_p gen branch) bus /\
  (q_part (y_actual s) - q_part (y_load s) + q_part (y_shunt s) + y_chg s - q_part (y_loss s))%K = lsum (surplus_q gen branch) bus.
Proof.
  intros S. rewrite (so_actual _ S), (so_load _ S), (so_disp_load _ S), (so_fixed_load _ S), (so_shunt _ S), (so_loss _ S), (so_chg _ S).
  cbn [p_part q_part add_pow]. rewrite <- !(sum_if_true _ bus), zone_surplus_p, zone_surplus_q.
  rewrite <- !(units_split (fun _ => true)). cbn [andb]. fold (@gen_running K F) (@load_running K F).
  destruct (loads_all (fun _ => true)) as (L1 & L2), (shunts_all (fun _ => true)) as (S1 & S2). cbn [andb] in *.
  rewrite <- L1, <- L2, <- S1, <- S2, !sum_if_true.
  rewrite <- !lsum_add.
  rewrite (lsum_ext (fun l => cell l PF + cell l PT)%K _ _ (fun l I => proj1 (loss_flows l I))).
  rewrite (lsum_ext (fun l => cell l QF + cell l QT)%K _ _ (fun l I => proj2 (loss_flows l I))).
  rewrite lsum_sub, lsum_add.
  change (fun g : list K => gen_running g) with (@gen_running K F). change (fun g : list K => load_running g) with (@load_running K F).
  change (fun b : list K => nz_load b) with (@nz_load K F). change (fun b : list K => nz_shunt b) with (@nz_shunt K F).
  split; ring.
Qed.
End Data.
End PrintC.
