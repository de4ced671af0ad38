(** Reports: the area rows add up to the system summary; which limits are listed. *)
From Coq Require Import Permutation.
From Verif Require Import Lib.ListFacts Model.PrintPf Spec.PrintSpec Spec.PfSpec
  Proofs.SparseFacts Proofs.FldFacts Proofs.NetworkE Proofs.PrintA Proofs.PrintB Proofs.PrintC Proofs.PrintD Proofs.PrintE.
Local Open Scope nat_scope.

Section PrintF.
Context {K : Type} {F : Fld K}.
Add Field KFpf : (@f_ok K F).
Variables (cis : K -> cpx K) (cabs : cpx K -> K).

Lemma mapM_F2 {A B} (f : A -> result B) l l' : mapM f l = Ok l' -> Forall2 (fun a b => f a = Ok b) l l'.
Proof.
  revert l'. induction l as [|a l IH]; intros l'; cbn; intros H; [injection H as <-; constructor|].
  apply bind_ok in H as (y & Hy & H). apply bind_ok in H as (ys & Hys & H). assert (l' = y :: ys) by congruence. subst l'. constructor; auto.
Qed.
Lemma Forall2_nth_error_r {A B} (R : A -> B -> Prop) l l' : Forall2 R l l' -> forall i b, nth_error l' i = Some b -> exists a, nth_error l i = Some a /\ R a b.
Proof.
  induction 1 as [|a b l l' H _ IH]; intros i x Hx; [destruct i; discriminate|]. destruct i as [|i]; cbn in *; [|auto].
  exists a. split; congruence.
Qed.
Lemma lsum_F2 {A B} (R : A -> B -> Prop) (f : B -> K) (g : A -> K) l l' : Forall2 R l l' -> (forall a b, R a b -> f b = g a) -> lsum f l' = lsum g l.
Proof. induction 1 as [|a b l l' H _ IH]; intros G; cbn; auto. rewrite (G a b H), (IH G). reflexivity. Qed.
Lemma nsum_F2 {A B} (R : A -> B -> Prop) (f : B -> nat) (g : A -> nat) l l' : Forall2 R l l' -> (forall a b, R a b -> f b = g a) ->
  list_sum (map f l') = list_sum (map g l).
Proof. unfold list_sum. induction 1 as [|a b l l' H _ IH]; intros G; cbn [map fold_right]; [reflexivity|]. rewrite (G a b H). f_equal. exact (IH G). Qed.

Section Data.
Variables (baseMVA : K) (bus gen branch : list (list K)) (d : print_data K).
Hypothesis OK : printable bus gen branch.
Hypothesis PR : prepared cis cabs baseMVA bus gen branch d.
Local Notation lossl := (lossl cis cabs baseMVA bus).
Local Notation fchgl := (fchgl cis cabs baseMVA bus).
Local Notation tchgl := (tchgl cis cabs baseMVA bus).

Hypothesis LOW : low_twice (map (fun b => cell b BUS_AREA) bus).
Variables (areas : list K).
Hypothesis AREAS : q_areas d = areas.

Lemma areas_nodup : NoDup areas.
Proof. rewrite <- AREAS. exact (proj1 (area_list_full _ _ (qd_areas _ _ _ _ _ _ _ PR) LOW)). Qed.
Lemma areas_bus b : In b bus -> In (cell b BUS_AREA) areas.
Proof. intros I. rewrite <- AREAS. apply (proj2 (area_list_full _ _ (qd_areas _ _ _ _ _ _ _ PR) LOW)). apply (in_map (fun b => cell b BUS_AREA)). exact I. Qed.
Lemma area_of c r : (exists b, names bus r c b) -> In (cell (the_bus bus c r) BUS_AREA) areas.
Proof. intros (b & N). rewrite (the_bus_named _ _ _ _ (pr_once _ _ _ OK) N). apply areas_bus. exact (proj1 N). Qed.
Lemma area_gen g : In g gen -> In (cell (the_bus bus GEN_BUS g) BUS_AREA) areas.
Proof. intros I. apply area_of. exact (pr_gen _ _ _ OK g I). Qed.
Lemma area_from l : In l branch -> In (cell (the_bus bus F_BUS l) BUS_AREA) areas.
Proof. intros I. apply area_of. exact (pr_from _ _ _ OK l I). Qed.
Lemma area_to l : In l branch -> In (cell (the_bus bus T_BUS l) BUS_AREA) areas.
Proof. intros I. apply area_of. exact (pr_to _ _ _ OK l I). Qed.

Lemma sum_bus q (f : list K -> K) : lsum (fun a => sum_if (fun b => in_area a b && q b) f bus) areas = sum_if q f bus.
Proof. exact (sum_over_keys areas (fun b => cell b BUS_AREA) (fun b _ => q b) f bus areas_nodup areas_bus). Qed.
Lemma sum_gen q (f : list K -> K) : lsum (fun a => sum_if (fun g => here_gen bus a g && q g) f gen) areas = sum_if q f gen.
Proof. exact (sum_over_keys areas (fun g => cell (the_bus bus GEN_BUS g) BUS_AREA) (fun g _ => q g) f gen areas_nodup area_gen). Qed.
Lemma cnt_bus q : list_sum (map (fun a => count_if (fun b => in_area a b && q b) bus) areas) = count_if q bus.
Proof. exact (count_over_keys areas (fun b => cell b BUS_AREA) (fun b _ => q b) bus areas_nodup areas_bus). Qed.
Lemma cnt_gen q : list_sum (map (fun a => count_if (fun g => here_gen bus a g && q g) gen) areas) = count_if q gen.
Proof. exact (count_over_keys areas (fun g => cell (the_bus bus GEN_BUS g) BUS_AREA) (fun g _ => q g) gen areas_nodup area_gen). Qed.

Lemma tie_sym l : tie_line bus l = negb (feqb (cell (the_bus bus T_BUS l) BUS_AREA) (cell (the_bus bus F_BUS l) BUS_AREA)).
Proof.
  unfold tie_line. f_equal. destruct (feqb (cell (the_bus bus F_BUS l) BUS_AREA) (cell (the_bus bus T_BUS l) BUS_AREA)) eqn:E.
  - apply feqb_ok in E. rewrite E. symmetry. apply feqb_ok. reflexivity.
  - destruct (feqb (cell (the_bus bus T_BUS l) BUS_AREA) (cell (the_bus bus F_BUS l) BUS_AREA)) eqn:G; auto.
    apply feqb_ok in G. symmetry in G. apply feqb_ok in G. congruence.
Qed.
Lemma sum_inner (f : list K -> K) : lsum (fun a => sum_if (fun l => inner bus a l && live l) f branch) areas = sum_if (fun l => negb (tie_line bus l) && live l) f branch.
Proof.
  rewrite (lsum_ext _ (fun a => sum_if (fun l => feqb (cell (the_bus bus F_BUS l) BUS_AREA) a && (feqb (cell (the_bus bus T_BUS l) BUS_AREA) a && live l)) f branch))
    by (intros a _; apply sum_if_ext; intros l _; split; auto; unfold inner; rewrite <- andb_assoc; reflexivity).
  rewrite (sum_over_keys areas (fun l => cell (the_bus bus F_BUS l) BUS_AREA) (fun l a => feqb (cell (the_bus bus T_BUS l) BUS_AREA) a && live l) f branch areas_nodup area_from).
  apply sum_if_ext. intros l _. split; auto. rewrite tie_sym, negb_involutive. reflexivity.
Qed.
Lemma sum_outof (f : list K -> K) : lsum (fun a => sum_if (fun l => outof bus a l && live l) f branch) areas = sum_if (fun l => tie_line bus l && live l) f branch.
Proof.
  rewrite (lsum_ext _ (fun a => sum_if (fun l => feqb (cell (the_bus bus F_BUS l) BUS_AREA) a && (negb (feqb (cell (the_bus bus T_BUS l) BUS_AREA) a) && live l)) f branch))
    by (intros a _; apply sum_if_ext; intros l _; split; auto; unfold outof; rewrite <- andb_assoc; reflexivity).
  rewrite (sum_over_keys areas (fun l => cell (the_bus bus F_BUS l) BUS_AREA) (fun l a => negb (feqb (cell (the_bus bus T_BUS l) BUS_AREA) a) && live l) f branch areas_nodup area_from).
  apply sum_if_ext. intros l _. split; auto. rewrite tie_sym. reflexivity.
Qed.
Lemma sum_into (f : list K -> K) : lsum (fun a => sum_if (fun l => into bus a l && live l) f branch) areas = sum_if (fun l => tie_line bus l && live l) f branch.
Proof.
  rewrite (lsum_ext _ (fun a => sum_if (fun l => feqb (cell (the_bus bus T_BUS l) BUS_AREA) a && (negb (feqb (cell (the_bus bus F_BUS l) BUS_AREA) a) && live l)) f branch))
    by (intros a _; apply sum_if_ext; intros l _; split; auto; unfold into; rewrite <- andb_assoc; reflexivity).
  rewrite (sum_over_keys areas (fun l => cell (the_bus bus T_BUS l) BUS_AREA) (fun l a => negb (feqb (cell (the_bus bus F_BUS l) BUS_AREA) a) && live l) f branch areas_nodup area_to).
  apply sum_if_ext. intros l _. split; auto.
Qed.
Lemma cnt_inner : list_sum (map (fun a => count_if (inner bus a) branch) areas) = count_if (fun l => negb (tie_line bus l)) branch.
Proof.
  etransitivity; [exact (count_over_keys areas (fun l => cell (the_bus bus F_BUS l) BUS_AREA) (fun l a => feqb (cell (the_bus bus T_BUS l) BUS_AREA) a) branch areas_nodup area_from)|].
  apply count_if_ext. intros l _. rewrite tie_sym, negb_involutive. reflexivity.
Qed.
Lemma cnt_outof : list_sum (map (fun a => count_if (outof bus a) branch) areas) = count_if (tie_line bus) branch.
Proof.
  etransitivity; [exact (count_over_keys areas (fun l => cell (the_bus bus F_BUS l) BUS_AREA) (fun l a => negb (feqb (cell (the_bus bus T_BUS l) BUS_AREA) a)) branch areas_nodup area_from)|].
  apply count_if_ext. intros l _. rewrite tie_sym. reflexivity.
Qed.
Lemma cnt_into : list_sum (map (fun a => count_if (into bus a) branch) areas) = count_if (tie_line bus) branch.
Proof.
  exact (count_over_keys areas (fun l => cell (the_bus bus T_BUS l) BUS_AREA) (fun l a => negb (feqb (cell (the_bus bus F_BUS l) BUS_AREA) a)) branch areas_nodup area_to).
Qed.

(** branches that are switched off add nothing *)
Lemma row_off l : live l = false -> lossl l = Cx 0%K 0%K /\ fchgl l = 0%K /\ tchgl l = 0%K.
Proof.
  intros L. unfold PrintC.lossl, PrintC.fchgl, PrintC.tchgl, row. rewrite (loss_row_off cis cabs false baseMVA bus l L). auto.
Qed.
Lemma both_kinds (f : list K -> K) : (forall l, live l = false -> f l = 0%K) ->
  lsum f branch = (sum_if (fun l => negb (tie_line bus l) && live l) f branch + sum_if (fun l => tie_line bus l && live l) f branch)%K.
Proof.
  intros Z. unfold sum_if. rewrite <- lsum_add. apply lsum_ext. intros l _. destruct (live l) eqn:L, (tie_line bus l); cbn; rewrite ?(Z l L); ring.
Qed.
Local Notation N2 := (fofZ_nz 2 ltac:(lia)).

(** the rows of the report, area by area *)
Variable rows : list (area_row K).
Hypothesis ROWS : Forall2 (area_ok cis cabs baseMVA bus gen branch) areas rows.
Variable s : sys_sum K.
Hypothesis SYS : sys_ok cis cabs baseMVA bus gen branch d s.

Lemma rows_in r : In r rows -> exists a, area_ok cis cabs baseMVA bus gen branch a r.
Proof. intros I. apply In_nth_error in I as (i & Hi). destruct (Forall2_nth_error_r _ _ _ ROWS i r Hi) as (a & _ & H). eauto. Qed.
Lemma rows_map {B} (f g : area_row K -> B) : (forall a r, area_ok cis cabs baseMVA bus gen branch a r -> f r = g r) -> map f rows = map g rows.
Proof. intros H. apply map_ext_in. intros r I. destruct (rows_in r I) as (a & G). exact (H a r G). Qed.
Lemma rows_lsum (f g : area_row K -> K) : (forall a r, area_ok cis cabs baseMVA bus gen branch a r -> f r = g r) -> lsum f rows = lsum g rows.
Proof. intros H. apply lsum_ext. intros r I. destruct (rows_in r I) as (a & G). exact (H a r G). Qed.

Lemma rows_counts :
  list_sum (map a_buses rows) = y_buses s /\ list_sum (map a_gens rows) = y_gens s /\ list_sum (map a_committed rows) = y_committed s /\
  list_sum (map a_loads rows) = y_loads s /\ list_sum (map a_fixed rows) = y_fixed s /\ list_sum (map a_disp rows) = y_disp s /\
  list_sum (map a_shunts rows) = y_shunts s /\ list_sum (map a_branches rows) + y_ties s = y_branches s /\ list_sum (map a_ties rows) = 2 * y_ties s.
Proof.
  assert (FX : list_sum (map a_fixed rows) = y_fixed s).
  { rewrite (nsum_F2 _ _ _ _ _ ROWS (fun a r H => ao_fixed _ _ _ _ _ _ _ _ H)), cnt_bus, (so_fixed _ _ _ _ _ _ _ _ SYS). reflexivity. }
  assert (DS : list_sum (map a_disp rows) = y_disp s).
  { rewrite (nsum_F2 _ _ _ _ _ ROWS (fun a r H => ao_disp _ _ _ _ _ _ _ _ H)), cnt_gen, (so_disp _ _ _ _ _ _ _ _ SYS). reflexivity. }
  repeat split; auto.
  - rewrite (nsum_F2 _ _ _ _ _ ROWS (fun a r H => ao_buses _ _ _ _ _ _ _ _ H)), (so_buses _ _ _ _ _ _ _ _ SYS).
    rewrite (map_ext _ (fun a => count_if (fun b => in_area a b && (fun _ => true) b) bus)) by (intros a; apply count_if_ext; intros; rewrite andb_true_r; auto).
    rewrite (cnt_bus (fun _ => true)). pose proof (count_if_split (fun _ : list K => true) bus) as G. cbn [negb] in G.
    assert (count_if (fun _ : list K => false) bus = 0) by (clear; induction bus; auto). lia.
  - rewrite (nsum_F2 _ _ _ _ _ ROWS (fun a r H => ao_gens _ _ _ _ _ _ _ _ H)), cnt_gen, (so_gens _ _ _ _ _ _ _ _ SYS). reflexivity.
  - rewrite (nsum_F2 _ _ _ _ _ ROWS (fun a r H => ao_committed _ _ _ _ _ _ _ _ H)), cnt_gen, (so_committed _ _ _ _ _ _ _ _ SYS). reflexivity.
  - rewrite (so_loads _ _ _ _ _ _ _ _ SYS), <- FX, <- DS, <- list_sum_add.
    apply (f_equal list_sum). apply rows_map. intros a r H. exact (ao_loads _ _ _ _ _ _ _ _ H).
  - rewrite (nsum_F2 _ _ _ _ _ ROWS (fun a r H => ao_shunts _ _ _ _ _ _ _ _ H)), cnt_bus, (so_shunts _ _ _ _ _ _ _ _ SYS). reflexivity.
  - rewrite (nsum_F2 _ _ _ _ _ ROWS (fun a r H => ao_branches _ _ _ _ _ _ _ _ H)), cnt_inner, (so_ties _ _ _ _ _ _ _ _ SYS), (so_branches _ _ _ _ _ _ _ _ SYS).
    pose proof (count_if_split (tie_line bus) branch). lia.
  - rewrite (nsum_F2 _ _ _ _ _ ROWS (fun a r H => ao_ties _ _ _ _ _ _ _ _ H)), list_sum_add, cnt_outof, cnt_into, (so_ties _ _ _ _ _ _ _ _ SYS). lia.
Qed.


Lemma rows_caps :
  lsum (fun r => c_p (a_cap r)) rows = c_p (y_cap s) /\ lsum (fun r => c_qmin (a_cap r)) rows = c_qmin (y_cap s) /\
  lsum (fun r => c_qmax (a_cap r)) rows = c_qmax (y_cap s) /\
  lsum (fun r => c_p (a_on_cap r)) rows = c_p (y_on_cap s) /\ lsum (fun r => c_qmin (a_on_cap r)) rows = c_qmin (y_on_cap s) /\
  lsum (fun r => c_qmax (a_on_cap r)) rows = c_qmax (y_on_cap s) /\
  lsum (fun r => p_part (a_disp_cap r)) rows = y_disp_cap s.
Proof.
  rewrite (so_cap _ _ _ _ _ _ _ _ SYS), (so_on_cap _ _ _ _ _ _ _ _ SYS), (so_disp_cap _ _ _ _ _ _ _ _ SYS). cbn [c_p c_qmin c_qmax].
  repeat split.
  - rewrite (lsum_F2 _ _ _ _ _ ROWS (fun a r H => f_equal c_p (ao_cap _ _ _ _ _ _ _ _ H))). cbn [c_p]. apply sum_gen.
  - rewrite (lsum_F2 _ _ _ _ _ ROWS (fun a r H => f_equal c_qmin (ao_cap _ _ _ _ _ _ _ _ H))). cbn [c_qmin]. apply sum_gen.
  - rewrite (lsum_F2 _ _ _ _ _ ROWS (fun a r H => f_equal c_qmax (ao_cap _ _ _ _ _ _ _ _ H))). cbn [c_qmax]. apply sum_gen.
  - rewrite (lsum_F2 _ _ _ _ _ ROWS (fun a r H => f_equal c_p (ao_on_cap _ _ _ _ _ _ _ _ H))). cbn [c_p]. apply sum_gen.
  - rewrite (lsum_F2 _ _ _ _ _ ROWS (fun a r H => f_equal c_qmin (ao_on_cap _ _ _ _ _ _ _ _ H))). cbn [c_qmin]. apply sum_gen.
  - rewrite (lsum_F2 _ _ _ _ _ ROWS (fun a r H => f_equal c_qmax (ao_on_cap _ _ _ _ _ _ _ _ H))). cbn [c_qmax]. apply sum_gen.
  - rewrite (lsum_F2 _ _ _ _ _ ROWS (fun a r H => f_equal p_part (ao_disp_cap _ _ _ _ _ _ _ _ H))). cbn [p_part]. rewrite lsum_opp. f_equal. apply sum_gen.
Qed.

Lemma rows_powers :
  lsum (fun r => p_part (a_actual r)) rows = p_part (y_actual s) /\ lsum (fun r => q_part (a_actual r)) rows = q_part (y_actual s) /\
  lsum (fun r => p_part (a_disp_load r)) rows = p_part (y_disp_load s) /\ lsum (fun r => q_part (a_disp_load r)) rows = q_part (y_disp_load s) /\
  lsum (fun r => p_part (a_fixed_load r)) rows = p_part (y_fixed_load s) /\ lsum (fun r => q_part (a_fixed_load r)) rows = q_part (y_fixed_load s) /\
  lsum (fun r => p_part (a_load r)) rows = p_part (y_load s) /\ lsum (fun r => q_part (a_load r)) rows = q_part (y_load s) /\
  lsum (fun r => p_part (a_shunt r)) rows = p_part (y_shunt s) /\ lsum (fun r => q_part (a_shunt r)) rows = q_part (y_shunt s).
Proof.
  assert (DP : lsum (fun r => p_part (a_disp_load r)) rows = p_part (y_disp_load s)).
  { rewrite (so_disp_load _ _ _ _ _ _ _ _ SYS), (lsum_F2 _ _ _ _ _ ROWS (fun a r H => f_equal p_part (ao_disp_load _ _ _ _ _ _ _ _ H))).
    cbn [p_part]. rewrite lsum_opp. f_equal. apply sum_gen. }
  assert (DQ : lsum (fun r => q_part (a_disp_load r)) rows = q_part (y_disp_load s)).
  { rewrite (so_disp_load _ _ _ _ _ _ _ _ SYS), (lsum_F2 _ _ _ _ _ ROWS (fun a r H => f_equal q_part (ao_disp_load _ _ _ _ _ _ _ _ H))).
    cbn [q_part]. rewrite lsum_opp. f_equal. apply sum_gen. }
  assert (FP : lsum (fun r => p_part (a_fixed_load r)) rows = p_part (y_fixed_load s)).
  { rewrite (so_fixed_load _ _ _ _ _ _ _ _ SYS), (lsum_F2 _ _ _ _ _ ROWS (fun a r H => f_equal p_part (ao_fixed_load _ _ _ _ _ _ _ _ H))).
    cbn [p_part]. apply sum_bus. }
  assert (FQ : lsum (fun r => q_part (a_fixed_load r)) rows = q_part (y_fixed_load s)).
  { rewrite (so_fixed_load _ _ _ _ _ _ _ _ SYS), (lsum_F2 _ _ _ _ _ ROWS (fun a r H => f_equal q_part (ao_fixed_load _ _ _ _ _ _ _ _ H))).
    cbn [q_part]. apply sum_bus. }
  repeat split; auto.
  - rewrite (so_actual _ _ _ _ _ _ _ _ SYS), (lsum_F2 _ _ _ _ _ ROWS (fun a r H => f_equal p_part (ao_actual _ _ _ _ _ _ _ _ H))).
    cbn [p_part]. apply sum_gen.
  - rewrite (so_actual _ _ _ _ _ _ _ _ SYS), (lsum_F2 _ _ _ _ _ ROWS (fun a r H => f_equal q_part (ao_actual _ _ _ _ _ _ _ _ H))).
    cbn [q_part]. apply sum_gen.
  - rewrite (so_load _ _ _ _ _ _ _ _ SYS). cbn [add_pow p_part]. rewrite <- DP, <- FP, <- lsum_add.
    apply rows_lsum. intros a r H. rewrite (ao_load _ _ _ _ _ _ _ _ H). reflexivity.
  - rewrite (so_load _ _ _ _ _ _ _ _ SYS). cbn [add_pow q_part]. rewrite <- DQ, <- FQ, <- lsum_add.
    apply rows_lsum. intros a r H. rewrite (ao_load _ _ _ _ _ _ _ _ H). reflexivity.
  - rewrite (so_shunt _ _ _ _ _ _ _ _ SYS), (lsum_F2 _ _ _ _ _ ROWS (fun a r H => f_equal p_part (ao_shunt _ _ _ _ _ _ _ _ H))).
    cbn [p_part]. rewrite lsum_opp. f_equal. apply sum_bus.
  - rewrite (so_shunt _ _ _ _ _ _ _ _ SYS), (lsum_F2 _ _ _ _ _ ROWS (fun a r H => f_equal q_part (ao_shunt _ _ _ _ _ _ _ _ H))).
    cbn [q_part]. apply sum_bus.
Qed.

Lemma lsum_half (f : K -> K) l : lsum (fun a => f a / fofZ 2)%K l = (lsum f l / fofZ 2)%K.
Proof. induction l as [|a l IH]; cbn; [field; apply N2|]. rewrite IH. field. apply N2. Qed.

Lemma half_twice (x : K) : ((x + x) / fofZ 2)%K = x.
Proof.
  assert ((fofZ 2 : K) = 1 + 1)%K as E by (change 2%Z with (1 + 1)%Z; rewrite fofZ_add, fofZ_1; reflexivity).
  transitivity ((1 + 1) * x / fofZ 2)%K; [f_equal; ring|]. rewrite <- E. field. apply N2.
Qed.
Lemma rows_losses :
  lsum (fun r => p_part (a_loss r)) rows = p_part (y_loss s) /\ lsum (fun r => q_part (a_loss r)) rows = q_part (y_loss s) /\
  lsum a_chg rows = y_chg s.
Proof.
  rewrite (so_loss _ _ _ _ _ _ _ _ SYS), (so_chg _ _ _ _ _ _ _ _ SYS). cbn [p_part q_part]. repeat split.
  - rewrite (lsum_F2 _ _ _ _ _ ROWS (fun a r H => f_equal p_part (ao_loss _ _ _ _ _ _ _ _ H))). cbn [p_part].
    rewrite lsum_add, lsum_half, lsum_add, sum_inner, sum_into, sum_outof.
    rewrite both_kinds by (intros l L; destruct (row_off l L) as (-> & _); reflexivity). rewrite half_twice. reflexivity.
  - rewrite (lsum_F2 _ _ _ _ _ ROWS (fun a r H => f_equal q_part (ao_loss _ _ _ _ _ _ _ _ H))). cbn [q_part].
    rewrite lsum_add, lsum_half, lsum_add, sum_inner, sum_into, sum_outof.
    rewrite both_kinds by (intros l L; destruct (row_off l L) as (-> & _); reflexivity). rewrite half_twice. reflexivity.
  - rewrite (lsum_F2 _ _ _ _ _ ROWS (fun a r H => ao_chg _ _ _ _ _ _ _ _ H)).
    rewrite !lsum_add, !sum_inner, sum_into, sum_outof.
    rewrite (both_kinds fchgl), (both_kinds tchgl) by (intros l L; destruct (row_off l L) as (_ & A & B); assumption). ring.
Qed.

Hypothesis circ : circular cis.
Hypothesis cabs_ok : modulus cabs.
Hypothesis FS : flows_solved cis baseMVA bus branch.
Lemma rows_export : lsum (fun r => p_part (a_export r)) rows = 0%K.
Proof.
  rewrite (lsum_F2 _ _ _ _ _ ROWS (fun a r H => f_equal p_part (ao_export _ _ _ _ _ _ _ _ H))). cbn [p_part].
  rewrite lsum_sub, lsum_half, !lsum_add, !sum_into, !sum_outof.
  assert (sum_if (fun l => tie_line bus l && live l) (fun l => re (lossl l)) branch
    = sum_if (fun l => tie_line bus l && live l) (fun l => cell l PT) branch + sum_if (fun l => tie_line bus l && live l) (fun l => cell l PF) branch)%K as ->.
  { unfold sum_if. rewrite <- lsum_add. apply lsum_ext. intros l I. rewrite <- (proj1 (loss_flows cis cabs baseMVA bus gen branch d OK PR circ cabs_ok FS l I)).
    destruct (tie_line bus l && live l); ring. }
  match goal with |- (?x - (?y + ?z) / _)%K = _ => replace y with x by ring end. rewrite half_twice. ring.
Qed.
End Data.
End PrintF.
