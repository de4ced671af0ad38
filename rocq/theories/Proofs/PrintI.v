(** Reports: the generator and the bus table. *)
From Verif Require Import Lib.ListFacts Model.PrintPf Spec.PrintSpec Spec.PfSpec
  Proofs.SparseFacts Proofs.FldFacts Proofs.NetworkE Proofs.OpfLinA Proofs.PrintA Proofs.PrintB Proofs.PrintC Proofs.PrintE Proofs.PrintF.
From Verif Require Import Model.PrintPf.
Local Open Scope nat_scope.

Section PrintI.
Context {K : Type} {F : Fld K}.
Add Field KFpi : (@f_ok K F).
Variables (cis : K -> cpx K) (cabs : cpx K -> K).
Variables (baseMVA : K) (bus gen branch : list (list K)) (d : print_data K).
Hypothesis OK : printable bus gen branch.
Hypothesis PR : prepared cis cabs baseMVA bus gen branch d.

(** ** generators *)
Definition gen_row_of (opf neg : bool) (i : nat) (g : list K) : gen_line K :=
  let s := if neg then PQ (- cell g PG)%K (- cell g QG)%K else PQ (cell g PG) (cell g QG) in
  {| g_idx := i; g_bus := cell g GEN_BUS;
     g_out := if feqb (cell g PG) 0%K && feqb (cell g QG) 0%K then None else Some s;
     g_lam := if opf then Some (cell (the_bus bus GEN_BUS g) LAM_P, cell (the_bus bus GEN_BUS g) LAM_Q) else None |}.
Lemma gen_row_ok opf neg i w : gen_data_row d opf neg i = Ok w -> exists g, nth_error gen i = Some g /\ w = gen_row_of opf neg i g.
Proof.
  unfold gen_data_row. rewrite (qd_gen _ _ _ _ _ _ _ PR), (qd_bus _ _ _ _ _ _ _ PR). intros H.
  apply bind_ok in H as (g & Hg & H). apply get_ok in Hg. exists g. split; [exact Hg|].
  apply bind_ok in H as (n & Hn & H). apply bind_ok in H as (b & Hb & H). apply bind_ok in H as (p & Hp & H). apply bind_ok in H as (q & Hq & H).
  apply bind_ok in H as (lam & HL & H). apply get_ok in Hb, Hp, Hq. apply col_cells in Hn. subst n.
  match type of H with Ok ?r = _ => assert (w = r) as -> by congruence end. clear H.
  assert (cell g GEN_BUS = b) as <- by (unfold cell; exact (nth_error_nth _ _ _ Hb)).
  assert (cell g PG = p) as <- by (unfold cell; exact (nth_error_nth _ _ _ Hp)).
  assert (cell g QG = q) as <- by (unfold cell; exact (nth_error_nth _ _ _ Hq)).
  assert (lam = if opf then Some (cell (the_bus bus GEN_BUS g) LAM_P, cell (the_bus bus GEN_BUS g) LAM_Q) else None) as ->.
  { destruct opf; [|congruence]. apply bind_ok in HL as (k & Hk & HL). apply bind_ok in HL as (r & Hr & HL).
    apply bind_ok in HL as (lp & Hlp & HL). apply bind_ok in HL as (lq & Hlq & HL). apply get_ok in Hr, Hlp, Hlq.
    destruct (pr_gen _ _ _ OK g (nth_error_In _ _ Hg)) as (b & Nb). pose proof (pr_once _ _ _ OK) as ND.
    change (map (fun r0 => cell r0 BUS_I) bus) with (map (fun r0 : list K => cell r0 BUS_I) bus) in Hk. rewrite map_map in Hk.
    change (map (fun x => ftrunc (cell x BUS_I)) bus) with (map bus_num bus) in Hk.
    destruct Nb as (Ib & Eb). pose proof (e2i_row bus (ftrunc (cell g GEN_BUS)) (ex_intro _ b (Logic.conj Ib Eb)) (pr_pos _ _ _ OK)) as E.
    assert (k = row_no bus (ftrunc (cell g GEN_BUS))) as -> by congruence.
    apply In_nth_error in Ib as (j & Hj). rewrite <- Eb, (row_no_ok _ _ _ ND Hj) in Hr. assert (r = b) as -> by congruence.
    rewrite (the_bus_named bus GEN_BUS g b ND (Logic.conj (nth_error_In _ _ Hj) Eb)). unfold cell.
    rewrite (nth_error_nth _ _ _ Hlp), (nth_error_nth _ _ _ Hlq). congruence. }
  unfold gen_row_of, nz, neg_pow. cbn [p_part q_part].
  destruct (feqb (cell g PG) 0%K), (feqb (cell g QG) 0%K), neg; reflexivity.
Qed.
(** the rows for a set of units, and the sum of what they show *)
Definition out_p (w : gen_line K) : K := match g_out w with Some s => p_part s | None => 0%K end.
Definition out_q (w : gen_line K) : K := match g_out w with Some s => q_part s | None => 0%K end.
Lemma gen_rows_ok opf neg (p : list K -> bool) ws : mapM (gen_data_row d opf neg) (find (map p gen)) = Ok ws ->
  (forall w, In w ws <-> exists i g, nth_error gen i = Some g /\ p g = true /\ w = gen_row_of opf neg i g) /\
  map g_idx ws = find (map p gen).
Proof.
  intros H. pose proof (mapM_F2 _ _ _ H) as F2. split.
  - intros w. split.
    + intros I. apply In_nth_error in I as (k & Hk). destruct (Forall2_nth_error_r _ _ _ F2 k w Hk) as (i & Hi & E).
      destruct (gen_row_ok _ _ _ _ E) as (g & Hg & ->). exists i, g. split; [exact Hg|]. split; [|reflexivity].
      apply nth_error_In in Hi. apply in_find in Hi. rewrite nth_error_map, Hg in Hi. cbn in Hi. congruence.
    + intros (i & g & Hg & Hp & ->). assert (In i (find (map p gen))) as I by (apply in_find; rewrite nth_error_map, Hg; cbn; congruence).
      apply In_nth_error in I as (k & Hk). destruct (mapM_nth _ _ _ _ _ H Hk) as (w & E & Hw). destruct (gen_row_ok _ _ _ _ E) as (g' & Hg' & ->).
      rewrite Hg in Hg'. injection Hg' as <-. eapply nth_error_In; eauto.
  - clear H. induction F2 as [|i w is ws E _ IH]; [reflexivity|]. cbn. rewrite IH. destruct (gen_row_ok _ _ _ _ E) as (g & _ & ->). reflexivity.
Qed.
Lemma gen_rows_sum opf neg (p : list K -> bool) ws : mapM (gen_data_row d opf neg) (find (map p gen)) = Ok ws ->
  lsum out_p ws = sum_if p (fun g => if neg then - cell g PG else cell g PG)%K gen /\
  lsum out_q ws = sum_if p (fun g => if neg then - cell g QG else cell g QG)%K gen.
Proof.
  intros H. pose proof (mapM_F2 _ _ _ H) as F2.
  assert (G : forall (f : gen_line K -> K) (h : list K -> K), (forall i g, f (gen_row_of opf neg i g) = h g) -> lsum f ws = sum_if p h gen).
  { intros f h E. rewrite (lsum_F2 _ f (fun i => h (nth i gen [])) _ _ F2).
    - rewrite (PfsolnB.lsum_find p (fun i => h (nth i gen [])) gen []). unfold sum_if. rewrite (lsum_nth _ gen []). reflexivity.
    - intros i w Ew. destruct (gen_row_ok _ _ _ _ Ew) as (g & Hg & ->). rewrite (nth_error_nth _ _ _ Hg). apply E. }
  split; apply G; intros i g; unfold out_p, out_q, gen_row_of; cbn [g_out];
    (destruct (feqb (cell g PG) 0%K) eqn:E1; [apply feqb_ok in E1|]; (destruct (feqb (cell g QG) 0%K) eqn:E2; [apply feqb_ok in E2|]));
    cbn [andb]; destruct neg; cbn [p_part q_part]; rewrite ?E1, ?E2; try reflexivity; ring.
Qed.

(** ** buses *)
Definition bus_row_of (opf : bool) (b : list K) : bus_line K :=
  {| l_num := cell b BUS_I; l_vm := cell b VM; l_va := cell b VA; l_ref := feqb (cell b BUS_TYPE) (fofZ 3);
     l_gen := if existsb (fun g => at_bus b g && gen_running g) gen
              then Some (PQ (sum_if (fun g => at_bus b g && gen_running g) (fun g => cell g PG) gen)
                            (sum_if (fun g => at_bus b g && gen_running g) (fun g => cell g QG) gen)) else None;
     l_load := if existsb (fun g => at_bus b g && load_running g) gen
               then Some (PQ (cell b PD - sum_if (fun g => at_bus b g && load_running g) (fun g => cell g PG) gen)%K
                             (cell b QD - sum_if (fun g => at_bus b g && load_running g) (fun g => cell g QG) gen)%K, true)
               else if feqb (cell b PD) 0%K && feqb (cell b QD) 0%K then None else Some (PQ (cell b PD) (cell b QD), false);
     l_lam := if opf then Some (cell b LAM_P, if fltb (1 / fofZ 10000)%K (fabs (cell b LAM_Q)) then Some (cell b LAM_Q) else None) else None |}.
Lemma find_nil {A} (p : A -> bool) t : find (map p t) = [] <-> existsb p t = false.
Proof.
  unfold find. generalize 0. induction t as [|x t IH]; intros k; cbn; [tauto|]. destruct (p x); cbn; [split; discriminate|apply IH].
Qed.
Lemma bus_row_ok opf b w : bus_data_row d opf b = Ok w -> w = bus_row_of opf b.
Proof.
  unfold bus_data_row. rewrite (qd_gen _ _ _ _ _ _ _ PR). cbv zeta. intros H.
  apply bind_ok in H as (n & H1 & H). apply bind_ok in H as (vm & H2 & H). apply bind_ok in H as (va & H3 & H). apply bind_ok in H as (ty & H4 & H).
  apply bind_ok in H as (st & H5 & H). apply bind_ok in H as (gb & H6 & H). apply bind_ok in H as (ld & H7 & H).
  apply bind_ok in H as (gp & H8 & H). apply bind_ok in H as (lp & H9 & H). apply bind_ok in H as (pd & H10 & H). apply bind_ok in H as (qd & H11 & H).
  apply bind_ok in H as (lam & H12 & H). apply get_ok in H1, H2, H3, H4, H10, H11.
  apply col_cells in H5, H6. apply isload_rows in H7. subst st gb ld.
  assert (cell b BUS_I = n) as <- by (unfold cell; exact (nth_error_nth _ _ _ H1)).
  assert (cell b PD = pd) as <- by (unfold cell; exact (nth_error_nth _ _ _ H10)).
  assert (cell b QD = qd) as <- by (unfold cell; exact (nth_error_nth _ _ _ H11)).
  unfold mask2b, mask2 in *. rewrite map_map, !map2_same in *. rewrite map_map, map2_same in H8, H.
  assert (Eg : (fun r : list K => (pos_status (cell r GEN_STATUS) && feqb (cell r GEN_BUS) (cell b BUS_I)) && negb (load_unit r)) = (fun r => (in_service r && at_bus b r) && negb (load_unit r))) by reflexivity.
  assert (M1 : find (map (fun r : list K => (pos_status (cell r GEN_STATUS) && feqb (cell r GEN_BUS) (cell b BUS_I)) && negb (load_unit r)) gen) = find (map (fun g => at_bus b g && gen_running g) gen)).
  { f_equal. apply map_ext. intros g. unfold gen_running, at_bus. change (pos_status (cell g GEN_STATUS)) with (in_service g).
    destruct (in_service g), (feqb (cell g GEN_BUS) (cell b BUS_I)), (load_unit g); reflexivity. }
  assert (M2 : find (map (fun r : list K => (pos_status (cell r GEN_STATUS) && feqb (cell r GEN_BUS) (cell b BUS_I)) && load_unit r) gen) = find (map (fun g => at_bus b g && load_running g) gen)).
  { f_equal. apply map_ext. intros g. unfold load_running, at_bus. change (pos_status (cell g GEN_STATUS)) with (in_service g).
    destruct (in_service g), (feqb (cell g GEN_BUS) (cell b BUS_I)), (load_unit g); reflexivity. }
  rewrite M1 in H8, H. rewrite M2 in H9, H. apply pow_sum_map in H8, H9. subst gp lp. cbn [p_part q_part] in H.
  match type of H with Ok ?r = _ => assert (w = r) as -> by congruence end. clear H. unfold bus_row_of, cell at 1 2 3.
  assert (lam = if opf then Some (cell b LAM_P, if fltb (1 / fofZ 10000)%K (fabs (cell b LAM_Q)) then Some (cell b LAM_Q) else None) else None) as ->.
  { destruct opf; [|congruence]. apply bind_ok in H12 as (p & Hp & H12). apply bind_ok in H12 as (q & Hq & H12). apply get_ok in Hp, Hq.
    unfold cell. rewrite (nth_error_nth _ _ _ Hp), (nth_error_nth _ _ _ Hq). unfold ptol in H12. congruence. }
  unfold cell in * |-. f_equal.
  all: try (unfold cell; symmetry; eapply nth_error_nth; eassumption).
  - unfold cell. f_equal. symmetry. eapply nth_error_nth; eassumption.
  - pose proof (find_nil (fun g => at_bus b g && gen_running g) gen) as N. destruct (find (map (fun g => at_bus b g && gen_running g) gen)) eqn:E, (existsb (fun g => at_bus b g && gen_running g) gen) eqn:X; auto.
    + exfalso. destruct N as (N & _). specialize (N eq_refl). discriminate.
    + exfalso. destruct N as (_ & N). specialize (N eq_refl). discriminate.
  - pose proof (find_nil (fun g => at_bus b g && load_running g) gen) as N. destruct (find (map (fun g => at_bus b g && load_running g) gen)) eqn:E, (existsb (fun g => at_bus b g && load_running g) gen) eqn:X; auto.
    + exfalso. destruct N as (N & _). specialize (N eq_refl). discriminate.
    + unfold nz. destruct (feqb (cell b PD) 0%K), (feqb (cell b QD) 0%K); reflexivity.
    + exfalso. destruct N as (_ & N). specialize (N eq_refl). discriminate.
Qed.
Lemma bus_rows_ok opf rows g l : bus_data d opf = Ok (rows, g, l) -> rows = map (bus_row_of opf) bus /\
  g = PQ (sum_if gen_running (fun g => cell g PG) gen) (sum_if gen_running (fun g => cell g QG) gen) /\
  l = PQ (lsum (fun b => cell b PD) bus - sum_if load_running (fun g => cell g PG) gen)%K
         (lsum (fun b => cell b QD) bus - sum_if load_running (fun g => cell g QG) gen)%K.
Proof.
  unfold bus_data. rewrite (qd_gen _ _ _ _ _ _ _ PR), (qd_bus _ _ _ _ _ _ _ PR), (qd_ong _ _ _ _ _ _ _ PR), (qd_onld _ _ _ _ _ _ _ PR), (qd_nzld _ _ _ _ _ _ _ PR).
  intros H. apply bind_ok in H as (rs & H1 & H). apply bind_ok in H as (g' & H2 & H). apply bind_ok in H as (f & H3 & H). apply bind_ok in H as (di & H4 & H).
  apply pow_sum_map in H2, H3, H4. subst g' f di. assert (rows = rs) as -> by congruence. split.
  - assert (G : forall bs ws, Forall2 (fun b w => bus_data_row d opf b = Ok w) bs ws -> ws = map (bus_row_of opf) bs).
    { intros bs ws F2. induction F2 as [|b w bs ws E _ IH]; [reflexivity|]. cbn. rewrite (bus_row_ok _ _ _ E), IH. reflexivity. }
    apply G. exact (mapM_F2 _ _ _ H1).
  - destruct (loads_all bus (fun _ => true)) as (L1 & L2). cbn [andb] in *. rewrite !sum_if_true in L1, L2. rewrite <- L1, <- L2.
    split; [congruence|]. match type of H with Ok (_, _, ?r) = _ => assert (l = r) as -> by congruence end. reflexivity.
Qed.

(** generators that name their bus exactly appear in exactly one row *)
Lemma bus_units (p : list K -> bool) (f : list K -> K) : NoDup (map (fun b => cell b BUS_I) bus) ->
  (forall g, In g gen -> In (cell g GEN_BUS) (map (fun b => cell b BUS_I) bus)) ->
  lsum (fun b => sum_if (fun g => at_bus b g && p g) f gen) bus = sum_if p f gen.
Proof.
  intros ND N. rewrite <- (sum_over_keys (map (fun b => cell b BUS_I) bus) (fun g => cell g GEN_BUS) (fun g _ => p g) f gen ND N).
  rewrite lsum_map. reflexivity.
Qed.
End PrintI.
