(** Reports: the parts of the preparation as functions of table rows. *)
From Verif Require Import Lib.ListFacts Model.PrintPf Spec.PrintSpec Spec.PfSpec
  Proofs.SparseFacts Proofs.FldFacts Proofs.OpfLinA Proofs.PfsolnB Proofs.Ext2intA.
Local Open Scope nat_scope.

Section Gen.
Lemma map2_same {A B C D} (f : B -> C -> D) (a : A -> B) (b : A -> C) t : map2 f (map a t) (map b t) = map (fun r => f (a r) (b r)) t.
Proof. unfold map2. induction t as [|x t IH]; cbn; auto. f_equal. exact IH. Qed.
Lemma find_count {A} (p : A -> bool) t : length (find (map p t)) = length (filter p t).
Proof.
  unfold find. generalize 0. induction t as [|x t IH]; intros k; cbn; auto. destruct (p x); cbn; rewrite IH; reflexivity.
Qed.
Lemma mapM_map {A B C} (f : B -> result C) (g : A -> B) t : mapM f (map g t) = mapM (fun x => f (g x)) t.
Proof. induction t as [|x t IH]; cbn; auto. rewrite IH. reflexivity. Qed.
Definition val {A} (d : A) (r : result A) : A := match r with Ok x => x | Err _ => d end.
Lemma mapM_val {A B} (f : A -> result B) d t l : mapM f t = Ok l ->
  l = map (fun x => val d (f x)) t /\ (forall x, In x t -> f x = Ok (val d (f x))).
Proof.
  revert l. induction t as [|x t IH]; intros l; cbn; intros H.
  - injection H as <-. split; auto. intros x [].
  - apply bind_ok in H as (y & Hy & H). apply bind_ok in H as (ys & Hys & H). assert (l = y :: ys) by congruence. subst l.
    destruct (IH _ Hys) as (-> & G). rewrite Hy. cbn. split; auto. intros z [<-|I]; [rewrite Hy; reflexivity|auto].
Qed.
Lemma combine_map3 {A B C} (a : A -> B) (b : A -> C) t :
  combine (combine (map a t) (map b t)) t = map (fun r => (a r, b r, r)) t.
Proof. induction t as [|x t IH]; cbn; auto. f_equal. exact IH. Qed.
Lemma gather_map {A B C} (f : A -> B) (g : C -> nat) (t : list A) (u : list C) (d : A) c :
  gather (map f t) (map g u) = Ok c -> c = map (fun r => f (nth (g r) t d)) u /\ forall r, In r u -> g r < length t.
Proof.
  unfold gather. rewrite mapM_map. intros H.
  assert (forall r, In r u -> g r < length t) as L.
  { intros r I. destruct (mapM_val _ (f d) _ _ H) as (_ & G). specialize (G _ I). unfold get in G.
    destruct (nth_error (map f t) (g r)) eqn:E; [|discriminate]. apply nth_error_some_lt in E. rewrite map_length in E. exact E. }
  split; auto. eapply mapM_inv; [|exact H]. intros r y I Hy. apply get_ok in Hy. rewrite nth_error_map in Hy.
  rewrite (nth_error_nth' t d) in Hy by auto. cbn in Hy. congruence.
Qed.
End Gen.

Section PrintA.
Context {K : Type} {F : Fld K}.
Add Field KFpa : (@f_ok K F).
Variables (cis : K -> cpx K) (cabs : cpx K -> K).

Lemma vsum_map {A} (p : A -> bool) (f : A -> K) t s : vsum (map f t) (find (map p t)) = Ok s -> s = sum_if p f t.
Proof.
  unfold vsum. intros H. apply bind_ok in H as (c & Hc & H). assert (s = lsum (fun x => x) c) by congruence. subst s. clear H.
  destruct t as [|x0 t0]; [cbn in Hc; injection Hc as <-; reflexivity|]. set (t := x0 :: t0) in *.
  assert (c = map (fun i => f (nth i t x0)) (find (map p t))) as ->.
  { eapply mapM_inv; [|exact Hc]. intros i y I Hy. apply get_ok in Hy. rewrite nth_error_map in Hy.
    destruct (nth_error t i) as [r|] eqn:E; [|discriminate]. rewrite (nth_error_nth _ _ _ E). cbn in Hy. congruence. }
  rewrite lsum_map. rewrite (PfsolnB.lsum_find p (fun i => f (nth i t x0)) t x0). unfold sum_if. rewrite (lsum_nth _ t x0). reflexivity.
Qed.
Lemma vsum_all {A} (f : A -> K) t s : vsum (map f t) (all_of (map f t)) = Ok s -> s = lsum f t.
Proof.
  assert (all_of (map f t) = find (map (fun _ => true) t)) as ->.
  { unfold all_of, find. rewrite map_length. generalize 0. induction t as [|x t IH]; intros k; cbn; auto. f_equal. apply IH. }
  intros H. rewrite (vsum_map _ _ _ _ H). unfold sum_if. reflexivity.
Qed.
Lemma vsum_app v i j s : vsum v (i ++ j) = Ok s -> exists a b, vsum v i = Ok a /\ vsum v j = Ok b /\ s = (a + b)%K.
Proof.
  unfold vsum. intros H. apply bind_ok in H as (c & Hc & H). assert (s = lsum (fun x => x) c) by congruence. subst s.
  assert (exists c1 c2, gather v i = Ok c1 /\ gather v j = Ok c2 /\ c = c1 ++ c2) as (c1 & c2 & E1 & E2 & ->).
  { clear H. revert c Hc. unfold gather. induction i as [|a i IH]; intros c Hc; cbn in *; [exists [], c; auto|].
    apply bind_ok in Hc as (y & Hy & Hc). apply bind_ok in Hc as (ys & Hys & Hc). assert (c = y :: ys) by congruence. subst c.
    destruct (IH _ Hys) as (c1 & c2 & A & B & ->). exists (y :: c1), c2. rewrite Hy, A. auto. }
  exists (lsum (fun x => x) c1), (lsum (fun x => x) c2). rewrite E1, E2. cbn. rewrite lsum_app. auto.
Qed.
Lemma col_cells j (t : list (list K)) c : col j t = Ok c -> c = map (fun r => cell r j) t.
Proof. intros H. apply col_ok in H as (_ & ->). reflexivity. Qed.
Lemma colsum_map p (t : list (list K)) j s : colsum t (find (map p t)) j = Ok s -> s = sum_if p (fun r => cell r j) t.
Proof.
  unfold colsum. intros H. apply bind_ok in H as (c & Hc & H). apply col_cells in Hc as ->. exact (vsum_map _ _ _ _ H).
Qed.

Lemma sum_if_ext {A} (p p' : A -> bool) (f f' : A -> K) t :
  (forall r, In r t -> p r = p' r /\ (p r = true -> f r = f' r)) -> sum_if p f t = sum_if p' f' t.
Proof.
  intros H. apply lsum_ext. intros r I. destruct (H r I) as (<- & G). destruct (p r); auto.
Qed.
Lemma sum_if_drop {A} (p q : A -> bool) (f : A -> K) t :
  (forall r, In r t -> q r = false -> f r = 0%K) -> sum_if (fun r => p r && q r) f t = sum_if p f t.
Proof.
  intros H. apply lsum_ext. intros r I. destruct (p r), (q r) eqn:E; cbn; auto. rewrite H; auto.
Qed.

(** ** rows by number *)
Definition row_no (bus : list (list K)) (z : Z) : nat := last_pos 0 (map bus_num bus) z 0.
Lemma row_no_ok bus i b : NoDup (map bus_num bus) -> nth_error bus i = Some b -> row_no bus (bus_num b) = i.
Proof. intros ND H. unfold row_no. rewrite (last_pos_at 0 _ _ i); auto. rewrite nth_error_map, H. reflexivity. Qed.
Lemma e2i_row bus z : (exists b, In b bus /\ bus_num b = z) -> (forall b, In b bus -> (0 <= bus_num b)%Z) ->
  e2i_get (map bus_num bus) z = Ok (row_no bus z).
Proof.
  intros (b & I & <-) P. unfold e2i_get, wrap.
  assert ((0 <=? bus_num b)%Z = true) as -> by (apply Z.leb_le; auto).
  assert ((bus_num b <? zmax (map bus_num bus) + 1)%Z = true) as ->
    by (apply Z.ltb_lt; pose proof (zmax_ge (map bus_num bus) (bus_num b) ltac:(apply in_map; auto)); lia).
  reflexivity.
Qed.
Definition named (bus : list (list K)) (c : nat) (r : list K) : list K := nth (row_no bus (ftrunc (cell r c))) bus [].
Lemma named_ok bus c r b : NoDup (map bus_num bus) -> names bus r c b -> named bus c r = b.
Proof.
  intros ND (I & E). unfold named. rewrite <- E. apply In_nth_error in I as (i & H). rewrite (row_no_ok _ _ _ ND H).
  apply nth_error_nth with (d := []) in H. exact H.
Qed.
Lemma names_once bus c r b b' : NoDup (map bus_num bus) -> names bus r c b -> names bus r c b' -> b = b'.
Proof. intros ND H H'. rewrite <- (named_ok bus c r b ND H). apply named_ok; auto. Qed.
Lemma rows_of_map bus c (t : list (list K)) fr : (forall b, In b bus -> (0 <= bus_num b)%Z) ->
  (forall r, In r t -> exists b, names bus r c b) ->
  PrintPf.rows_of (map bus_num bus) (map (fun r => cell r c) t) = Ok fr -> fr = map (fun r => row_no bus (ftrunc (cell r c))) t.
Proof.
  intros P G H. unfold PrintPf.rows_of in H. rewrite mapM_map in H. eapply mapM_inv; [|exact H].
  intros r y I Hy. cbn beta in Hy. rewrite e2i_row in Hy; [congruence| |exact P]. destruct (G r I) as (b & Hb). exists b. exact Hb.
Qed.

(** totals per bus, added over some buses, are totals over the rows at those buses *)
Lemma sum_over_buses bus c (t : list (list K)) (q : list K -> K) (p : list K -> bool) :
  NoDup (map bus_num bus) -> (forall r, In r t -> exists b, names bus r c b) ->
  sum_if p (fun b => total_at c q t (bus_num b)) bus = sum_if (fun r => p (named bus c r)) q t.
Proof.
  intros ND G. unfold sum_if, total_at.
  rewrite (lsum_ext _ (fun b => lsum (fun r => if (ftrunc (cell r c) =? bus_num b)%Z && p b then q r else 0%K) t)).
  2:{ intros b _. destruct (p b).
      - apply lsum_ext. intros r _. rewrite andb_true_r. reflexivity.
      - symmetry. apply lsum_zero. intros r _. rewrite andb_false_r. reflexivity. }
  rewrite lsum_swap. apply lsum_ext. intros r I. destruct (G r I) as (b0 & H0). rewrite (named_ok _ _ _ _ ND H0).
  destruct H0 as (I0 & E0). clear G I. revert ND I0. induction bus as [|b bus IH]; intros ND I0; [destruct I0|].
  cbn in ND |- *. apply NoDup_cons_iff in ND as (N & ND). destruct I0 as [->|I0].
  - rewrite <- E0, Z.eqb_refl. cbn. rewrite lsum_zero; [ring|]. intros x Ix.
    destruct (Z.eqb_spec (bus_num b0) (bus_num x)) as [E|]; auto. destruct N. rewrite E. apply in_map. exact Ix.
  - destruct (Z.eqb_spec (ftrunc (cell r c)) (bus_num b)) as [E|].
    + destruct N. rewrite <- E, <- E0. apply in_map. exact I0.
    + cbn. rewrite IH by auto. ring.
Qed.

(** ** the loss of one branch *)
Definition loss_zero : cpx K * K * K := (Cx 0 0, 0, 0)%K.
Definition loss_row (dc : bool) (baseMVA : K) (bus : list (list K)) (l : list K) : result (cpx K * K * K) :=
  let v b := print_volt cis (cell b VM) (cell b VA) in
  branch_loss cabs dc baseMVA (v (named bus F_BUS l)) (v (named bus T_BUS l))
    (print_tap cis (cell l TAP) (cell l SHIFT)) (cell l BR_R) (cell l BR_X) (cell l BR_B) (cell l BR_STATUS).
Lemma branch_losses_rows dc baseMVA bus (branch : list (list K)) ls :
  (forall l, In l branch -> row_no bus (ftrunc (cell l F_BUS)) < length bus) ->
  (forall l, In l branch -> row_no bus (ftrunc (cell l T_BUS)) < length bus) ->
  branch_losses cis cabs dc baseMVA (map (fun b => print_volt cis (cell b VM) (cell b VA)) bus)
    (map (fun r => row_no bus (ftrunc (cell r F_BUS))) branch) (map (fun r => row_no bus (ftrunc (cell r T_BUS))) branch) branch = Ok ls ->
  ls = map (fun l => val loss_zero (loss_row dc baseMVA bus l)) branch /\
  forall l, In l branch -> loss_row dc baseMVA bus l = Ok (val loss_zero (loss_row dc baseMVA bus l)).
Proof.
  intros LF LT H. unfold branch_losses in H. rewrite combine_map3, mapM_map in H.
  assert (mapM (loss_row dc baseMVA bus) branch = Ok ls) as E.
  { rewrite <- H. destruct (mapM_val _ loss_zero _ _ H) as (_ & G). clear H.
    induction branch as [|l branch IH]; auto. cbn [mapM].
    rewrite IH; [|intros; apply LF; right; auto|intros; apply LT; right; auto|intros; apply G; right; auto]. clear IH.
    specialize (G l (or_introl eq_refl)). specialize (LF l (or_introl eq_refl)). specialize (LT l (or_introl eq_refl)).
    match goal with |- (y <- ?a ;; _) = (y <- ?b ;; _) => assert (a = b) as ->; auto end.
    rewrite G. cbn beta iota in G.
    set (w := val _ _) in *. clearbody w.
    apply bind_ok in G as (vf & Hf & G). apply bind_ok in G as (vt & Ht & G).
    apply bind_ok in G as (tap & H1 & G). apply bind_ok in G as (sh & H2 & G). apply bind_ok in G as (r & H3 & G).
    apply bind_ok in G as (x & H4 & G). apply bind_ok in G as (b & H5 & G). apply bind_ok in G as (st & H6 & G).
    apply get_ok in Hf, Ht, H1, H2, H3, H4, H5, H6. rewrite nth_error_map in Hf, Ht.
    rewrite (nth_error_nth' _ ([] : list K)) in Hf by exact LF. rewrite (nth_error_nth' _ ([] : list K)) in Ht by exact LT.
    cbn [option_map] in Hf, Ht. injection Hf as <-. injection Ht as <-.
    unfold loss_row, cell at 5 6 7 8 9 10.
    rewrite (nth_error_nth _ _ _ H1), (nth_error_nth _ _ _ H2), (nth_error_nth _ _ _ H3), (nth_error_nth _ _ _ H4),
      (nth_error_nth _ _ _ H5), (nth_error_nth _ _ _ H6). exact G. }
  exact (mapM_val _ _ _ _ E).
Qed.

(** ** what the preparation yields, for tables that are not changed *)
Definition nz_load (b : list K) : bool := nz (cell b PD) || nz (cell b QD).
Definition nz_shunt (b : list K) : bool := nz (cell b GS) || nz (cell b BS).
Record prepared (baseMVA : K) (bus gen branch : list (list K)) (d : print_data K) : Prop := {
  qd_bus : q_bus d = bus; qd_gen : q_gen d = gen; qd_branch : q_branch d = branch;
  qd_fr : q_fr d = map (fun r => row_no bus (ftrunc (cell r F_BUS))) branch;
  qd_to : q_to d = map (fun r => row_no bus (ftrunc (cell r T_BUS))) branch;
  qd_ties : q_ties d = find (map (fun l => negb (feqb (cell (named bus F_BUS l) BUS_AREA) (cell (named bus T_BUS l) BUS_AREA))) branch);
  qd_xfmr : q_xfmr d = find (map (fun l => nz (cell l TAP)) branch);
  qd_nzld : q_nzld d = find (map nz_load bus);
  qd_nzsh : q_nzsh d = find (map nz_shunt bus);
  qd_areas : area_list (map (fun b => cell b BUS_AREA) bus) = Ok (q_areas d);
  qd_allg : q_allg d = find (map (fun g => negb (load_unit g)) gen);
  qd_ong : q_ong d = find (map gen_running gen);
  qd_onld : q_onld d = find (map load_running gen);
  qd_V : q_V d = map (fun b => print_volt cis (cell b VM) (cell b VA)) bus;
  qd_loss : q_loss d = map (fun l => fst (fst (val loss_zero (loss_row false baseMVA bus l)))) branch;
  qd_fchg : q_fchg d = map (fun l => snd (fst (val loss_zero (loss_row false baseMVA bus l)))) branch;
  qd_tchg : q_tchg d = map (fun l => snd (val loss_zero (loss_row false baseMVA bus l))) branch;
  qd_each : forall l, In l branch -> loss_row false baseMVA bus l = Ok (val loss_zero (loss_row false baseMVA bus l)) }.

Lemma isload_rows (gen : list (list K)) ld : mapM isload gen = Ok ld -> ld = map load_unit gen.
Proof.
  intros H. eapply mapM_inv; [|exact H]. intros g y _ Hg. unfold isload in Hg. apply bind_ok in Hg as (lo & H1 & Hg).
  apply bind_ok in Hg as (hi & H2 & Hg). injection Hg as <-. apply get_ok in H1, H2.
  unfold load_unit, cell. rewrite (nth_error_nth _ _ _ H1), (nth_error_nth _ _ _ H2). reflexivity.
Qed.

Lemma prepare_ok baseMVA bus gen branch d : printable bus gen branch ->
  prepare cis cabs false baseMVA bus gen branch = Ok d -> prepared baseMVA bus gen branch d.
Proof.
  intros [ND P GG GF GT] H. unfold prepare in H.
  apply bind_ok in H as (n & Hn & H). apply col_cells in Hn. subst n. rewrite map_map in H.
  change (map (fun x => ftrunc (cell x BUS_I)) bus) with (map bus_num bus) in H.
  apply bind_ok in H as (u1 & _ & H). apply bind_ok in H as (u2 & _ & H).
  apply bind_ok in H as (b' & Hb & H). assert (b' = bus) by congruence. subst b'. clear Hb.
  apply bind_ok in H as (g' & Hb & H). assert (g' = gen) by congruence. subst g'. clear Hb.
  apply bind_ok in H as (l' & Hb & H). assert (l' = branch) by congruence. subst l'. clear Hb.
  apply bind_ok in H as (f & Hf & H). apply col_cells in Hf. subst f.
  apply bind_ok in H as (t & Ht & H). apply col_cells in Ht. subst t.
  apply bind_ok in H as (fr & Hfr & H). apply (rows_of_map _ _ _ _ P GF) in Hfr. subst fr.
  apply bind_ok in H as (to & Hto & H). apply (rows_of_map _ _ _ _ P GT) in Hto. subst to.
  apply bind_ok in H as (ar & Har & H). apply col_cells in Har. subst ar.
  apply bind_ok in H as (af & Haf & H). apply (gather_map _ _ _ _ []) in Haf as (-> & LF).
  apply bind_ok in H as (at' & Hat & H). apply (gather_map _ _ _ _ []) in Hat as (-> & LT).
  apply bind_ok in H as (tap & Htap & H). apply col_cells in Htap. subst tap.
  apply bind_ok in H as (pd & Hpd & H). apply col_cells in Hpd. subst pd.
  apply bind_ok in H as (qd & Hqd & H). apply col_cells in Hqd. subst qd.
  apply bind_ok in H as (areas & Hareas & H).
  apply bind_ok in H as (gs & Hgs & H). apply col_cells in Hgs. subst gs.
  apply bind_ok in H as (bs & Hbs & H). apply col_cells in Hbs. subst bs.
  apply bind_ok in H as (ld & Hld & H). apply isload_rows in Hld. subst ld.
  apply bind_ok in H as (st & Hst & H). apply col_cells in Hst. subst st.
  apply bind_ok in H as (vm & Hvm & H). apply col_cells in Hvm. subst vm.
  apply bind_ok in H as (va & Hva & H). apply col_cells in Hva. subst va.
  apply bind_ok in H as (ls & Hls & H). rewrite !map2_same in *.
  apply branch_losses_rows in Hls as (-> & EA); auto.
  match type of H with Ok ?r = Ok _ => assert (d = r) by congruence end. subst d. clear H.
  constructor; cbn [q_bus q_gen q_branch q_fr q_to q_ties q_xfmr q_nzld q_nzsh q_areas q_allg q_ong q_onld q_V q_loss q_fchg q_tchg];
    rewrite ?map_map; auto.
Qed.
End PrintA.
