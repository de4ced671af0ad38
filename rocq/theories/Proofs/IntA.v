(** Moving rows between internal and external numbering commutes with dropping fractions. *)
From Coq Require Import Lia.
From Verif Require Import Lib.ListFacts Model.IntTables Spec.CaseSpec Proofs.Ext2intD.
Local Open Scope nat_scope.

Definition rmap {A B} (g : A -> B) (r : result A) : result B := match r with Ok a => Ok (g a) | Err e => Err e end.

Lemma mapM_rmap {A B C} (g : B -> C) (h : A -> result B) (k : A -> result C) l :
  (forall x, In x l -> k x = rmap g (h x)) -> mapM k l = rmap (map g) (mapM h l).
Proof.
  induction l as [|x l IH]; intros H; [reflexivity|]. cbn [mapM]. rewrite (H x (or_introl eq_refl)).
  destruct (h x) as [b|e]; [|reflexivity]. cbn. rewrite IH by (intros; apply H; right; auto). destruct (mapM h l); reflexivity.
Qed.
Lemma mapM_precomp {A B C} (g : A -> B) (k : B -> result C) l : mapM k (map g l) = mapM (fun x => k (g x)) l.
Proof. induction l as [|x l IH]; cbn; [reflexivity|]. rewrite IH. reflexivity. Qed.

Lemma get_map {A B} (g : A -> B) l i : get (map g l) i = rmap g (get l i).
Proof. unfold get. rewrite nth_error_map. destruct (nth_error l i); reflexivity. Qed.
Lemma gather_rmap {A B} (g : A -> B) l idx : gather (map g l) idx = rmap (map g) (gather l idx).
Proof. unfold gather. apply mapM_rmap. intros i _. apply get_map. Qed.
Lemma upd_map {A B} (g : A -> B) l i x : upd (map g l) i (g x) = map g (upd l i x).
Proof. revert i. induction l as [|a l IH]; intros [|i]; cbn; try reflexivity. rewrite IH. reflexivity. Qed.
Lemma scatter_rmap {A B} (g : A -> B) idx : forall l v, scatter (map g l) idx (map g v) = map g (scatter l idx v).
Proof. induction idx as [|i idx IH]; intros l [|x v]; cbn; try reflexivity. rewrite upd_map. apply IH. Qed.
Lemma scatter_checked_rmap {A B} (g : A -> B) l idx v : scatter_checked (map g l) idx (map g v) = rmap (map g) (scatter_checked l idx v).
Proof. unfold scatter_checked. rewrite !map_length, scatter_rmap. destruct (negb _); [reflexivity|]. destruct (forallb _ idx); reflexivity. Qed.
Lemma set_checked_map {A B} (g : A -> B) l i x : set_checked (map g l) i (g x) = rmap (map g) (set_checked l i x).
Proof. unfold set_checked. rewrite map_length, upd_map. destruct (_ <? _); reflexivity. Qed.

Section IntA.
Context {K : Type} {F : Fld K}.

Lemma store_ofZ b z : store b (fofZ z : K) = fofZ z.
Proof. destruct b; cbn; [rewrite ftrunc_ofZ|]; reflexivity. Qed.
Lemma store_trunc b (x : K) : ftrunc (store b x) = ftrunc x.
Proof. destruct b; cbn; [apply ftrunc_ofZ|reflexivity]. Qed.

(** every number of the table is one that is kept *)
Definition kept (b : bool) (t : list (list K)) : Prop := forall r x, In r t -> In x r -> store b x = x.
Notation T b := (map (map (store b))).

Lemma kept_map b t : kept b t -> T b t = t.
Proof.
  intros H. rewrite <- (map_id t) at 2. apply map_ext_in. intros r Hr. rewrite <- (map_id r) at 2. apply map_ext_in. intros x Hx. eapply H; eauto.
Qed.
Lemma store_zero b : store b 0%K = (0%K : K).
Proof. rewrite <- (fofZ_0 : fofZ 0 = (0%K : K)). apply store_ofZ. Qed.
Lemma setcol_map b j v t : setcol j (map (store b) v) (T b t) = rmap (T b) (setcol j v t).
Proof.
  unfold setcol. rewrite !map_length. destruct (negb _); [reflexivity|].
  assert (Q : combine (map (store b) v) (T b t) = map (fun p => (store b (fst p), map (store b) (snd p))) (combine v t)).
  { clear. revert t. induction v as [|x v IH]; intros [|r t]; cbn; try reflexivity. f_equal. apply IH. }
  rewrite Q, mapM_precomp. apply mapM_rmap. intros [x r] _. cbn [fst snd]. apply set_checked_map.
Qed.

Lemma put_rows_map b t on rows : put_rows (T b t) on (T b rows) = rmap (T b) (put_rows t on rows).
Proof.
  destruct t as [|r0 t]; [|destruct rows as [|r1 rows]].
  - cbn [map put_rows]. apply (scatter_checked_rmap (map (store b)) []).
  - cbn [map put_rows]. apply (scatter_checked_rmap (map (store b)) (r0 :: t) on []).
  - cbn [map put_rows]. rewrite !map_length. destruct (_ =? _); [|reflexivity]. apply (scatter_checked_rmap (map (store b)) (r0 :: t) on (r1 :: rows)).
Qed.
Lemma unrenum_map b i2e c t on : (forall x, In x i2e -> store b x = x) -> unrenum i2e c (T b t) on = rmap (T b) (unrenum i2e c t on).
Proof.
  intros H. unfold unrenum. rewrite gather_rmap. destruct (gather t on) as [rows|]; [|reflexivity]. cbn [rmap bind].
  rewrite mapM_precomp, (mapM_rmap (map (store b)) (unrenum_row i2e c)).
  - destruct (mapM _ rows) as [rows'|]; [|reflexivity]. cbn [rmap bind]. apply scatter_checked_rmap.
  - intros r _. unfold unrenum_row. rewrite get_map. destruct (get r c) as [x|]; [|reflexivity]. cbn [rmap bind to_int fld_cell]. rewrite store_trunc.
    destruct (np_get i2e (ftrunc x)) as [v|] eqn:E; [|reflexivity]. cbn [rmap bind]. rewrite <- (H v) at 1; [apply set_checked_map|].
    unfold np_get in E. apply bind_ok in E as (k & _ & E). unfold of_option in E. destruct (nth_error i2e k) eqn:N; [|discriminate]. injection E as <-. eapply nth_error_In; eauto.
Qed.
Lemma set_rows_zero b t rows j n : set_rows (T b t) rows j (repeat 0%K n) = rmap (T b) (set_rows t rows j (repeat 0%K n)).
Proof.
  unfold set_rows. rewrite gather_rmap. destruct (gather t rows) as [old|]; [|reflexivity]. cbn [rmap bind].
  assert (Q : setcol j (repeat 0%K n) (T b old) = rmap (T b) (setcol j (repeat 0%K n) old)).
  { rewrite <- setcol_map. f_equal. clear. induction n as [|n IH]; cbn [repeat map]; [reflexivity|]. rewrite store_zero. f_equal. exact IH. }
  rewrite Q. destruct (setcol j _ old) as [new|]; [|reflexivity]. cbn [rmap bind]. apply scatter_checked_rmap.
Qed.
Lemma zero_out_map b t rows cols : zero_out (T b t) rows cols = rmap (T b) (zero_out t rows cols).
Proof.
  unfold zero_out. rewrite <- (eq_refl : rmap (T b) (Ok t) = Ok (T b t)). generalize (Ok t : result (list (list K))). induction cols as [|j cols IH]; intros r; [reflexivity|].
  cbn [fold_left]. rewrite <- IH. f_equal. destruct r as [t'|]; [|reflexivity]. cbn [rmap bind]. apply set_rows_zero.
Qed.

Variable argsort : list Z -> list nat.
Variable solve : list (list K) -> list K -> result (list K).
Variables ib ig : bool.

Ltac step := match goal with |- bind ?e _ = rmap _ (bind ?e _) => let x := fresh "x" in destruct e as [x|]; [cbn [bind]|reflexivity] end.
Lemma dc_typed B bus gen branch : kept ib bus -> kept ig gen ->
  runpf_dc_typed solve ib ig B bus gen branch = rmap (fun x => (T ib (fst (fst x)), T ig (snd (fst x)), snd x)) (runpf_dc solve B bus gen branch).
Proof.
  intros KB KG. unfold runpf_dc_typed, runpf_dc.
  step. destruct x as [[ref pv] pq]. cbv zeta. do 4 step. step. destruct x3 as [[[Bm Bf] Pi] Pf]. repeat step.
  assert (Q1 : forall v, setcol VM (map (store ib) v) bus = rmap (T ib) (setcol VM v bus)).
  { intros v. rewrite <- setcol_map, (kept_map ib bus KB). reflexivity. }
  rewrite Q1. destruct (setcol VM (repeat 1%K (length bus)) bus) as [b1|]; [|reflexivity]. cbn [rmap bind].
  rewrite setcol_map. destruct (setcol VA (map (fun a : K => (a * (fofZ 180 / fpi))%K) x8) b1) as [b2|]; [|reflexivity]. cbn [rmap bind].
  do 4 step. destruct (gather gen x15) as [gr|] eqn:G; [|reflexivity]. cbn [bind]. do 3 step.
  assert (KR : T ig gr = gr).
  { pose proof (gather_rmap (map (store ig)) gen x15) as Q. rewrite (kept_map ig gen KG), G in Q. injection Q as Q. symmetry. exact Q. }
  rewrite <- KR at 1. rewrite setcol_map. destruct (setcol PG x21 gr) as [rows|]; [|reflexivity]. cbn [rmap bind].
  rewrite <- (kept_map ig gen KG) at 1. rewrite scatter_checked_rmap. destruct (scatter_checked gen x15 rows); reflexivity.
Qed.

(** ** conversions *)
Lemma kept_gather b t idx t' : kept b t -> gather t idx = Ok t' -> kept b t'.
Proof.
  intros H G r x Hr Hx. apply In_nth_error in Hr as (k & Hk). pose proof Hk as L. apply nth_error_some_lt in L. pose proof (gather_length _ _ _ G) as LL.
  destruct (nth_error_lt idx k) as [i Hi]; [lia|]. rewrite (gather_nth _ _ _ _ _ G Hi) in Hk. eapply H; eauto. eapply nth_error_In; eauto.
Qed.
Lemma kept_renum b nums c t t' : kept b t -> renum nums c t = Ok t' -> kept b t'.
Proof.
  intros H G r' x Hr Hx. apply In_nth_error in Hr as (k & Hk). pose proof (mapM_length _ _ _ G) as LL. destruct (nth_error_lt t k) as [r Hr]; [apply nth_error_some_lt in Hk; lia|].
  destruct (mapM_nth _ _ _ _ _ G Hr) as (r2 & E & Hr2). assert (r2 = r') by congruence. subst r2.
  unfold renum_row in E. apply bind_ok in E as (bx & _ & E). apply bind_ok in E as (z & _ & E). apply bind_ok in E as (i & _ & E).
  unfold set_checked in E. destruct (_ <? _); [|discriminate]. injection E as <-.
  assert (Q : forall (l : list K) m v, In x (upd l m v) -> x = v \/ In x l).
  { clear. induction l as [|a l IH]; intros [|m] v; cbn; auto; intros [<-|I]; auto. destruct (IH _ _ I); auto. }
  destruct (Q _ _ _ Hx) as [->|I]; [apply store_ofZ|]. eapply H; [eapply nth_error_In|]; eauto.
Qed.
Lemma kept_col b c t v : kept b t -> col c t = Ok v -> forall x, In x v -> store b x = x.
Proof.
  intros H G x Hx. apply In_nth_error in Hx as (k & Hk). pose proof (mapM_length _ _ _ G) as LL. destruct (nth_error_lt t k) as [r Hr]; [apply nth_error_some_lt in Hk; lia|].
  destruct (mapM_nth _ _ _ _ _ G Hr) as (y & E & Hy). assert (y = x) by congruence. subst y. unfold get, of_option in E. destruct (nth_error r c) eqn:N; [|discriminate].
  injection E as ->. eapply H; eapply nth_error_In; eauto.
Qed.

Lemma ext2int_kept p q : wf_case p -> in_ext_state p -> kept ib (p_bus p) -> kept ig (p_gen p) -> ext2int argsort p = Ok q ->
  kept ib (p_bus q) /\ kept ig (p_gen q) /\ exists o ext, p_order q = Some o /\ o_state o = StateI /\ o_ext o = Some ext /\ x_bus ext = p_bus p /\ x_gen ext = p_gen p /\
  forall b x, In x (o_i2e o) -> store b x = x.
Proof.
  intros W E KB KG H. rewrite ext2int_unfold in H by auto. unfold ext2int_body in H.
  apply bind_ok in H as (bt & _ & H). apply bind_ok in H as (u1 & _ & H). apply bind_ok in H as (nums & _ & H).
  apply bind_ok in H as (u2 & _ & H). apply bind_ok in H as (u3 & _ & H). apply bind_ok in H as (gs & _ & H). apply bind_ok in H as (brs & _ & H).
  apply bind_ok in H as (ars & _ & H). apply bind_ok in H as (bus1 & B1 & H). apply bind_ok in H as (gen1 & G1 & H). apply bind_ok in H as (br1 & _ & H).
  apply bind_ok in H as (ar1 & _ & H). apply bind_ok in H as (i2e & IE & H). apply bind_ok in H as (i2eZ & _ & H). apply bind_ok in H as (u4 & _ & H).
  apply bind_ok in H as (bus2 & B2 & H). apply bind_ok in H as (gen2 & G2 & H). apply bind_ok in H as (br2 & _ & H). apply bind_ok in H as (br3 & _ & H).
  apply bind_ok in H as (ar2 & _ & H). apply bind_ok in H as (keys & _ & H). apply bind_ok in H as (gen3 & G3 & H). apply bind_ok in H as (gc & _ & H).
  apply bind_ok in H as (A' & _ & H). apply bind_ok in H as (N' & _ & H). injection H as <-. cbn [p_bus p_gen p_order].
  split; [|split].
  - eapply kept_renum; [|exact B2]. eapply kept_gather; eauto.
  - eapply kept_gather; [|exact G3]. eapply kept_renum; [|exact G2]. eapply kept_gather; eauto.
  - eexists; eexists. split; [reflexivity|]. cbn [o_state o_ext o_i2e x_bus x_gen]. split; [reflexivity|]. split; [reflexivity|]. split; [reflexivity|]. split; [reflexivity|].
    intros b x Hx. apply In_nth_error in Hx as (k & Hk). pose proof (mapM_length _ _ _ IE) as LL. destruct (nth_error_lt bus1 k) as [r Hr]; [apply nth_error_some_lt in Hk; lia|].
    destruct (mapM_nth _ _ _ _ _ IE Hr) as (y & Ey & Hy). assert (y = x) by congruence. subst y.
    pose proof (gather_length _ _ _ B1) as L2. destruct (nth_error_lt (find (bus_mask bt)) k) as [i Hi]; [apply nth_error_some_lt in Hr; lia|].
    rewrite (gather_nth _ _ _ _ _ B1 Hi) in Hr. destruct (wf_bus_num _ W _ _ Hr) as (z & _ & Hz). unfold get in Ey. rewrite Hz in Ey. injection Ey as <-. apply store_ofZ.
Qed.

(** the tables of one report are those of the other with fractions dropped *)
Definition dropped (p' p : ppc_of K) : Prop := p_bus p' = T ib (p_bus p) /\ p_gen p' = T ig (p_gen p) /\ p_branch p' = p_branch p.
Definition both {A B} (R : A -> B -> Prop) (x : result A) (y : result B) : Prop :=
  match x, y with Ok a, Ok b => R a b | Err e, Err e' => e = e' | _, _ => False end.

Lemma int2ext_dropped q o ext bus gen br : p_order q = Some o -> o_state o = StateI -> o_ext o = Some ext -> kept ib (x_bus ext) -> kept ig (x_gen ext) ->
  (forall b x, In x (o_i2e o) -> store b x = x) ->
  both (fun r' r => dropped r' r /\ option_map (@o_gen_off K) (p_order r') = option_map (@o_gen_off K) (p_order r) /\ option_map (@o_br_off K) (p_order r') = option_map (@o_br_off K) (p_order r))
    (int2ext (with_tables q (T ib bus) (T ig gen) br)) (int2ext (with_tables q bus gen br)).
Proof.
  intros HO HS HE KB KG KI. unfold int2ext. cbn [with_tables p_order]. rewrite HO, HS. unfold int2ext_body. cbn [with_tables p_bus p_gen p_branch p_gencost p_areas p_A p_N].
  rewrite HE. cbn [of_option bind].
  destruct (restore (p_gencost q) _) as [gc|]; [|reflexivity]. cbn [bind]. destruct (restore (p_areas q) _) as [ar|]; [|reflexivity]. cbn [bind].
  destruct (restore (p_A q) _) as [A'|]; [|reflexivity]. cbn [bind]. destruct (restore (p_N q) _) as [N'|]; [|reflexivity]. cbn [bind].
  rewrite <- (kept_map ib _ KB) at 1. rewrite put_rows_map. destruct (put_rows (x_bus ext) (o_bus_on o) bus) as [bus1|]; [|reflexivity]. cbn [rmap bind].
  destruct (put_rows (x_branch ext) (o_br_on o) br) as [br1|]; [|reflexivity]. cbn [bind].
  rewrite gather_rmap. destruct (gather gen (o_gen_i2e o)) as [grows|]; [|reflexivity]. cbn [rmap bind].
  rewrite <- (kept_map ig _ KG) at 1. rewrite put_rows_map. destruct (put_rows (x_gen ext) (o_gen_on o) grows) as [gen1|]; [|reflexivity]. cbn [rmap bind].
  destruct (opt_map _ ar) as [ar1|]; [|reflexivity]. cbn [bind].
  rewrite (unrenum_map ib) by (apply KI). destruct (unrenum (o_i2e o) BUS_I bus1 (o_bus_on o)) as [bus2|]; [|reflexivity]. cbn [rmap bind].
  destruct (unrenum (o_i2e o) F_BUS br1 (o_br_on o)) as [br2|]; [|reflexivity]. cbn [bind].
  destruct (unrenum (o_i2e o) T_BUS br2 (o_br_on o)) as [br3|]; [|reflexivity]. cbn [bind].
  rewrite (unrenum_map ig) by (apply KI). destruct (unrenum (o_i2e o) GEN_BUS gen1 (o_gen_on o)) as [gen2|]; [|reflexivity]. cbn [rmap bind].
  destruct (opt_map _ ar1) as [ar2|]; [|reflexivity]. cbn [bind both]. unfold dropped. cbn. auto.
Qed.

Theorem run_dropped cis cabs cang splu B p : wf_case (with_tables p (p_bus p) (p_gen p) (add_flow_cols (p_branch p))) -> in_ext_state p -> kept ib (p_bus p) -> kept ig (p_gen p) ->
  both (fun r' r => dropped (fst r') (fst r) /\ snd r' = snd r)
    (runpf_typed argsort solve ib ig B p) (runpf argsort cis cabs cang solve splu DC B p).
Proof.
  intros W E KB KG. unfold runpf_typed, runpf. destruct (ext2int argsort _) as [q|] eqn:HQ; [|reflexivity]. cbn [bind].
  destruct (ext2int_kept _ _ W E KB KG HQ) as (KBq & KGq & o & ext & HO & HS & HE & XB & XG & KI).
  cbn [solve_internal]. rewrite (dc_typed B _ _ (p_branch q) KBq KGq). destruct (runpf_dc solve B (p_bus q) (p_gen q) (p_branch q)) as [[[bus gen] br]|]; [|reflexivity].
  cbn [rmap bind fst snd].
  pose proof (int2ext_dropped q o ext bus gen br HO HS HE) as D. rewrite XB, XG in D. specialize (D KB KG KI).
  destruct (int2ext (with_tables q (T ib bus) (T ig gen) br)) as [r'|], (int2ext (with_tables q bus gen br)) as [r|]; cbn [both] in D; try contradiction; [|cbn; congruence].
  cbn [bind]. destruct D as ((D1 & D2 & D3) & D4 & D5).
  destruct (p_order r') as [o'|], (p_order r) as [o0|]; cbn in D4; try discriminate; [|reflexivity]. cbn [of_option bind] in *. cbn [option_map] in *.
  injection D4 as D4. injection D5 as D5. rewrite D4, D5, D2, D3, zero_out_map.
  destruct (zero_out (p_gen r) _ _) as [g2|]; [|reflexivity]. cbn [rmap bind]. destruct (zero_out (p_branch r) _ _) as [b2|]; [|reflexivity]. cbn [bind both fst snd].
  unfold dropped. cbn. auto.
Qed.
End IntA.
