(** Reports: the parts of a report and what the call leaves behind. *)
From Coq Require Import Permutation.
From Verif Require Import Lib.ListFacts Model.PrintPf Spec.PrintSpec Spec.PfSpec Spec.PipsSpec
  Proofs.SparseFacts Proofs.FldFacts Proofs.NetworkD Proofs.NetworkE Proofs.PfsolnA Proofs.PrintA Proofs.PrintB Proofs.PrintC Proofs.PrintD Proofs.PrintE Proofs.PrintF Proofs.TableEdit.
From Verif Require Import Model.PrintPf.
Local Open Scope nat_scope.

Section PrintG.
Context {K : Type} {F : Fld K}.
Add Field KFpg : (@f_ok K F).
Variables (cis : K -> cpx K) (cabs : cpx K -> K).

Lemma wanted_some {A} b (r : result A) x : if_wanted b r = Ok (Some x) -> r = Ok x.
Proof. unfold if_wanted. destruct b; [|discriminate]. intros H. apply bind_ok in H as (y & -> & H). congruence. Qed.

Lemma printpf_parts o opf baseMVA bus gen branch rep tabs :
  printpf cis cabs o opf baseMVA bus gen branch = Ok (Some rep, tabs) ->
  exists d, prepare cis cabs (PF_DC o) baseMVA bus gen branch = Ok d /\ tabs = (q_bus d, q_gen d, q_branch d) /\
    (forall s, r_sys rep = Some s -> system_summary d = Ok s) /\
    (forall a, r_areas rep = Some a -> area_summary d = Ok a) /\
    (forall l, r_branches rep = Some l -> branch_data d = Ok l) /\
    (forall g, r_gens rep = Some g -> gen_data d opf = Ok g) /\
    (forall b, r_buses rep = Some b -> bus_data d opf = Ok b) /\
    (opf = true -> exists m, r_limits rep = Some m) /\
    (forall m, r_limits rep = Some m -> limit_tables cabs (OPF_VIOLATION o) (PF_DC o) (one_lim o (OUT_V_LIM o)) (one_lim o (OUT_PG_LIM o))
            (one_lim o (OUT_QG_LIM o)) (one_lim o (OUT_LINE_LIM o)) (OPF_FLOW_LIM o) d = Ok m).
Proof.
  unfold printpf. destruct (OUT_ALL o =? 0)%Z; [discriminate|]. intros H.
  apply bind_ok in H as (d & Hd & H). apply bind_ok in H as (s & Hs & H). apply bind_ok in H as (a & Ha & H).
  apply bind_ok in H as (g & Hg & H). apply bind_ok in H as (b & Hb & H). apply bind_ok in H as (l & Hl & H). apply bind_ok in H as (m & Hm & H).
  match type of H with Ok (Some ?r, ?t) = _ => assert (rep = r) as -> by congruence; assert (tabs = t) as -> by congruence end.
  exists d. cbn [r_sys r_areas r_branches r_gens r_buses r_limits]. repeat split; auto.
  - intros x ->. exact (wanted_some _ _ _ Hs).
  - intros x ->. exact (wanted_some _ _ _ Ha).
  - intros x ->. exact (wanted_some _ _ _ Hl).
  - intros x ->. exact (wanted_some _ _ _ Hg).
  - intros x ->. exact (wanted_some _ _ _ Hb).
  - intros ->. cbn in Hm. apply bind_ok in Hm as (x & _ & Hm). exists x. congruence.
  - intros x ->. exact (wanted_some _ _ _ Hm).
Qed.
Lemma prepare_tabs baseMVA bus gen branch d : prepare cis cabs false baseMVA bus gen branch = Ok d ->
  q_bus d = bus /\ q_gen d = gen /\ q_branch d = branch.
Proof.
  unfold prepare. intros H. do 3 (apply bind_ok in H as (? & _ & H)).
  apply bind_ok in H as (b' & Hb & H). assert (b' = bus) by congruence. subst b'. clear Hb.
  apply bind_ok in H as (g' & Hb & H). assert (g' = gen) by congruence. subst g'. clear Hb.
  apply bind_ok in H as (l' & Hb & H). assert (l' = branch) by congruence. subst l'. clear Hb.
  cbv zeta in H. repeat (apply bind_ok in H as (? & _ & H)).
  match type of H with Ok ?r = Ok _ => assert (d = r) by congruence end. subst d. auto.
Qed.
Lemma printed_off o opf baseMVA bus gen branch tabs : OUT_ALL o = 0%Z ->
  printpf cis cabs o opf baseMVA bus gen branch = Ok (None, tabs) -> tabs = (bus, gen, branch).
Proof. unfold printpf. intros ->. cbn. congruence. Qed.
Lemma printed_none o opf baseMVA bus gen branch tabs :
  printpf cis cabs o opf baseMVA bus gen branch = Ok (None, tabs) -> tabs = (bus, gen, branch).
Proof.
  unfold printpf. destruct (OUT_ALL o =? 0)%Z; [congruence|]. intros H. repeat (apply bind_ok in H as (? & _ & H)). discriminate.
Qed.

(** ** the columns that are zeroed *)
Lemma zeroed cs (t t' : list (list K)) : PrintPf.zero_cols t cs = Ok t' ->
  edit t t' (fun _ k => if existsb (Nat.eqb k) cs then Some 0%K else None).
Proof.
  unfold PrintPf.zero_cols. revert t. induction cs as [|c cs IH]; intros t H; simpl in H.
  - injection H as <-. apply edit_refl.
  - apply bind_ok in H as (t1 & H1 & H). apply edit_setcol in H1 as (_ & E1). specialize (IH _ H).
    eapply edit_ext; [|exact (edit_trans _ _ _ _ _ E1 IH)]. intros i j. unfold over. simpl.
    destruct (existsb (Nat.eqb j) cs); [rewrite orb_true_r; auto|]. rewrite orb_false_r.
    destruct (j =? c); auto. rewrite nth_repeat. reflexivity.
Qed.
Lemma prepare_dc_tabs baseMVA bus gen branch d : prepare cis cabs true baseMVA bus gen branch = Ok d ->
  edit bus (q_bus d) (fun _ k => if existsb (Nat.eqb k) [QD; BS] then Some 0%K else None) /\
  edit gen (q_gen d) (fun _ k => if existsb (Nat.eqb k) [QG; QMAX; QMIN] then Some 0%K else None) /\
  edit branch (q_branch d) (fun _ k => if existsb (Nat.eqb k) [BR_R; BR_B] then Some 0%K else None).
Proof.
  unfold prepare. intros H. do 3 (apply bind_ok in H as (? & _ & H)).
  apply bind_ok in H as (b' & Hb & H). apply bind_ok in H as (g' & Hg & H). apply bind_ok in H as (l' & Hl & H).
  apply zeroed in Hb, Hg, Hl. cbv zeta in H. repeat (apply bind_ok in H as (? & _ & H)).
  match type of H with Ok ?r = Ok _ => assert (d = r) by congruence end. subst d. auto.
Qed.

(** ** limits *)
Section Limits.
Variable tol : K.
Lemma binding_near m : binding tol m = true <-> near_limit tol (x_lo m) (x_val m) (x_hi m) (x_mu_lo m) (x_mu_hi m).
Proof. unfold binding, near_lo, near_hi, near_limit, lt. rewrite !orb_true_iff. fold (@ptol K F). tauto. Qed.
Lemma listed_in lim ms m : (lim = 1 \/ lim = 2)%Z -> In m (lines (listed tol lim ms)) <-> In m ms /\ (lim = 2%Z \/ binding tol m = true).
Proof.
  intros [->| ->]; unfold listed; cbn [Z.eqb Pos.eqb orb andb].
  - destruct (existsb (binding tol) ms) eqn:E; cbn [lines].
    + rewrite filter_In. split; intros (A & B); split; auto; destruct B as [B|B]; auto; discriminate.
    + split; [intros []|]. intros (I & [B|B]); [discriminate|].
      assert (existsb (binding tol) ms = true) by (apply existsb_exists; eauto). congruence.
  - cbn [lines]. rewrite filter_In. tauto.
Qed.
Lemma shown_in lim ms x : (lim = 1 \/ lim = 2)%Z -> In x (lines (option_map (map (show_line tol)) (listed tol lim ms))) <->
  exists m, x = show_line tol m /\ In m ms /\ (lim = 2%Z \/ binding tol m = true).
Proof.
  intros L. assert (lines (option_map (map (show_line tol)) (listed tol lim ms)) = map (show_line tol) (lines (listed tol lim ms))) as ->
    by (destruct (listed tol lim ms); reflexivity).
  rewrite in_map_iff. split.
  - intros (m & <- & I). apply (listed_in lim ms m L) in I. eauto.
  - intros (m & -> & I). exists m. split; auto. apply (listed_in lim ms m L). exact I.
Qed.
Lemma cells_in jb jml jl jv jh jmh (t : list (list K)) p ms : mapM (cells_at jb jml jl jv jh jmh t) (find (map p t)) = Ok ms ->
  forall m, In m ms <-> exists i r, nth_error t i = Some r /\ p r = true /\
    m = {| x_idx := i; x_bus := cell r jb; x_mu_lo := cell r jml; x_lo := cell r jl; x_val := cell r jv; x_hi := cell r jh; x_mu_hi := cell r jmh |}.
Proof.
  intros H m.
  assert (V : forall i m, cells_at jb jml jl jv jh jmh t i = Ok m -> exists r, nth_error t i = Some r /\
    m = {| x_idx := i; x_bus := cell r jb; x_mu_lo := cell r jml; x_lo := cell r jl; x_val := cell r jv; x_hi := cell r jh; x_mu_hi := cell r jmh |}).
  { clear. intros i m H. unfold cells_at in H. apply bind_ok in H as (r & Hr & H). exists r. apply get_ok in Hr. split; auto.
    apply bind_ok in H as (b & H1 & H). apply bind_ok in H as (ml & H2 & H). apply bind_ok in H as (lo & H3 & H).
    apply bind_ok in H as (v & H4 & H). apply bind_ok in H as (hi & H5 & H). apply bind_ok in H as (mh & H6 & H).
    apply get_ok in H1, H2, H3, H4, H5, H6. unfold cell.
    rewrite (nth_error_nth _ _ _ H1), (nth_error_nth _ _ _ H2), (nth_error_nth _ _ _ H3), (nth_error_nth _ _ _ H4),
      (nth_error_nth _ _ _ H5), (nth_error_nth _ _ _ H6). congruence. }
  pose proof (mapM_F2 _ _ _ H) as F2. split.
  - intros I. apply In_nth_error in I as (k & Hk). destruct (Forall2_nth_error_r _ _ _ F2 k m Hk) as (i & Hi & E).
    destruct (V i m E) as (r & Hr & ->). exists i, r. split; auto. split; auto. apply nth_error_In in Hi. apply in_find in Hi.
    rewrite nth_error_map, Hr in Hi. cbn in Hi. congruence.
  - intros (i & r & Hr & Hp & ->). assert (In i (find (map p t))) as I by (apply in_find; rewrite nth_error_map, Hr; cbn; congruence).
    apply In_nth_error in I as (k & Hk). destruct (mapM_nth _ _ _ _ _ H Hk) as (m & E & Hm). destruct (V i m E) as (r' & Hr' & ->).
    rewrite Hr in Hr'. injection Hr' as <-. eapply nth_error_In; eauto.
Qed.
Lemma volt_never dc bus v : volt_limits tol dc 1%Z bus = Ok v -> v = None.
Proof.
  unfold volt_limits. cbv zeta. intros H. apply bind_ok in H as (ms & _ & H).
  assert ((1 =? Z.lor 2 (b2z (1 =? Z.land 1 (b2z (existsb (binding tol) ms)))))%Z = false) as E by (destruct (existsb (binding tol) ms); reflexivity).
  rewrite E, andb_false_r in H. congruence.
Qed.
Lemma load_rows_none lim ms : (lim = 1 \/ lim = 2)%Z -> load_rows (listed tol lim ms) = Ok tt ->
  forall m, In m ms -> lim <> 2%Z /\ binding tol m = false.
Proof.
  intros L H m I. assert (lines (listed tol lim ms) = []) as E.
  { destruct (listed tol lim ms) as [[|x l]|]; auto. discriminate. }
  pose proof (listed_in lim ms m L) as G. rewrite E in G. split.
  - intros L2. apply (proj2 G). auto.
  - destruct (binding tol m) eqn:B; auto. destruct (proj2 G). auto.
Qed.

(** *** branch flows *)
Definition cell_of (bus : list (list K)) (flim : Z) (i : nat) (l : list K) : flow_cell K :=
  {| z_idx := i; z_from := cell l F_BUS; z_to := cell l T_BUS;
     z_ff := loading cabs flim (cell l PF) (cell l QF) (volt cis (the_bus bus F_BUS l));
     z_ft := loading cabs flim (cell l PT) (cell l QT) (volt cis (the_bus bus T_BUS l));
     z_rate := cell l RATE_A; z_mf := cell l MU_SF; z_mt := cell l MU_ST |}.
Lemma end_flow_ok flim p q v x : end_flow cabs false flim p q (conj v) = Ok x -> x = loading cabs flim p q v.
Proof.
  unfold end_flow, loading. rewrite orb_false_r. destruct (flim =? 1)%Z; [congruence|]. destruct (flim =? 2)%Z; [|congruence].
  destruct (feqb _ _); [discriminate|congruence].
Qed.
Lemma flow_cells_in baseMVA bus gen branch d flim ws : circular cis -> printable bus gen branch -> prepared cis cabs baseMVA bus gen branch d ->
  flow_cells cabs false flim (q_V d) (q_fr d) (q_to d) (q_branch d) = Ok ws ->
  forall w, In w ws <-> exists i l, nth_error branch i = Some l /\ w = cell_of bus flim i l.
Proof.
  intros CC OK PR H w. unfold flow_cells in H. rewrite (qd_V _ _ _ _ _ _ _ PR), (qd_fr _ _ _ _ _ _ _ PR), (qd_to _ _ _ _ _ _ _ PR), (qd_branch _ _ _ _ _ _ _ PR) in H.
  rewrite combine_map3 in H.
  assert (NE : forall i q, nth_error (combine (all_of branch) (map (fun r => (row_no bus (ftrunc (cell r F_BUS)), row_no bus (ftrunc (cell r T_BUS)), r)) branch)) i = Some q
     <-> exists l, nth_error branch i = Some l /\ q = (i, (row_no bus (ftrunc (cell l F_BUS)), row_no bus (ftrunc (cell l T_BUS)), l))).
  { intros i q. rewrite OpfLinA.nth_error_combine, nth_error_map. unfold all_of. destruct (nth_error branch i) as [l|] eqn:E; cbn.
    - rewrite (nth_error_nth' _ 0) by (rewrite seq_length; eapply nth_error_some_lt; eauto). rewrite seq_nth by (eapply nth_error_some_lt; eauto).
      cbn. split; [intros G; exists l; split; congruence|intros (l' & G & ->); congruence].
    - split; [destruct (nth_error (seq 0 (length branch)) i); discriminate|intros (l & G & _); discriminate]. }
  assert (V : forall i l x, In l branch -> (vf <- get (map (fun b => print_volt cis (cell b VM) (cell b VA)) bus) (row_no bus (ftrunc (cell l F_BUS))) ;;
     vt <- get (map (fun b => print_volt cis (cell b VM) (cell b VA)) bus) (row_no bus (ftrunc (cell l T_BUS))) ;;
     bf <- get l F_BUS ;; bt <- get l T_BUS ;;
     pf <- get l PF ;; qf <- get l QF ;; pt <- get l PT ;; qt <- get l QT ;;
     rate <- get l RATE_A ;; mf <- get l MU_SF ;; mt <- get l MU_ST ;;
     ff <- end_flow cabs false flim pf qf vf ;; ft <- end_flow cabs false flim pt qt vt ;;
     Ok {| z_idx := i; z_from := bf; z_to := bt; z_ff := ff; z_ft := ft; z_rate := rate; z_mf := mf; z_mt := mt |}) = Ok x -> x = cell_of bus flim i l).
  { intros i l x I G. apply bind_ok in G as (vf & Hf & G). apply bind_ok in G as (vt & Ht & G).
    apply bind_ok in G as (bf & H1 & G). apply bind_ok in G as (bt & H2 & G). apply bind_ok in G as (pf & H3 & G). apply bind_ok in G as (qf & H4 & G).
    apply bind_ok in G as (pt & H5 & G). apply bind_ok in G as (qt & H6 & G). apply bind_ok in G as (ra & H7 & G). apply bind_ok in G as (mf & H8 & G).
    apply bind_ok in G as (mt & H9 & G). apply bind_ok in G as (ff & HF & G). apply bind_ok in G as (ft & HT & G).
    apply get_ok in Hf, Ht, H1, H2, H3, H4, H5, H6, H7, H8, H9.
    destruct (pr_from _ _ _ OK l I) as (b1 & N1), (pr_to _ _ _ OK l I) as (b2 & N2). pose proof (pr_once _ _ _ OK) as ND.
    rewrite nth_error_map in Hf, Ht. pose proof N1 as (I1 & E1). pose proof N2 as (I2 & E2).
    apply In_nth_error in I1 as (k1 & K1). apply In_nth_error in I2 as (k2 & K2).
    rewrite <- E1, (row_no_ok _ _ _ ND K1), K1 in Hf. rewrite <- E2, (row_no_ok _ _ _ ND K2), K2 in Ht. cbn [option_map] in Hf, Ht.
    injection Hf as <-. injection Ht as <-. rewrite (print_volt_conj cis CC) in HF, HT. apply end_flow_ok in HF, HT.
    unfold cell_of. rewrite (the_bus_named _ _ _ _ ND N1), (the_bus_named _ _ _ _ ND N2). unfold volt. unfold cell at 1 2 3 4 7 8 11 12 13.
    rewrite (nth_error_nth _ _ _ H1), (nth_error_nth _ _ _ H2), (nth_error_nth _ _ _ H3), (nth_error_nth _ _ _ H4),
      (nth_error_nth _ _ _ H5), (nth_error_nth _ _ _ H6), (nth_error_nth _ _ _ H7), (nth_error_nth _ _ _ H8), (nth_error_nth _ _ _ H9). congruence. }
  split.
  - intros I. apply In_nth_error in I as (k & Hk). destruct (Forall2_nth_error_r _ _ _ (mapM_F2 _ _ _ H) k w Hk) as (q & Hq & E).
    apply NE in Hq as (l & Hl & ->). exists k, l. split; auto. apply (V k l w); auto. eapply nth_error_In; eauto.
  - intros (i & l & Hl & ->). destruct (mapM_nth _ _ _ i _ H (proj2 (NE i _) (ex_intro _ l (Logic.conj Hl eq_refl)))) as (y & E & Hy).
    apply V in E; [|eapply nth_error_In; eauto]. subst y. eapply nth_error_In; eauto.
Qed.
Lemma flow_binding_near w : flow_binding tol w = true <-> near_rating tol (z_ff w) (z_ft w) (z_rate w) (z_mf w) (z_mt w).
Proof.
  unfold flow_binding, near_rating, lt. rewrite !orb_true_iff, !andb_true_iff. fold (@ptol K F).
  assert (nz (z_rate w) = true <-> z_rate w <> 0%K) as ->.
  { unfold nz. rewrite negb_true_iff. split; intros H.
    - intros E. apply feqb_ok in E. congruence.
    - destruct (feqb (z_rate w) 0%K) eqn:E; auto. apply feqb_ok in E. contradiction. }
  tauto.
Qed.
Lemma flow_listed lim ws i : (lim = 1 \/ lim = 2)%Z -> In i (map w_idx (lines (flow_limits tol lim ws))) <->
  exists w, z_idx w = i /\ In w ws /\ (lim = 2%Z \/ flow_binding tol w = true).
Proof.
  intros L. rewrite in_map_iff. unfold flow_limits. destruct L as [->| ->]; cbn [Z.eqb Pos.eqb orb andb].
  - destruct (existsb (flow_binding tol) ws) eqn:E; cbn [lines].
    + split.
      * intros (x & Hx & I). apply in_map_iff in I as (w & <- & I). apply filter_In in I as (I & B). exists w. auto.
      * intros (w & <- & I & [B|B]); [discriminate|]. exists (show_flow tol w). split; auto. apply in_map. apply filter_In. auto.
    + split; [intros (x & _ & [])|]. intros (w & _ & I & [B|B]); [discriminate|].
      assert (existsb (flow_binding tol) ws = true) by (apply existsb_exists; eauto). congruence.
  - cbn [lines]. split.
    + intros (x & Hx & I). apply in_map_iff in I as (w & <- & I). apply filter_In in I as (I & B). exists w. auto.
    + intros (w & <- & I & B). exists (show_flow tol w). split; auto. apply in_map. apply filter_In. auto.
Qed.
End Limits.
End PrintG.
