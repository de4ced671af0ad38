(** The split of the bounds into equalities and one-sided inequalities. *)
From Verif Require Import Lib.ListFacts Model.Pips Spec.PipsSpec Spec.PipsRun Proofs.LinAlgFacts Proofs.SparseFacts
  Proofs.FldFacts Proofs.OrdFacts Proofs.NetworkB Proofs.AcPfA Proofs.BlockFacts.
Local Open Scope nat_scope.

Lemma in_find_map2 {A B} (f : A -> B -> bool) u v i a b : length u = length v ->
  In i (find (map2 f u v)) <-> i < length u /\ f (nth i u a) (nth i v b) = true.
Proof.
  intros L. rewrite in_find, (map2_nth _ _ _ a b L), nth_error_map.
  destruct (lt_dec i (length u)) as [H|H].
  - rewrite seq_nth_error by auto. simpl. split; [intros E; injection E; auto|intros [_ ->]; auto].
  - replace (nth_error (seq 0 (length u)) i) with (@None nat).
    + simpl. split; [discriminate|tauto].
    + symmetry. apply nth_error_None. rewrite seq_length. lia.
Qed.

Section PipsA.
Context {K : Type} {F : Fld K}.
Add Field KF : (@f_ok K F).

Definition fval (a : ext K) : K := match a with EFin a => a | _ => 0%K end.

Lemma mapM_fin {A} (f : A -> ext K) idx b : mapM fin (map f idx) = Ok b ->
  b = map (fun i => fval (f i)) idx /\ Forall (fun i => f i = EFin (fval (f i))) idx.
Proof.
  revert b. induction idx as [|i idx IH]; intros b; simpl.
  - intros H; injection H as <-. auto.
  - intros H. apply bind_ok in H as (a & Ha & H). apply bind_ok in H as (b' & Hb & H).
    injection H as <-. apply IH in Hb as (-> & Q).
    destruct (f i) eqn:E; simpl in Ha; try discriminate. injection Ha as <-.
    split; [reflexivity|]. constructor; auto. rewrite E. reflexivity.
Qed.

(** what a successful split consists of; [AA x p] is the value constrained by row p *)
Record split_facts (nx n : nat) (AA : list K -> nat -> K) (ll uu : list (ext K)) (sp : Pips.split (K := K))
  : Prop := SF {
  sf_ieq : s_ieq sp = find (map2 near uu ll);
  sf_igt : s_igt sp = find (map2 (fun u l => big u && negb (mbig l)) uu ll);
  sf_ilt : s_ilt sp = find (map2 (fun u l => mbig l && negb (big u)) uu ll);
  sf_ibx : s_ibx sp = find (map2 (fun u l => apart u l && (negb (big u) && negb (mbig l))) uu ll);
  sf_len : length ll = n; sf_len' : length uu = n;
  sf_be : s_be sp = map (fun p => fval (nth p uu EPos)) (s_ieq sp);
  sf_bi : s_bi sp = map (fun p => fval (nth p uu EPos)) (s_ilt sp)
                    ++ map (fun p => - fval (nth p ll EPos))%K (s_igt sp)
                    ++ map (fun p => fval (nth p uu EPos)) (s_ibx sp)
                    ++ map (fun p => - fval (nth p ll EPos))%K (s_ibx sp);
  sf_fin : Forall (fun p => nth p uu EPos = EFin (fval (nth p uu EPos))) (s_ilt sp ++ s_ibx sp) /\
           Forall (fun p => nth p ll EPos = EFin (fval (nth p ll EPos))) (s_igt sp ++ s_ibx sp);
  sf_Ae : match s_Ae sp with
          | None => s_ieq sp = []
          | Some M => s_ieq sp <> [] /\ wf M /\ nrows M = length (s_ieq sp) /\ ncols M = nx /\
                      forall x, rowsv M x = map (AA x) (s_ieq sp)
          end;
  sf_Ai : match s_Ai sp with
          | None => s_ilt sp = [] /\ s_igt sp = [] /\ s_ibx sp = []
          | Some M => s_ilt sp ++ s_igt sp ++ s_ibx sp <> [] /\ wf M /\ ncols M = nx /\
              nrows M = length (s_ilt sp) + length (s_igt sp) + length (s_ibx sp) + length (s_ibx sp) /\
              forall x, rowsv M x = map (AA x) (s_ilt sp)
                    ++ map (fun p => - AA x p)%K (s_igt sp) ++ map (AA x) (s_ibx sp)
                    ++ map (fun p => - AA x p)%K (s_ibx sp)
          end }.

Definition con_val (nx : nat) (A : option (smat K)) (x : list K) (p : nat) : K :=
  if p <? nx then nth p x 0%K
  else match A with Some M => mulrow M x (p - nx) | None => 0%K end.

Lemma def_bounds_length (d : ext K) n b : sized n b -> length (def_bounds d n b) = n.
Proof. intros [->|H]; [apply repeat_length|]. destruct b; simpl in *; subst; auto. Qed.

Lemma nth_def_bounds (d d' : ext K) n b i : i < n -> sized n b ->
  nth i (def_bounds d n b) d' = bound d b i.
Proof.
  intros H Hs. unfold bound. destruct b as [|a b].
  - apply nth_repeat_lt; auto.
  - unfold def_bounds. destruct Hs as [E|E]; [discriminate|]. apply nth_indep. rewrite E. auto.
Qed.

Definition wf_opt (A : option (smat K)) : Prop := match A with Some M => wf M | None => True end.

Lemma split_facts_ok nx A l u xmin xmax sp :
  split_bounds nx A l u xmin xmax = Ok sp -> wf_opt A ->
  sized nx xmin -> sized nx xmax -> sized (rows_of A) l -> sized (rows_of A) u ->
  split_facts nx (nx + rows_of A) (con_val nx A)
    (def_bounds ENeg nx xmin ++ def_bounds ENeg (rows_of A) l)
    (def_bounds EPos nx xmax ++ def_bounds EPos (rows_of A) u) sp.
Proof.
  intros H WA S1 S2 S3 S4. unfold split_bounds in H.
  change (match A with Some M => nrows M | None => 0 end) with (rows_of A) in H.
  set (ll := def_bounds ENeg nx xmin ++ def_bounds ENeg (rows_of A) l) in *.
  set (uu := def_bounds EPos nx xmax ++ def_bounds EPos (rows_of A) u) in *.
  assert (length ll = nx + rows_of A) as Lll by (unfold ll; rewrite app_length, !def_bounds_length; auto).
  assert (length uu = nx + rows_of A) as Luu by (unfold uu; rewrite app_length, !def_bounds_length; auto).
  apply bind_ok in H as (AA & HAA & H).
  assert (wf AA /\ nrows AA = nx + rows_of A /\ ncols AA = nx /\
          forall x p, p < nx + rows_of A -> mulrow AA x p = con_val nx A x p) as (WAA & RAA & CAA & VAA).
  { destruct A as [M|].
    - pose proof (vstackm_ok _ _ _ HAA) as (_ & R & C). simpl in *.
      split; [apply (wf_vstackm _ _ _ (wf_eyem _) WA HAA)|]. split; [auto|]. split; [auto|].
      intros x p Hp. rewrite (mulrow_vstackm _ _ _ _ _ (wf_eyem _) HAA). unfold con_val. simpl.
      destruct (Nat.ltb_spec p nx); auto. apply mulrow_eyem; auto.
    - injection HAA as <-. simpl. split; [apply wf_eyem|]. split; [lia|]. split; [auto|].
      intros x p Hp. unfold con_val. destruct (Nat.ltb_spec p nx); [|lia]. apply mulrow_eyem; auto. }
  clear HAA.
  apply bind_ok in H as (nr & Hnr & H). apply ewise_ok in Hnr as (_ & Hnr).
  apply bind_ok in H as (ap & Hap & H). apply ewise_ok in Hap as (_ & Hap).
  subst nr ap.
  assert (map2 (fun a p => a && p) (map2 apart uu ll)
            (map2 (fun u l => negb (big u) && negb (mbig l)) uu ll)
          = map2 (fun u l => apart u l && (negb (big u) && negb (mbig l))) uu ll) as EB.
  { unfold map2 at 2 3. rewrite map2_map. reflexivity. }
  rewrite EB in H. clear EB.
  set (ieq := find (map2 near uu ll)) in *.
  set (igt := find (map2 (fun u l => big u && negb (mbig l)) uu ll)) in *.
  set (ilt := find (map2 (fun u l => mbig l && negb (big u)) uu ll)) in *.
  set (ibx := find (map2 (fun u l => apart u l && (negb (big u) && negb (mbig l))) uu ll)) in *.
  apply bind_ok in H as (Ae & HAe & H). apply bind_ok in H as (A1 & HA1 & H).
  apply bind_ok in H as (A2 & HA2 & H). apply bind_ok in H as (A3 & HA3 & H).
  apply bind_ok in H as (B1 & HB1 & H). apply bind_ok in H as (B2 & HB2 & H).
  apply bind_ok in H as (Ai & HAi & H).
  apply bind_ok in H as (ub & Hub & H). apply bind_ok in H as (b1 & Hb1 & H).
  apply bind_ok in H as (b2 & Hb2 & H). apply bind_ok in H as (b3 & Hb3 & H).
  apply bind_ok in H as (b4 & Hb4 & H). injection H as <-.
  apply mapM_fin in Hub as (-> & _). apply mapM_fin in Hb1 as (-> & F1).
  apply mapM_fin in Hb2 as (-> & F2). apply mapM_fin in Hb3 as (-> & F3).
  apply mapM_fin in Hb4 as (-> & F4).
  assert (forall idx M x, rowsel AA idx = Ok M -> rowsv M x = map (con_val nx A x) idx) as RS.
  { intros idx M x HM. rewrite (rowsv_rowsel _ _ _ _ HM). apply map_ext_in. intros p Hp.
    apply VAA. apply rowsel_ok in HM as (HM & _). rewrite Forall_forall in HM. rewrite <- RAA. auto. }
  constructor; simpl; auto.
  - rewrite !map_map. reflexivity.
  - split; apply Forall_app; auto.
  - pose proof (rowsel_ok _ _ _ HAe) as (_ & R & C).
    destruct ieq as [|p ieq'] eqn:E; auto. split; [discriminate|].
    split; [eapply wf_rowsel; eauto|]. split; [auto|]. split; [congruence|]. intros x. auto.
  - pose proof (wf_rowsel _ _ _ WAA HA1) as W1. pose proof (wf_rowsel _ _ _ WAA HA2) as W2.
    pose proof (wf_rowsel _ _ _ WAA HA3) as W3.
    pose proof (wf_vstackm _ _ _ W1 (wf_opp _ W2) HB1) as WB1.
    pose proof (wf_vstackm _ _ _ WB1 W3 HB2) as WB2.
    pose proof (wf_vstackm _ _ _ WB2 (wf_opp _ W3) HAi) as WAi.
    destruct (ilt ++ igt ++ ibx) as [|p q] eqn:E.
    + apply app_eq_nil in E as (? & E). apply app_eq_nil in E. tauto.
    + split; [discriminate|]. split; [auto|].
      pose proof (rowsel_ok _ _ _ HA1) as (_ & R1 & C1). pose proof (rowsel_ok _ _ _ HA2) as (_ & R2 & C2).
      pose proof (rowsel_ok _ _ _ HA3) as (_ & R3 & C3).
      pose proof (vstackm_ok _ _ _ HB1) as (_ & P1 & Q1). pose proof (vstackm_ok _ _ _ HB2) as (_ & P2 & Q2).
      pose proof (vstackm_ok _ _ _ HAi) as (_ & P3 & Q3). simpl in *.
      split; [congruence|]. split; [congruence|].
      intros x. rewrite (rowsv_vstackm _ _ _ _ WB2 HAi), (rowsv_vstackm _ _ _ _ WB1 HB2),
        (rowsv_vstackm _ _ _ _ W1 HB1), !rowsv_opp.
      rewrite (RS _ _ _ HA1), (RS _ _ _ HA2), (RS _ _ _ HA3), !map_map, <- !app_assoc. reflexivity.
Qed.

(** ** the constraint values *)
Definition lin_g (AA : nat -> K) (uu : list (ext K)) (sp : Pips.split (K := K)) : list K :=
  map (fun p => AA p - fval (nth p uu EPos))%K (s_ieq sp).
Definition lin_h (AA : nat -> K) (ll uu : list (ext K)) (sp : Pips.split (K := K)) : list K :=
  map (fun p => AA p - fval (nth p uu EPos))%K (s_ilt sp)
  ++ map (fun p => fval (nth p ll EPos) - AA p)%K (s_igt sp)
  ++ map (fun p => AA p - fval (nth p uu EPos))%K (s_ibx sp)
  ++ map (fun p => fval (nth p ll EPos) - AA p)%K (s_ibx sp).

Lemma map2_app {A B C} (f : A -> B -> C) a b c d : length a = length c ->
  map2 f (a ++ b) (c ++ d) = map2 f a c ++ map2 f b d.
Proof. intros H. unfold map2. rewrite combine_app by auto. apply map_app. Qed.

Section Values.
Variables (nx n : nat) (AA : list K -> nat -> K) (ll uu : list (ext K)) (sp : Pips.split (K := K)).
Hypothesis SF : split_facts nx n AA ll uu sp.

Lemma with_linear_g nl x v : with_linear nl (s_Ae sp) (s_be sp) x = Ok v ->
  v = nl ++ lin_g (AA x) uu sp.
Proof.
  pose proof (sf_Ae _ _ _ _ _ _ SF) as Q. unfold with_linear, lin_g.
  destruct (s_Ae sp) as [M|].
  - destruct Q as (_ & _ & R & C & V). intros H. apply bind_ok in H as (v' & Hv & H).
    apply bind_ok in H as (w & Hw & H). injection H as <-.
    apply mulv_rowsv in Hv as (_ & ->). apply ewise_ok in Hw as (_ & ->). f_equal.
    rewrite V, (sf_be _ _ _ _ _ _ SF), map2_map. reflexivity.
  - rewrite Q. simpl. intros H; injection H as <-. rewrite app_nil_r. auto.
Qed.

Lemma with_linear_h nl x v : with_linear nl (s_Ai sp) (s_bi sp) x = Ok v ->
  v = nl ++ lin_h (AA x) ll uu sp.
Proof.
  pose proof (sf_Ai _ _ _ _ _ _ SF) as Q. unfold with_linear, lin_h.
  destruct (s_Ai sp) as [M|].
  - destruct Q as (_ & _ & C & R & V). intros H. apply bind_ok in H as (v' & Hv & H).
    apply bind_ok in H as (w & Hw & H). injection H as <-.
    apply mulv_rowsv in Hv as (_ & ->). apply ewise_ok in Hw as (_ & ->). f_equal.
    rewrite V, (sf_bi _ _ _ _ _ _ SF).
    rewrite !map2_app, !map2_map by (rewrite !map_length; auto).
    f_equal. f_equal; [|f_equal]; apply map_ext; intros p; ring.
  - destruct Q as (-> & -> & ->). simpl. intros H; injection H as <-. rewrite app_nil_r. auto.
Qed.

(** what an evaluation of the problem returns *)

(** the value of [M w] in row j, zero without a matrix *)
Definition optmul (M : option (smat K)) (w : list K) (j : nat) : K :=
  match M with Some M => mulrow M w j | None => 0%K end.

Lemma with_linear_t_ok (dn A M : option (smat K)) :
  with_linear_t (match dn with Some _ => true | None => false end) dn A = Ok M ->
  match dn, A with
  | None, A => M = option_map transp A
  | Some d, None => M = Some d
  | Some d, Some A => exists M', M = Some M' /\ hstackm d (transp A) = Ok M'
  end.
Proof.
  unfold with_linear_t. destruct dn as [d|], A as [A|]; simpl; intros H; try (injection H as <-; auto; fail).
  apply bind_ok in H as (M' & HM & H). injection H as <-. eauto.
Qed.

Lemma eval_ok P O x e : eval P O sp None x = Ok e ->
  exists f df hn gn dhn dgn, p_f P x = Ok (f, df) /\ nonlinear_at P x hn gn dhn dgn /\
    e_f e = (f * o_cost_mult O)%K /\ e_df e = map (fun a => a * o_cost_mult O)%K df /\
    e_g e = gn ++ lin_g (AA x) uu sp /\ e_h e = hn ++ lin_h (AA x) ll uu sp /\
    e_ng e = length gn /\ e_nh e = length hn /\
    with_linear_t (match dhn with Some _ => true | None => false end) dhn (s_Ai sp) = Ok (e_dh e) /\
    with_linear_t (match dgn with Some _ => true | None => false end) dgn (s_Ae sp) = Ok (e_dg e).
Proof.
  unfold eval. intros H. apply bind_ok in H as ((f & df) & Hf & H). exists f, df. unfold nonlinear_at.
  destruct (p_gh P) as [gh|] eqn:EP.
  - apply bind_ok in H as ((((hn & gn) & dhn) & dgn) & Hgh & H).
    apply bind_ok in H as (h & Hh & H). apply bind_ok in H as (g & Hg & H).
    apply bind_ok in H as (dh & Hdh & H). apply bind_ok in H as (dg & Hdg & H). injection H as <-.
    exists hn, gn, dhn, dgn. simpl. apply with_linear_g in Hg. apply with_linear_h in Hh.
    repeat split; auto.
  - apply bind_ok in H as (h & Hh & H). apply bind_ok in H as (g & Hg & H). injection H as <-.
    exists [], [], None, None. simpl.
    assert (h = lin_h (AA x) ll uu sp) as ->.
    { destruct (s_Ai sp) as [M|] eqn:EA.
      - rewrite <- EA in Hh. apply with_linear_h in Hh. auto.
      - pose proof (sf_Ai _ _ _ _ _ _ SF) as Q. rewrite EA in Q. destruct Q as (Q1 & Q2 & Q3).
        injection Hh as <-. unfold lin_h. rewrite (sf_bi _ _ _ _ _ _ SF), Q1, Q2, Q3. reflexivity. }
    assert (g = lin_g (AA x) uu sp) as ->.
    { destruct (s_Ae sp) as [M|] eqn:EA.
      - rewrite <- EA in Hg. apply with_linear_g in Hg. auto.
      - pose proof (sf_Ae _ _ _ _ _ _ SF) as Q. rewrite EA in Q.
        injection Hg as <-. unfold lin_g. rewrite (sf_be _ _ _ _ _ _ SF), Q. reflexivity. }
    repeat split; auto; unfold with_linear_t; destruct (s_Ai sp), (s_Ae sp); reflexivity.
Qed.

(** membership in the four groups *)
Let lo p := nth p ll ENeg.
Let up p := nth p uu EPos.
Lemma EPS_eps : (EPS : K) = eps_.
Proof. unfold EPS, eps_. change (2 ^ 52)%Z with 4503599627370496%Z. rewrite fofZ_1. reflexivity. Qed.

Lemma Llen : length uu = length ll.
Proof. rewrite (sf_len _ _ _ _ _ _ SF), (sf_len' _ _ _ _ _ _ SF). auto. Qed.
Lemma lo_at p : p < n -> nth p ll EPos = lo p.
Proof. intros H. apply nth_indep. rewrite (sf_len _ _ _ _ _ _ SF). auto. Qed.
Lemma near_tight u l : near u l = true <-> tight l u.
Proof.
  unfold near, tight, fle, le. destruct u, l; try (split; [discriminate|tauto]).
  rewrite EPS_eps. destruct (fltb _ _); simpl; split; congruence.
Qed.
Lemma apart_tight u l : ordered l u -> apart u l = true <-> ~ tight l u.
Proof.
  unfold ordered, apart, tight, le. rewrite EPS_eps. intros O.
  destruct u as [a| |], l as [b| |]; simpl in O; try tauto;
    try (split; [intros _ C; exact C|reflexivity]).
  clear O. destruct (fltb eps_ (fabs (a - b)%K)); split; auto; try congruence.
Qed.
Lemma big_iff u : big u = true <-> unb_up u.
Proof.
  unfold big, unb_up, fle, le, BIG, huge. destruct u; try tauto.
  - destruct (fltb _ _); simpl; split; congruence.
  - split; [discriminate|tauto].
Qed.
Lemma mbig_iff u : mbig u = true <-> unb_lo u.
Proof.
  unfold mbig, unb_lo, fle, le, BIG, huge. destruct u; try tauto.
  - destruct (fltb _ _); simpl; split; congruence.
  - split; [discriminate|tauto].
Qed.
Lemma nbig_iff u : negb (big u) = true <-> ~ unb_up u.
Proof. rewrite <- big_iff. destruct (big u); simpl; split; congruence. Qed.
Lemma nmbig_iff u : negb (mbig u) = true <-> ~ unb_lo u.
Proof. rewrite <- mbig_iff. destruct (mbig u); simpl; split; congruence. Qed.

Lemma in_ieq p : In p (s_ieq sp) <-> p < n /\ tight (lo p) (up p).
Proof.
  rewrite (sf_ieq _ _ _ _ _ _ SF), (in_find_map2 _ _ _ _ EPos ENeg Llen), near_tight.
  rewrite (sf_len' _ _ _ _ _ _ SF). reflexivity.
Qed.
Lemma in_igt p : In p (s_igt sp) <-> p < n /\ unb_up (up p) /\ ~ unb_lo (lo p).
Proof.
  rewrite (sf_igt _ _ _ _ _ _ SF), (in_find_map2 _ _ _ _ EPos ENeg Llen), andb_true_iff, nmbig_iff, big_iff.
  rewrite (sf_len' _ _ _ _ _ _ SF). reflexivity.
Qed.
Lemma in_ilt p : In p (s_ilt sp) <-> p < n /\ unb_lo (lo p) /\ ~ unb_up (up p).
Proof.
  rewrite (sf_ilt _ _ _ _ _ _ SF), (in_find_map2 _ _ _ _ EPos ENeg Llen), andb_true_iff, nbig_iff, mbig_iff.
  rewrite (sf_len' _ _ _ _ _ _ SF). reflexivity.
Qed.
Lemma in_ibx p : ordered (lo p) (up p) ->
  In p (s_ibx sp) <-> p < n /\ ~ tight (lo p) (up p) /\ ~ unb_up (up p) /\ ~ unb_lo (lo p).
Proof.
  intros O. rewrite (sf_ibx _ _ _ _ _ _ SF), (in_find_map2 _ _ _ _ EPos ENeg Llen), !andb_true_iff,
    nbig_iff, nmbig_iff, apart_tight by exact O.
  rewrite (sf_len' _ _ _ _ _ _ SF). reflexivity.
Qed.

Hypothesis Ord : forall p, p < n -> ordered (lo p) (up p).

Lemma sub_le_0 a b : le (a - b)%K 0%K <-> le a b.
Proof.
  rewrite (le_sub a b), (le_sub (a - b)%K 0%K). replace (0 - (a - b))%K with (b - a)%K by ring. reflexivity.
Qed.

Lemma fin_up p : ~ unb_up (up p) -> p < n -> up p = EFin (fval (up p)).
Proof.
  intros H Hp. specialize (Ord p Hp). destruct (up p); simpl in *; auto; try tauto.
  destruct (lo p); simpl in Ord; tauto.
Qed.
Lemma fin_lo p : ~ unb_lo (lo p) -> p < n -> lo p = EFin (fval (lo p)).
Proof.
  intros H Hp. specialize (Ord p Hp). destruct (lo p); simpl in *; auto; try tauto.
Qed.

Lemma linear_iff x :
  (Forall (fun a => a = 0%K) (lin_g (AA x) uu sp) /\ Forall (fun a => le a 0%K) (lin_h (AA x) ll uu sp))
  <-> forall p, p < n -> meets (lo p) (up p) (AA x p).
Proof.
  unfold lin_g, lin_h. rewrite !Forall_app, !Forall_map, !Forall_forall. split.
  - intros (HE & HL & HG & HU & HD) p Hp. unfold meets.
    destruct (near (up p) (lo p)) eqn:EN.
    + apply near_tight in EN. left. split; auto.
      specialize (HE p (proj2 (in_ieq p) (Logic.conj Hp EN))). simpl in HE. fold (up p) in HE.
      destruct (up p) as [b| |] eqn:EU; try (destruct (lo p); destruct EN; fail).
      simpl in HE. f_equal. transitivity (AA x p - (AA x p - b))%K; [ring|]. rewrite HE. ring.
    + right. assert (~ tight (lo p) (up p)) as NT by (rewrite <- near_tight, EN; discriminate).
      split; auto.
      assert (unb_lo (lo p) \/ ~ unb_lo (lo p)) as DL.
      { rewrite <- mbig_iff. destruct (mbig (lo p)); auto. }
      assert (unb_up (up p) \/ ~ unb_up (up p)) as DU.
      { rewrite <- big_iff. destruct (big (up p)); auto. }
      assert (~ unb_lo (lo p) -> le (fval (lo p)) (AA x p)) as LO.
      { intros NL. destruct DU as [U|U].
        - specialize (HG p (proj2 (in_igt p) (Logic.conj Hp (Logic.conj U NL)))). simpl in HG.
          rewrite lo_at in HG by auto. apply sub_le_0. exact HG.
        - specialize (HD p (proj2 (in_ibx p (Ord p Hp)) (Logic.conj Hp (Logic.conj NT (Logic.conj U NL))))). simpl in HD.
          rewrite lo_at in HD by auto. apply sub_le_0. exact HD. }
      assert (~ unb_up (up p) -> le (AA x p) (fval (up p))) as UP.
      { intros NU. destruct DL as [L|L].
        - specialize (HL p (proj2 (in_ilt p) (Logic.conj Hp (Logic.conj L NU)))). apply sub_le_0. exact HL.
        - specialize (HU p (proj2 (in_ibx p (Ord p Hp)) (Logic.conj Hp (Logic.conj NT (Logic.conj NU L))))).
          apply sub_le_0. exact HU. }
      specialize (Ord p Hp). split.
      * destruct DL as [L|L].
        -- unfold unb_lo, lower_ok in *. destruct (lo p); auto.
        -- specialize (LO L). unfold lower_ok. destruct (lo p); simpl in *; auto.
      * destruct DU as [U|U].
        -- unfold unb_up, upper_ok in *. destruct (up p); auto.
        -- specialize (UP U). unfold upper_ok. destruct (up p), (lo p); simpl in *; auto.
  - intros H. assert (forall p, p < n -> ~ unb_up (up p) -> le (AA x p) (fval (up p))) as UP.
    { intros p Hp NU. destruct (H p Hp) as [(T & E)|(T & L & U)].
      - rewrite E. simpl. apply le_refl.
      - unfold unb_up, upper_ok in *. destruct (up p); simpl; tauto. }
    assert (forall p, p < n -> ~ unb_lo (lo p) -> le (fval (lo p)) (AA x p)) as LO.
    { intros p Hp NL. destruct (H p Hp) as [(T & E)|(T & L & U)].
      - specialize (Ord p Hp). rewrite E in Ord. destruct (lo p); simpl in *; tauto.
      - unfold unb_lo, lower_ok in *. destruct (lo p); simpl; tauto. }
    repeat split; intros p Hp.
    + apply in_ieq in Hp as (Hp & T). destruct (H p Hp) as [(_ & E)|(NT & _)]; [|tauto].
      fold (up p). rewrite E. simpl. ring.
    + apply in_ilt in Hp as (Hp & _ & U). apply sub_le_0. apply UP; auto.
    + apply in_igt in Hp as (Hp & U & L). rewrite lo_at by auto. apply sub_le_0. apply LO; auto.
    + assert (p < n) as Lp. { rewrite (sf_ibx _ _ _ _ _ _ SF) in Hp. apply (in_find_map2 _ _ _ _ EPos ENeg Llen) in Hp.
        rewrite (sf_len' _ _ _ _ _ _ SF) in Hp. tauto. }
      apply in_ibx in Hp as (_ & _ & U & L); auto. apply sub_le_0. apply UP; auto.
    + assert (p < n) as Lp. { rewrite (sf_ibx _ _ _ _ _ _ SF) in Hp. apply (in_find_map2 _ _ _ _ EPos ENeg Llen) in Hp.
        rewrite (sf_len' _ _ _ _ _ _ SF) in Hp. tauto. }
      apply in_ibx in Hp as (_ & _ & U & L); auto. rewrite lo_at by auto. apply sub_le_0. apply LO; auto.
Qed.

Lemma sub_lt a b t : lt (a - b)%K t <-> lt a (b + t)%K.
Proof.
  rewrite (lt_sub a (b + t)%K), (lt_sub (a - b)%K t).
  replace (t - (a - b))%K with (b + t - a)%K by ring. reflexivity.
Qed.

(** within a tolerance *)
Lemma linear_to_rows x t :
  Forall (fun a => lt (fabs a) t) (lin_g (AA x) uu sp) -> Forall (fun a => lt a t) (lin_h (AA x) ll uu sp) ->
  forall p, p < n -> meets_to t (lo p) (up p) (AA x p).
Proof.
  unfold lin_g, lin_h. rewrite !Forall_app, !Forall_map, !Forall_forall.
  intros HE (HL & HG & HU & HD) p Hp. unfold meets_to.
  destruct (near (up p) (lo p)) eqn:EN.
  + apply near_tight in EN. left. split; auto.
    specialize (HE p (proj2 (in_ieq p) (Logic.conj Hp EN))). simpl in HE. fold (up p) in HE.
    destruct (up p) as [b| |] eqn:EU; try (destruct (lo p); destruct EN; fail).
    simpl in HE. exists b. auto.
  + right. assert (~ tight (lo p) (up p)) as NT by (rewrite <- near_tight, EN; discriminate).
    split; auto.
    assert (unb_lo (lo p) \/ ~ unb_lo (lo p)) as DL.
    { rewrite <- mbig_iff. destruct (mbig (lo p)); auto. }
    assert (unb_up (up p) \/ ~ unb_up (up p)) as DU.
    { rewrite <- big_iff. destruct (big (up p)); auto. }
    assert (~ unb_lo (lo p) -> lt (fval (lo p)) (AA x p + t)%K) as LO.
    { intros NL. destruct DU as [U|U].
      - specialize (HG p (proj2 (in_igt p) (Logic.conj Hp (Logic.conj U NL)))). simpl in HG.
        rewrite lo_at in HG by auto. apply sub_lt. exact HG.
      - specialize (HD p (proj2 (in_ibx p (Ord p Hp)) (Logic.conj Hp (Logic.conj NT (Logic.conj U NL))))). simpl in HD.
        rewrite lo_at in HD by auto. apply sub_lt. exact HD. }
    assert (~ unb_up (up p) -> lt (AA x p) (fval (up p) + t)%K) as UP.
    { intros NU. destruct DL as [L|L].
      - specialize (HL p (proj2 (in_ilt p) (Logic.conj Hp (Logic.conj L NU)))). apply sub_lt. exact HL.
      - specialize (HU p (proj2 (in_ibx p (Ord p Hp)) (Logic.conj Hp (Logic.conj NT (Logic.conj NU L))))).
        apply sub_lt. exact HU. }
    specialize (Ord p Hp). split.
    * destruct DL as [L|L].
      -- unfold unb_lo, lower_to in *. destruct (lo p); auto.
      -- specialize (LO L). unfold lower_to. destruct (lo p); simpl in *; auto.
    * destruct DU as [U|U].
      -- unfold unb_up, upper_to in *. destruct (up p); auto.
      -- specialize (UP U). unfold upper_to. destruct (up p), (lo p); simpl in *; auto.
Qed.
End Values.
End PipsA.
