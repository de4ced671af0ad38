(** The linear constraints of the AC optimal power flow, block by block. *)
From Verif Require Import Lib.ListFacts Model.AcOpf Spec.AcOptSpec Proofs.LinAlgFacts Proofs.SparseFacts
  Proofs.BlockFacts Proofs.FldFacts Proofs.OrdFacts Proofs.NetworkA Proofs.NetworkB Proofs.NetworkE Proofs.PipsF
  Proofs.OpfLinA Proofs.OpfLinB Proofs.DcOpfA Proofs.DcOpfB.
From Verif Require Proofs.PfsolnC.
Local Open Scope nat_scope.

Section AcOptA.
Context {K : Type} {F : Fld K}.
Add Field KF : (@f_ok K F).
Variables (sin_ cos_ : K -> K) (atan2 norm2 : K -> K -> K).
Variables (B : K) (bus gen branch : list (list K)) (nx : nat).
Notation nb := (length bus).
Notation ng := (length gen).
Notation g_ i := (nth i gen []).
Hypothesis NX : nb + nb + ng + ng <= nx.

Lemma map_by_nth {A C} (f : A -> C) (l : list A) d : map f l = map (fun k => f (nth k l d)) (seq 0 (length l)).
Proof. rewrite (PfsolnC.list_as_map l d) at 1. rewrite map_map. reflexivity. Qed.

(** a block with two entries per row, for P and Q of a generator *)
Definition pq_rows (idx : list nat) (lo : nat -> ext K) (up : nat -> ext K) (p q : nat -> K) : list (row (K := K)) :=
  map (fun i => (lo i, up i, fun x => (p i * ac_output nb x i + q i * ac_output nb x (ng + i))%K)) idx.
Lemma pq_desc idx (ds es : list K) l u lo up p q A :
  ds = map p idx -> es = map q idx -> l = map lo idx -> u = map up idx ->
  sparse (ds ++ es) (seq 0 (length idx) ++ seq 0 (length idx)) (idx ++ map (fun i => i + ng) idx) (length idx) (2 * ng) = Ok A ->
  desc nx (place nx (fun j => nb + nb + j) A) l u (pq_rows idx lo up p q).
Proof.
  intros -> -> -> -> H. apply two_ents in H as (W & N1 & N2 & _ & RV); rewrite ?map_length; auto.
  unfold pq_rows. split; [apply wf_place; auto; intros; lia|]. split; [cbn; rewrite map_length; auto|]. split; [auto|].
  rewrite !map_map. unfold rlo, rup. cbn [fst snd]. do 2 (split; [reflexivity|]).
  intros x Lx. rewrite (rowsv_place nx _ A x (skipn (nb + nb) x)); auto.
  2:{ intros j Hj. rewrite nth_skipn_d. reflexivity. }
  rewrite map_map. cbn [snd]. unfold rowsv. rewrite N1.
  rewrite (map_by_nth _ idx 0). apply map_ext_in. intros k Hk. apply in_seq in Hk.
  rewrite <- row_val_mulrow by auto. rewrite RV by lia. rewrite !(nth_map_lt _ idx k _ 0) by lia. rewrite !nth_skipn_d.
  unfold ac_output. replace (nb + nb + (nth k idx 0 + ng)) with (nb + nb + (ng + nth k idx 0)) by lia. reflexivity.
Qed.

(** ** dispatchable loads *)
Definition vl_rows (ivl : list nat) : list row :=
  pq_rows ivl (fun _ => EFin 0%K) (fun _ => EFin 0%K)
    (fun i => sin_ (pf_angle atan2 B (g_ i))) (fun i => - cos_ (pf_angle atan2 B (g_ i)))%K.
Lemma vl_desc A l u ivl : makeAvl sin_ cos_ atan2 B gen = Ok (A, l, u, ivl) ->
  desc nx (place nx (fun j => nb + nb + j) A) l u (vl_rows ivl) /\
  (forall i, In i ivl <-> exists g, nth_error gen i = Some g /\ var_load g).
Proof.
  intros H. unfold makeAvl in H. cbv zeta in H. destruct (feqb B 0%K) eqn:EB; [discriminate|]. apply feqb_false in EB.
  apply bind_ok in H as (pmin & Hp & H). apply bind_ok in H as (qmin & Hq & H). apply bind_ok in H as (qmax & Hx & H).
  apply bind_ok in H as (ld & Hl & H). apply col_ok in Hp as (_ & ->). apply col_ok in Hq as (_ & ->).
  apply col_ok in Hx as (_ & ->). rewrite !map_map, !map2_map in H.
  set (ivl0 := find _) in H.
  assert (forall i, In i ivl0 <-> exists g, nth_error gen i = Some g /\ var_load g) as HI.
  { intros i. unfold ivl0. rewrite in_find. split.
    - intros Hi. pose proof (nth_error_some_lt _ _ _ Hi) as Li. rewrite map2_length, map_length in Li.
      destruct (nth_error_lt gen i) as (g & Hg); [lia|]. destruct (nth_error_lt ld i) as (b & Hb); [lia|].
      rewrite (nth_error_map2 _ _ _ _ _ _ Hb (map_nth_error _ _ _ Hg)) in Hi. injection Hi as Hi.
      rewrite !div_eqb in Hi by auto. exists g. split; auto.
      destruct (mapM_nth _ _ _ _ _ Hl Hg) as (b' & E & Hb'). assert (b' = b) by congruence. subst b'.
      apply (var_load_dec g b E). exact Hi.
    - intros (g & Hg & HV). destruct (mapM_nth _ _ _ _ _ Hl Hg) as (b & E & Hb).
      rewrite (nth_error_map2 _ _ _ _ _ _ Hb (map_nth_error _ _ _ Hg)). f_equal.
      rewrite !div_eqb by auto. apply (var_load_dec g b E). exact HV. }
  clearbody ivl0.
  apply bind_ok in H as (xx & Hxx & H). apply bind_ok in H as (ql & Hql & H). apply bind_ok in H as (qh & Hqh & H).
  apply bind_ok in H as (A' & HA & H). injection H as <- <- <- <-. split; [|exact HI].
  assert (Forall (fun i => i < length gen) ivl0) as LI.
  { apply Forall_forall. intros i Hi. apply HI in Hi as (g & Hg & _). eapply nth_error_some_lt; eauto. }
  assert (forall (f : list K -> K) v, gather (map f gen) ivl0 = Ok v -> v = map (fun i => f (nth i gen [])) ivl0) as G.
  { intros f v E. apply (gather_all _ _ _ 0%K) in E. rewrite E. apply map_ext_in. intros i Hi.
    rewrite Forall_forall in LI. apply nth_map_lt; auto. }
  apply G in Hxx, Hql, Hqh. subst xx ql qh. rewrite !map2_map in HA.
  assert (TH : forall i, ((if feqb (nth QMIN (g_ i) 0 / B) 0 then nth QMAX (g_ i) 0 / B else 0)
     + (if feqb (nth QMAX (g_ i) 0 / B) 0 then nth QMIN (g_ i) 0 / B else 0))%K = (pf_limit (g_ i) / B)%K).
  { intros i. unfold pf_limit, cell. rewrite !div_eqb by auto. destruct (feqb _ _), (feqb _ _); field; auto. }
  rewrite !map_map in HA.
  rewrite (map_ext _ (fun i => sin_ (pf_angle atan2 B (g_ i)))) in HA by (intros i; rewrite TH; reflexivity).
  rewrite (map_ext (fun i => (- cos_ _)%K) (fun i => (- cos_ (pf_angle atan2 B (g_ i)))%K)) in HA by (intros i; rewrite TH; reflexivity).
  refine (pq_desc ivl0 _ _ _ _ _ _ _ _ _ eq_refl eq_refl _ _ HA); rewrite map_const; reflexivity.
Qed.

(** ** capability curves *)
Definition hn (g : list K) : K := norm2 (cell g QC1MAX - cell g QC2MAX)%K (cell g PC2 - cell g PC1)%K.
Definition ln_ (g : list K) : K := norm2 (cell g QC2MIN - cell g QC1MIN)%K (cell g PC1 - cell g PC2)%K.
Definition h_rhs (g : list K) : K :=
  ((cell g QC1MAX - cell g QC2MAX) * cell g PC1 + (cell g PC2 - cell g PC1) * cell g QC1MAX)%K.
Definition l_rhs (g : list K) : K :=
  ((cell g QC2MIN - cell g QC1MIN) * cell g PC1 + (cell g PC1 - cell g PC2) * cell g QC1MIN)%K.
Definition pqh_rows (ih : list nat) : list row :=
  pq_rows ih (fun _ => ENeg) (fun i => EFin (h_rhs (g_ i) / hn (g_ i) / B)%K)
    (fun i => (cell (g_ i) QC1MAX - cell (g_ i) QC2MAX) / hn (g_ i))%K (fun i => (cell (g_ i) PC2 - cell (g_ i) PC1) / hn (g_ i))%K.
Definition pql_rows (il : list nat) : list row :=
  pq_rows il (fun _ => ENeg) (fun i => EFin (l_rhs (g_ i) / ln_ (g_ i) / B)%K)
    (fun i => (cell (g_ i) QC2MIN - cell (g_ i) QC1MIN) / ln_ (g_ i))%K (fun i => (cell (g_ i) PC1 - cell (g_ i) PC2) / ln_ (g_ i))%K.

Lemma edge_desc idx edge (A : smat K) ub (p q r : list K -> K) :
  (forall g t, edge g = Ok t -> t = (p g, q g, r g)) ->
  edge_rows B ng gen idx edge = Ok (A, ub) ->
  Forall (fun i => exists t, edge (g_ i) = Ok t) idx /\ length ub = length idx /\
  desc nx (place nx (fun j => nb + nb + j) A) (repeat ENeg (length ub)) (map EFin ub)
    (pq_rows idx (fun _ => ENeg) (fun i => EFin (r (g_ i) / B)%K) (fun i => p (g_ i)) (fun i => q (g_ i))).
Proof.
  intros HE H. unfold edge_rows in H. cbv zeta in H. apply bind_ok in H as (rows & Hr & H).
  apply bind_ok in H as (d & Hd & H). apply bind_ok in H as (A' & HA & H).
  assert (A' = A /\ ub = map (fun t : K * K * K => (snd t / B)%K) d) as (-> & ->).
  { destruct (negb _ && _); [discriminate|]. injection H as -> <-. auto. } clear H.
  apply (gather_all _ _ _ []) in Hr. subst rows.
  assert (d = map (fun i => (p (g_ i), q (g_ i), r (g_ i))) idx) as ->.
  { pose proof (mapM_inv edge (fun g => (p g, q g, r g)) (map (fun i => g_ i) idx) d) as M. rewrite map_map in M. apply M; auto. }
  rewrite !map_map in HA |- *. cbn [fst snd] in *. rewrite map_length. split; [|split; [auto|]].
  - apply Forall_forall. intros i Hi. apply In_nth_error in Hi as (k & Hk).
    destruct (mapM_nth _ _ _ k (g_ i) Hd) as (t & Ht & _); [rewrite nth_error_map, Hk; auto|]. eauto.
  - refine (pq_desc idx _ _ _ _ _ _ _ _ _ eq_refl eq_refl _ _ HA); [rewrite map_const; reflexivity|reflexivity].
Qed.
Ltac gets H := repeat (let a := fresh "a" in let Ha := fresh "Ha" in
  apply bind_ok in H as (a & Ha & H); apply get_ok in Ha; apply (nth_error_nth _ _ 0%K) in Ha; subst a).
Lemma upper_val g t : upper_edge norm2 g = Ok t ->
  t = ((cell g QC1MAX - cell g QC2MAX) / hn g, (cell g PC2 - cell g PC1) / hn g, h_rhs g / hn g)%K /\ hn g <> 0%K.
Proof.
  unfold upper_edge. intros H. gets H. cbv zeta in H. unfold norm_edge in H. fold (cell g QC1MAX) (cell g QC2MAX) (cell g PC1) (cell g PC2) in H.
  fold (hn g) in H. destruct (feqb (hn g) 0%K) eqn:E; [discriminate|]. apply feqb_false in E. injection H as <-. auto.
Qed.
Lemma lower_val g t : lower_edge norm2 g = Ok t ->
  t = ((cell g QC2MIN - cell g QC1MIN) / ln_ g, (cell g PC1 - cell g PC2) / ln_ g, l_rhs g / ln_ g)%K /\ ln_ g <> 0%K.
Proof.
  unfold lower_edge. intros H. gets H. cbv zeta in H. unfold norm_edge in H. fold (cell g QC1MIN) (cell g QC2MIN) (cell g PC1) (cell g PC2) in H.
  fold (ln_ g) in H. destruct (feqb (ln_ g) 0%K) eqn:E; [discriminate|]. apply feqb_false in E. injection H as <-. auto.
Qed.
Lemma chord_form (a b p1 p2 pm : K) : p1 <> p2 -> (a + (pm - p1) * (b - a) / (p2 - p1))%K = chord (p1, a) (p2, b) pm.
Proof.
  intros N. unfold chord, slope. cbn [fst snd]. field. intros C. apply N.
  transitivity (p2 - (p2 - p1))%K; [ring|rewrite C; ring].
Qed.
Lemma cap_upper g : hasPQcap Upper g = Ok true <-> (exists b, hasPQcap Upper g = Ok b) /\ cuts_upper g.
Proof.
  assert (forall b, hasPQcap Upper g = Ok b -> (b = true <-> cuts_upper g)) as X.
  { intros b H. unfold hasPQcap, edge_at_pmax in H. apply bind_ok in H as (p1 & Hp1 & H). apply bind_ok in H as (p2 & Hp2 & H).
    apply get_ok in Hp1, Hp2. apply (nth_error_nth _ _ 0%K) in Hp1, Hp2. fold (cell g PC1) in Hp1. fold (cell g PC2) in Hp2. subst p1 p2.
    unfold cuts_upper, has_curve.
    destruct (feqb _ _) eqn:E.
    - apply feqb_ok in E. injection H as <-. split; [discriminate|tauto].
    - apply feqb_false in E. cbn [bind] in H. apply bind_ok in H as (up & Hu & H). apply bind_ok in Hu as (q & Hq & Hu). gets Hq.
      gets Hu. injection Hq as <-. injection Hu as <-. injection H as <-. cbn [orb]. unfold lt.
      rewrite <- chord_form by auto. unfold cell. tauto. }
  split.
  - intros H. split; [eauto|]. apply (X true H). auto.
  - intros ((b & H) & C). rewrite H. f_equal. apply (X b H). auto.
Qed.
Lemma cap_lower g : hasPQcap Lower g = Ok true <-> (exists b, hasPQcap Lower g = Ok b) /\ cuts_lower g.
Proof.
  assert (forall b, hasPQcap Lower g = Ok b -> (b = true <-> cuts_lower g)) as X.
  { intros b H. unfold hasPQcap, edge_at_pmax in H. apply bind_ok in H as (p1 & Hp1 & H). apply bind_ok in H as (p2 & Hp2 & H).
    apply get_ok in Hp1, Hp2. apply (nth_error_nth _ _ 0%K) in Hp1, Hp2. fold (cell g PC1) in Hp1. fold (cell g PC2) in Hp2. subst p1 p2.
    unfold cuts_lower, has_curve.
    destruct (feqb _ _) eqn:E.
    - apply feqb_ok in E. injection H as <-. split; [discriminate|tauto].
    - apply feqb_false in E. apply bind_ok in H as (lo & Hu & H). cbn [bind] in H. apply bind_ok in Hu as (q & Hq & Hu). gets Hq.
      gets Hu. injection Hq as <-. injection Hu as <-. injection H as <-. rewrite orb_false_r. unfold lt.
      rewrite <- chord_form by auto. unfold cell. tauto. }
  split.
  - intros H. split; [eauto|]. apply (X true H). auto.
  - intros ((b & H) & C). rewrite H. f_equal. apply (X b H). auto.
Qed.

Lemma apq_desc Ah uh Al ul ih il : makeApq norm2 B gen = Ok (Ah, uh, (Al, ul), (ih, il)) ->
  desc nx (place nx (fun j => nb + nb + j) Ah) (repeat ENeg (length uh)) (map EFin uh) (pqh_rows ih) /\
  desc nx (place nx (fun j => nb + nb + j) Al) (repeat ENeg (length ul)) (map EFin ul) (pql_rows il) /\
  (forall i, In i ih <-> exists g, nth_error gen i = Some g /\ cuts_upper g) /\
  (forall i, In i il <-> exists g, nth_error gen i = Some g /\ cuts_lower g) /\
  Forall (fun i => hn (g_ i) <> 0%K) ih /\ Forall (fun i => ln_ (g_ i) <> 0%K) il /\
  length uh = length ih /\ length ul = length il.
Proof.
  intros H. unfold makeApq in H. apply bind_ok in H as (up & Hu & H). apply bind_ok in H as (lo & Hl & H).
  cbv zeta in H. apply bind_ok in H as ((Ah', uh') & H1 & H). apply bind_ok in H as ((Al', ul') & H2 & H).
  injection H as <- <- <- <- <- <-.
  pose proof (edge_desc (find up) (upper_edge norm2) Ah' uh'
     (fun g => (cell g QC1MAX - cell g QC2MAX) / hn g)%K (fun g => (cell g PC2 - cell g PC1) / hn g)%K (fun g => h_rhs g / hn g)%K
     (fun g t Ht => proj1 (upper_val g t Ht)) H1) as (F1 & L1 & D1).
  pose proof (edge_desc (find lo) (lower_edge norm2) Al' ul'
     (fun g => (cell g QC2MIN - cell g QC1MIN) / ln_ g)%K (fun g => (cell g PC1 - cell g PC2) / ln_ g)%K (fun g => l_rhs g / ln_ g)%K
     (fun g t Ht => proj1 (lower_val g t Ht)) H2) as (F2 & L2 & D2).
  split; [exact D1|]. split; [exact D2|]. split; [|split; [|split; [|split; [|split; auto]]]].
  - intros i. rewrite (find_mapM _ _ _ i Hu). split.
    + intros (a & Ha & E). apply cap_upper in E. exists a. tauto.
    + intros (g & Hg & C). exists g. split; auto. apply cap_upper. split; auto.
      destruct (mapM_nth _ _ _ _ _ Hu Hg) as (b & E & _). eauto.
  - intros i. rewrite (find_mapM _ _ _ i Hl). split.
    + intros (a & Ha & E). apply cap_lower in E. exists a. tauto.
    + intros (g & Hg & C). exists g. split; auto. apply cap_lower. split; auto.
      destruct (mapM_nth _ _ _ _ _ Hl Hg) as (b & E & _). eauto.
  - eapply Forall_impl; [|exact F1]. intros i (t & Ht). apply (upper_val _ _ Ht).
  - eapply Forall_impl; [|exact F2]. intros i (t & Ht). apply (lower_val _ _ Ht).
Qed.

(** ** cost variables *)
Definition acy_rows (gc : list (list K)) : list row :=
  flat_map (fun ji => map (fun s => (ENeg, EFin (seg_b B s),
      fun x => (seg_m B s * ac_output nb x (snd ji) + - (1) * nth (nb + nb + ng + ng + fst ji) x 0)%K)) (segs gc (snd ji)))
    (ypairs gc).
Lemma acy_desc gc Ay by_ : length gc = ng -> makeAy B ng gc 1 ng (1 + ng + ng) = Ok (Ay, by_) ->
  nb + nb + ng + ng + length (pwl_rows gc) <= nx ->
  desc nx (place nx (fun j => nb + nb + j) Ay) (repeat ENeg (length by_)) (map EFin by_) (acy_rows gc).
Proof.
  intros LG H Hn. destruct (makeAy_rows B ng gc 1 ng (1 + ng + ng) Ay by_ ltac:(lia) H) as (W & L & C & EB & EV & EN & EZ).
  assert (by_ = map (fun r : row => match rup r with EFin b => b | _ => 0%K end) (acy_rows gc)) as Eb.
  { rewrite EB. unfold acy_rows. rewrite map_flat_map. apply flat_map_ext_in. intros ji _. unfold seg_rhs. rewrite map_map. reflexivity. }
  assert (map EFin by_ = map rup (acy_rows gc)) as EU.
  { rewrite Eb, map_map. apply map_ext_in. intros r Hr. unfold acy_rows in Hr. apply in_flat_map in Hr as (ji & _ & Hr).
    apply in_map_iff in Hr as (s & <- & _). reflexivity. }
  assert (length by_ = length (acy_rows gc)) as LB by (rewrite Eb, map_length; auto).
  split; [apply wf_place; auto; intros j Hj; lia|]. split; [cbn; lia|]. split; [auto|]. split; [|split; auto].
  - rewrite LB, <- map_const. apply map_ext_in. intros r Hr. unfold acy_rows in Hr. apply in_flat_map in Hr as (ji & _ & Hr).
    apply in_map_iff in Hr as (s & <- & _). reflexivity.
  - intros x Lx. rewrite (rowsv_place nx _ Ay x (skipn (nb + nb) x)); auto.
    2:{ intros j Hj. rewrite nth_skipn_d. reflexivity. }
    rewrite EV. unfold acy_rows. rewrite map_flat_map. apply flat_map_ext_in. intros (j, i) Hji. unfold seg_lhs. rewrite map_map.
    cbn [fst snd]. apply map_ext. intros s. rewrite !nth_skipn_d. unfold ac_output.
    apply in_ypairs in Hji. apply nth_error_In in Hji. unfold pwl_rows in Hji. apply filter_In in Hji as (Hi & _).
    apply in_seq in Hi. unfold sidx. destruct (Nat.ltb_spec ng i); [lia|].
    replace (1 + i - 1) with i by lia. replace (nb + nb + (1 + ng + ng + j - 1)) with (nb + nb + ng + ng + j) by lia. reflexivity.
Qed.
End AcOptA.

(** ** user constraints *)
Section User.
Context {K : Type} {F : Fld K}.
Variables (nu ny : nat) (U : user (K := K)).
Definition acu_rows : list row :=
  match u_A U with
  | Some M => map (fun i => (lower (u_l U) i, upper (u_u U) i, fun x => row_val M (without_y nu ny x) i)) (seq 0 (nrows M))
  | None => []
  end.
Lemma acu_desc M nz : u_A U = Some M -> wf M -> nu <= ncols M -> nz = ncols M - nu ->
  length (def_bounds ENeg (nrows M) (u_l U)) = nrows M -> length (def_bounds EPos (nrows M) (u_u U)) = nrows M ->
  desc (nu + ny + nz) (place (nu + ny + nz) (fun j => if j <? nu then j else j + ny) M)
    (def_bounds ENeg (nrows M) (u_l U)) (def_bounds EPos (nrows M) (u_u U)) acu_rows.
Proof.
  intros EU W H1 H2 L1 L2. unfold acu_rows. rewrite EU. rewrite def_bounds_map by auto. rewrite (def_bounds_map EPos) by auto.
  split; [apply wf_place; auto; intros j Hj; destruct (Nat.ltb_spec j nu); lia|].
  split; [cbn; rewrite map_length, seq_length; auto|]. split; [auto|].
  rewrite !map_map. unfold rlo, rup. cbn [fst snd]. do 2 (split; [reflexivity|]).
  intros x Lx. rewrite (rowsv_place _ _ M x (without_y nu ny x)); auto.
  2:{ intros j Hj. rewrite nth_without_y by lia. reflexivity. }
  rewrite map_map. unfold rowsv. apply map_ext. intros i. cbn [snd]. rewrite row_val_mulrow by auto. reflexivity.
Qed.
End User.
