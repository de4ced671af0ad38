(** Final facts about the solver: the split exists, results in terms of the caller's data. *)
From Verif Require Import Lib.ListFacts Model.Pips Spec.PipsSpec Spec.PipsRun Proofs.LinAlgFacts Proofs.SparseFacts
  Proofs.FldFacts Proofs.OrdFacts Proofs.NetworkB Proofs.AcPfA Proofs.BlockFacts Proofs.PipsA Proofs.PipsB
  Proofs.PipsC Proofs.PipsD Proofs.PipsE Proofs.PipsF.
Local Open Scope nat_scope.

Section PipsG.
Context {K : Type} {F : Fld K}.
Add Field KF : (@f_ok K F).

(** ** ordered bounds can be split *)
Lemma rowsel_total (M : smat K) idx : Forall (fun i => i < nrows M) idx ->
  exists R, rowsel M idx = Ok R /\ nrows R = length idx /\ ncols R = ncols M.
Proof.
  intros H. unfold rowsel. replace (forallb _ idx) with true.
  - eexists; repeat split.
  - symmetry. apply forallb_forall. rewrite Forall_forall in H. intros i Hi. apply Nat.ltb_lt. auto.
Qed.
Lemma vstackm_total (A B : smat K) : ncols A = ncols B ->
  exists R, vstackm A B = Ok R /\ nrows R = nrows A + nrows B /\ ncols R = ncols A.
Proof. intros H. unfold vstackm. rewrite H, Nat.eqb_refl. eexists; split; [reflexivity|]. simpl. auto. Qed.
Lemma mapM_fin_total (l : list (ext K)) : Forall (fun a => exists v, a = EFin v) l ->
  exists b, mapM fin l = Ok b.
Proof.
  induction 1 as [|a l (v & ->) _ (b & IH)]; simpl; [eauto|]. rewrite IH. simpl. eauto.
Qed.

Lemma find_map2_lt {A B} (f : A -> B -> bool) u v n : length u = n -> length v = n ->
  Forall (fun i => i < n) (find (map2 f u v)).
Proof.
  intros U V. apply Forall_forall. intros i Hi. apply in_find in Hi.
  assert (nth_error (map2 f u v) i <> None) as N by congruence. apply nth_error_Some in N.
  unfold map2 in N. rewrite map_length, combine_length in N. lia.
Qed.

Lemma map2_and {A B C D} (f : A -> B -> bool) (g : A -> B -> bool) (u : list A) (v : list B) (c : C) (d : D) :
  map2 (fun a p => a && p) (map2 f u v) (map2 g u v) = map2 (fun a b => f a b && g a b) u v.
Proof.
  unfold map2. revert v. induction u as [|a u IH]; intros [|b v]; simpl; auto. f_equal. apply IH.
Qed.

Theorem split_total nx (A : option (smat K)) l u xmin xmax :
  shaped_opt nx A -> sized nx xmin -> sized nx xmax -> sized (rows_of A) l -> sized (rows_of A) u ->
  bounds_ordered nx (rows_of A) l u xmin xmax ->
  exists sp, split_bounds nx A l u xmin xmax = Ok sp.
Proof.
  intros WA Z1 Z2 Z3 Z4 (O1 & O2). unfold split_bounds.
  change (match A with Some M => nrows M | None => 0 end) with (rows_of A).
  assert (exists AA, match A with Some M => vstackm (eyem nx) M | None => Ok (eyem nx) end = Ok AA /\
            nrows AA = nx + rows_of A /\ ncols AA = nx) as (AA & -> & RA & CA).
  { destruct A as [M|].
    - destruct WA as (W & C & _). destruct (vstackm_total (eyem nx) M) as (R & H & Q1 & Q2); [simpl; auto|].
      exists R. split; auto.
    - simpl. exists (eyem nx). simpl. split; auto. }
  cbn [bind].
  set (ll := def_bounds ENeg nx xmin ++ def_bounds ENeg (rows_of A) l).
  set (uu := def_bounds EPos nx xmax ++ def_bounds EPos (rows_of A) u).
  assert (length ll = nx + rows_of A) as Ll by (unfold ll; rewrite app_length, !def_bounds_length; auto).
  assert (length uu = nx + rows_of A) as Lu by (unfold uu; rewrite app_length, !def_bounds_length; auto).
  assert (length uu = length ll) as LE by congruence.
  assert (forall p, p < nx + rows_of A -> ordered (nth p ll EPos) (nth p uu EPos)) as ORD.
  { intros p Hp. unfold ll, uu. destruct (lt_dec p nx).
    - rewrite !app_nth1 by (rewrite def_bounds_length; auto). rewrite !nth_def_bounds by auto. apply O1; auto.
    - rewrite !app_nth2 by (rewrite def_bounds_length; auto; lia). rewrite !def_bounds_length by auto.
      rewrite !nth_def_bounds by (auto; lia). apply O2. lia. }
  unfold ewise. rewrite LE, Nat.eqb_refl. cbn [bind]. rewrite (map2_and _ _ _ _ true true).
  assert (forall f, Forall (fun i => i < nrows AA) (find (map2 f uu ll))) as FL.
  { intros f. rewrite RA. apply find_map2_lt; auto. }
  assert (forall f i, In i (find (map2 f uu ll)) ->
     i < nx + rows_of A /\ f (nth i uu EPos) (nth i ll EPos) = true) as IN.
  { intros f i Hi. apply (in_find_map2 _ _ _ _ EPos EPos LE) in Hi. rewrite Lu in Hi. auto. }
  destruct (rowsel_total _ _ (FL near)) as (Ae & -> & _). cbn [bind].
  destruct (rowsel_total _ _ (FL (fun u l => mbig l && negb (big u)))) as (A1 & -> & R1 & C1). cbn [bind].
  destruct (rowsel_total _ _ (FL (fun u l => big u && negb (mbig l)))) as (A2 & -> & R2 & C2). cbn [bind].
  destruct (rowsel_total _ _ (FL (fun u l => apart u l && (negb (big u) && negb (mbig l)))))
    as (A3 & -> & R3 & C3). cbn [bind].
  destruct (vstackm_total A1 (mapm ropp A2)) as (B1 & -> & _ & CB1); [simpl; congruence|]. cbn [bind].
  destruct (vstackm_total B1 A3) as (B2 & -> & _ & CB2); [congruence|]. cbn [bind].
  destruct (vstackm_total B2 (mapm ropp A3)) as (Ai & -> & _); [simpl; congruence|]. cbn [bind].
  assert (forall (f : ext K -> ext K -> bool) (v : list (ext K)),
     (forall i, i < nx + rows_of A -> f (nth i uu EPos) (nth i ll EPos) = true -> exists a, nth i v EPos = EFin a) ->
     exists b, mapM fin (map (fun i => nth i v EPos) (find (map2 f uu ll))) = Ok b) as FIN.
  { intros f v Q. apply mapM_fin_total. apply Forall_map, Forall_forall. intros i Hi.
    destruct (IN _ _ Hi). auto. }
  destruct (FIN near uu) as (b0 & ->).
  { intros i Hi N. unfold near in N. destruct (nth i uu EPos); eauto; discriminate. }
  cbn [bind]. destruct (FIN (fun u l => mbig l && negb (big u)) uu) as (b1 & ->).
  { intros i Hi N. specialize (ORD i Hi). apply andb_true_iff in N as (_ & N).
    destruct (nth i uu EPos); eauto; [discriminate|]. destruct (nth i ll EPos); simpl in ORD; tauto. }
  cbn [bind]. destruct (FIN (fun u l => big u && negb (mbig l)) ll) as (b2 & ->).
  { intros i Hi N. specialize (ORD i Hi). apply andb_true_iff in N as (_ & N).
    destruct (nth i ll EPos); eauto; [simpl in ORD; tauto|discriminate]. }
  cbn [bind]. destruct (FIN (fun u l => apart u l && (negb (big u) && negb (mbig l))) uu) as (b3 & ->).
  { intros i Hi N. specialize (ORD i Hi). apply andb_true_iff in N as (_ & N). apply andb_true_iff in N as (N & _).
    destruct (nth i uu EPos); eauto; [discriminate|]. destruct (nth i ll EPos); simpl in ORD; tauto. }
  cbn [bind]. destruct (FIN (fun u l => apart u l && (negb (big u) && negb (mbig l))) ll) as (b4 & ->).
  { intros i Hi N. specialize (ORD i Hi). apply andb_true_iff in N as (_ & N). apply andb_true_iff in N as (_ & N).
    destruct (nth i ll EPos); eauto; [simpl in ORD; tauto|discriminate]. }
  cbn [bind]. eauto.
Qed.

Section Run.
Variable solve : smat K -> list K -> result (option (list K)).
Variable ln : K -> K.
Variables (P : problem (K := K)) (O : popt (K := K)) (x0 : list K) (A : option (smat K))
  (l u xmin xmax : list (ext K)) (mg mh : nat).
Notation nx := (length x0).
Hypothesis (WA : shaped_opt nx A) (WP : well_shaped nx mg mh P).
Hypothesis (Z1 : sized nx xmin) (Z2 : sized nx xmax) (Z3 : sized (rows_of A) l) (Z4 : sized (rows_of A) u).

(** the split constraints at x are the caller's constraints *)
Theorem split_same sp x e hn gn dhn dgn :
  split_bounds nx A l u xmin xmax = Ok sp -> bounds_ordered nx (rows_of A) l u xmin xmax ->
  eval P O sp None x = Ok e -> nonlinear_at P x hn gn dhn dgn ->
  (Forall (fun a => a = 0%K) (e_g e) /\ Forall (fun a => le a 0%K) (e_h e)) <->
  (Forall (fun a => a = 0%K) gn /\ Forall (fun a => le a 0%K) hn /\ linear_ok nx A l u xmin xmax x).
Proof.
  intros HS OB E N. pose proof (SF x0 A l u xmin xmax sp HS WA Z1 Z2 Z3 Z4) as SF.
  destruct (eval_ok _ _ _ _ _ _ SF _ _ _ _ E) as (f & df & hn' & gn' & dhn' & dgn' & _ & N' & _ & _ & G & H & _).
  assert (hn' = hn /\ gn' = gn) as (-> & ->).
  { unfold nonlinear_at in *. destruct (p_gh P); [|destruct N as (-> & -> & _), N' as (-> & -> & _); auto].
    rewrite N in N'. injection N' as -> -> -> ->. auto. }
  rewrite G, H, !Forall_app.
  pose proof (linear_iff _ _ _ _ _ _ SF (ord_rows (fun _ _ => Err ValueError) x0 A l u xmin xmax sp HS WA Z1 Z2 Z3 Z4 OB) x) as LI.
  rewrite (all_rows (fun _ _ => Err ValueError) x0 A l u xmin xmax sp HS WA Z1 Z2 Z3 Z4 meets) in LI. unfold linear_ok. tauto.
Qed.

(** ** results *)
Lemma threshold_ok : (mu_threshold : K) = (1 / fofZ 100000)%K.
Proof.
  unfold mu_threshold, dec. change (10 ^ Z.of_nat 5)%Z with 100000%Z. f_equal.
  apply fofZ_1.
Qed.

Lemma cleaned_ok tol h mu mu0 : clean_mu tol h mu = Ok mu0 -> cleaned tol h mu mu0.
Proof.
  unfold clean_mu. intros H. apply ewise_ok in H as (L & ->).
  split. { rewrite map2_length. lia. } split; auto.
  intros i Hi. rewrite (nth_map2_d _ _ _ _ 0%K 0%K) by lia.
  destruct (fltb (nth i h 0%K) (- tol)%K && fltb (nth i mu 0%K) mu_threshold) eqn:E; auto.
  apply andb_true_iff in E. right. rewrite threshold_ok in E. split; auto.
Qed.

Lemma nth_skipn_d {T} (v : list T) a j d : nth j (skipn a v) d = nth (a + j) v d.
Proof. revert v. induction a as [|a IH]; intros [|x v]; simpl; auto. destruct j; auto. Qed.
Lemma nth_firstn_lt {T} (v : list T) a j d : j < a -> nth j (firstn a v) d = nth j v d.
Proof.
  revert v j. induction a as [|a IH]; intros [|x v] [|j] H; simpl; auto; try lia. apply IH. lia.
Qed.

Lemma skipn_un (c : K) v n : skipn n (map (fun a => a / c)%K v) = map (fun a => a / c)%K (skipn n v).
Proof. apply skipn_map. Qed.

Lemma signed_un (c : K) L v p : c <> 0%K -> signed L (map (fun a => a / c)%K v) p = (signed L v p / c)%K.
Proof.
  intros C. unfold signed. revert v. induction L as [|(q & s) L IH]; intros [|a v]; simpl; try (field; auto).
  rewrite IH. destruct (q =? p); field; auto.
Qed.

Theorem result_ok r : pips solve ln P O x0 A l u xmin xmax = Ok r ->
  bounds_ordered nx (rows_of A) l u xmin xmax ->
  exists sp f df hn gn dhn dgn lam mu mu0 z h Lx,
    split_bounds nx A l u xmin xmax = Ok sp /\
    (exists s0 s k, start ln P O sp x0 = Ok s0 /\ visited solve ln P O sp nx s0 k s /\ r_x r = t_x s /\
       z = t_z s /\ lam = t_lam s /\ mu = t_mu s /\ h = e_h (t_e s)) /\
    p_f P (r_x r) = Ok (f, df) /\ nonlinear_at P (r_x r) hn gn dhn dgn /\ r_f r = f /\
    Forall (lt 0%K) z /\ Forall (lt 0%K) mu /\ cleaned (o_feastol O) h mu mu0 /\
    (length Lx = nx /\ forall j, j < nx -> nth j Lx 0%K =
       (nth j df 0 * o_cost_mult O + pull dgn (firstn mg lam) j + pull dhn (firstn mh mu) j
        + pull_rows nx A (row_mult sp mg mh lam mu) j)%K) /\
    (r_eflag r = true ->
     (forall xn zn, is_norm (r_x r) xn -> is_norm z zn -> exists s, (s = xn \/ s = zn) /\
       let t := (o_feastol O * (1 + s))%K in
       Forall (fun a => lt (fabs a) t) gn /\ Forall (fun a => lt a t) hn /\
       linear_to t nx A l u xmin xmax (r_x r)) /\
     stationary_to (o_gradtol O) Lx lam mu /\ complementary_to (o_comptol O) (r_x r) z mu /\
     exists f0, cost_settled (o_costtol O) (f * o_cost_mult O)%K f0) /\
    let m := r_lmbda r in
    m_eqnonlin m = map (fun a => a / o_cost_mult O)%K (firstn mg lam) /\
    m_ineqnonlin m = map (fun a => a / o_cost_mult O)%K (firstn mh mu0) /\
    (lt 0%K (o_cost_mult O) ->
     Forall (le 0%K) (m_mu_l m) /\ Forall (le 0%K) (m_mu_u m) /\
     Forall (le 0%K) (m_lower m) /\ Forall (le 0%K) (m_upper m) /\ Forall (le 0%K) (m_ineqnonlin m)) /\
    ((forall j, j < nx -> modest (lower xmin j) (upper xmax j)) ->
     (forall i, i < rows_of A -> modest (lower l i) (upper u i)) ->
     length (m_mu_l m) = rows_of A /\ length (m_mu_u m) = rows_of A /\
     length (m_lower m) = nx /\ length (m_upper m) = nx /\
     (forall j, j < nx -> (nth j (m_upper m) 0 - nth j (m_lower m) 0)%K
                          = (row_mult sp mg mh lam mu0 j / o_cost_mult O)%K) /\
     (forall i, i < rows_of A -> (nth i (m_mu_u m) 0 - nth i (m_mu_l m) 0)%K
                          = (row_mult sp mg mh lam mu0 (nx + i) / o_cost_mult O)%K)).
Proof.
  intros H OB. apply pips_ok in H as (sp & s0 & s & i & o & k & HS & H0 & V & _ & _ & C & _ & HP).
  apply package_ok in HP as (X & _ & _ & FL & CM & RF & mu0 & ml & mu_ & HC & HU & HM).
  pose proof (visited_interior _ _ _ _ _ _ _ _ _ _ H0 V) as I.
  destruct (state_values solve ln P O x0 A l u xmin xmax sp s0 mg mh HS H0 WA WP Z1 Z2 Z3 Z4 k s V)
    as (f & df & hn & gn & dhn & dgn & Hf & N & EFv & G & H & LX & VX).
  destruct (start_dims ln P O x0 A l u xmin xmax sp s0 mg mh HS H0 WA WP Z1 Z2 Z3 Z4) as (E1 & E2 & E3 & E4).
  pose proof (visited_lam _ _ _ _ _ _ _ H0 _ _ V) as LL. pose proof (i_lmu _ _ _ _ _ _ I) as LMU.
  rewrite E3 in LL. rewrite E4 in LMU. rewrite E1, E2 in HU, HM.
  pose proof (SF x0 A l u xmin xmax sp HS WA Z1 Z2 Z3 Z4) as SF.
  pose proof (ord_rows solve x0 A l u xmin xmax sp HS WA Z1 Z2 Z3 Z4 OB) as OR.
  pose proof (clean_ok _ _ _ _ HC (i_mu _ _ _ _ _ _ I)) as (LM0 & NN0 & _).
  exists sp, f, df, hn, gn, dhn, dgn, (t_lam s), (t_mu s), mu0, (t_z s), (e_h (t_e s)), (t_Lx s).
  rewrite X. split; auto. split. { exists s0, s, k. repeat (split; [auto; fail|]). auto. } split; auto. split; auto.
  split. { rewrite RF, EFv. field. auto. }
  split; [apply (i_z _ _ _ _ _ _ I)|]. split; [apply (i_mu _ _ _ _ _ _ I)|].
  split; [apply cleaned_ok; auto|]. split; [split; auto|].
  split.
  { intros EF. apply FL in EF. apply C in EF.
    destruct (conv_ok _ _ _ _ _ _ I EF) as (FE & ST & CO & f0 & CS).
    split; [|split; [auto|split; [auto|exists f0; rewrite <- EFv; auto]]].
    intros xn zn X1 X2. destruct (FE xn zn X1 X2) as (sc & Hs & FG & FH). exists sc. split; auto. intros t.
    rewrite G in FG. rewrite H in FH. apply Forall_app in FG as (FG1 & FG2). apply Forall_app in FH as (FH1 & FH2).
    split; auto. split; auto.
    pose proof (linear_to_rows _ _ _ _ _ _ SF OR _ _ FG2 FH2) as LT.
    apply (all_rows solve x0 A l u xmin xmax sp HS WA Z1 Z2 Z3 Z4 (meets_to t)) in LT. exact LT. }
  rewrite HM. cbn [m_eqnonlin m_ineqnonlin m_mu_l m_mu_u m_lower m_upper].
  split; [apply firstn_map|]. split; [apply firstn_map|].
  assert (forall n (v : list K), Forall (le 0%K) v -> Forall (le 0%K) (firstn n v) /\ Forall (le 0%K) (skipn n v)) as FS.
  { intros n v Q. rewrite <- (firstn_skipn n v) in Q. apply Forall_app in Q. auto. }
  split.
  { intros CP. assert (Forall (le 0%K) (map (fun a => a / o_cost_mult O)%K mu0)) as Q.
    { apply Forall_map. eapply Forall_impl; [|exact NN0]. intros a Ha. apply div_nn; auto. }
    destruct (FS mh _ Q) as (Q1 & Q2). apply unsplit_nonneg in HU as (U1 & U2); auto.
    destruct (FS nx _ U1), (FS nx _ U2). auto. }
  intros M1 M2.
  assert (forall p, p < nx + rows_of A -> modest (nth p (def_bounds ENeg nx xmin ++ def_bounds ENeg (rows_of A) l) ENeg)
     (nth p (def_bounds EPos nx xmax ++ def_bounds EPos (rows_of A) u) EPos)) as MD.
  { apply (proj2 (all_rows solve x0 A l u xmin xmax sp HS WA Z1 Z2 Z3 Z4 (fun a b _ => modest a b) [])). auto. }
  assert (forall f u0 v0, NoDup (find (@map2 (ext K) (ext K) bool f u0 v0))) as ND by (intros; apply find_NoDup).
  apply unsplit_ok in HU as (L1 & L2 & VV).
  - rewrite !skipn_length, !firstn_length, L1, L2. split; [lia|]. split; [lia|]. split; [lia|]. split; [lia|].
    rewrite !skipn_un in VV. unfold row_mult.
    assert (forall p, (nth p mu_ 0 - nth p ml 0)%K
      = ((signed (eq_rows sp) (skipn mg (t_lam s)) p + signed (iq_rows sp) (skipn mh mu0) p) / o_cost_mult O)%K) as VV'.
    { intros p. rewrite VV, !signed_un by auto. field. auto. }
    split.
    + intros j Hj. rewrite <- VV', !nth_firstn_lt by auto. reflexivity.
    + intros q Hq. rewrite <- VV', !nth_skipn_d. reflexivity.
  - rewrite (sf_ieq _ _ _ _ _ _ SF). auto.
  - rewrite (sf_ilt _ _ _ _ _ _ SF). auto.
  - rewrite (sf_igt _ _ _ _ _ _ SF). auto.
  - rewrite (sf_ibx _ _ _ _ _ _ SF). auto.
  - intros p Hp. apply (in_ieq _ _ _ _ _ _ SF) in Hp as (Hp & T). destruct (MD p Hp T) as (B1 & B2).
    split; [|split].
    + intros Q. apply (in_ilt _ _ _ _ _ _ SF) in Q. tauto.
    + intros Q. apply (in_igt _ _ _ _ _ _ SF) in Q. tauto.
    + intros Q. apply (in_ibx _ _ _ _ _ _ SF) in Q; auto. tauto.
  - intros p Hp.
    assert (p < nx + rows_of A) as Hp'.
    { rewrite (sf_ibx _ _ _ _ _ _ SF), (in_find_map2 _ _ _ _ EPos ENeg (Llen _ _ _ _ _ _ SF)) in Hp.
      rewrite (sf_len' _ _ _ _ _ _ SF) in Hp. tauto. }
    apply (in_ibx _ _ _ _ _ _ SF) in Hp; auto. split.
    + intros Q. apply (in_ilt _ _ _ _ _ _ SF) in Q. tauto.
    + intros Q. apply (in_igt _ _ _ _ _ _ SF) in Q. tauto.
  - rewrite skipn_length, map_length. lia.
  - rewrite skipn_length, map_length. lia.
Qed.

(** the Jacobians of every state have the right shape *)
Lemma with_linear_jac (dn B : option (smat K)) M m k : jacobian nx m dn ->
  match B with Some B => wf B /\ nrows B = k /\ ncols B = nx | None => k = 0 end ->
  with_linear_t (match dn with Some _ => true | None => false end) dn B = Ok M ->
  jacobian nx (m + k) M.
Proof.
  intros J Q H. apply with_linear_t_ok in H. destruct dn as [d|].
  - destruct B as [B|].
    + destruct H as (M' & -> & H). destruct Q as (WB & RB & CB). pose proof (shaped_wf _ _ _ J) as (W & R & C).
      pose proof (wf_hstackm _ _ _ W (wf_transp _ WB) H) as WM. apply hstackm_ok in H as (_ & R' & C').
      simpl in *. split; [congruence|]. split; [lia|]. unfold wf in WM. rewrite R', C', R, C, RB in WM. exact WM.
    + subst M k. simpl. rewrite Nat.add_0_r. exact J.
  - simpl in J. subst m M. destruct B as [B|]; simpl; [|auto].
    destruct Q as (WB & RB & CB). split; [auto|]. split; [auto|].
    apply wf_transp in WB. unfold wf in WB. simpl in WB. rewrite RB, CB in WB. exact WB.
Qed.

Lemma visited_shapes sp s0 k s : split_bounds nx A l u xmin xmax = Ok sp -> start ln P O sp x0 = Ok s0 ->
  visited solve ln P O sp nx s0 k s ->
  jacobian nx (length (e_g (t_e s))) (e_dg (t_e s)) /\ jacobian nx (length (e_h (t_e s))) (e_dh (t_e s)) /\
  length (t_Lx s) = nx /\ length (t_z s) = length (e_h (t_e s)) /\ length (t_mu s) = length (e_h (t_e s)) /\
  length (e_g (t_e s)) = length (e_g (t_e s0)).
Proof.
  intros HS H0 V.
  pose proof (visited_interior _ _ _ _ _ _ _ _ _ _ H0 V) as I.
  pose proof (SF x0 A l u xmin xmax sp HS WA Z1 Z2 Z3 Z4) as SF.
  destruct (start_dims ln P O x0 A l u xmin xmax sp s0 mg mh HS H0 WA WP Z1 Z2 Z3 Z4) as (E1 & E2 & E3 & E4).
  destruct (state_values solve ln P O x0 A l u xmin xmax sp s0 mg mh HS H0 WA WP Z1 Z2 Z3 Z4 k s V)
    as (_ & _ & _ & _ & _ & _ & _ & _ & _ & _ & _ & LX & _).
  destruct (eval_ok _ _ _ _ _ _ SF _ _ _ _ (i_eval _ _ _ _ _ _ I))
    as (f & df & hn & gn & dhn & dgn & Hf & N & EF & EDF & G & H & NG & NH & TH & TG).
  pose proof (visited_len solve ln P O x0 sp s0 H0 k s V) as LXS.
  destruct (ws_gh _ _ _ _ WP _ _ _ _ _ LXS N) as (L1 & L2 & J1 & J2).
  assert (length (e_g (t_e s)) = mg + length (s_ieq sp)) as LG.
  { rewrite G, app_length. unfold lin_g. rewrite map_length. lia. }
  assert (length (e_h (t_e s)) = mh + (length (s_ilt sp) + length (s_igt sp) + length (s_ibx sp) + length (s_ibx sp))) as LH.
  { rewrite H, app_length. unfold lin_h. rewrite !app_length, !map_length. lia. }
  rewrite (i_lz _ _ _ _ _ _ I), (i_lmu _ _ _ _ _ _ I), LG, LH, E3, E4.
  split; [|split; [|repeat split; auto; lia]].
  - eapply with_linear_jac; eauto. pose proof (sf_Ae _ _ _ _ _ _ SF) as Q.
    destruct (s_Ae sp); [tauto|rewrite Q; auto].
  - eapply with_linear_jac; eauto. pose proof (sf_Ai _ _ _ _ _ _ SF) as Q.
    destruct (s_Ai sp); [tauto|]. destruct Q as (-> & -> & ->). auto.
Qed.
End Run.

(** ** step-size control: the factor is a power of one half *)
Fixpoint halves (k : nat) : K := match k with O => 1%K | S k => (halves k / fofZ 2)%K end.
Lemma halves_pos k : lt 0%K (halves k).
Proof. induction k; simpl; [apply lt_0_1|]. apply div_pos; auto. apply fofZ_pos. lia. Qed.

Lemma reduce_step_ok (ln : K -> K) P O sp fuel : forall s dx Lxx k a,
  reduce_step ln P O sp fuel s dx Lxx (halves k) = Ok a -> exists j, j <= fuel /\ a = halves (k + j).
Proof.
  induction fuel as [|fuel IH]; intros s dx Lxx k a H; simpl in H.
  - injection H as <-. exists 0. rewrite Nat.add_0_r. auto.
  - apply bind_ok in H as (x1 & _ & H). apply bind_ok in H as (e1 & _ & H).
    apply bind_ok in H as (L1 & _ & H). apply bind_ok in H as (Hd & _ & H).
    destruct (feqb _ _) in H; [discriminate|]. destruct (_ && _) in H.
    + injection H as <-. exists 0. rewrite Nat.add_0_r. split; [lia|auto].
    + change (halves k / fofZ 2)%K with (halves (S k)) in H. apply IH in H as (j & Hj & ->).
      exists (S j). split; [lia|]. f_equal. lia.
Qed.

Lemma fmin_eq (a b : K) : fmin a b = a \/ fmin a b = b.
Proof. unfold fmin. destruct (fltb _ _); auto. Qed.

(** ** length of the step: all components keep at least the fraction 1 - xi, and some component
    reaches it unless the full step is taken *)
Lemma step_len_boundary (z dz : list K) : Forall (lt 0%K) z ->
  (forall a d, In (a, d) (combine z dz) -> le ((1 - xi) * a)%K (a + step_len z dz * d)%K) /\
  (step_len z dz = 1%K \/
   exists a d, In (a, d) (combine z dz) /\ (a + step_len z dz * d)%K = ((1 - xi) * a)%K).
Proof.
  intros Z. pose proof (step_len_ok z dz Z) as (SP & S1 & _).
  assert (forall a d, In (a, d) (combine z dz) -> lt 0%K a) as ZP.
  { intros a d H. rewrite Forall_forall in Z. apply Z. eapply in_combine_l; eauto. }
  pose proof (dec_pos 99995 5 ltac:(lia)) as XP. fold (@xi K F) in XP.
  split.
  - intros a d H. specialize (ZP a d H). destruct (lt_le_dec d 0%K) as [D|D].
    + unfold step_len in *.
      assert (In (a / - d)%K (ratios z dz)) as RI.
      { unfold ratios. apply in_map_iff. exists (a, d). split; auto. apply filter_In. split; auto. }
      destruct (ratios z dz) as [|r t]; [destruct RI|]. destruct (fold_fmin t r) as (ML & _).
      apply ML in RI. set (m := fold_left fmin t r) in *. destruct (fmin_le (xi * m)%K 1%K) as (A1 & _).
      set (al := fmin (xi * m)%K 1%K) in *. apply (proj1 (pos_opp d)) in D. pose proof (pos_nz _ D) as ND.
      assert (le (al * (- d))%K (xi * a)%K) as L.
      { apply le_trans with (xi * m * - d)%K.
        - replace (al * - d)%K with ((- d) * al)%K by ring.
          replace (xi * m * - d)%K with ((- d) * (xi * m))%K by ring.
          apply mul_le_l; auto. apply lt_le; auto.
        - replace (xi * m * - d)%K with (xi * - d * m)%K by ring.
          replace (xi * a)%K with (xi * - d * (a / - d))%K by (field; auto).
          apply mul_le_l; auto. apply lt_le, mul_pos; auto. }
      apply le_sub. apply le_sub in L.
      replace (a + al * d - (1 - xi) * a)%K with (xi * a - al * - d)%K by ring. auto.
    + apply le_sub. replace (a + step_len z dz * d - (1 - xi) * a)%K with (xi * a + step_len z dz * d)%K by ring.
      apply lt_le. apply add_pos_nn; [apply mul_pos; auto|]. apply mul_nn; auto. apply lt_le; auto.
  - unfold step_len. destruct (ratios z dz) as [|r t] eqn:E; [auto|].
    assert (forall (t : list K) (r : K), In (fold_left fmin t r) (r :: t)) as FI.
    { clear. induction t as [|b t IH]; intros r; simpl; auto. destruct (IH (fmin r b)) as [C|C]; auto.
      rewrite <- C. destruct (fmin_eq r b) as [->| ->]; auto. }
    specialize (FI t r). rewrite <- E in FI. set (m := fold_left fmin t r) in *.
    destruct (fmin_eq (xi * m)%K 1%K) as [->| ->]; [right|auto].
    unfold ratios in FI. apply in_map_iff in FI as ((a & d) & Em & H). apply filter_In in H as (H & D).
    cbn [fst snd] in *. exists a, d. split; auto. rewrite <- Em.
    apply (proj1 (pos_opp d)) in D. pose proof (pos_nz _ D) as ND. field. exact ND.
Qed.

Lemma nth_step (z dz z' : list K) a i : ewise radd z (scale a dz) = Ok z' -> 
  nth i z' 0%K = (nth i z 0 + a * nth i dz 0)%K.
Proof.
  intros H. apply ewise_ok in H as (L & ->). unfold scale in *. rewrite map_length in L.
  destruct (Nat.lt_ge_cases i (length z)) as [Hi|Hi].
  - rewrite (nth_map2_d _ _ _ _ 0%K 0%K) by (rewrite ?map_length; lia). rewrite (nth_map_lt _ dz i _ 0%K) by lia. reflexivity.
  - rewrite !nth_overflow; [ring|lia|lia|]. rewrite map2_length, map_length. lia.
Qed.

Lemma halves_le k : le (halves k) 1%K.
Proof.
  induction k as [|k IH]; simpl; [apply le_refl|]. apply le_trans with (halves k); auto.
  assert (lt 0%K (fofZ 2 : K)) as P2 by (apply fofZ_pos; lia). pose proof (pos_nz _ P2) as N2.
  apply le_sub. replace (halves k - halves k / fofZ 2)%K with (halves k * (fofZ 2 - 1) / fofZ 2)%K by (field; auto).
  apply div_nn; auto. apply mul_nn; [apply lt_le, halves_pos|].
  replace 2%Z with (1 + 1)%Z by reflexivity. rewrite fofZ_add, fofZ_1.
  replace (1 + 1 - 1)%K with (1%K : K) by ring. apply lt_le, lt_0_1.
Qed.

Lemma nth_scale (r : K) v i : nth i (scale r v) 0%K = (r * nth i v 0)%K.
Proof.
  unfold scale. destruct (Nat.lt_ge_cases i (length v)) as [Hi|Hi].
  - rewrite (nth_map_lt _ v i _ 0%K) by lia. reflexivity.
  - rewrite !nth_overflow; [ring|lia|]. rewrite map_length. lia.
Qed.

Lemma boundary_nth (z dz z' : list K) : Forall (lt 0%K) z ->
  ewise radd z (scale (step_len z dz) dz) = Ok z' ->
  (forall i, i < length z -> le ((1 - xi) * nth i z 0)%K (nth i z' 0%K)) /\
  (step_len z dz = 1%K \/ exists i, i < length z /\ nth i z' 0%K = ((1 - xi) * nth i z 0)%K).
Proof.
  intros Z H. pose proof (step_len_boundary z dz Z) as (B1 & B2).
  assert (length z = length dz) as L. { apply ewise_ok in H as (L & _). unfold scale in L. rewrite map_length in L. auto. }
  split.
  - intros i Hi. rewrite (nth_step _ _ _ _ _ H). apply B1.
    rewrite <- (combine_nth z dz i 0%K 0%K L). apply nth_In. rewrite combine_length. lia.
  - destruct B2 as [B2|(a & d & Hin & E)]; auto. right.
    apply In_nth_error in Hin as (i & Hi). pose proof (nth_error_some_lt _ _ _ Hi) as Li.
    rewrite combine_length in Li. exists i. split; [lia|]. rewrite (nth_step _ _ _ _ _ H).
    apply nth_error_nth with (d := (0%K, 0%K)) in Hi. rewrite combine_nth in Hi by auto.
    injection Hi as -> ->. exact E.
Qed.

Lemma step_ok solve (ln : K -> K) P O sp nx a b c d s s' ap ad :
  Forall (lt 0%K) (t_z s) -> Forall (lt 0%K) (t_mu s) ->
  iterate solve ln P O sp nx a b c d s = Ok (Some (s', ap, ad)) ->
  exists dx dlam dz dmu Lxx r,
    direction solve P O nx a b c s = Ok (Some (dx, dlam, dz, dmu, Lxx)) /\
    (o_step_control O = false -> r = 1%K) /\ lt 0%K r /\ le r 1%K /\
    lt 0%K ap /\ le ap 1%K /\ lt 0%K ad /\ le ad 1%K /\
    (forall i, nth i (t_x s') 0%K = (nth i (t_x s) 0 + ap * (r * nth i dx 0))%K) /\
    (forall i, nth i (t_z s') 0%K = (nth i (t_z s) 0 + ap * (r * nth i dz 0))%K) /\
    (forall i, nth i (t_lam s') 0%K = (nth i (t_lam s) 0 + ad * (r * nth i dlam 0))%K) /\
    (forall i, nth i (t_mu s') 0%K = (nth i (t_mu s) 0 + ad * (r * nth i dmu 0))%K) /\
    (forall i, i < length (t_z s) -> le ((1 - xi) * nth i (t_z s) 0)%K (nth i (t_z s') 0%K)) /\
    (forall i, i < length (t_mu s) -> le ((1 - xi) * nth i (t_mu s) 0)%K (nth i (t_mu s') 0%K)) /\
    (ap = 1%K \/ exists i, i < length (t_z s) /\ nth i (t_z s') 0%K = ((1 - xi) * nth i (t_z s) 0)%K) /\
    (ad = 1%K \/ exists i, i < length (t_mu s) /\ nth i (t_mu s') 0%K = ((1 - xi) * nth i (t_mu s) 0)%K).
Proof.
  intros Z M H. unfold iterate in H. apply bind_ok in H as (dd & HD & H).
  destruct dd as [((((dx & dlam) & dz) & dmu) & Lxx)|]; [|discriminate].
  apply bind_ok in H as (f & HF & H). cbv zeta in H. apply bind_ok in H as (t & HA & H). injection H as ->.
  set (r := match f with Some q => q | None => 1%K end).
  assert (forall v i, nth i (match f with Some q => scale q | None => fun v => v end v) 0%K = (r * nth i v 0)%K) as RS.
  { intros v i. unfold r. destruct f; [apply nth_scale|ring]. }
  exists dx, dlam, dz, dmu, Lxx, r. split; auto.
  unfold advance in HA. apply bind_ok in HA as (x & Hx & HA). apply bind_ok in HA as (z & Hz & HA).
  apply bind_ok in HA as (lam & Hl & HA). apply bind_ok in HA as (mu & Hm & HA).
  apply bind_ok in HA as (e & He & HA). apply bind_ok in HA as (s1 & Hs & HA). injection HA as <- <- <-.
  apply measure_ok in Hs as (-> & -> & -> & -> & _).
  split; [|split; [|split]].
  - intros C. unfold step_factor in HF. rewrite C in HF. injection HF as <-. reflexivity.
  - unfold r, step_factor in *. destruct (o_step_control O); [|injection HF as <-; apply lt_0_1].
    apply bind_ok in HF as (x1 & _ & HF). apply bind_ok in HF as (e1 & _ & HF). apply bind_ok in HF as (Lx1 & _ & HF).
    apply bind_ok in HF as (f1 & _ & HF). apply bind_ok in HF as (g1 & _ & HF).
    destruct (_ && _); [|injection HF as <-; apply lt_0_1]. apply bind_ok in HF as (a' & HF & E). injection E as <-.
    apply (reduce_step_ok ln P O sp _ s dx Lxx 0) in HF as (j & _ & ->). apply halves_pos.
  - unfold r, step_factor in *. destruct (o_step_control O); [|injection HF as <-; apply le_refl].
    apply bind_ok in HF as (x1 & _ & HF). apply bind_ok in HF as (e1 & _ & HF). apply bind_ok in HF as (Lx1 & _ & HF).
    apply bind_ok in HF as (f1 & _ & HF). apply bind_ok in HF as (g1 & _ & HF).
    destruct (_ && _); [|injection HF as <-; apply le_refl]. apply bind_ok in HF as (a' & HF & E). injection E as <-.
    apply (reduce_step_ok ln P O sp _ s dx Lxx 0) in HF as (j & _ & ->). apply halves_le.
  - pose proof (boundary_nth _ _ _ Z Hz) as (Z1 & Z2). pose proof (boundary_nth _ _ _ M Hm) as (M1 & M2).
    pose proof (step_len_ok _ (match f with Some q => scale q | None => fun v => v end dz) Z) as (P1 & P2 & _).
    pose proof (step_len_ok _ (match f with Some q => scale q | None => fun v => v end dmu) M) as (Q1 & Q2 & _).
    do 4 (split; [assumption|]).
    split; [intros i; rewrite (nth_step _ _ _ _ _ Hx), RS; reflexivity|].
    split; [intros i; rewrite (nth_step _ _ _ _ _ Hz), RS; reflexivity|].
    split; [intros i; rewrite (nth_step _ _ _ _ _ Hl), RS; reflexivity|].
    split; [intros i; rewrite (nth_step _ _ _ _ _ Hm), RS; reflexivity|].
    auto.
Qed.
End PipsG.
