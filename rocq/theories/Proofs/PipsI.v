(** The gradient condition in the reported multipliers. *)
From Verif Require Import Lib.ListFacts Model.Pips Spec.PipsSpec Spec.PipsRun Proofs.LinAlgFacts Proofs.SparseFacts
  Proofs.FldFacts Proofs.OrdFacts Proofs.NetworkB Proofs.AcPfA Proofs.BlockFacts Proofs.PipsA Proofs.PipsB
  Proofs.PipsC Proofs.PipsD Proofs.PipsE Proofs.PipsF Proofs.PipsG Proofs.PipsH.
Local Open Scope nat_scope.

Section PipsI.
Context {K : Type} {F : Fld K}.
Add Field KF : (@f_ok K F).

Lemma fabs_of (a t : K) : le (- t)%K a -> le a t -> le (fabs a) t.
Proof. intros. apply fabs_le. auto. Qed.
Lemma fabs_self (a : K) : le (- fabs a)%K a /\ le a (fabs a).
Proof. apply fabs_le. apply le_refl. Qed.
Lemma fabs_add (a b : K) : le (fabs (a + b)%K) (fabs a + fabs b)%K.
Proof.
  destruct (fabs_self a) as (A1 & A2), (fabs_self b) as (B1 & B2). apply fabs_of.
  - replace (- (fabs a + fabs b))%K with (- fabs a + - fabs b)%K by ring. apply add_le; auto.
  - apply add_le; auto.
Qed.
Lemma fabs_opp (a : K) : fabs (- a)%K = fabs a.
Proof.
  assert (forall x : K, le (fabs (- x)%K) (fabs x)) as H.
  { intros x. destruct (fabs_self x) as (X1 & X2). apply fabs_of.
    - apply le_sub. apply le_sub in X2. replace (- x - - fabs x)%K with (fabs x - x)%K by ring. auto.
    - apply le_sub. apply le_sub in X1. replace (fabs x - - x)%K with (x - - fabs x)%K by ring. auto. }
  apply le_antisym; auto. replace (fabs a) with (fabs (- - a)%K) by (f_equal; ring). apply H.
Qed.
Lemma fabs_mul (a b t : K) : le (fabs b) t -> le (fabs (a * b)%K) (fabs a * t)%K.
Proof.
  intros H. apply fabs_of.
  - replace (- (fabs a * t))%K with (- (t * fabs a))%K by ring. replace (a * b)%K with (b * a)%K by ring. apply mul_abs. auto.
  - pose proof (mul_abs (- b)%K a t) as M. rewrite fabs_opp in M. specialize (M H). apply le_sub in M. apply le_sub.
    replace (fabs a * t - a * b)%K with (- b * a - - (t * fabs a))%K by ring. auto.
Qed.
Lemma fabs_lsum (I : Type) (f g : I -> K) l : (forall i, In i l -> le (fabs (f i)) (g i)) -> le (fabs (lsum f l)) (lsum g l).
Proof.
  induction l as [|i l IH]; intros H; simpl.
  - unfold fabs. destruct (fltb 0%K 0%K); [replace (- 0)%K with (0 : K)%K by ring|]; apply le_refl.
  - eapply le_trans; [apply fabs_add|]. apply add_le; [apply H; left; auto|apply IH; intros; apply H; right; auto].
Qed.

Lemma signed_app' (L L' : list (nat * K)) w p :
  signed (L ++ L') w p = (signed L (firstn (length L) w) p + signed L' (skipn (length L) w) p)%K.
Proof.
  unfold signed. revert w. induction L as [|a L IH]; intros w; [simpl; ring|].
  destruct w as [|b w].
  - simpl. rewrite combine_nil. simpl. ring.
  - simpl. rewrite IH. ring.
Qed.
Lemma signed_sub (L : list (nat * K)) w w' p : length w = length w' ->
  (signed L w p - signed L w' p)%K = signed L (map2 rsub w w') p.
Proof.
  unfold signed, map2. revert w w'. induction L as [|a L IH]; intros [|b w] [|b' w'] H; try discriminate; simpl; try ring.
  specialize (IH w w' ltac:(auto)). rewrite <- IH. destruct (fst a =? p); ring.
Qed.
Lemma signed_small s idx (d : list K) p t : NoDup idx -> Forall (fun a => le 0%K a /\ le a t) d -> le 0%K t ->
  exists e, le 0%K e /\ le e t /\ signed (tagged s idx) d p = (s * e)%K /\ (~ In p idx -> e = 0%K).
Proof.
  intros N D T. destruct (in_dec Nat.eq_dec p idx) as [I|I].
  - apply In_nth_error in I as (k & Hk). destruct (nth_error d k) as [x|] eqn:E.
    + rewrite Forall_forall in D. destruct (D x (nth_error_In _ _ E)). exists x.
      do 2 (split; auto). split; [eapply signed_at; eauto|]. intros C. exfalso. apply C. eapply nth_error_In; eauto.
    + exists 0%K. split; [apply le_refl|]. split; auto. split; auto.
      replace (s * 0)%K with (0 : K)%K by ring. unfold signed. apply lsum_zero. intros ((q & s') & x) Ht. cbn.
      destruct (Nat.eqb_spec q p); auto. subst q. exfalso. apply In_nth_error in Ht as (m & Hm).
      assert (nth_error (tagged s idx) m = Some (p, s') /\ nth_error d m = Some x) as (M1 & M2).
      { revert Hm. clear. generalize (tagged s idx). intros L. revert d m. induction L as [|a L IH]; intros [|b d] [|m]; simpl; try discriminate.
        - intros H. injection H as -> ->. auto.
        - apply IH. }
      unfold tagged in M1. rewrite nth_error_map in M1. destruct (nth_error idx m) as [q|] eqn:E'; [|discriminate].
      injection M1 as -> ->. pose proof (NoDup_nth_error_eq _ _ _ _ N Hk E'). subst m. congruence.
  - exists 0%K. split; [apply le_refl|]. split; auto. split; [rewrite signed_notin by auto; ring|auto].
Qed.

Section Cut.
Variables (nx n : nat) (AA : list K -> nat -> K) (ll uu : list (ext K)) (sp : Pips.split (K := K)).
Hypothesis SF : split_facts nx n AA ll uu sp.
Notation lo p := (nth p ll ENeg).
Notation up p := (nth p uu EPos).
Hypothesis Ord : forall p, p < n -> ordered (lo p) (up p).
Hypothesis Mod : forall p, p < n -> modest (lo p) (up p).

Lemma cut_of_tight (a b : ext K) : (tight a b -> cut_of a b = 0%K) /\ (a = ENeg -> b = EPos -> cut_of a b = 0%K) /\
  (~ tight a b -> (a <> ENeg \/ b <> EPos) -> cut_of a b = clean_tol).
Proof.
  unfold tight, cut_of. destruct a as [a| |], b as [b| |].
  1: { unfold le. destruct (fltb eps_ (fabs (b - a)%K)); split; [discriminate|split; [discriminate|auto]|auto|split; [discriminate|]].
       intros H. exfalso. apply H. reflexivity. }
  all: split; [intros []|split; [try discriminate; auto|auto]].
  intros _ [H|H]; exfalso; apply H; reflexivity.
Qed.
Lemma signed_cut (d : list K) p : Forall (fun a => le 0%K a /\ le a clean_tol) d -> le 0%K clean_tol -> p < n ->
  le (fabs (signed (iq_rows sp) d p)) (cut_of (lo p) (up p)).
Proof.
  intros D T Hp. unfold iq_rows. rewrite !signed_app'.
  assert (forall k (v : list K), Forall (fun a => le 0%K a /\ le a clean_tol) v -> Forall (fun a => le 0%K a /\ le a clean_tol) (firstn k v)
          /\ Forall (fun a => le 0%K a /\ le a clean_tol) (skipn k v)) as FS.
  { intros k v Hv. rewrite <- (firstn_skipn k v) in Hv. apply Forall_app in Hv. exact Hv. }
  assert (NoDup (s_ilt sp) /\ NoDup (s_igt sp) /\ NoDup (s_ibx sp)) as (N1 & N2 & N3).
  { rewrite (sf_ilt _ _ _ _ _ _ SF), (sf_igt _ _ _ _ _ _ SF), (sf_ibx _ _ _ _ _ _ SF). repeat split; apply find_NoDup. }
  set (n1 := length (tagged 1%K (s_ilt sp))). set (n2 := length (tagged (ropp 1%K) (s_igt sp))). set (n3 := length (tagged 1%K (s_ibx sp))).
  destruct (FS n1 d D) as (D1 & D'). destruct (FS n2 _ D') as (D2 & D''). destruct (FS n3 _ D'') as (D3 & D4).
  destruct (signed_small 1%K (s_ilt sp) _ p clean_tol N1 D1 T) as (e1 & A1 & B1 & -> & C1).
  destruct (signed_small (ropp 1%K) (s_igt sp) _ p clean_tol N2 D2 T) as (e2 & A2 & B2 & -> & C2).
  destruct (signed_small 1%K (s_ibx sp) _ p clean_tol N3 D3 T) as (e3 & A3 & B3 & -> & C3).
  destruct (signed_small (ropp 1%K) (s_ibx sp) _ p clean_tol N3 D4 T) as (e4 & A4 & B4 & -> & C4).
  rewrite (in_ilt _ _ _ _ _ _ SF) in C1. rewrite (in_igt _ _ _ _ _ _ SF) in C2.
  rewrite (in_ibx _ _ _ _ _ _ SF p (Ord p Hp)) in C3, C4.
  specialize (Mod p Hp). unfold modest in Mod. destruct (cut_of_tight (lo p) (up p)) as (T1 & T0 & T2).
  assert (tight (lo p) (up p) \/ ~ tight (lo p) (up p)) as [Q|Q].
  { unfold tight. destruct (lo p), (up p); auto. unfold le. destruct (fltb _ _); [right; discriminate|left; auto]. }
  - rewrite T1 by auto. rewrite C1, C2, C3, C4 by tauto.
    match goal with |- le (fabs ?z) _ => replace z with (0 : K)%K by ring end.
    unfold fabs. destruct (fltb 0%K 0%K); [replace (- 0)%K with (0 : K)%K by ring|]; apply le_refl.
  - assert ((lo p = ENeg /\ up p = EPos) \/ (lo p <> ENeg \/ up p <> EPos)) as [(I1 & I2)|NI].
    { destruct (lo p), (up p); auto; right; first [left; discriminate|right; discriminate]. }
    { rewrite T0 by auto. rewrite I1, I2 in *. cbn [unb_lo unb_up] in *. rewrite C1, C2, C3, C4 by tauto.
      match goal with |- le (fabs ?z) _ => replace z with (0 : K)%K by ring end.
      unfold fabs. destruct (fltb 0%K 0%K); [replace (- 0)%K with (0 : K)%K by ring|]; apply le_refl. }
    rewrite T2 by auto.
    assert (unb_lo (lo p) \/ ~ unb_lo (lo p)) as [L|L].
    { unfold unb_lo. destruct (lo p); auto. unfold le. destruct (fltb _ _); [right; discriminate|left; auto]. }
    + rewrite C2, C3, C4 by tauto. match goal with |- le (fabs ?z) _ => replace z with e1 by ring end.
      apply fabs_of; auto. apply le_trans with (b := 0%K); auto. apply nn_opp. replace (- - clean_tol)%K with (clean_tol : K) by ring. auto.
    + assert (unb_up (up p) \/ ~ unb_up (up p)) as [R|R].
      { unfold unb_up. destruct (up p); auto. unfold le. destruct (fltb _ _); [right; discriminate|left; auto]. }
      * rewrite C1, C3, C4 by tauto. match goal with |- le (fabs ?z) _ => replace z with (- e2)%K by ring end.
        rewrite fabs_opp. apply fabs_of; auto. apply le_trans with (b := 0%K); auto. apply nn_opp. replace (- - clean_tol)%K with (clean_tol : K) by ring. auto.
      * rewrite C1, C2 by tauto. match goal with |- le (fabs ?z) _ => replace z with (e3 - e4)%K by ring end.
        apply fabs_of.
        -- apply le_sub. replace (e3 - e4 - - clean_tol)%K with (e3 + (clean_tol - e4))%K by ring. apply add_nn; auto. apply le_sub in B4. auto.
        -- apply le_sub. replace (clean_tol - (e3 - e4))%K with ((clean_tol - e3) + e4)%K by ring. apply add_nn; auto. apply le_sub in B3. auto.
Qed.
End Cut.

Lemma skipn_combine' {T T'} m (u : list T) (v : list T') : skipn m (combine u v) = combine (skipn m u) (skipn m v).
Proof.
  revert u v. induction m as [|m IH]; intros [|a u] [|b v]; simpl; auto. rewrite combine_nil. auto.
Qed.
Lemma clean_tol_pos : le 0%K (clean_tol : K).
Proof. apply lt_le. unfold clean_tol. apply div_pos; [apply lt_0_1|apply fofZ_pos; lia]. Qed.
Lemma cleaned_diff tol h (mu mu0 : list K) : cleaned tol h mu mu0 -> Forall (lt 0%K) mu ->
  Forall (fun a => le 0%K a /\ le a clean_tol) (map2 rsub mu mu0).
Proof.
  intros (L & _ & C) P. rewrite Forall_forall in P. apply Forall_forall. intros a Ha.
  apply (In_nth _ _ 0%K) in Ha as (i & Hi & <-). rewrite map2_length in Hi.
  rewrite (nth_map2_d _ _ _ _ 0%K 0%K) by lia. cbn [rsub]. destruct (C i ltac:(lia)) as [E|(E & _ & E')]; rewrite E.
  - replace (nth i mu 0 - nth i mu 0)%K with (0 : K)%K by ring. split; [apply le_refl|apply clean_tol_pos].
  - replace (nth i mu 0 - 0)%K with (nth i mu 0%K) by ring. split; apply lt_le; auto. apply P, nth_In. lia.
Qed.
Lemma pull_scale (d : option (smat K)) (c : K) w j : c <> 0%K ->
  (pull d (map (fun a => a / c) w) j * c)%K = pull d w j.
Proof.
  intros C. unfold pull, lin_val. destruct d as [M|]; [|ring]. unfold row_val. rewrite <- lsum_scal_r. apply lsum_ext. intros i _.
  destruct (lt_dec i (length w)) as [H|H].
  - rewrite (nth_map_lt _ _ _ _ 0%K) by auto. field. auto.
  - rewrite !nth_overflow by (rewrite ?map_length; lia). ring.
Qed.
Lemma pull_diff (d : option (smat K)) w w' n j nx : jacobian nx n d -> length w = n -> length w' = n ->
  Forall (fun a => le 0%K a /\ le a clean_tol) (map2 rsub w w') ->
  le (fabs (pull d w j - pull d w' j)%K) (abs_pull d n j * clean_tol)%K.
Proof.
  intros J L L' D. unfold pull, lin_val, abs_pull. destruct d as [M|].
  - destruct J as (_ & C & _). unfold row_val. rewrite C, <- lsum_sub, <- lsum_scal_r. apply fabs_lsum. intros i Hi.
    apply in_seq in Hi. replace (at_ M j i * nth i w 0 - at_ M j i * nth i w' 0)%K with (at_ M j i * (nth i w 0 - nth i w' 0))%K by ring.
    apply fabs_mul. rewrite Forall_forall in D. assert (In (nth i w 0 - nth i w' 0)%K (map2 rsub w w')) as I.
    { rewrite <- (nth_map2_d rsub w w' i 0%K 0%K 0%K) by lia. apply nth_In. rewrite map2_length. lia. }
    destruct (D _ I). apply fabs_of; auto. apply le_trans with (b := 0%K); auto. apply nn_opp.
    replace (- - clean_tol)%K with (clean_tol : K) by ring. apply clean_tol_pos.
  - replace (0 - 0)%K with (0 : K)%K by ring. replace (0 * clean_tol)%K with (0 : K)%K by ring.
    unfold fabs. destruct (fltb 0%K 0%K); [replace (- 0)%K with (0 : K)%K by ring|]; apply le_refl.
Qed.

Section Run.
Variable solve : smat K -> list K -> result (option (list K)).
Variable ln : K -> K.
Variables (P : problem (K := K)) (O : popt (K := K)) (x0 : list K) (A : option (smat K))
  (l u xmin xmax : list (ext K)) (mg mh : nat).
Notation nx := (length x0).
Hypothesis (WA : shaped_opt nx A) (WP : well_shaped nx mg mh P).
Hypothesis (Z1 : sized nx xmin) (Z2 : sized nx xmax) (Z3 : sized (rows_of A) l) (Z4 : sized (rows_of A) u).

Theorem reported_gradient r : pips solve ln P O x0 A l u xmin xmax = Ok r ->
  bounds_ordered nx (rows_of A) l u xmin xmax -> lt 0%K (o_cost_mult O) ->
  (forall j, j < nx -> modest (lower xmin j) (upper xmax j)) ->
  (forall i, i < rows_of A -> modest (lower l i) (upper u i)) -> r_eflag r = true ->
  let m := r_lmbda r in
  exists sp s0 s k f df hn gn dhn dgn,
    split_bounds nx A l u xmin xmax = Ok sp /\ start ln P O sp x0 = Ok s0 /\
    visited solve ln P O sp nx s0 k s /\ r_x r = t_x s /\
    p_f P (r_x r) = Ok (f, df) /\ nonlinear_at P (r_x r) hn gn dhn dgn /\
    forall lam_n mu_n, is_norm (t_lam s) lam_n -> is_norm (t_mu s) mu_n ->
    exists b, (b = lam_n \/ b = mu_n) /\ forall j, j < nx ->
      lt (fabs ((nth j df 0 + pull dgn (m_eqnonlin m) j + pull dhn (m_ineqnonlin m) j
                 + pull_rows nx A (fun p => if p <? nx then nth p (m_upper m) 0 - nth p (m_lower m) 0
                                            else nth (p - nx) (m_mu_u m) 0 - nth (p - nx) (m_mu_l m) 0) j)
                * o_cost_mult O)%K)
         (o_gradtol O * (1 + b) + abs_pull dhn mh j * clean_tol
          + (cut_of (lower xmin j) (upper xmax j)
             + lsum (fun i => fabs (match A with Some M => at_ M i j | None => 0 end) * cut_of (lower l i) (upper u i))
                 (seq 0 (rows_of A))))%K.
Proof.
  intros H OB CP M1 M2 EF m.
  destruct (result_ok solve ln P O x0 A l u xmin xmax mg mh WA WP Z1 Z2 Z3 Z4 r H OB)
    as (sp & f & df & hn & gn & dhn & dgn & lam & mu & mu0 & z & h & Lx & SP & (s0 & s & k & ST & VI & XS & -> & -> & -> & ->)
        & PF & NL & _ & _ & MP & CL & (LL & VL) & CV & QE & QI & _ & QR).
  destruct (CV EF) as (_ & SS & _). destruct (QR M1 M2) as (_ & _ & _ & _ & R1 & R2). clear CV QR.
  exists sp, s0, s, k, f, df, hn, gn, dhn, dgn. do 6 (split; [auto|]).
  intros lam_n mu_n N1 N2. destruct (SS lam_n mu_n N1 N2) as (b & Hb & FL). exists b. split; auto. intros j Hj.
  assert (o_cost_mult O <> 0%K) as CN by (apply pos_nz; auto).
  pose proof (SF x0 A l u xmin xmax sp SP WA Z1 Z2 Z3 Z4) as SF.
  pose proof (ord_rows solve x0 A l u xmin xmax sp SP WA Z1 Z2 Z3 Z4 OB) as OR.
  assert (forall p, p < nx + rows_of A -> modest (nth p (def_bounds ENeg nx xmin ++ def_bounds ENeg (rows_of A) l) ENeg)
     (nth p (def_bounds EPos nx xmax ++ def_bounds EPos (rows_of A) u) EPos)) as MD.
  { apply (proj2 (all_rows solve x0 A l u xmin xmax sp SP WA Z1 Z2 Z3 Z4 (fun a b _ => modest a b) [])). auto. }
  pose proof (cleaned_diff _ _ _ _ CL MP) as DF.
  set (d := map2 rsub (t_mu s) mu0) in *.
  assert (length mu0 = length (t_mu s)) as LM by apply CL.
  pose (dl := fun p => signed (iq_rows sp) (skipn mh d) p).
  assert (skipn mh d = map2 rsub (skipn mh (t_mu s)) (skipn mh mu0) /\ firstn mh d = map2 rsub (firstn mh (t_mu s)) (firstn mh mu0)) as (SD & FD).
  { unfold d, map2. split; [rewrite skipn_map; f_equal|rewrite firstn_map; f_equal].
    - apply skipn_combine'.
    - apply combine_firstn. }
  assert (Forall (fun a => le 0%K a /\ le a clean_tol) (skipn mh d) /\ Forall (fun a => le 0%K a /\ le a clean_tol) (firstn mh d)) as (D1 & D2).
  { rewrite <- (firstn_skipn mh d) in DF. apply Forall_app in DF. tauto. }
  assert (forall p, p < nx + rows_of A -> le (fabs (dl p))
     (cut_of (nth p (def_bounds ENeg nx xmin ++ def_bounds ENeg (rows_of A) l) ENeg)
             (nth p (def_bounds EPos nx xmax ++ def_bounds EPos (rows_of A) u) EPos))) as CUT.
  { intros p Hp. apply (signed_cut _ _ _ _ _ _ SF); auto. apply clean_tol_pos. }
  assert ((forall j, j < nx -> le (fabs (dl j)) (cut_of (lower xmin j) (upper xmax j))) /\
          (forall i, i < rows_of A -> le (fabs (dl (nx + i))) (cut_of (lower l i) (upper u i)))) as (CU1 & CU2).
  { split; intros q Hq.
    - specialize (CUT q ltac:(lia)). rewrite !app_nth1 in CUT by (rewrite def_bounds_length; auto).
      rewrite !nth_def_bounds in CUT by auto. exact CUT.
    - specialize (CUT (nx + q) ltac:(lia)). rewrite !app_nth2 in CUT by (rewrite def_bounds_length; auto; lia).
      rewrite !def_bounds_length in CUT by auto. replace (nx + q - nx) with q in CUT by lia. rewrite !nth_def_bounds in CUT by auto. exact CUT. }
  assert (forall p, row_mult sp mg mh (t_lam s) (t_mu s) p = (row_mult sp mg mh (t_lam s) mu0 p + dl p)%K) as RM.
  { intros p. unfold row_mult, dl. rewrite SD, <- signed_sub by (rewrite !skipn_length; lia). ring. }
  assert (length (t_mu s) = length (e_h (t_e s)) /\ mh <= length (t_mu s)) as (LH & LMH).
  { pose proof (visited_interior _ _ _ _ _ _ _ _ _ _ ST VI) as I. pose proof (i_lmu _ _ _ _ _ _ I) as LMU.
    destruct (start_dims ln P O x0 A l u xmin xmax sp s0 mg mh SP ST WA WP Z1 Z2 Z3 Z4) as (_ & _ & _ & E4).
    destruct CL as (_ & E & _). split; [auto|]. rewrite LMU, E4. lia. }
  set (V := (nth j df 0 + _ + _ + _)%K).
  assert ((V * o_cost_mult O)%K = (nth j Lx 0 + - ((pull dhn (firstn mh (t_mu s)) j - pull dhn (firstn mh mu0) j) + pull_rows nx A dl j))%K) as EV.
  { unfold V. rewrite VL by auto.
    match goal with |- ((?a + ?b + ?c + ?e) * ?k = _)%K => transitivity (a * k + b * k + c * k + e * k)%K; [ring|] end.
    fold m in QE, QI. rewrite QE, QI, !pull_scale by auto.
    assert (forall sg sg' : nat -> K, (forall i, pull_rows nx A (fun p => sg p + sg' p)%K i = (pull_rows nx A sg i + pull_rows nx A sg' i)%K)) as PA.
    { intros sg sg' i. unfold pull_rows. match goal with |- (_ + lsum ?f ?l = _)%K =>
        rewrite (lsum_ext f (fun i0 => (match A with Some M => at_ M i0 i | None => 0%K end) * sg (nx + i0)%nat
          + (match A with Some M => at_ M i0 i | None => 0%K end) * sg' (nx + i0)%nat)%K) by (intros; ring) end.
      rewrite lsum_add. ring. }
    assert (pull_rows nx A (row_mult sp mg mh (t_lam s) (t_mu s)) j = pull_rows nx A (fun p => row_mult sp mg mh (t_lam s) mu0 p + dl p)%K j) as ->.
    { unfold pull_rows. rewrite RM. f_equal. apply lsum_ext. intros i _. rewrite RM. reflexivity. }
    rewrite PA.
    match goal with |- (_ + _ + _ + ?e * ?k = _)%K => assert ((e * k)%K = pull_rows nx A (row_mult sp mg mh (t_lam s) mu0) j) as -> end.
    { unfold pull_rows. destruct (Nat.ltb_spec j nx); [|lia]. fold m in R1, R2. rewrite R1 by auto.
      transitivity (row_mult sp mg mh (t_lam s) mu0 j + lsum (fun i => (match A with Some M => at_ M i j | None => 0%K end) * row_mult sp mg mh (t_lam s) mu0 (nx + i)%nat / o_cost_mult O)%K (seq 0 (rows_of A)) * o_cost_mult O)%K.
      - match goal with |- ((_ + ?a) * _ = _ + ?b * _)%K => assert (a = b) as -> end.
        { apply lsum_ext. intros i Hi. apply in_seq in Hi. destruct (Nat.ltb_spec (nx + i) nx); [lia|].
          replace (nx + i - nx) with i by lia. rewrite R2 by lia. field. auto. }
        field. auto.
      - f_equal. rewrite <- lsum_scal_r. apply lsum_ext. intros i _. field. auto. }
    ring. }
  rewrite EV. eapply le_lt_trans; [apply fabs_add|]. rewrite fabs_opp.
  assert (lt (fabs (nth j Lx 0%K)) (o_gradtol O * (1 + b))%K) as T1.
  { rewrite Forall_forall in FL. apply FL. apply nth_In. lia. }
  assert (length (r_x r) = nx) as LXS by (rewrite XS; exact (visited_len solve ln P O x0 sp s0 ST k s VI)).
  destruct (ws_gh _ _ _ _ WP _ _ _ _ _ LXS NL) as (_ & _ & J & _).
  assert (le (fabs (pull dhn (firstn mh (t_mu s)) j - pull dhn (firstn mh mu0) j)%K) (abs_pull dhn mh j * clean_tol)%K) as T2.
  { apply (pull_diff dhn _ _ mh j nx J); try (rewrite firstn_length; lia). rewrite <- FD. exact D2. }
  assert (le (fabs (pull_rows nx A dl j)) (cut_of (lower xmin j) (upper xmax j)
             + lsum (fun i => fabs (match A with Some M => at_ M i j | None => 0 end) * cut_of (lower l i) (upper u i))
                 (seq 0 (rows_of A)))%K) as T3.
  { unfold pull_rows. eapply le_trans; [apply fabs_add|]. apply add_le; [auto|]. apply fabs_lsum. intros i Hi.
    apply in_seq in Hi. apply fabs_mul. apply CU2. lia. }
  pose proof (le_trans _ _ _ (fabs_add _ _) (add_le _ _ _ _ T2 T3)) as T4.
  match type of T4 with le ?a ?b => set (e := a) in *; set (e' := b) in * end.
  apply lt_sub in T1. apply le_sub in T4. apply lt_sub.
  match goal with |- lt _ ?g => replace g with ((o_gradtol O * (1 + b) - fabs (nth j Lx 0)) + (e' - e))%K by (unfold e'; ring) end.
  apply add_pos_nn; auto.
Qed.

(** no multiplier for a bound that is not there *)
Lemma scatter_keep (v : list K) idx w v' p : scatter_checked v idx w = Ok v' -> ~ In p idx -> nth p v' 0%K = nth p v 0%K.
Proof.
  intros H N. apply NetworkC.scatter_checked_ok in H as (_ & _ & ->).
  pose proof (scatter_other idx v w p N) as E. rewrite <- !(nth_default_eq). unfold nth_default. rewrite E. reflexivity.
Qed.
Lemma unsplit_zero n sp lam mu ml mu_ p : unsplit n sp lam mu = Ok (ml, mu_) -> ~ In p (s_ieq sp) -> ~ In p (s_ibx sp) ->
  (~ In p (s_igt sp) -> nth p ml 0%K = 0%K) /\ (~ In p (s_ilt sp) -> nth p mu_ 0%K = 0%K).
Proof.
  intros H N1 N2. unfold unsplit in H.
  apply bind_ok in H as (el & Hel & H). apply bind_ok in H as (eu & Heu & H).
  apply bind_ok in H as (xl & Hxl & H). apply bind_ok in H as (xu & Hxu & H).
  apply bind_ok in H as (l1 & H1 & H). apply bind_ok in H as (l2 & H2 & H). apply bind_ok in H as (l3 & H3 & H).
  apply bind_ok in H as (u1 & H4 & H). apply bind_ok in H as (u2 & H5 & H). apply bind_ok in H as (u3 & H6 & H).
  injection H as <- <-. split; intros N3.
  - rewrite (scatter_keep _ _ _ _ _ H3 N2), (scatter_keep _ _ _ _ _ H2 N3), (scatter_keep _ _ _ _ _ H1).
    + apply nth_repeat.
    + intros C. apply N1. exact (gather_sub _ _ _ _ Hel C).
  - rewrite (scatter_keep _ _ _ _ _ H6 N2), (scatter_keep _ _ _ _ _ H5 N3), (scatter_keep _ _ _ _ _ H4).
    + apply nth_repeat.
    + intros C. apply N1. exact (gather_sub _ _ _ _ Heu C).
Qed.
Theorem one_sided r : pips solve ln P O x0 A l u xmin xmax = Ok r ->
  bounds_ordered nx (rows_of A) l u xmin xmax ->
  let m := r_lmbda r in
  (forall j, j < nx -> (lower xmin j = ENeg -> nth j (m_lower m) 0%K = 0%K) /\ (upper xmax j = EPos -> nth j (m_upper m) 0%K = 0%K)) /\
  (forall i, i < rows_of A -> (lower l i = ENeg -> nth i (m_mu_l m) 0%K = 0%K) /\ (upper u i = EPos -> nth i (m_mu_u m) 0%K = 0%K)).
Proof.
  intros H OB m. apply pips_ok in H as (sp & s0 & s & i & o & k & HS & H0 & V & _ & _ & C & _ & HP).
  apply package_ok in HP as (X & _ & _ & FL & CM & RF & mu0 & ml & mu_ & HC & HU & HM).
  pose proof (SF x0 A l u xmin xmax sp HS WA Z1 Z2 Z3 Z4) as SF.
  pose proof (ord_rows solve x0 A l u xmin xmax sp HS WA Z1 Z2 Z3 Z4 OB) as OR.
  assert (forall p, p < nx + rows_of A ->
     (nth p (def_bounds ENeg nx xmin ++ def_bounds ENeg (rows_of A) l) ENeg = ENeg -> nth p ml 0%K = 0%K) /\
     (nth p (def_bounds EPos nx xmax ++ def_bounds EPos (rows_of A) u) EPos = EPos -> nth p mu_ 0%K = 0%K)) as Q.
  { intros p Hp. pose proof (unsplit_zero _ _ _ _ _ _ p HU) as UZ.
    rewrite (in_ieq _ _ _ _ _ _ SF), (in_igt _ _ _ _ _ _ SF), (in_ilt _ _ _ _ _ _ SF) in UZ.
    rewrite (in_ibx _ _ _ _ _ _ SF p (OR p Hp)) in UZ.
    split; intros E; rewrite E in UZ; cbn [unb_lo unb_up] in UZ.
    - apply UZ; [|tauto|tauto]. intros (_ & T). exact T.
    - apply UZ; [|tauto|tauto]. intros (_ & T). unfold tight in T. destruct (nth p _ ENeg); exact T. }
  unfold m. rewrite HM. cbn [m_mu_l m_mu_u m_lower m_upper]. split; intros q Hq.
  - specialize (Q q ltac:(lia)). rewrite !app_nth1 in Q by (rewrite def_bounds_length; auto). rewrite !nth_def_bounds in Q by auto.
    rewrite !nth_firstn_lt by auto. exact Q.
  - specialize (Q (nx + q) ltac:(lia)). rewrite !app_nth2 in Q by (rewrite def_bounds_length; auto; lia).
    rewrite !def_bounds_length in Q by auto. replace (nx + q - nx) with q in Q by lia. rewrite !nth_def_bounds in Q by auto.
    rewrite !nth_skipn_d. exact Q.
Qed.
End Run.
End PipsI.
