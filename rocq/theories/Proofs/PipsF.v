(** Results of the solver. *)
From Verif Require Import Lib.ListFacts Model.Pips Spec.PipsSpec Spec.PipsRun Proofs.LinAlgFacts Proofs.SparseFacts
  Proofs.FldFacts Proofs.OrdFacts Proofs.NetworkB Proofs.AcPfA Proofs.BlockFacts Proofs.PipsA Proofs.PipsB
  Proofs.PipsC Proofs.PipsD Proofs.PipsE Proofs.MatFacts.
Local Open Scope nat_scope.

Section PipsF.
Context {K : Type} {F : Fld K}.
Add Field KF : (@f_ok K F).
Variable solve : smat K -> list K -> result (option (list K)).
Variable ln : K -> K.

Lemma pips_ok P O x0 A l u xmin xmax r : pips solve ln P O x0 A l u xmin xmax = Ok r ->
  exists sp s0 s i o k, split_bounds (length x0) A l u xmin xmax = Ok sp /\ start ln P O sp x0 = Ok s0 /\
    visited solve ln P O sp (length x0) s0 k s /\ k <= i /\ i <= o_max_it O /\
    (o = Converged <-> conv O s = true) /\ (o = Limit -> i = o_max_it O) /\
    package O sp (length x0) (rows_of A) (e_ng (t_e s0)) (e_nh (t_e s0)) s i o = Ok r.
Proof.
  unfold pips. intros H. apply bind_ok in H as (sp & Hsp & H). apply bind_ok in H as (s0 & H0 & H).
  apply bind_ok in H as (((s & i) & o) & Hr & H). apply run_ok in Hr as (s0' & H0' & I & (k & Hk & V) & C & L).
  rewrite H0 in H0'. injection H0' as <-. exists sp, s0, s, i, o, k. repeat split; auto; apply C.
Qed.

Lemma package_ok O sp nx nA ng nh (s : @Pips.state K) i o r : package O sp nx nA ng nh s i o = Ok r ->
  r_x r = t_x s /\ r_iterations r = i /\ r_message r = o /\ (r_eflag r = true <-> o = Converged) /\
  o_cost_mult O <> 0%K /\ r_f r = (e_f (t_e s) / o_cost_mult O)%K /\
  exists mu0 ml mu_, clean_mu (o_feastol O) (e_h (t_e s)) (t_mu s) = Ok mu0 /\
    let un := map (fun a => a / o_cost_mult O)%K in
    unsplit (nx + nA) sp (skipn ng (un (t_lam s))) (skipn nh (un mu0)) = Ok (ml, mu_) /\
    r_lmbda r = Lmbda (skipn nx ml) (skipn nx mu_) (firstn nx ml) (firstn nx mu_)
                  (firstn ng (un (t_lam s))) (firstn nh (un mu0)).
Proof.
  unfold package. intros H. apply bind_ok in H as (mu0 & Hm & H).
  destruct (feqb (o_cost_mult O) 0%K) eqn:E; [discriminate|].
  apply bind_ok in H as ((ml & mu_) & Hu & H). injection H as <-. simpl.
  repeat split; auto.
  - destruct o; congruence.
  - intros ->; auto.
  - intros C. apply feqb_ok in C. congruence.
  - exists mu0, ml, mu_. auto.
Qed.

Section States.
Variables (P : problem (K := K)) (O : popt (K := K)) (x0 : list K) (A : option (smat K))
  (l u xmin xmax : list (ext K)) (sp : Pips.split (K := K)) (s0 : @Pips.state K) (mg mh : nat).
Notation nx := (length x0).
Hypothesis (HS : split_bounds nx A l u xmin xmax = Ok sp) (H0 : start ln P O sp x0 = Ok s0).
Hypothesis (WA : shaped_opt nx A) (WP : well_shaped nx mg mh P).
Hypothesis (Z1 : sized nx xmin) (Z2 : sized nx xmax) (Z3 : sized (rows_of A) l) (Z4 : sized (rows_of A) u).
Notation ll := (def_bounds ENeg nx xmin ++ def_bounds ENeg (rows_of A) l).
Notation uu := (def_bounds EPos nx xmax ++ def_bounds EPos (rows_of A) u).

Lemma SF : split_facts nx (nx + rows_of A) (con_val nx A) ll uu sp.
Proof. apply split_facts_ok; auto. eapply shaped_opt_wf; eauto. Qed.

Lemma start_len : length (t_x s0) = nx.
Proof.
  unfold start in H0. apply bind_ok in H0 as (e & He & H). apply measure_ok in H as (E & _). rewrite E. reflexivity.
Qed.
Lemma visited_len k s : visited solve ln P O sp nx s0 k s -> length (t_x s) = nx.
Proof.
  intros V. induction V as [|i s s' ap ad V IH St].
  - apply start_len.
  - apply iterate_advance in St as (dx & dlam & dz & dmu & H). unfold advance in H.
    apply bind_ok in H as (x & Hx & H). apply bind_ok in H as (z & Hz & H). apply bind_ok in H as (lam & Hlam & H).
    apply bind_ok in H as (mu & Hmu & H). apply bind_ok in H as (e & He & H).
    apply bind_ok in H as (s1 & Hs & H). injection H as <- _ _.
    apply measure_ok in Hs as (E & _). rewrite E. apply ewise_ok in Hx as (Q & ->).
    unfold map2. rewrite map_length, combine_length. lia.
Qed.

Lemma start_dims : e_ng (t_e s0) = mg /\ e_nh (t_e s0) = mh /\
  length (e_g (t_e s0)) = mg + length (s_ieq sp) /\
  length (e_h (t_e s0)) = mh + (length (s_ilt sp) + length (s_igt sp) + length (s_ibx sp) + length (s_ibx sp)).
Proof.
  pose proof (start_interior _ _ _ _ _ _ H0) as (I & _). pose proof (i_eval _ _ _ _ _ _ I) as E.
  destruct (eval_ok _ _ _ _ _ _ SF _ _ _ _ E) as (f & df & hn & gn & dhn & dgn & Hf & N & _ & _ & G & H & NG & NH & _).
  destruct (ws_gh _ _ _ _ WP _ _ _ _ _ start_len N) as (L1 & L2 & _).
  rewrite NG, NH, G, H. unfold lin_g, lin_h. rewrite !app_length, !map_length. lia.
Qed.

Lemma visited_lam k s : visited solve ln P O sp nx s0 k s -> length (t_lam s) = length (e_g (t_e s0)).
Proof.
  intros V. induction V as [|i s s' ap ad V IH St].
  - unfold start in H0. apply bind_ok in H0 as (e & He & H). apply measure_ok in H as (_ & _ & L & _ & _ & E & _).
    rewrite L, E. apply repeat_length.
  - apply iterate_advance in St as (dx & dlam & dz & dmu & H). unfold advance in H.
    apply bind_ok in H as (x & Hx & H). apply bind_ok in H as (z & Hz & H). apply bind_ok in H as (lam & Hlam & H).
    apply bind_ok in H as (mu & Hmu & H). apply bind_ok in H as (e & He & H).
    apply bind_ok in H as (s1 & Hs & H). injection H as <- _ _.
    apply measure_ok in Hs as (_ & _ & L & _). rewrite L. apply ewise_ok in Hlam as (Q & ->).
    unfold map2. rewrite map_length, combine_length. lia.
Qed.

Notation row_mult := (row_mult sp mg mh).

Lemma state_values k s : visited solve ln P O sp nx s0 k s ->
  exists f df hn gn dhn dgn, p_f P (t_x s) = Ok (f, df) /\ nonlinear_at P (t_x s) hn gn dhn dgn /\
    e_f (t_e s) = (f * o_cost_mult O)%K /\
    e_g (t_e s) = gn ++ lin_g (con_val nx A (t_x s)) uu sp /\
    e_h (t_e s) = hn ++ lin_h (con_val nx A (t_x s)) ll uu sp /\
    length (t_Lx s) = nx /\
    forall j, j < nx -> nth j (t_Lx s) 0%K =
      (nth j df 0 * o_cost_mult O + pull dgn (firstn mg (t_lam s)) j + pull dhn (firstn mh (t_mu s)) j
       + pull_rows nx A (row_mult (t_lam s) (t_mu s)) j)%K.
Proof.
  intros V. pose proof (visited_interior _ _ _ _ _ _ _ _ _ _ H0 V) as I.
  pose proof (visited_lam _ _ V) as LL. destruct start_dims as (_ & _ & D1 & D2).
  pose proof (i_lmu _ _ _ _ _ _ I) as LM.
  pose proof (i_eval _ _ _ _ _ _ I) as E. destruct (i_measure _ _ _ _ _ _ I) as (f0 & M).
  apply measure_ok in M as (_ & _ & _ & _ & _ & _ & HL & _).
  destruct (eval_ok _ _ _ _ _ _ SF _ _ _ _ E)
    as (f & df & hn & gn & dhn & dgn & Hf & N & EF & EDF & G & H & NG & NH & TH & TG).
  pose proof (visited_len _ _ V) as LXS. destruct (ws_gh _ _ _ _ WP _ _ _ _ _ LXS N) as (L1 & L2 & J1 & J2).
  exists f, df, hn, gn, dhn, dgn. split; auto. split; auto. split; auto. split; auto. split; auto.
  apply lagr_grad_ok in HL as (LX & VX). rewrite EDF, map_length in LX, VX.
  rewrite (ws_f _ _ _ _ WP _ _ _ LXS Hf) in LX, VX. split; auto.
  intros j Hj. rewrite VX by auto.
  rewrite (nth_map_lt _ _ _ _ 0%K) by (rewrite (ws_f _ _ _ _ WP _ _ _ LXS Hf); auto).
  rewrite (combined_mul nx _ _ _ _ mg j J2 TG) by (auto; lia).
  rewrite (combined_mul nx _ _ _ _ mh j J1 TH) by (auto; lia).
  rewrite (pull_eq nx A ll uu sp WA SF) by (auto; rewrite skipn_length; lia).
  rewrite (pull_iq nx A ll uu sp WA SF) by (auto; rewrite skipn_length; lia).
  unfold pull_rows, row_mult.
  set (f1 := signed (eq_rows sp) (skipn mg (t_lam s))). set (f2 := signed (iq_rows sp) (skipn mh (t_mu s))).
  rewrite (lsum_ext (fun i => _ * (f1 _ + f2 _))%K (fun i =>
    (match A with Some M => at_ M i j | None => 0%K end) * f1 (nx + i)%nat +
    (match A with Some M => at_ M i j | None => 0%K end) * f2 (nx + i)%nat)%K) by (intros; ring).
  rewrite lsum_add. ring.
Qed.

Lemma lo_row p : p < nx -> nth p ll ENeg = lower xmin p.
Proof. intros H. rewrite app_nth1 by (rewrite def_bounds_length; auto). apply nth_def_bounds; auto. Qed.
Lemma up_row p : p < nx -> nth p uu EPos = upper xmax p.
Proof. intros H. rewrite app_nth1 by (rewrite def_bounds_length; auto). apply nth_def_bounds; auto. Qed.
Lemma lo_row' i : i < rows_of A -> nth (nx + i) ll ENeg = lower l i.
Proof.
  intros H. rewrite app_nth2 by (rewrite def_bounds_length; auto; lia). rewrite def_bounds_length by auto.
  replace (nx + i - nx) with i by lia. apply nth_def_bounds; auto.
Qed.
Lemma up_row' i : i < rows_of A -> nth (nx + i) uu EPos = upper u i.
Proof.
  intros H. rewrite app_nth2 by (rewrite def_bounds_length; auto; lia). rewrite def_bounds_length by auto.
  replace (nx + i - nx) with i by lia. apply nth_def_bounds; auto.
Qed.
Lemma con_row x p : p < nx -> con_val nx A x p = nth p x 0%K.
Proof. intros H. unfold con_val. destruct (Nat.ltb_spec p nx); auto; lia. Qed.
Lemma con_row' x i : i < rows_of A -> con_val nx A x (nx + i) = lin_val A x i.
Proof.
  intros H. unfold con_val, lin_val. destruct (Nat.ltb_spec (nx + i) nx); [lia|].
  destruct A as [M|]; auto. replace (nx + i - nx) with i by lia. apply mulrow_at.
  apply shaped_wf in WA. tauto.
Qed.

Lemma all_rows (Q : ext K -> ext K -> K -> Prop) x :
  (forall p, p < nx + rows_of A -> Q (nth p ll ENeg) (nth p uu EPos) (con_val nx A x p)) <->
  (forall j, j < nx -> Q (lower xmin j) (upper xmax j) (nth j x 0%K)) /\
  (forall i, i < rows_of A -> Q (lower l i) (upper u i) (lin_val A x i)).
Proof.
  split.
  - intros H. split.
    + intros j Hj. specialize (H j ltac:(lia)). rewrite lo_row, up_row, con_row in H by auto. auto.
    + intros i Hi. specialize (H (nx + i) ltac:(lia)). rewrite lo_row', up_row', con_row' in H by auto. auto.
  - intros (H1 & H2) p Hp. destruct (lt_dec p nx).
    + rewrite lo_row, up_row, con_row by auto. auto.
    + replace p with (nx + (p - nx)) by lia. rewrite lo_row', up_row', con_row' by lia. apply H2. lia.
Qed.

Lemma ord_rows : bounds_ordered nx (rows_of A) l u xmin xmax ->
  forall p, p < nx + rows_of A -> ordered (nth p ll ENeg) (nth p uu EPos).
Proof.
  intros H. apply (proj2 (all_rows (fun a b _ => ordered a b) [])). exact H.
Qed.

(** ** the multipliers returned *)
Lemma clean_ok tol h mu mu0 : clean_mu tol h mu = Ok mu0 -> Forall (lt 0%K) mu ->
  length mu0 = length mu /\ Forall (le 0%K) mu0 /\
  Forall2 (fun m m0 => m0 = m \/ m0 = 0%K /\ lt m mu_threshold) mu mu0.
Proof.
  unfold clean_mu. intros H. apply ewise_ok in H as (L & ->). revert h L.
  induction mu as [|m mu IH]; intros [|a h] L Q; try discriminate; simpl.
  - repeat constructor.
  - inversion Q; subst. destruct (IH h) as (A1 & A2 & A3); auto. split; [f_equal; exact A1|].
    unfold map2 in *. cbn [combine map fst snd]. destruct (fltb a (- tol)%K && fltb m mu_threshold) eqn:E.
    + apply andb_true_iff in E as (_ & E). split; constructor; auto. apply le_refl.
    + split; constructor; auto. apply lt_le; auto.
Qed.
End States.

(** ** the Newton direction *)
Lemma vdiv_ok' (a b c : list K) : vdiv a b = Ok c -> length a = length b /\ c = map2 fdiv a b /\ Forall (fun x => x <> 0%K) b.
Proof.
  unfold vdiv. destruct (negb _) eqn:E; [discriminate|]. apply negb_false_iff, Nat.eqb_eq in E.
  destruct (existsb _ b) eqn:X; [discriminate|]. intros H; injection H as <-. split; auto. split; auto.
  apply Forall_forall. intros y Hy C. subst. assert (existsb (fun b : K => feqb b 0%K) b = true); [|congruence].
  apply existsb_exists. exists 0%K. split; auto. apply feqb_ok. auto.
Qed.

Lemma push_transp (M : smat K) x i : wf M -> mulrow (transp M) x i = push (Some M) x i.
Proof.
  intros W. rewrite mulrow_at by (apply wf_transp; auto). simpl. apply lsum_ext. intros j _. f_equal.
  unfold at_. simpl. rewrite lsum_map. simpl. apply lsum_ext. intros e _. rewrite andb_comm. reflexivity.
Qed.

Lemma mulrow_mulm_rows (A B M : smat K) x i : wf A -> mulm A B = Ok M ->
  mulrow M x i = mulrow A (rowsv B x) i.
Proof.
  unfold mulm. destruct (Nat.eqb_spec (ncols A) (nrows B)) as [E|]; [|discriminate].
  intros W H; injection H as <-. rewrite (mulrow_mulm _ _ _ _ (nrows B)). unfold mulrow at 2.
  apply lsum_ext. intros e He. unfold wf in W. rewrite Forall_forall in W. specialize (W e He) as (_ & W).
  destruct (erow e =? i); auto. f_equal. rewrite nth_rowsv by lia. destruct B; reflexivity.
Qed.

Lemma diagm_ok (v : list K) D : diagm v = Ok D -> wf D /\ nrows D = length v /\ ncols D = length v /\
  forall w, length w = length v -> rowsv D w = map2 rmul v w.
Proof.
  intros H. assert (0 < length v) as P by (destruct v; [discriminate|simpl; lia]).
  destruct (ismat_diag v _ eq_refl P) as (D' & H' & I). rewrite H in H'. injection H' as <-.
  destruct I as (W & R & C & V). split; auto. split; auto. split; auto. intros w L.
  rewrite (map2_nth _ _ _ 0%K 0%K) by auto. unfold rowsv. rewrite R. apply map_ext_in. intros i Hi.
  apply in_seq in Hi. rewrite mulrow_at by auto. rewrite C.
  rewrite (lsum_ext _ (fun k => if i =? k then (nth k v 0 * nth k w 0)%K else 0%K)).
  - apply lsum_seq_single' with (f := fun k => (nth k v 0 * nth k w 0)%K). lia.
  - intros k Hk. apply in_seq in Hk. rewrite V by lia. destruct (Nat.eqb_spec i k); subst; ring.
Qed.

Lemma wf_diag (v : list K) D : diagm v = Ok D -> wf D.
Proof. intros H. apply diagm_ok in H. tauto. Qed.

Lemma mulrow_vec_add (M : smat K) a b i : length a = length b ->
  mulrow M (map2 radd a b) i = (mulrow M a i + mulrow M b i)%K.
Proof. intros L. apply mulrow_add. auto. Qed.

Lemma row_val_mulrow (M : smat K) x i : wf M -> row_val M x i = mulrow M x i.
Proof. intros W. symmetry. apply mulrow_at. auto. Qed.

Section Direction.
Variables (P : problem (K := K)) (O : popt (K := K)) (nx : nat) (s : @Pips.state K).
Variables (neqnln niqnln neq niq : nat).
Hypothesis EX : sparse_exact solve.
Notation e := (t_e s).
Hypothesis (Jg : jacobian nx neq (e_dg e)) (Jh : jacobian nx niq (e_dh e)).
Hypothesis (Lg : length (e_g e) = neq) (Lh : length (e_h e) = niq).
Hypothesis (LX : length (t_Lx s) = nx).
Hypothesis HH : forall x lam mu M, p_hess P x lam mu (o_cost_mult O) = Ok M -> shaped nx nx M.
Hypothesis HD : forall x M, p_d2f P x = Ok M -> shaped nx nx M.

Lemma mapm_shaped (f : K -> K) nr nc M : shaped nr nc M -> shaped nr nc (mapm f M).
Proof.
  intros (A & B & C). split; auto. split; auto. simpl. apply Forall_map. simpl. auto.
Qed.

(** the reduced system, its matrix applied to a vector *)
Lemma reduced_ok Lxx M N : shaped nx nx Lxx -> reduced s Lxx = Ok (M, N) ->
  wf M /\ nrows M = nx /\ ncols M = nx /\ length N = nx /\
  forall dx j, length dx = nx -> j < nx ->
    (mulrow M dx j + nth j N 0)%K =
    (mulrow Lxx dx j + nth j (t_Lx s) 0 +
      match e_dh e with
      | Some dh => mulrow dh (map2 (fun z t => t / z)%K (t_z s)
           (map2 radd (map2 (fun m h => m * h + t_gamma s)%K (t_mu s) (e_h e))
                      (map2 rmul (t_mu s) (rowsv (transp dh) dx)))) j
      | None => 0
      end)%K.
Proof.
  intros SX. unfold reduced. apply shaped_wf in SX as (WX & RX & CX).
  destruct (e_dh e) as [dh|].
  - apply shaped_wf in Jh as (Wd & Rd & Cd).
    destruct (existsb _ (t_z s)) eqn:EZ; [discriminate|].
    assert (Forall (fun z : K => z <> 0%K) (t_z s)) as NZ.
    { apply Forall_forall. intros y Hy C. subst.
      assert (existsb (fun b : K => feqb b 0%K) (t_z s) = true); [|congruence].
      apply existsb_exists. exists 0%K. split; auto. apply feqb_ok. auto. }
    intros H. apply bind_ok in H as (Zi & HZi & H). apply bind_ok in H as (Mu & HMu & H).
    apply bind_ok in H as (dhz & Hdhz & H). apply bind_ok in H as (T1 & HT1 & H).
    apply bind_ok in H as (T2 & HT2 & H). apply bind_ok in H as (M' & HM & H).
    apply bind_ok in H as (w & Hw & H). apply bind_ok in H as (v & Hv & H).
    apply bind_ok in H as (N' & HN & H). injection H as <- <-.
    pose proof (wf_mulm _ _ _ Wd (wf_diag _ _ HZi) Hdhz) as W1.
    pose proof (wf_mulm _ _ _ W1 (wf_diag _ _ HMu) HT1) as W2.
    pose proof (wf_mulm _ _ _ W2 (wf_transp _ Wd) HT2) as W3.
    pose proof (wf_addm _ _ _ WX W3 HM) as W4.
    pose proof (diagm_ok _ _ HZi) as (_ & RZ & CZ & VZ). pose proof (diagm_ok _ _ HMu) as (_ & RM & CM & VM).
    rewrite map_length in RZ, CZ, VZ.
    apply ewise_ok in Hw as (Lw & ->). apply mulv_rowsv in Hv as (Lv & ->). apply ewise_ok in HN as (LN & ->).
    assert (nrows dhz = nx /\ ncols dhz = length (t_z s) /\ length (t_z s) = niq) as (Rdz & Cdz & LZ).
    { unfold mulm in Hdhz. destruct (Nat.eqb_spec (ncols dh) (nrows Zi)); [|discriminate].
      injection Hdhz as <-. simpl. rewrite Rd, CZ. split; auto. split; auto. congruence. }
    assert (length (t_mu s) = niq) as LM.
    { unfold mulm in HT1. destruct (Nat.eqb_spec (ncols dhz) (nrows Mu)); [|discriminate]. congruence. }
    unfold addm in HM. destruct (_ && _); [|discriminate]. injection HM as <-. simpl.
    split; auto. split; auto. split; auto.
    split. { unfold map2 at 1. rewrite map_length, combine_length, rowsv_length. lia. }
    intros dx j Ld Hj. rewrite mulrow_app.
    assert (mulrow {| nrows := nrows Lxx; ncols := ncols Lxx; ents := ents Lxx |} dx j = mulrow Lxx dx j) as ->
      by (destruct Lxx; reflexivity).
    change (mulrow {| nrows := nrows Lxx; ncols := ncols Lxx; ents := ents T2 |} dx j) with (mulrow T2 dx j).
    rewrite (mulrow_mulm_rows _ _ _ dx j W2 HT2).
    rewrite (mulrow_mulm_rows _ _ _ _ j W1 HT1). rewrite VM by (rewrite rowsv_length; simpl; congruence).
    rewrite (mulrow_mulm_rows _ _ _ _ j Wd Hdhz).
    rewrite VZ by (unfold map2; rewrite map_length, combine_length, rowsv_length; simpl; lia).
    rewrite (nth_map2_d _ _ _ _ 0%K 0%K) by lia. rewrite nth_rowsv by lia.
    rewrite (mulrow_mulm_rows _ _ _ _ j Wd Hdhz).
    rewrite VZ by (unfold map2; rewrite map_length, combine_length; lia).
    set (a := map2 (fun m h => m * h + t_gamma s)%K (t_mu s) (e_h e)).
    set (b := map2 rmul (t_mu s) (rowsv (transp dh) dx)).
    assert (length a = length (t_z s)) as La by (unfold a, map2; rewrite map_length, combine_length; lia).
    assert (length b = length (t_z s)) as Lb by (unfold b, map2; rewrite map_length, combine_length, rowsv_length; simpl; lia).
    assert (map2 (fun z t : K => (t / z)%K) (t_z s) (map2 radd a b)
            = map2 radd (map2 rmul (map (fun z => 1 / z)%K (t_z s)) a) (map2 rmul (map (fun z => 1 / z)%K (t_z s)) b)) as ->.
    { clearbody a b. clear - La Lb NZ. revert a b La Lb. induction NZ as [|z t Hz NZ IH]; intros [|x a] [|y b] La Lb; try discriminate; auto.
      simpl. unfold map2 in *. simpl. f_equal; [field; auto|]. apply IH; auto. }
    rewrite mulrow_vec_add by (unfold map2; rewrite !map_length, !combine_length, !map_length; lia).
    change (map (fun z : K => (1 / z)%K) (t_z s)) with (map (fun z => 1 / z)%K (t_z s)). ring.
  - intros H; injection H as <- <-. repeat split; auto. intros. ring.
Qed.

Lemma map2_length {A B C} (f : A -> B -> C) a b : length (map2 f a b) = Nat.min (length a) (length b).
Proof. unfold map2. rewrite map_length. apply combine_length. Qed.

Theorem direction_ok dx dlam dz dmu Lxx :
  direction solve P O nx neqnln niqnln neq s = Ok (Some (dx, dlam, dz, dmu, Lxx)) ->
  length (t_z s) = niq -> length (t_mu s) = niq ->
  shaped nx nx Lxx /\ length dx = nx /\ length dlam = neq /\ length dz = niq /\ length dmu = niq /\
  (forall j, j < nx -> (row_val Lxx dx j + pull (e_dg e) dlam j + pull (e_dh e) dmu j)%K
                       = (- nth j (t_Lx s) 0)%K) /\
  (forall i, i < neq -> push (e_dg e) dx i = (- nth i (e_g e) 0)%K) /\
  (forall i, i < niq -> (push (e_dh e) dx i + nth i dz 0)%K = (- (nth i (e_h e) 0 + nth i (t_z s) 0))%K) /\
  (forall i, i < niq -> (nth i (t_mu s) 0 * nth i dz 0 + nth i (t_z s) 0 * nth i dmu 0)%K
                        = (t_gamma s - nth i (t_mu s) 0 * nth i (t_z s) 0)%K).
Proof.
  intros H LZ LM. unfold direction in H. apply bind_ok in H as (Lx' & HLx & H).
  apply bind_ok in H as ((M & N) & Hred & H). apply bind_ok in H as (Ab & HAb & H).
  apply bind_ok in H as (sol & Hsol & H). destruct sol as [sol|]; [|discriminate].
  apply bind_ok in H as (hz & Hhz & H). apply bind_ok in H as (dz' & Hdz & H).
  apply bind_ok in H as (dmu' & Hdmu & H). injection H as <- <- <- <- <-.
  assert (shaped nx nx Lx') as SX.
  { destruct (p_gh P); [eapply HH; eauto|]. apply bind_ok in HLx as (D & HDx & E). injection E as <-.
    apply mapm_shaped. eapply HD; eauto. }
  split; auto. destruct (reduced_ok _ _ _ SX Hred) as (WM & RM & CM & LN & VM).
  pose proof (shaped_wf _ _ _ SX) as (WX & _).
  apply EX in Hsol as (Ls & Lb & Vs). rewrite app_length, !map_length, LN, Lg in Lb.
  (* the matrix *)
  assert (wf Ab /\ nrows Ab = nx + neq /\ ncols Ab = nx + neq /\
    (forall j, j < nx -> forall a b, length a = nx -> length b = neq ->
        mulrow Ab (a ++ b) j = (mulrow M a j + optmul (e_dg e) b j)%K) /\
    (forall i, i < neq -> forall a b, length a = nx -> length b = neq ->
        mulrow Ab (a ++ b) (nx + i) = push (e_dg e) a i)) as (WAb & RAb & CAb & TOP & BOT).
  { unfold kkt_matrix in HAb. destruct (e_dg e) as [dg|].
    - apply shaped_wf in Jg as (Wg & Rg & Cg).
      apply bind_ok in HAb as (top & Htop & HAb). apply bind_ok in HAb as (bot & Hbot & HAb).
      pose proof (wf_hstackm _ _ _ WM Wg Htop) as Wt.
      assert (wf (SM neq neq [] : smat K)) as W0 by constructor.
      pose proof (wf_hstackm _ _ _ (wf_transp _ Wg) W0 Hbot) as Wb.
      pose proof (hstackm_ok _ _ _ Htop) as (_ & Rt & Ct). pose proof (hstackm_ok _ _ _ Hbot) as (_ & Rb & Cb).
      pose proof (vstackm_ok _ _ _ HAb) as (_ & RA & CA). simpl in *.
      split; [exact (wf_vstackm _ _ _ Wt Wb HAb)|]. split; [congruence|]. split; [congruence|]. split.
      + intros j Hj a b La Lb'. rewrite (mulrow_vstackm _ _ _ _ _ Wt HAb).
        destruct (Nat.ltb_spec j (nrows top)); [|lia].
        rewrite (mulrow_hstackm _ _ _ _ _ _ WM (eq_trans La (eq_sym CM)) Htop). reflexivity.
      + intros i Hi a b La Lb'. rewrite (mulrow_vstackm _ _ _ _ _ Wt HAb).
        destruct (Nat.ltb_spec (nx + i) (nrows top)); [lia|].
        replace (nx + i - nrows top) with i by lia.
        rewrite (mulrow_hstackm (transp dg) _ _ a b i (wf_transp _ Wg)) with (2 := Hbot) by (simpl; congruence).
        rewrite push_transp by auto. unfold mulrow. simpl. ring.
    - simpl in Jg. injection HAb as <-. rewrite !Jg, Nat.add_0_r.
      split; auto. split; auto. split; auto. split; [|intros; lia].
      intros j Hj a b La Lb'. rewrite ?Jg in Lb'. destruct b; [|discriminate]. rewrite app_nil_r. simpl. ring. }
  set (dx := firstn nx sol) in *. set (dlam := slice nx (nx + neq) sol) in *.
  assert (length dx = nx) as Ldx by (unfold dx; rewrite firstn_length; lia).
  assert (length dlam = neq) as Ldl by (unfold dlam; rewrite slice_length; lia).
  assert (sol = dx ++ dlam) as ES.
  { unfold dx, dlam, slice. rewrite <- (firstn_skipn nx sol) at 1. f_equal. symmetry. apply firstn_all2.
    rewrite skipn_length. lia. }
  assert (forall j, j < nx -> (mulrow M dx j + optmul (e_dg e) dlam j)%K = (- nth j N 0)%K) as E1.
  { intros j Hj. rewrite <- TOP by auto. rewrite <- ES. rewrite <- row_val_mulrow by auto.
    rewrite Vs by lia. rewrite app_nth1 by (rewrite map_length; lia).
    rewrite (nth_map_lt _ _ _ _ 0%K) by lia. reflexivity. }
  assert (forall i, i < neq -> push (e_dg e) dx i = (- nth i (e_g e) 0)%K) as E2.
  { intros i Hi. rewrite <- (BOT i Hi dx dlam) by auto. rewrite <- ES. rewrite <- row_val_mulrow by auto.
    rewrite Vs by lia. rewrite app_nth2 by (rewrite map_length; lia). rewrite map_length, LN.
    replace (nx + i - nx) with i by lia. rewrite (nth_map_lt _ _ _ _ 0%K) by lia. reflexivity. }
  split; auto. split; auto.
  apply ewise_ok in Hhz as (Lhz & ->).
  destruct (e_dh e) as [dh|].
  - pose proof (shaped_wf _ _ _ Jh) as (Wd & Rd & Cd).
    apply bind_ok in Hdz as (v & Hv & Hdz). apply mulv_rowsv in Hv as (_ & ->).
    apply ewise_ok in Hdz as (Ldz & ->).
    apply bind_ok in Hdmu as (w & Hw & Hdmu). apply bind_ok in Hdmu as (q & Hq & Hdmu).
    apply ewise_ok in Hw as (Lw & ->). apply vdiv_ok' in Hq as (Lq & -> & NZ). apply ewise_ok in Hdmu as (Ldm & ->).
    set (dz := map2 rsub (map2 (fun h z => - h - z)%K (e_h e) (t_z s)) (rowsv (transp dh) dx)) in *.
    assert (length dz = niq) as LDZ.
    { unfold dz. rewrite !map2_length, rowsv_length. simpl. lia. }
    split; auto.
    split. { rewrite !map2_length, ?rowsv_length. simpl. lia. }
    assert (forall i, i < niq -> nth i dz 0%K = (- nth i (e_h e) 0 - nth i (t_z s) 0 - push (Some dh) dx i)%K) as VZ.
    { intros i Hi. unfold dz. rewrite (nth_map2_d _ _ _ _ 0%K 0%K).
      - rewrite (nth_map2_d _ _ _ _ 0%K 0%K) by lia. rewrite nth_rowsv by (simpl; lia).
        rewrite push_transp by auto. reflexivity.
      - rewrite !map2_length, ?rowsv_length. simpl. lia.
      - rewrite rowsv_length. simpl. lia. }
    set (dmu := map2 (fun m q => - m + q)%K (t_mu s)
                  (map2 fdiv (map2 (fun m d => t_gamma s - m * d)%K (t_mu s) dz) (t_z s))).
    assert (forall i, i < niq -> nth i dmu 0%K =
       (- nth i (t_mu s) 0 + (t_gamma s - nth i (t_mu s) 0 * nth i dz 0) / nth i (t_z s) 0)%K) as VMU.
    { intros i Hi. unfold dmu. rewrite (nth_map2_d _ _ _ _ 0%K 0%K).
      - f_equal. rewrite (nth_map2_d _ _ _ _ 0%K 0%K).
        + f_equal. rewrite (nth_map2_d _ _ _ _ 0%K 0%K) by lia. reflexivity.
        + rewrite !map2_length, ?rowsv_length. simpl. lia.
        + lia.
      - lia.
      - rewrite !map2_length, ?rowsv_length. simpl. lia. }
    assert (forall i, i < niq -> nth i (t_z s) 0%K <> 0%K) as NZ'.
    { intros i Hi. rewrite Forall_forall in NZ. apply NZ. apply nth_In. lia. }
    split; [|split; [auto|split]].
    + intros j Hj. specialize (E1 j Hj). specialize (VM dx j Ldx Hj). rewrite row_val_mulrow by auto.
      assert (pull (e_dg e) dlam j = optmul (e_dg e) dlam j) as ->.
      { unfold pull, lin_val, optmul. destruct (e_dg e) as [g|]; auto. apply row_val_mulrow.
        apply shaped_wf in Jg. tauto. }
      simpl. rewrite row_val_mulrow by auto.
      assert (mulrow dh dmu j = mulrow dh
          (map2 (fun z t : K => (t / z)%K) (t_z s)
            (map2 radd (map2 (fun m h : K => (m * h + t_gamma s)%K) (t_mu s) (e_h e))
               (map2 rmul (t_mu s) (rowsv (transp dh) dx)))) j) as ->.
      { apply mulrow_ext; auto. intros i Hi'. assert (i < niq) as Hi by lia. rewrite VMU, VZ by auto.
        assert (length (map2 radd (map2 (fun m h : K => (m * h + t_gamma s)%K) (t_mu s) (e_h e))
               (map2 rmul (t_mu s) (rowsv (transp dh) dx))) = niq) as LL.
        { rewrite !map2_length, ?rowsv_length. simpl. lia. }
        rewrite (nth_map2_d _ _ _ _ 0%K 0%K) by (rewrite ?LL; lia).
        rewrite (nth_map2_d _ _ _ _ 0%K 0%K).
        2:{ rewrite !map2_length, ?rowsv_length. simpl. lia. }
        2:{ rewrite !map2_length, ?rowsv_length. simpl. lia. }
        rewrite (nth_map2_d _ _ _ _ 0%K 0%K) by lia.
        rewrite (nth_map2_d _ _ _ _ 0%K 0%K) by (rewrite ?rowsv_length; simpl; lia).
        rewrite nth_rowsv by (simpl; lia). rewrite push_transp by auto. field. auto. }
      transitivity ((mulrow M dx j + nth j N 0) - nth j (t_Lx s) 0 + optmul (e_dg e) dlam j)%K; [rewrite VM; ring|].
      transitivity ((mulrow M dx j + optmul (e_dg e) dlam j) + nth j N 0 - nth j (t_Lx s) 0)%K; [ring|].
      rewrite E1. ring.
    + intros i Hi. rewrite VZ by auto. ring.
    + intros i Hi. rewrite VMU by auto. field. auto.
  - simpl in Jh. injection Hdz as <-. injection Hdmu as <-. rewrite map_length.
    split. { rewrite !map2_length, ?rowsv_length. simpl. lia. }
    split; auto. split; [|split; [auto|split; intros; lia]].
    intros j Hj. specialize (E1 j Hj). specialize (VM dx j Ldx Hj). rewrite row_val_mulrow by auto.
    assert (pull (e_dg e) dlam j = optmul (e_dg e) dlam j) as ->.
    { unfold pull, lin_val, optmul. destruct (e_dg e) as [g|]; auto. apply row_val_mulrow.
      apply shaped_wf in Jg. tauto. }
    simpl. transitivity ((mulrow M dx j + nth j N 0) - nth j (t_Lx s) 0 + optmul (e_dg e) dlam j)%K; [rewrite VM; ring|].
    transitivity ((mulrow M dx j + optmul (e_dg e) dlam j) + nth j N 0 - nth j (t_Lx s) 0)%K; [ring|].
    rewrite E1. ring.
Qed.
End Direction.
End PipsF.
