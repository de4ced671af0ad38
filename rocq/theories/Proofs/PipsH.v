(** Convex problems with linear constraints: how far the returned cost is from the optimum. *)
From Verif Require Import Lib.ListFacts Model.Pips Spec.PipsSpec Spec.PipsRun Proofs.LinAlgFacts Proofs.SparseFacts
  Proofs.FldFacts Proofs.OrdFacts Proofs.NetworkB Proofs.AcPfA Proofs.BlockFacts Proofs.PipsA Proofs.PipsB
  Proofs.PipsC Proofs.PipsD Proofs.PipsE Proofs.PipsF Proofs.PipsG.
Local Open Scope nat_scope.

Section PipsH.
Context {K : Type} {F : Fld K}.
Add Field KF : (@f_ok K F).

Lemma lsum_le {T} (f g : T -> K) l : (forall t, In t l -> le (f t) (g t)) -> le (lsum f l) (lsum g l).
Proof.
  induction l as [|a l IH]; simpl; intros H; [apply le_refl|]. apply add_le; auto.
Qed.
Lemma lsum_nn {T} (f : T -> K) l : (forall t, In t l -> le 0%K (f t)) -> le 0%K (lsum f l).
Proof.
  intros H. rewrite <- (lsum_0 l). apply lsum_le. auto.
Qed.
Lemma mul_abs (a b t : K) : le (fabs a) t -> le (- (t * fabs b))%K (a * b)%K.
Proof.
  intros H. apply fabs_le in H as (H1 & H2). unfold fabs. destruct (fltb b 0%K) eqn:E.
  - apply le_sub in H2. apply le_sub. replace (a * b - - (t * - b))%K with ((t - a) * - b)%K by ring.
    apply mul_nn; auto. apply lt_le. apply pos_opp. exact E.
  - apply le_sub in H1. apply le_sub. replace (a * b - - (t * b))%K with ((a - - t) * b)%K by ring.
    apply mul_nn; auto.
Qed.

Section Rows.
Variables (nx : nat) (A : option (smat K)) (ll uu : list (ext K)) (sp : Pips.split (K := K)).
Hypothesis WA : shaped_opt nx A.
Notation n := (nx + rows_of A).
Hypothesis SF : split_facts nx n (con_val nx A) ll uu sp.

Lemma con_diff x y p : p < n ->
  (con_val nx A y p - con_val nx A x p)%K
  = lsum (fun j => con_val nx A (unit nx j) p * (nth j y 0 - nth j x 0))%K (seq 0 nx).
Proof.
  intros Hp. unfold con_val. destruct (Nat.ltb_spec p nx) as [L|L].
  - rewrite (lsum_ext _ (fun j => if p =? j then (nth j y 0 - nth j x 0)%K else 0%K)).
    + rewrite lsum_seq_single' by auto. reflexivity.
    + intros j Hj. apply in_seq in Hj. unfold unit. rewrite (nth_map_lt _ _ _ _ 0) by (rewrite seq_length; auto).
      rewrite seq_nth by auto. simpl. destruct (p =? j); ring.
  - destruct A as [M|]; [|simpl in Hp; lia]. simpl in WA. apply shaped_wf in WA as (W & _ & C).
    rewrite <- !row_val_mulrow by auto. unfold row_val. rewrite <- lsum_sub. rewrite C.
    apply lsum_ext. intros j Hj. apply in_seq in Hj. rewrite <- C, mulrow_unit by (auto; lia). ring.
Qed.

Lemma pull_rows_diff sg x y :
  lsum (fun j => pull_rows nx A sg j * (nth j y 0 - nth j x 0))%K (seq 0 nx)
  = lsum (fun p => (con_val nx A y p - con_val nx A x p) * sg p)%K (seq 0 n).
Proof.
  rewrite (lsum_ext _ (fun j => lsum (fun p => con_val nx A (unit nx j) p * (nth j y 0 - nth j x 0) * sg p)%K (seq 0 n))).
  - rewrite lsum_swap. apply lsum_ext. intros p Hp. apply in_seq in Hp. rewrite lsum_scal_r. f_equal.
    rewrite con_diff by lia. reflexivity.
  - intros j Hj. apply in_seq in Hj. rewrite <- (pull_rows_sum nx A ll uu sp WA SF) by (auto; lia). rewrite <- lsum_scal_r.
    apply lsum_ext. intros p _. ring.
Qed.

(** the split constraint values are signed row values plus constants *)
Lemma lin_h_diff x y w : 
  lsum (fun t => snd (fst t) * (con_val nx A y (fst (fst t)) - con_val nx A x (fst (fst t))) * snd t)%K
    (combine (iq_rows sp) w)
  = (inner (lin_h (con_val nx A y) ll uu sp) w - inner (lin_h (con_val nx A x) ll uu sp) w)%K.
Proof.
  assert (forall (L : list (nat * K)) (c : nat * K -> K) (f : (nat -> K) -> nat * K -> K),
     (forall Z t, In t L -> f Z t = (snd t * Z (fst t) + c t)%K) -> forall Y X v,
     lsum (fun t => snd (fst t) * (Y (fst (fst t)) - X (fst (fst t))) * snd t)%K (combine L v)
     = (inner (map (f Y) L) v - inner (map (f X) L) v)%K) as G.
  { intros L c f. unfold inner. induction L as [|t L IH]; intros Q Y X [|a v]; simpl; try ring.
    rewrite (IH (fun Z t' H => Q Z t' (or_intror H))), !Q by (left; reflexivity). simpl. ring. }
  set (hs := fun (Z : nat -> K) (t : nat * K) =>
     if feqb (snd t) 1%K then (Z (fst t) - fval (nth (fst t) uu EPos))%K else (fval (nth (fst t) ll EPos) - Z (fst t))%K).
  assert (forall Z, lin_h Z ll uu sp = map (hs Z) (iq_rows sp)) as E.
  { intros Z. unfold lin_h, iq_rows, tagged, hs. rewrite !map_app, !map_map. simpl.
    assert (feqb (1 : K)%K 1%K = true) as -> by (apply feqb_ok; auto).
    assert (feqb (ropp 1 : K)%K 1%K = false) as ->.
    { destruct (feqb (ropp 1 : K)%K 1%K) eqn:Q; auto. apply feqb_ok in Q. exfalso.
      pose proof (@lt_0_1 K F) as P. pose proof P as P'. rewrite <- Q in P'. change (ropp 1)%K with (- (1 : K))%K in P'.
      apply pos_opp in P'. eapply lt_irrefl, lt_trans; [exact P|exact P']. }
    reflexivity. }
  rewrite !E. apply (G _ (fun t => if feqb (snd t) 1%K then (- fval (nth (fst t) uu EPos))%K else fval (nth (fst t) ll EPos))).
  intros Z t Ht. unfold hs. destruct (feqb (snd t) 1%K) eqn:Q.
  - apply feqb_ok in Q. rewrite Q. ring.
  - assert (snd t = ropp 1%K) as ->; [|ring]. unfold iq_rows, tagged in Ht.
    assert (snd t = 1%K \/ snd t = ropp 1%K) as [Q'|]; auto.
    { rewrite !in_app_iff, !in_map_iff in Ht.
      destruct Ht as [(q & <- & _)|[(q & <- & _)|[(q & <- & _)|(q & <- & _)]]]; auto. }
    rewrite Q' in Q. assert (feqb (1 : K)%K 1%K = true) by (apply feqb_ok; auto). congruence.
Qed.

Lemma lin_g_diff x y w :
  lsum (fun t => snd (fst t) * (con_val nx A y (fst (fst t)) - con_val nx A x (fst (fst t))) * snd t)%K
    (combine (eq_rows sp) w)
  = (inner (lin_g (con_val nx A y) uu sp) w - inner (lin_g (con_val nx A x) uu sp) w)%K.
Proof.
  unfold eq_rows, tagged, lin_g, inner. revert w. induction (s_ieq sp) as [|p L IH]; intros [|a w]; simpl; try ring.
  rewrite IH. ring.
Qed.

(** the pull of the linear multipliers along y - x is the change of the weighted constraint values *)
Lemma pull_mult lam mu x y :
  lsum (fun j => pull_rows nx A (row_mult sp 0 0 lam mu) j * (nth j y 0 - nth j x 0))%K (seq 0 nx)
  = ((inner (lin_g (con_val nx A y) uu sp) lam - inner (lin_g (con_val nx A x) uu sp) lam)
     + (inner (lin_h (con_val nx A y) ll uu sp) mu - inner (lin_h (con_val nx A x) ll uu sp) mu))%K.
Proof.
  rewrite pull_rows_diff. unfold row_mult. cbn [skipn].
  destruct (rows_lt nx A ll uu sp SF) as (R1 & R2).
  rewrite (lsum_ext _ (fun p => (con_val nx A y p - con_val nx A x p) * signed (eq_rows sp) lam p
     + (con_val nx A y p - con_val nx A x p) * signed (iq_rows sp) mu p)%K) by (intros; ring).
  rewrite lsum_add.
  rewrite (signed_sum _ _ (fun p => con_val nx A y p - con_val nx A x p)%K _ R1).
  rewrite (signed_sum _ _ (fun p => con_val nx A y p - con_val nx A x p)%K _ R2).
  rewrite lin_g_diff, lin_h_diff. reflexivity.
Qed.
End Rows.

Lemma inner_zero (g w : list K) : Forall (fun a => a = 0%K) g -> inner g w = 0%K.
Proof.
  unfold inner. intros H. revert w. induction H as [|a g -> _ IH]; intros [|b w]; simpl; auto. rewrite IH. ring.
Qed.
Lemma inner_neg (h w : list K) : Forall (fun a => le a 0%K) h -> Forall (lt 0%K) w -> le (inner h w) 0%K.
Proof.
  unfold inner. intros H. revert w. induction H as [|a h Ha _ IH]; intros [|b w] W; simpl; try apply le_refl.
  inversion W; subst. assert (Z : (0 + 0 : K)%K = 0%K) by ring. rewrite <- Z. apply add_le; auto.
  apply nn_opp. replace (- (a * b))%K with (- a * b)%K by ring. apply mul_nn; [|apply lt_le; auto].
  apply nn_opp in Ha. auto.
Qed.
Definition sum_abs (v : list K) : K := lsum fabs v.
Lemma inner_abs (g w : list K) t : Forall (fun a => lt (fabs a) t) g -> le 0%K t ->
  le (- (t * sum_abs w))%K (inner g w).
Proof.
  unfold inner, sum_abs. intros H T. revert w. induction H as [|a g Ha _ IH]; intros w.
  - simpl. apply le_sub. replace (0 - - (t * lsum fabs w))%K with (t * lsum fabs w)%K by ring.
    apply mul_nn; auto. apply lsum_nn. intros. apply fabs_nn.
  - destruct w as [|b w]; simpl.
    + apply le_sub. replace (0 - - (t * 0))%K with (0 : K)%K by ring. apply le_refl.
    + replace (- (t * (fabs b + lsum fabs w)))%K with (- (t * fabs b) + - (t * lsum fabs w))%K by ring.
      apply add_le; auto. apply mul_abs. apply lt_le. auto.
Qed.

(** z + h weighted by mu *)
Definition slack_error (h z mu : list K) : K :=
  lsum (fun i => nth i mu 0 * fabs (nth i h 0 + nth i z 0))%K (seq 0 (length mu)).
Lemma inner_slack (h z mu : list K) : length h = length mu -> length z = length mu -> Forall (lt 0%K) mu ->
  le (- inner z mu - slack_error h z mu)%K (inner h mu).
Proof.
  intros L1 L2 P. unfold inner, slack_error.
  rewrite (lsum_combine _ _ _ 0%K 0%K) by auto. rewrite (lsum_combine _ h mu 0%K 0%K) by auto.
  rewrite L1, L2. cbn [fst snd]. rewrite <- lsum_opp, <- lsum_sub. apply lsum_le.
  intros i Hi. apply in_seq in Hi.
  assert (lt 0%K (nth i mu 0%K)) as M by (apply (proj1 (Forall_nth _ _) P); lia).
  apply le_sub.
  replace (nth i h 0 * nth i mu 0 - (- (nth i z 0 * nth i mu 0) - nth i mu 0 * fabs (nth i h 0 + nth i z 0)))%K
    with (nth i mu 0 * ((nth i h 0 + nth i z 0) + fabs (nth i h 0 + nth i z 0)))%K by ring.
  apply mul_nn; [apply lt_le; auto|].
  destruct (proj1 (fabs_le (nth i h 0 + nth i z 0)%K (fabs (nth i h 0 + nth i z 0)%K)) (le_refl _)) as (Q & _).
  apply le_sub in Q. replace (nth i h 0 + nth i z 0 + fabs (nth i h 0 + nth i z 0))%K with
    (nth i h 0 + nth i z 0 - - fabs (nth i h 0 + nth i z 0))%K by ring. exact Q.
Qed.

Section Run.
Variable solve : smat K -> list K -> result (option (list K)).
Variable ln : K -> K.
Variables (P : problem (K := K)) (O : popt (K := K)) (x0 : list K) (A : option (smat K))
  (l u xmin xmax : list (ext K)).
Notation nx := (length x0).
Hypothesis (NL : p_gh P = None).
Hypothesis (WA : shaped_opt nx A) (WP : forall x f df, p_f P x = Ok (f, df) -> length df = nx).
Hypothesis (Z1 : sized nx xmin) (Z2 : sized nx xmax) (Z3 : sized (rows_of A) l) (Z4 : sized (rows_of A) u).
Hypothesis OB : bounds_ordered nx (rows_of A) l u xmin xmax.

Lemma no_nonlinear : well_shaped nx 0 0 P.
Proof.
  constructor; [intros x f df _; apply WP|]. intros x hn gn dhn dgn _ H. unfold nonlinear_at in H. rewrite NL in H.
  destruct H as (-> & -> & -> & ->). simpl. auto.
Qed.

Theorem near_optimal r : pips solve ln P O x0 A l u xmin xmax = Ok r -> r_eflag r = true ->
  lt 0%K (o_cost_mult O) ->
  exists sp s0 s k f df, split_bounds nx A l u xmin xmax = Ok sp /\
    start ln P O sp x0 = Ok s0 /\ visited solve ln P O sp nx s0 k s /\ r_x r = t_x s /\
    p_f P (r_x r) = Ok (f, df) /\ r_f r = f /\
    forall xn zn lam_n mu_n, is_norm (t_x s) xn -> is_norm (t_z s) zn ->
      is_norm (t_lam s) lam_n -> is_norm (t_mu s) mu_n ->
    exists a b, (a = xn \/ a = zn) /\ (b = lam_n \/ b = mu_n) /\
    forall y fy dfy, linear_ok nx A l u xmin xmax y -> p_f P y = Ok (fy, dfy) ->
      le (f + lsum (fun j => nth j df 0 * (nth j y 0 - nth j (r_x r) 0)) (seq 0 nx))%K fy ->
      le (f * o_cost_mult O)%K
         (fy * o_cost_mult O
          + (o_gradtol O * (1 + b) * lsum (fun j => fabs (nth j y 0 - nth j (r_x r) 0)) (seq 0 nx)
             + o_feastol O * (1 + a) * sum_abs (t_lam s)
             + o_comptol O * (1 + xn)
             + slack_error (e_h (t_e s)) (t_z s) (t_mu s)))%K.
Proof.
  intros H EF CP. apply pips_ok in H as (sp & s0 & s & i & o & k & HS & H0 & V & _ & _ & C & _ & HP).
  apply package_ok in HP as (X & _ & _ & FL & CM & RF & _).
  pose proof (visited_interior _ _ _ _ _ _ _ _ _ _ H0 V) as I.
  destruct (state_values solve ln P O x0 A l u xmin xmax sp s0 0 0 HS H0 WA no_nonlinear Z1 Z2 Z3 Z4 k s V)
    as (f & df & hn & gn & dhn & dgn & Hf & N & EFv & G & H & LX & VX).
  unfold nonlinear_at in N. rewrite NL in N. destruct N as (-> & -> & -> & ->). simpl in G, H.
  pose proof (SF x0 A l u xmin xmax sp HS WA Z1 Z2 Z3 Z4) as SF.
  apply FL in EF. apply C in EF. destruct (conv_ok _ _ _ _ _ _ I EF) as (FE & ST & CO & _).
  exists sp, s0, s, k, f, df. rewrite X. do 5 (split; [auto; fail|]).
  split. { rewrite RF, EFv. field. auto. }
  intros xn zn lam_n mu_n N1 N2 N3 N4.
  destruct (FE xn zn N1 N2) as (a & Ha & FG & _). destruct (ST lam_n mu_n N3 N4) as (b & Hb & FX).
  specialize (CO xn N1). exists a, b. split; auto. split; auto.
  intros y fy dfy LY Hfy CV.
  assert (forall p, p < nx + rows_of A ->
    meets (nth p (def_bounds ENeg nx xmin ++ def_bounds ENeg (rows_of A) l) ENeg)
      (nth p (def_bounds EPos nx xmax ++ def_bounds EPos (rows_of A) u) EPos) (con_val nx A y p)) as MY.
  { apply (proj2 (all_rows solve x0 A l u xmin xmax sp HS WA Z1 Z2 Z3 Z4 meets y)). exact LY. }
  pose proof (ord_rows solve x0 A l u xmin xmax sp HS WA Z1 Z2 Z3 Z4 OB) as OR.
  apply (proj2 (linear_iff _ _ _ _ _ _ SF OR y)) in MY as (GY & HY).
  pose proof (pull_mult nx A _ _ sp WA SF (t_lam s) (t_mu s) (t_x s) y) as PM.
  rewrite (inner_zero _ _ GY), <- G, <- H in PM.
  set (hy := inner (lin_h (con_val nx A y) _ _ sp) (t_mu s)) in *.
  assert (le hy 0%K) as HY'. { apply inner_neg; auto. apply (i_mu _ _ _ _ _ _ I). }
  (* the gradient *)
  set (d := fun j => (nth j y 0 - nth j (t_x s) 0)%K) in *.
  assert (lsum (fun j => nth j (t_Lx s) 0 * d j)%K (seq 0 nx)
    = (lsum (fun j => nth j df 0 * d j) (seq 0 nx) * o_cost_mult O
       + lsum (fun j => pull_rows nx A (row_mult sp 0 0 (t_lam s) (t_mu s)) j * d j) (seq 0 nx))%K) as GR.
  { rewrite <- lsum_scal_r, <- lsum_add. apply lsum_ext. intros j Hj. apply in_seq in Hj.
    rewrite VX by lia. unfold pull, lin_val. ring. }
  pose proof (PM : lsum (fun j => (pull_rows nx A (row_mult sp 0 0 (t_lam s) (t_mu s)) j * d j)%K) (seq 0 nx) = _) as PM'.
  rewrite PM' in GR.
  assert (le (- (o_gradtol O * (1 + b) * lsum (fun j => fabs (d j)) (seq 0 nx)))%K
             (lsum (fun j => nth j (t_Lx s) 0 * d j)%K (seq 0 nx))) as B1.
  { rewrite <- lsum_scal, <- lsum_opp. apply lsum_le. intros j Hj. apply in_seq in Hj. apply mul_abs. apply lt_le.
    apply (proj1 (Forall_nth _ _) FX). lia. }
  assert (le (- (o_feastol O * (1 + a) * sum_abs (t_lam s)))%K (inner (e_g (t_e s)) (t_lam s))) as B2.
  { destruct (e_g (t_e s)) as [|g0 gs] eqn:EG.
    - assert (t_lam s = []) as ->.
      { pose proof (visited_lam _ _ _ _ _ _ _ H0 _ _ V) as LL.
        destruct (start_dims ln P O x0 A l u xmin xmax sp s0 0 0 HS H0 WA no_nonlinear Z1 Z2 Z3 Z4) as (_ & _ & E3 & _).
        assert (length (s_ieq sp) = 0) as Q. { apply (f_equal (@length K)) in G. unfold lin_g in G. rewrite map_length in G. auto. }
        rewrite E3, Q in LL. destruct (t_lam s); auto. discriminate. }
      unfold sum_abs, inner. simpl. apply le_sub. replace (0 - - (o_feastol O * (1 + a) * 0))%K with (0 : K)%K by ring.
      apply le_refl.
    - apply inner_abs; auto. inversion FG; subst. apply lt_le. eapply le_lt_trans; [apply fabs_nn|eauto]. }
  assert (le (- inner (t_z s) (t_mu s) - slack_error (e_h (t_e s)) (t_z s) (t_mu s))%K (inner (e_h (t_e s)) (t_mu s))) as B3.
  { destruct (visited_shapes solve ln P O x0 A l u xmin xmax 0 0 WA no_nonlinear Z1 Z2 Z3 Z4 sp s0 k s HS H0 V)
      as (_ & _ & _ & L1 & L2 & _). apply inner_slack; try congruence. apply (i_mu _ _ _ _ _ _ I). }
  apply lt_le, le_sub in CO. apply le_sub in B1, B2, B3. apply nn_opp in HY'.
  apply le_sub in CV.
  assert (le 0%K ((fy - (f + lsum (fun j => nth j df 0 * d j) (seq 0 nx))) * o_cost_mult O)%K) as CV'.
  { apply mul_nn; [exact CV|apply lt_le; auto]. }
  pose proof (add_nn _ _ CV' (add_nn _ _ CO (add_nn _ _ B1 (add_nn _ _ B2 (add_nn _ _ B3 HY'))))) as T.
  apply le_sub. rewrite GR in T. change (fun j => fabs (nth j y 0 - nth j (t_x s) 0)%K) with (fun j => fabs (d j)).
  match goal with |- le 0%K ?e => match type of T with le 0%K ?t => replace e with t; [exact T|ring] end end.
Qed.

(** moving along a direction changes the constraint values by the derivative times the direction *)
Lemma at_transp (M : smat K) i j : at_ (transp M) j i = at_ M i j.
Proof.
  unfold at_. cbn [ents transp]. rewrite lsum_map. apply lsum_ext. intros e _. cbn [erow ecol ev].
  rewrite andb_comm. reflexivity.
Qed.
Lemma push_transp (M : smat K) x x' dx t i : wf M -> (forall j, nth j x' 0%K = (nth j x 0 + t * nth j dx 0)%K) ->
  i < nrows M -> nth i (rowsv M x') 0%K = (nth i (rowsv M x) 0 + t * push (Some (transp M)) dx i)%K.
Proof.
  intros W X Hi. rewrite !nth_rowsv by auto. rewrite <- !row_val_mulrow by auto. unfold row_val, push. simpl.
  rewrite <- lsum_scal, <- lsum_add. apply lsum_ext. intros j Hj. rewrite X, at_transp. ring.
Qed.

Lemma linear_push sp s0 k s k' s' dx t :
  split_bounds nx A l u xmin xmax = Ok sp -> start ln P O sp x0 = Ok s0 ->
  visited solve ln P O sp nx s0 k s -> visited solve ln P O sp nx s0 k' s' ->
  (forall j, nth j (t_x s') 0%K = (nth j (t_x s) 0 + t * nth j dx 0)%K) ->
  (forall i, i < length (e_g (t_e s)) ->
     nth i (e_g (t_e s')) 0%K = (nth i (e_g (t_e s)) 0 + t * push (e_dg (t_e s)) dx i)%K) /\
  (forall i, i < length (e_h (t_e s)) ->
     nth i (e_h (t_e s')) 0%K = (nth i (e_h (t_e s)) 0 + t * push (e_dh (t_e s)) dx i)%K).
Proof.
  intros HS H0 V V' X.
  pose proof (visited_interior _ _ _ _ _ _ _ _ _ _ H0 V) as I.
  pose proof (visited_interior _ _ _ _ _ _ _ _ _ _ H0 V') as I'.
  pose proof (SF x0 A l u xmin xmax sp HS WA Z1 Z2 Z3 Z4) as SF.
  destruct (eval_ok _ _ _ _ _ _ SF _ _ _ _ (i_eval _ _ _ _ _ _ I))
    as (f & df & hn & gn & dhn & dgn & _ & N & _ & _ & G & H & _ & _ & TH & TG).
  destruct (eval_ok _ _ _ _ _ _ SF _ _ _ _ (i_eval _ _ _ _ _ _ I'))
    as (f' & df' & hn' & gn' & dhn' & dgn' & _ & N' & _ & _ & G' & H' & _).
  unfold nonlinear_at in N, N'. rewrite NL in N, N'. destruct N as (-> & -> & -> & ->), N' as (-> & -> & -> & ->).
  apply (with_linear_t_ok None) in TH, TG. rewrite TH, TG. simpl in G, H, G', H'. rewrite G, H, G', H'. clear TH TG.
  set (ll := def_bounds ENeg nx xmin ++ _) in *. set (uu := def_bounds EPos nx xmax ++ _) in *.
  split; intros i Hi.
  - pose proof (sf_Ae _ _ _ _ _ _ SF) as Q. destruct (s_Ae sp) as [M|]; cbn [option_map].
    + destruct Q as (_ & W & R & C & VV).
      assert (forall y, lin_g (con_val nx A y) uu sp = map2 rsub (rowsv M y) (s_be sp)) as LG.
      { intros y. rewrite VV, (sf_be _ _ _ _ _ _ SF), map2_map. reflexivity. }
      unfold lin_g in Hi. rewrite map_length, <- R in Hi.
      assert (length (s_be sp) = nrows M) as LB by (rewrite (sf_be _ _ _ _ _ _ SF), map_length; auto).
      rewrite !LG, !(nth_map2_d _ _ _ _ 0%K 0%K) by (rewrite ?rowsv_length; lia).
      rewrite (push_transp M _ _ dx t i W X Hi). ring.
    + unfold lin_g in Hi. rewrite Q in Hi. simpl in Hi. lia.
  - pose proof (sf_Ai _ _ _ _ _ _ SF) as Q. destruct (s_Ai sp) as [M|]; cbn [option_map].
    + destruct Q as (_ & W & C & R & VV).
      assert (forall y, lin_h (con_val nx A y) ll uu sp = map2 rsub (rowsv M y) (s_bi sp)) as LH.
      { intros y. rewrite VV, (sf_bi _ _ _ _ _ _ SF). unfold lin_h.
        rewrite !map2_app, !map2_map by (rewrite !map_length; auto).
        f_equal. f_equal; [|f_equal]; apply map_ext; intros p; ring. }
      assert (length (s_bi sp) = nrows M) as LB.
      { rewrite (sf_bi _ _ _ _ _ _ SF), !app_length, !map_length. lia. }
      assert (i < nrows M) as Hi'.
      { rewrite LH, map2_length, rowsv_length in Hi. lia. }
      rewrite !LH, !(nth_map2_d _ _ _ _ 0%K 0%K) by (rewrite ?rowsv_length; lia).
      rewrite (push_transp M _ _ dx t i W X Hi'). ring.
    + destruct Q as (Q1 & Q2 & Q3). unfold lin_h in Hi. rewrite Q1, Q2, Q3 in Hi. simpl in Hi. lia.
Qed.
End Run.
End PipsH.
