(** C72: the CPF parameterizations and their derivatives; C73, C74: corrector and predictor steps. *)
From Coq Require Import Reals Lra.
From Verif Require Import Lib.ListFacts Model.Cpf Spec.PfSpec Spec.AcDeriv Spec.NewtonSpec Spec.CpfStepSpec Proofs.LinAlgFacts
  Proofs.SparseFacts Proofs.FldFacts Proofs.NetworkA Proofs.NetworkC Proofs.NetworkD Proofs.YbusA Proofs.MatFacts Proofs.DerivA
  Proofs.DerivR Proofs.AcPfA Proofs.NewtonA Props.P_Derivs Props.P_Newton.
From Verif Require Props.P_AcPf.
Local Open Scope nat_scope.

(** the angle of the reals recovers angles *)
Example angle_R : angle_fn P_AcPf.cangR.
Proof.
  intros m a Hm (L & U). unfold P_AcPf.cangR.
  assert (P_AcPf.cabsR (Cx (m * cos a) (m * sin a))%R = m) as EM.
  { unfold P_AcPf.cabsR, nrm2. cbn [re im].
    change (sqrt ((m * cos a) * (m * cos a) + (m * sin a) * (m * sin a)) = m)%R.
    replace ((m * cos a) * (m * cos a) + (m * sin a) * (m * sin a))%R with (Rsqr m * (Rsqr (sin a) + Rsqr (cos a)))%R by (unfold Rsqr; ring).
    rewrite sin2_cos2, Rmult_1_r. apply sqrt_Rsqr. lra. }
  rewrite EM. destruct (Req_EM_T m 0); [lra|]. cbn [re im].
  replace (m * cos a / m)%R with (cos a) by (field; lra).
  destruct (Rlt_dec (m * sin a) 0) as [N|N].
  - assert (a < 0)%R as NA.
    { destruct (Rlt_dec a 0); auto. exfalso. assert (0 <= sin a)%R by (apply sin_ge_0; lra).
      pose proof (Rmult_le_pos m (sin a)). lra. }
    rewrite <- (cos_neg a). rewrite acos_cos by lra. ring.
  - assert (0 <= a)%R as NA.
    { destruct (Rlt_dec a 0); [|lra]. exfalso. assert (sin a < 0)%R as SN by (apply sin_lt_0_var; lra).
      apply N. rewrite <- (Rmult_0_r m). apply Rmult_lt_compat_l; auto. }
    apply acos_cos. lra.
Qed.

Section Steps.
Variables (n : nat) (pv pq : list nat) (cang : cpx R -> R).
Hypothesis range : forall i, In i (pv ++ pq) -> i < n.
Hypothesis angles : angle_fn cang.

Lemma volt_len s : length (mag s) = n -> length (ang s) = n -> length (volt s) = n.
Proof. intros A B. unfold volt, map2. rewrite map_length, combine_length. lia. Qed.

Lemma read_ang s : principal n s -> map cang (volt s) = ang s.
Proof.
  intros ((LM & LA & PM) & PA). revert LM LA. unfold volt, map2. destruct s as [ms as_]. cbn [mag ang] in *.
  generalize n. revert as_ PA. induction ms as [|m ms IH]; intros [|a l] PA k LM LA; cbn in *; try (subst; discriminate); auto.
  inversion PM; subst. inversion PA; subst. f_equal; [apply angles; auto|]. apply (IH H2 l H4 (length ms)); congruence.
Qed.
Lemma read_mag s : ok n s -> map cabsR (volt s) = mag s.
Proof.
  intros (LM & LA & PM). revert LM LA. unfold volt, map2. destruct s as [ms as_]. cbn [mag ang] in *.
  generalize n. revert as_. induction ms as [|m ms IH]; intros [|a l] k LM LA; cbn [map combine length fst snd] in *; try (subst; discriminate); auto.
  inversion PM; subst. f_equal; [|apply (IH H2 l (length ms)); congruence].
  unfold cabsR, nrm2. cbn [re im]. change (sqrt ((m * cos a) * (m * cos a) + (m * sin a) * (m * sin a)) = m)%R.
  replace ((m * cos a) * (m * cos a) + (m * sin a) * (m * sin a))%R with (Rsqr m * (Rsqr (sin a) + Rsqr (cos a)))%R by (unfold Rsqr; ring).
  rewrite sin2_cos2, Rmult_1_r. apply sqrt_Rsqr. lra.
Qed.

Lemma unknowns_R s : principal n s -> unknowns cabsR cang (volt s) pv pq = Ok (map (fun u => value u s) (unks pv pq)).
Proof.
  intros P. unfold unknowns. rewrite (read_ang s P). destruct P as (O & _). rewrite (read_mag s O). destruct O as (LM & LA & _).
  rewrite (gather_tot (ang s) _ 0%R) by (intros; rewrite LA; auto). cbn [bind].
  rewrite (gather_tot (mag s) _ 0%R) by (intros; rewrite LM; apply range, in_or_app; auto). cbn [bind].
  unfold unks. remember (pv ++ pq) as L. rewrite map_app, !map_map. reflexivity.
Qed.

Lemma places : positions n pv pq = map (place n) (unks pv pq) ++ [2 * n].
Proof.
  unfold positions, unks. remember (pv ++ pq) as L. rewrite map_app, !map_map, app_assoc. cbn [place fst snd].
  f_equal. f_equal. symmetry. apply map_id.
Qed.
Lemma place_range u : In u (unks pv pq) -> place n u < 2 * n.
Proof.
  intros I. unfold unks in I. apply in_app_or in I as [I|I]; apply in_map_iff in I as (i & <- & I); unfold place; cbn [fst snd].
  - apply range in I. lia.
  - assert (i < n) by (apply range, in_or_app; auto). lia.
Qed.

Lemma fsum_map2 (f g : coord * nat -> R) (h : R -> R -> R) l :
  fsum (map2 h (map f l) (map g l)) = lsum (fun u => h (f u) (g u)) l.
Proof. unfold fsum, map2. induction l as [|x l IH]; [reflexivity|]. cbn [map combine lsum fst snd]. rewrite IH. reflexivity. Qed.
Lemma fsum_snoc (l : list R) x : fsum (l ++ [x]) = (fsum l + x)%R.
Proof. unfold fsum. induction l as [|a l IH]; cbn in *; [ring|]. rewrite IH. ring. Qed.
Lemma map2_snoc {A B C} (h : A -> B -> C) u v x y : length u = length v -> map2 h (u ++ [x]) (v ++ [y]) = map2 h u v ++ [h x y].
Proof.
  unfold map2. revert v. induction u as [|a u IH]; intros [|b v] L; try discriminate; auto. cbn. f_equal. apply IH. auto.
Qed.

(** ** C72 *)

(** cpf_p is the parameterization equation *)
Theorem C72_value par step z s lam s0 lam0 : 1 <= par <= 3 -> principal n s -> principal n s0 -> length z = 2 * n + 1 ->
  cpf_p cabsR cang par step z (volt s) lam (volt s0) lam0 pv pq = Ok (param par step z n pv pq s0 lam0 s lam).
Proof.
  intros HP PS P0 LZ. assert (length (volt s) = n) as LV by (destruct PS as ((A & B & _) & _); apply volt_len; auto).
  destruct par as [|[|[|[|par]]]]; try lia; unfold cpf_p.
  - f_equal. unfold param, fgeb, Rabs. change (fltb lam lam0) with (r_ltb lam lam0). unfold r_ltb.
    destruct (Rcase_abs (lam - lam0)), (Rlt_dec lam lam0); cbn [negb]; try lra;
      change ((lam - lam0 - step)%K) with (lam - lam0 - step)%R; change ((lam0 - lam - step)%K) with (lam0 - lam - step)%R; ring.
  - rewrite !unknowns_R by auto. cbn [bind]. unfold ewise. rewrite !app_length, !map_length, Nat.eqb_refl. cbn [bind].
    f_equal. rewrite map2_snoc by (rewrite !map_length; auto). rewrite map_app. cbn [map]. rewrite fsum_snoc.
    replace (map (fun a => a * a)%K (map2 rsub (map (fun u => value u s) (unks pv pq)) (map (fun u => value u s0) (unks pv pq))))
      with (map2 (fun a b => (a - b) * (a - b))%R (map (fun u => value u s) (unks pv pq)) (map (fun u => value u s0) (unks pv pq)))
      by (unfold map2; rewrite map_map; reflexivity).
    rewrite fsum_map2. reflexivity.
  - rewrite !unknowns_R by auto. cbn [bind]. unfold ewise at 1. rewrite !app_length, !map_length, Nat.eqb_refl. cbn [bind].
    rewrite LV, places. rewrite (gather_tot z _ 0%R).
    2: { intros i I. rewrite LZ. apply in_app_or in I as [I|[<-|[]]]; [|lia]. apply in_map_iff in I as (u & <- & I).
         apply place_range in I. lia. }
    cbn [bind]. rewrite map2_snoc by (rewrite !map_length; auto). rewrite map_app, map_map. cbn [map].
    unfold ewise. rewrite !app_length, map_length. unfold map2 at 1. rewrite map_length, combine_length, !map_length, Nat.min_id, Nat.eqb_refl.
    cbn [bind]. f_equal. rewrite map2_snoc by (unfold map2; rewrite !map_length, combine_length, !map_length; lia).
    rewrite fsum_snoc.
    replace (map2 rsub (map (fun u => value u s) (unks pv pq)) (map (fun u => value u s0) (unks pv pq)))
      with (map (fun u => (value u s - value u s0)%R) (unks pv pq)).
    2: { unfold map2. induction (unks pv pq) as [|u l IH]; [reflexivity|]. cbn [map combine]. f_equal. exact IH. }
    rewrite fsum_map2. reflexivity.
Qed.

Definition unk_eq_dec (u v : coord * nat) : {u = v} + {u <> v}.
Proof. decide equality; [apply Nat.eq_dec|decide equality]. Defined.

Lemma value_set u v s t : length (mag s) = n -> length (ang s) = n -> snd u < n ->
  value v (coord_set (fst u) (snd u) s t) = if unk_eq_dec v u then t else value v s.
Proof.
  intros LM LA Lu. destruct u as [c k], v as [c' k']. cbn [fst snd] in *. unfold value. cbn [fst snd].
  destruct (unk_eq_dec (c', k') (c, k)) as [E|N].
  - injection E as -> ->. destruct c; cbn; apply (nth_error_nth); apply nth_error_upd_same; lia.
  - destruct c, c'; cbn; auto;
      (assert (k <> k') as NK by congruence; unfold upd; clear - NK).
    + revert k k' NK. induction (ang s) as [|a l IH]; intros [|k] [|k'] N; cbn; auto; try congruence; apply IH; congruence.
    + revert k k' NK. induction (mag s) as [|a l IH]; intros [|k] [|k'] N; cbn; auto; try congruence; apply IH; congruence.
Qed.

Lemma unks_nodup : NoDup (pv ++ pq) -> NoDup (unks pv pq).
Proof.
  intros ND. unfold unks. apply NoDup_app_intro.
  - apply FinFun.Injective_map_NoDup; auto. intros x y E. congruence.
  - apply FinFun.Injective_map_NoDup; [intros x y E; congruence|]. eapply NoDup_app_r; eauto.
  - intros x A B. apply in_map_iff in A as (a & <- & _). apply in_map_iff in B as (b & E & _). discriminate.
Qed.

Lemma single (d : R) u l : NoDup l -> In u l -> lsum (fun v => if unk_eq_dec v u then d else 0%R) l = d.
Proof.
  induction l as [|a l IH]; intros ND I; [contradiction|]. apply NoDup_cons_iff in ND as (N & ND). cbn [lsum].
  destruct (unk_eq_dec a u) as [->|NE].
  - assert (lsum (fun v => if unk_eq_dec v u then d else 0%R) l = 0%R) as ->; [|cbn; ring].
    clear - N. induction l as [|b l IH]; [reflexivity|]. cbn [lsum]. destruct (unk_eq_dec b u) as [->|]; [exfalso; apply N; left; auto|].
    rewrite IH by (intros I; apply N; right; auto). cbn. ring.
  - destruct I as [->|I]; [contradiction|]. rewrite IH by auto. cbn. ring.
Qed.

(** a sum of functions of the single unknowns *)
Lemma slope_sum (g : coord * nat -> R -> R) s u d : ok n s -> NoDup (pv ++ pq) -> In u (unks pv pq) ->
  derivable_pt_lim (g u) (value u s) d -> slope u (fun s => lsum (fun v => g v (value v s)) (unks pv pq)) s d.
Proof.
  intros (LM & LA & _) ND I D. unfold slope, partialR. change (coord_get (fst u) (snd u) s) with (value u s).
  assert (snd u < n) as Lu.
  { unfold unks in I. apply in_app_or in I as [I|I]; apply in_map_iff in I as (i & <- & I); apply range; auto. apply in_or_app; auto. }
  eapply dl_eq; [|exact (single d u (unks pv pq) (unks_nodup ND) I)].
  apply dl_lsum. intros v _. destruct (unk_eq_dec v u) as [->|N].
  - eapply dl_ext; [|exact D]. intros t. cbn beta. rewrite value_set by auto. destruct (unk_eq_dec u u); [auto|contradiction].
  - eapply dl_ext; [|apply (derivable_pt_lim_const (g v (value v s)))]. intros t. unfold fct_cte. rewrite value_set by auto.
    destruct (unk_eq_dec v u); [contradiction|auto].
Qed.

Lemma dl_sq c x : derivable_pt_lim (fun t => (t - c) * (t - c))%R x (2 * (x - c))%R.
Proof.
  eapply dl_eq; [apply (derivable_pt_lim_mult (fun t => t - c) (fun t => t - c))%R|].
  - apply (derivable_pt_lim_minus id (fct_cte c)); [apply derivable_pt_lim_id|apply derivable_pt_lim_const].
  - apply (derivable_pt_lim_minus id (fct_cte c)); [apply derivable_pt_lim_id|apply derivable_pt_lim_const].
  - cbv beta. ring.
Qed.
Lemma dl_lin k c x : derivable_pt_lim (fun t => k * (t - c))%R x k.
Proof.
  eapply dl_eq; [apply (derivable_pt_lim_scal (fun t => t - c) k)%R|].
  - apply (derivable_pt_lim_minus id (fct_cte c)); [apply derivable_pt_lim_id|apply derivable_pt_lim_const].
  - ring.
Qed.
Lemma dl_shift (f : R -> R) c x d : derivable_pt_lim f x d -> derivable_pt_lim (fun t => f t + c)%R x d.
Proof.
  intros D. eapply dl_eq; [apply (derivable_pt_lim_plus f (fct_cte c)); [exact D|apply derivable_pt_lim_const]|ring].
Qed.
Lemma slope_shift u f s d c : slope u f s d -> slope u (fun s => f s + c)%R s d.
Proof. apply (dl_shift (fun t => f (coord_set (fst u) (snd u) s t))). Qed.
Lemma slope_ext u f g s d : (forall s, f s = g s) -> slope u f s d -> slope u g s d.
Proof. intros E. apply dl_ext. intros t. apply E. Qed.

(** cpf_p_jac holds its partial derivatives in the unknowns and in lambda, except at lam = lam0, where the
    natural parameterization has none and the arc length's would be zero *)
Theorem C72_row par step z s lam s0 lam0 : 1 <= par <= 3 -> principal n s -> principal n s0 -> length z = 2 * n + 1 ->
  NoDup (pv ++ pq) ->
  exists D dl, cpf_p_jac cabsR cang par z (volt s) lam (volt s0) lam0 pv pq = Ok (map D (unks pv pq), dl) /\
    (forall u, In u (unks pv pq) -> slope u (fun s => param par step z n pv pq s0 lam0 s lam) s (D u)) /\
    (par = 3 \/ lam <> lam0 -> derivable_pt_lim (param par step z n pv pq s0 lam0 s) lam dl) /\
    (par < 3 -> lam = lam0 -> dl = 1%R) /\ (par < 3 -> s = s0 -> forall u, D u = 0%R).
Proof.
  intros HP PS P0 LZ ND. assert (length (volt s) = n) as LV by (destruct PS as ((A & B & _) & _); apply volt_len; auto).
  pose proof PS as (O & _).
  destruct par as [|[|[|[|par]]]]; try lia; unfold cpf_p_jac.
  - exists (fun _ => 0%R). eexists. split; [|split; [|split; [|split]]].
    + f_equal. f_equal.
      assert (length pv + 2 * length pq = length (unks pv pq)) as -> by (unfold unks; rewrite app_length, !map_length, app_length; lia).
      induction (unks pv pq) as [|u l IH]; [reflexivity|]. cbn [length repeat map]. f_equal. exact IH.
    + intros u I. unfold slope, partialR. eapply dl_ext; [|apply (derivable_pt_lim_const (Rabs (lam - lam0) - step)%R)]. reflexivity.
    + intros [C|NE]; [lia|]. unfold param.
      assert (fgeb lam lam0 = if Rle_dec lam0 lam then true else false) as E.
      { unfold fgeb. change (fltb lam lam0) with (r_ltb lam lam0). unfold r_ltb. destruct (Rlt_dec lam lam0), (Rle_dec lam0 lam); cbn; auto; lra. }
      rewrite E. destruct (Rle_dec lam0 lam) as [L|L].
      * apply (dl_near (fun t => (1 * (t - lam0) + - step)%R) _ _ _ (lam - lam0)%R); [lra| |apply dl_shift, dl_lin].
        intros y Hy. rewrite Rabs_pos_eq; [ring|]. unfold Rabs in Hy. destruct (Rcase_abs (y - lam)); lra.
      * apply (dl_near (fun t => (-1 * (t - lam0) + - step)%R) _ _ _ (lam0 - lam)%R); [lra| |].
        -- intros y Hy. rewrite Rabs_left; [ring|]. unfold Rabs in Hy. destruct (Rcase_abs (y - lam)); lra.
        -- eapply dl_eq; [apply dl_shift, dl_lin|]. reflexivity.
    + intros _ ->. unfold fgeb. change (fltb lam0 lam0) with (r_ltb lam0 lam0). unfold r_ltb. destruct (Rlt_dec lam0 lam0); [lra|]. reflexivity.
    + auto.
  - exists (fun u => 2 * (value u s - value u s0))%R. eexists. split; [|split; [|split; [|split]]].
    + rewrite !unknowns_R by auto. cbn [bind]. unfold ewise. rewrite !map_length, Nat.eqb_refl. cbn [bind].
      f_equal. f_equal. unfold map2. induction (unks pv pq) as [|u l IH]; [reflexivity|]. cbn [map combine fst snd]. f_equal. exact IH.
    + intros u I. unfold param. apply (slope_ext _ (fun x => lsum (fun v => (value v x - value v s0) * (value v x - value v s0))%R (unks pv pq)
        + ((lam - lam0) * (lam - lam0) - step * step))%R); [intros x; ring|]. apply slope_shift.
      apply (slope_sum (fun v t => (t - value v s0) * (t - value v s0))%R); auto. apply dl_sq.
    + intros [C|NE]; [lia|]. change (feqb lam lam0) with (r_eqb lam lam0). unfold r_eqb. destruct (Req_EM_T lam lam0); [contradiction|].
      eapply dl_ext; [|apply (dl_shift (fun t => (t - lam0) * (t - lam0))%R (param 2 step z n pv pq s0 lam0 s lam0)); apply (dl_sq lam0)].
      intros y. unfold param. ring.
    + intros _ ->. change (feqb lam0 lam0) with (r_eqb lam0 lam0). unfold r_eqb. destruct (Req_EM_T lam0 lam0); [reflexivity|contradiction].
    + intros _ -> u. ring.
  - exists (fun u => nth (place n u) z 0%R), (nth (2 * n) z 0%R). split; [|split; [|split; [|split]]].
    + rewrite LV. pose proof places as PL. unfold positions in PL. rewrite app_assoc in PL. apply app_inj_tail in PL as (PL & _).
      rewrite PL, (gather_tot z _ 0%R).
      2: { intros i I. rewrite LZ. apply in_map_iff in I as (u & <- & I). apply place_range in I. lia. }
      cbn [bind]. unfold get. rewrite (nth_error_nth' z 0%R) by lia. cbn [of_option bind]. rewrite map_map. reflexivity.
    + intros u I. unfold param. apply (slope_ext _ (fun x => lsum (fun v => nth (place n v) z 0 * (value v x - value v s0))%R (unks pv pq)
        + (nth (2 * n) z 0 * (lam - lam0) - step))%R); [intros x; ring|]. apply slope_shift.
      apply (slope_sum (fun v t => nth (place n v) z 0 * (t - value v s0))%R); auto. apply dl_lin.
    + intros _. eapply dl_ext; [|apply (dl_shift (fun t => nth (2 * n) z 0 * (t - lam0))%R (param 3 step z n pv pq s0 lam0 s lam0)); apply (dl_lin (nth (2 * n) z 0%R) lam0)].
      intros y. unfold param. ring.
    + lia.
    + lia.
Qed.

(** ** the linear systems *)
Variables (Y : smat (cpx R)) (Sb Sx : list (cpx R)).
Hypothesis shape : shaped Y n n.
Hypothesis size_b : length Sb = n.
Hypothesis size_x : length Sx = n.

Lemma inj_len lam : length (inj lam Sb Sx) = n.
Proof. unfold inj, map2. rewrite map_length, combine_length. lia. Qed.

(** mismatches are affine in lambda *)
Lemma balance_lam e s lam : snd e < n ->
  derivable_pt_lim (balance Y Sb Sx e s) lam (- part_of (fst e) (nth (snd e) Sx 0%K))%R.
Proof.
  intros L. destruct e as [p i]. cbn [fst snd] in *.
  apply (dl_ext (fun t => - part_of p (nth i Sx 0%K) * (t - 0) + balance Y Sb Sx (p, i) s 0)%R).
  - intros t. unfold balance, eqn, inj. cbn [fst snd]. rewrite !(nth_map2_d _ _ _ _ 0%K 0%K) by lia.
    set (w := power Y i i s). set (b := nth i Sb 0%K). set (x := nth i Sx 0%K). destruct p; cbn; ring.
  - apply dl_shift, dl_lin.
Qed.

Definition solvable par : Prop := pv ++ pq <> [] /\ ~ (par = 2 /\ length (unks pv pq) = 1).
Lemma unks_len : length (unks pv pq) = length pv + 2 * length pq.
Proof. unfold unks. rewrite app_length, !map_length, app_length. lia. Qed.

(** rows: every balance equation and the parameterization; columns: every unknown and lambda *)
Lemma aug_entries par step z s lam s0 lam0 : 1 <= par <= 3 -> solvable par -> 0 < n -> principal n s -> principal n s0 ->
  length z = 2 * n + 1 -> NoDup (pv ++ pq) ->
  exists D Dp dl, aug_jacobian cabsR cang par z Y Sx (volt s) lam (volt s0) lam0 pv pq
    = Ok (map (fun e => map (D e) (unks pv pq) ++ [(- part_of (fst e) (nth (snd e) Sx 0%K))%R]) (eqns pv pq)
          ++ [map Dp (unks pv pq) ++ [dl]]) /\
    (forall e u, In e (eqns pv pq) -> In u (unks pv pq) -> slope u (fun s => balance Y Sb Sx e s lam) s (D e u)) /\
    (forall u, In u (unks pv pq) -> slope u (fun s => param par step z n pv pq s0 lam0 s lam) s (Dp u)) /\
    (par = 3 \/ lam <> lam0 -> derivable_pt_lim (param par step z n pv pq s0 lam0 s) lam dl) /\
    (par < 3 -> lam = lam0 -> dl = 1%R) /\ (par < 3 -> s = s0 -> forall u, Dp u = 0%R).
Proof.
  intros HP (SV1 & SV2) Pn PS P0 LZ ND. pose proof PS as (O & _).
  destruct (jac_entries Y (inj lam Sb Sx) n pv pq shape range s Pn O) as (D & EJ & SL).
  destruct (C72_row par step z s lam s0 lam0 HP PS P0 LZ ND) as (Dp & dl & EP & SP & DL & Q1 & Q2).
  exists D, Dp, dl. split; [|auto 6]. unfold aug_jacobian.
  assert (negb (length (pv ++ pq) =? 0) = true) as ->.
  { destruct (pv ++ pq); [congruence|reflexivity]. }
  assert (negb ((par =? 2) && (length pv + 2 * length pq =? 1)) = true) as ->.
  { rewrite <- unks_len. destruct (Nat.eqb_spec par 2); [|reflexivity]. destruct (Nat.eqb_spec (length (unks pv pq)) 1); [tauto|reflexivity]. }
  cbn [guard bind]. rewrite EJ. cbn [bind].
  rewrite (gather_tot Sx _ 0%K) by (intros; rewrite size_x; auto). cbn [bind].
  rewrite (gather_tot Sx _ 0%K) by (intros; rewrite size_x; apply range, in_or_app; auto). cbn [bind].
  rewrite EP. cbn [bind]. f_equal. f_equal.
  assert (forall l (f : part * nat -> list R) (g : part * nat -> R),
    map2 (fun r d => r ++ [d]) (map f l) (map g l) = map (fun e => f e ++ [g e]) l) as KEY.
  { intros l f g. unfold map2. induction l as [|e l IH]; [reflexivity|]. cbn [map combine fst snd]. f_equal. exact IH. }
  rewrite <- KEY. f_equal. unfold eqns. remember (pv ++ pq) as L. rewrite !map_app, !map_map. reflexivity.
Qed.

Lemma row_sum (D : coord * nat -> R) dl (x : list R) (w : coord * nat -> R) wl :
  length x = length (unks pv pq) + 1 -> (forall c u, nth_error (unks pv pq) c = Some u -> nth c x 0%R = w u) ->
  nth (length (unks pv pq)) x 0%R = wl ->
  lsum (fun c => nth c (map D (unks pv pq) ++ [dl]) 0 * nth c x 0)%K (seq 0 (length x))
  = (lsum (fun u => D u * w u)%R (unks pv pq) + dl * wl)%R.
Proof.
  intros LX W WL. rewrite LX, seq_app. etransitivity; [exact (lsum_app (K := R) _ _ _)|]. cbn [seq lsum]. cbn [Nat.add].
  rewrite app_nth2 by (rewrite map_length; lia). rewrite map_length, Nat.sub_diag. subst wl. cbn [nth].
  assert (lsum (fun c => nth c (map D (unks pv pq) ++ [dl]) 0 * nth c x 0)%K (seq 0 (length (unks pv pq)))
    = lsum (fun u => D u * w u)%R (unks pv pq)) as ->; [|cbn; ring].
  rewrite (lsum_nth (fun u => D u * w u)%R (unks pv pq) (Ang, 0)). apply lsum_ext. intros c I. apply in_seq in I.
  destruct (nth_error_lt (unks pv pq) c ltac:(lia)) as (u & Hu). rewrite app_nth1 by (rewrite map_length; lia).
  rewrite (nth_map_lt _ _ _ _ (Ang, 0)) by lia. rewrite (nth_error_nth _ _ _ Hu).
  pose proof (W _ _ Hu) as E. change (D u * nth c x 0 = D u * w u)%R. rewrite E. reflexivity.
Qed.

(** the augmented residual *)
Definition residuals par step z s0 lam0 s lam : list R :=
  map (fun e => balance Y Sb Sx e s lam) (eqns pv pq) ++ [param par step z n pv pq s0 lam0 s lam].

Lemma mis_lam V lam : length V = n ->
  exists m, mismatch Y Sb V = Ok m /\
    ewise (fun m s => csub m (cmul (ofK lam) s)) m Sx = Ok (map (excess Y (inj lam Sb Sx) V) (seq 0 n)).
Proof.
  intros LV. eexists. split; [apply (mismatch_tot n); auto|]. unfold ewise. rewrite map_length, seq_length, size_x, Nat.eqb_refl.
  f_equal. apply (nth_ext _ _ 0%K 0%K).
  - unfold map2. rewrite !map_length, combine_length, map_length, seq_length. lia.
  - intros i Hi. unfold map2 in Hi. rewrite map_length, combine_length, map_length, seq_length, size_x, Nat.min_id in Hi.
    rewrite (nth_map2_d _ _ _ _ 0%K 0%K) by (rewrite ?map_length, ?seq_length; lia).
    rewrite !(nth_map_lt _ _ _ _ 0) by (rewrite seq_length; auto). rewrite seq_nth by auto. cbn [Nat.add].
    unfold excess, inj. rewrite (nth_map2_d _ _ _ _ 0%K 0%K) by lia.
    set (w := bus_power Y V i). apply cpx_eq; cbn; ring.
Qed.

Theorem C73_residual par step z s lam s0 lam0 : 1 <= par <= 3 -> principal n s -> principal n s0 -> length z = 2 * n + 1 ->
  cpf_residual cabsR cang par step z Y Sb Sx (volt s) lam (volt s0) lam0 pv pq = Ok (residuals par step z s0 lam0 s lam).
Proof.
  intros HP PS P0 LZ. unfold cpf_residual.
  assert (length (volt s) = n) as LV by (destruct PS as ((A & B & _) & _); apply volt_len; auto).
  destruct (mis_lam (volt s) lam LV) as (m & -> & E). cbn [bind]. rewrite E. cbn [bind]. rewrite residual_tot by auto. cbn [bind].
  rewrite C72_value by auto. cbn [bind]. unfold residuals. f_equal. f_equal.
  unfold eqns. remember (pv ++ pq) as L. rewrite map_app, !map_map. reflexivity.
Qed.

(** one corrector step with an exact linear solve moves the unknowns and lambda, and nothing else, so that
    every balance equation vanishes to first order, and so does the parameterization, where it has
    derivatives *)
Theorem C73_step solve par step z s lam s0 lam0 J x : 1 <= par <= 3 -> solvable par -> 0 < n ->
  principal n s -> principal n s0 -> length z = 2 * n + 1 -> NoDup (pv ++ pq) ->
  aug_jacobian cabsR cang par z Y Sx (volt s) lam (volt s0) lam0 pv pq = Ok J ->
  solve J (residuals par step z s0 lam0 s lam) = Ok x -> solves J (residuals par step z s0 lam0 s lam) x ->
  exists s' lam', length (mag s') = n /\ length (ang s') = n /\
    (principal n s' ->
     corrector_step cis_R cabsR cang solve par step z Y Sb Sx (volt s0) lam0 pv pq
       (volt s, ang s, mag s, lam, residuals par step z s0 lam0 s lam)
     = Ok (volt s', ang s', mag s', lam', residuals par step z s0 lam0 s' lam')) /\
    (forall u, ~ In u (unks pv pq) -> snd u < n -> value u s' = value u s) /\
    (forall e D dl, In e (eqns pv pq) -> (forall u, In u (unks pv pq) -> slope u (fun s => balance Y Sb Sx e s lam) s (D u)) ->
      derivable_pt_lim (balance Y Sb Sx e s) lam dl ->
      (lsum (fun u => D u * (value u s' - value u s)) (unks pv pq) + dl * (lam' - lam))%R = (- balance Y Sb Sx e s lam)%R) /\
    (forall D dl, (par = 3 \/ lam <> lam0) ->
      (forall u, In u (unks pv pq) -> slope u (fun s => param par step z n pv pq s0 lam0 s lam) s (D u)) ->
      derivable_pt_lim (param par step z n pv pq s0 lam0 s) lam dl ->
      (lsum (fun u => D u * (value u s' - value u s)) (unks pv pq) + dl * (lam' - lam))%R
      = (- param par step z n pv pq s0 lam0 s lam)%R).
Proof.
  intros HP SVB Pn PS P0 LZ ND HJ HS (LX & SV). pose proof PS as (O & _).
  destruct (aug_entries par step z s lam s0 lam0 HP SVB Pn PS P0 LZ ND) as (D0 & Dp & dl0 & EJ & SL & SP & DL & _).
  rewrite HJ in EJ. injection EJ as ->.
  set (Fx := residuals par step z s0 lam0 s lam) in *.
  assert (length (eqns pv pq) = length (unks pv pq)) as LEU by (unfold eqns, unks; rewrite !app_length, !map_length; auto).
  assert (length x = length (unks pv pq) + 1) as LXU.
  { rewrite LX. unfold Fx, residuals. rewrite app_length, map_length, LEU. reflexivity. }
  destruct O as (LM & LA & POS). pose proof unks_len as UL.
  destruct (updates_tot (ang s) (mag s) (map (@ropp R (@fld_rng R R_fld)) x) pv pq n LA LM ND range) as
    (Va1 & Va2 & Vm2 & E1 & E2 & E3 & LA2 & LM2 & UA & OA & UM & OM). { rewrite map_length. lia. }
  set (k := length (unks pv pq)) in *.
  exists (St Vm2 Va2), (lam - nth k x 0)%R. cbn [mag ang]. split; auto. split; auto.
  assert (forall c, nth c (map (@ropp R (@fld_rng R R_fld)) x) 0%R = (- nth c x 0)%R) as NO.
  { intros c'. destruct (lt_dec c' (length x)) as [H|H].
    - apply (nth_map_lt (@ropp R (@fld_rng R R_fld)) x c' 0%R 0%R H).
    - rewrite !nth_overflow by (rewrite ?map_length; lia). ring. }
  assert (forall c u, nth_error (unks pv pq) c = Some u -> (value u (St Vm2 Va2) - value u s)%R = (- nth c x 0)%R) as DV.
  { intros c u Hu. pose proof (nth_error_some_lt _ _ _ Hu) as Lc. unfold unks in Hu, Lc. rewrite app_length, !map_length in Lc.
    destruct (lt_dec c (length (pv ++ pq))) as [H|H].
    - rewrite nth_error_app1 in Hu by (rewrite map_length; auto). rewrite nth_error_map in Hu.
      destruct (nth_error (pv ++ pq) c) as [i|] eqn:E; [|discriminate]. injection Hu as <-.
      unfold value. cbn [fst snd coord_get ang]. pose proof (UA _ _ E) as U. rewrite NO in U.
      replace (nth i Va2 0%R) with (nth i (ang s) 0 + - nth c x 0)%R by (symmetry; exact U). ring.
    - rewrite nth_error_app2 in Hu by (rewrite map_length; lia). rewrite map_length, nth_error_map in Hu.
      destruct (nth_error pq (c - length (pv ++ pq))) as [i|] eqn:E; [|discriminate]. injection Hu as <-.
      unfold value. cbn [fst snd coord_get mag]. pose proof (UM _ _ E) as U. rewrite NO in U.
      rewrite app_length in U, H. replace (length pv + length pq + (c - (length pv + length pq))) with c in U by lia.
      replace (nth i Vm2 0%R) with (nth i (mag s) 0 + - nth c x 0)%R by (symmetry; exact U). ring. }
  (* a row of the system, as a first-order change *)
  assert (forall D D' (dl dl' b : R), (forall u, In u (unks pv pq) -> D u = D' u) -> dl = dl' ->
    lsum (fun c => nth c (map D' (unks pv pq) ++ [dl']) 0 * nth c x 0)%K (seq 0 (length x)) = b ->
    (lsum (fun u => D u * (value u (St Vm2 Va2) - value u s)) (unks pv pq) + dl * (lam - nth k x 0 - lam))%R = (- b)%R) as ROW.
  { intros D D' dl dl' b ED -> EB.
    rewrite (row_sum D' dl' x (fun u => - (value u (St Vm2 Va2) - value u s))%R (nth k x 0%R) LXU) in EB; auto.
    2: { intros c u Hu. rewrite (DV _ _ Hu). ring. }
    rewrite <- EB.
    assert (forall l, (forall u, In u l -> D u = D' u) ->
      lsum (fun u => D u * (value u (St Vm2 Va2) - value u s))%R l
      = (- lsum (fun u => D' u * - (value u (St Vm2 Va2) - value u s))%R l)%R) as ->; auto; [|ring].
    clear. induction l as [|u l IH]; intros H; [cbn; ring|].
    pose proof (IH (fun v I => H v (or_intror I))) as E. cbn [lsum]. rewrite (H u) by (left; auto).
    set (a := (value u (St Vm2 Va2) - value u s)%R) in *.
    change (D' u * a + lsum (fun u => D u * (value u (St Vm2 Va2) - value u s))%R l
      = - (D' u * - a + lsum (fun u => D' u * - (value u (St Vm2 Va2) - value u s))%R l))%R. rewrite E. ring. }
  split; [|split; [|split]].
  - intros P'. unfold corrector_step. rewrite HJ. cbn [bind]. rewrite HS. cbn [bind]. rewrite E1. cbn [bind]. rewrite E2. cbn [bind].
    rewrite E3. cbn [bind].
    assert (polar cis_R Vm2 Va2 = Ok (volt (St Vm2 Va2))) as ->.
    { rewrite polar_tot by congruence. f_equal. unfold volt. cbn [mag ang]. unfold map2. apply map_ext. intros (m & a). cbn [fst snd].
      apply cpx_eq; cbn; ring. }
    cbn [bind].
    replace (length pv + length pq + length pq) with k by (rewrite UL; lia).
    unfold get. rewrite (nth_error_nth' _ 0%R) by (rewrite map_length; lia). cbn [of_option bind]. rewrite NO.
    change (lam + - nth k x 0)%K with (lam - nth k x 0)%R.
    rewrite C73_residual by auto. cbn [bind]. rewrite (read_ang _ P'), (read_mag _ (proj1 P')). reflexivity.
  - intros (c & i) N Lk. unfold value. cbn [fst snd coord_get] in *. destruct c; cbn [coord_get mag ang].
    + apply OA. intros I. apply N. unfold unks. apply in_or_app. left. apply in_map; auto.
    + apply OM. intros I. apply N. unfold unks. apply in_or_app. right. apply in_map; auto.
  - intros e D dl Ie SD DE. apply In_nth_error in Ie as (q & Hq). pose proof (nth_error_some_lt _ _ _ Hq) as Lq.
    eapply (ROW _ (D0 e) _ (- part_of (fst e) (nth (snd e) Sx 0%K))%R).
    + intros u I. apply (slope_unique _ _ _ _ _ (SD u I) (SL e u (nth_error_In _ _ Hq) I)).
    + eapply uniqueness_limite; [exact DE|]. apply balance_lam. apply (eqns_range n pv pq range). eapply nth_error_In; eauto.
    + rewrite (SV q (map (D0 e) (unks pv pq) ++ [(- part_of (fst e) (nth (snd e) Sx 0%K))%R])).
      * unfold Fx, residuals. rewrite app_nth1 by (rewrite map_length; auto). rewrite (nth_map_lt _ _ _ _ e) by auto.
        rewrite (nth_error_nth _ _ _ Hq). reflexivity.
      * rewrite nth_error_app1 by (rewrite map_length; auto). rewrite nth_error_map, Hq. reflexivity.
  - intros D dl C SD DE. eapply (ROW _ Dp _ dl0).
    + intros u I. apply (slope_unique _ _ _ _ _ (SD u I) (SP u I)).
    + eapply uniqueness_limite; [exact DE|]. auto.
    + rewrite (SV (length (eqns pv pq)) (map Dp (unks pv pq) ++ [dl0])).
      * unfold Fx, residuals. rewrite app_nth2 by (rewrite map_length; auto). rewrite map_length, Nat.sub_diag. reflexivity.
      * rewrite nth_error_app2 by (rewrite map_length; auto). rewrite map_length, Nat.sub_diag. reflexivity.
Qed.

(** ** C74 *)

Definition euclid (v : list R) : R := sqrt (lsum (fun a => a * a)%R v).

Lemma places_nodup : NoDup (pv ++ pq) -> NoDup (map (place n) (unks pv pq) ++ [2 * n]).
Proof.
  intros ND. apply NoDup_app_intro; [|constructor; [auto|constructor]|].
  - assert (forall l, (forall u, In u l -> snd u < n) -> NoDup l -> NoDup (map (place n) l)) as KEY.
    { induction l as [|u l IH]; intros R N; cbn [map]; [constructor|]. apply NoDup_cons_iff in N as (N1 & N2). constructor.
      - intros I. apply in_map_iff in I as (v & E & I). assert (v = u) as ->; [|contradiction].
        pose proof (R u (or_introl eq_refl)). pose proof (R v (or_intror I)). destruct u as [[] a], v as [[] b]; unfold place in E; cbn in *; f_equal; lia.
      - apply IH; auto. intros; apply R; right; auto. }
    apply KEY; [|apply unks_nodup; auto]. intros u I. apply (unks_range n pv pq range u I).
  - intros i A [<-|[]]. apply in_map_iff in A as (u & E & I). apply place_range in I. lia.
Qed.

Lemma sq_nn (v : list R) : (0 <= lsum (fun a => a * a)%R v)%R.
Proof.
  induction v as [|a v IH]; [cbn; lra|]. cbn [lsum]. change (0 <= a * a + lsum (fun a => a * a)%R v)%R.
  pose proof (Rle_0_sqr a) as P. unfold Rsqr in P. lra.
Qed.
Lemma sq_pos (v : list R) c : nth c v 0%R <> 0%R -> (0 < lsum (fun a => a * a)%R v)%R.
Proof.
  revert c. induction v as [|a v IH]; intros c N; [destruct c; cbn in N; lra|]. cbn [lsum].
  change (0 < a * a + lsum (fun a => a * a)%R v)%R. pose proof (sq_nn v). pose proof (Rle_0_sqr a) as P. unfold Rsqr in P.
  destruct c as [|c]; cbn [nth] in N.
  - pose proof (Rsqr_pos_lt a N) as Q. unfold Rsqr in Q. lra.
  - specialize (IH c N). lra.
Qed.
Lemma sq_scale (v : list R) k : lsum (fun a => a * a)%R (map (fun a => a / k)%R v) = (lsum (fun a => a * a)%R v / (k * k))%R \/ k = 0%R.
Proof.
  destruct (Req_EM_T k 0) as [|N]; [right; auto|left]. induction v as [|a v IH]; [cbn; field; auto|]. cbn [map lsum].
  change ((a / k * (a / k) + lsum (fun a => a * a) (map (fun a => a / k) v))%R = ((a * a + lsum (fun a => a * a)%R v) / (k * k))%R).
  rewrite IH. field. auto.
Qed.

Lemma some_nonzero (D w : coord * nat -> R) l : lsum (fun u => D u * w u)%R l <> 0%R -> exists u, In u l /\ w u <> 0%R.
Proof.
  induction l as [|u l IH]; intros N; [cbn in N; lra|]. destruct (Req_EM_T (w u) 0) as [E|NE]; [|exists u; split; [left|]; auto].
  destruct IH as (v & I & NV); [|exists v; split; [right|]; auto]. intros E'. apply N. cbn [lsum].
  change ((D u * w u + lsum (fun u => D u * w u)%R l)%R = 0%R). rewrite E, E'. ring.
Qed.
Lemma lsum_div (D w w' : coord * nat -> R) k l : (forall u, w u = w' u / k)%R -> k <> 0%R ->
  lsum (fun u => D u * w u)%R l = (lsum (fun u => D u * w' u)%R l / k)%R.
Proof.
  intros E NK. induction l as [|u l IH]; [cbn; field; auto|]. cbn [lsum].
  change ((D u * w u + lsum (fun u => D u * w u)%R l)%R = ((D u * w' u + lsum (fun u => D u * w' u)%R l) / k)%R).
  rewrite IH, E. field. auto.
Qed.
Lemma lsum_null (D w : coord * nat -> R) l : (forall u, D u = 0%R) -> lsum (fun u => D u * w u)%R l = 0%R.
Proof.
  intros E. induction l as [|u l IH]; [reflexivity|]. cbn [lsum].
  change ((D u * w u + lsum (fun u => D u * w u)%R l)%R = 0%R). rewrite IH, E. ring.
Qed.

(** the predictor moves along the unit tangent of the curve of solutions, in the direction of growing
    parameterization *)
Theorem C74_predictor solve par step z s lam s0 lam0 J x : 1 <= par <= 3 -> solvable par -> 0 < n ->
  principal n s -> principal n s0 -> length z = 2 * n + 1 -> NoDup (pv ++ pq) ->
  aug_jacobian cabsR cang par z Y Sx (volt s) lam (volt s0) lam0 pv pq = Ok J ->
  let b := repeat 0%R (length pv + 2 * length pq) ++ [1%R] in
  solve J b = Ok x -> solves J b x ->
  exists s' lam' t, cpf_predictor cis_R cabsR cang euclid solve (volt s) lam Y Sx pv pq step z (volt s0) lam0 par
      = Ok (volt s', lam', t) /\
    length (mag s') = n /\ length (ang s') = n /\ length t = 2 * n + 1 /\
    (* the move *)
    (forall u, In u (unks pv pq) -> value u s' = value u s + step * nth (place n u) t 0)%R /\
    (forall u, ~ In u (unks pv pq) -> snd u < n -> value u s' = value u s) /\
    lam' = (lam + step * nth (2 * n) t 0)%R /\
    (* the tangent vector *)
    lsum (fun a => a * a)%R t = 1%R /\
    (forall i, ~ In i (positions n pv pq) -> nth i z 0%R = 0%R -> nth i t 0%R = 0%R) /\
    (forall e D dl, In e (eqns pv pq) -> (forall u, In u (unks pv pq) -> slope u (fun s => balance Y Sb Sx e s lam) s (D u)) ->
      derivable_pt_lim (balance Y Sb Sx e s) lam dl ->
      (lsum (fun u => D u * nth (place n u) t 0) (unks pv pq) + dl * nth (2 * n) t 0)%R = 0%R) /\
    (forall D dl, par = 3 \/ lam <> lam0 ->
      (forall u, In u (unks pv pq) -> slope u (fun s => param par step z n pv pq s0 lam0 s lam) s (D u)) ->
      derivable_pt_lim (param par step z n pv pq s0 lam0 s) lam dl ->
      (0 < lsum (fun u => D u * nth (place n u) t 0) (unks pv pq) + dl * nth (2 * n) t 0)%R) /\
    (par < 3 -> s0 = s -> lam = lam0 -> (0 < nth (2 * n) t 0)%R).
Proof.
  intros HP SVB Pn PS P0 LZ ND HJ b HS (LX & SV). pose proof PS as (O & _).
  destruct (aug_entries par step z s lam s0 lam0 HP SVB Pn PS P0 LZ ND) as (D0 & Dp & dl0 & EJ & SL & SP & DL & Q1 & Q2).
  pose proof HJ as HJ'. rewrite HJ in EJ. injection EJ as ->.
  assert (length (eqns pv pq) = length (unks pv pq)) as LEU by (unfold eqns, unks; rewrite !app_length, !map_length; auto).
  pose proof unks_len as UL.
  assert (length x = length (unks pv pq) + 1) as LXU by (rewrite LX; unfold b; rewrite app_length, repeat_length, UL; reflexivity).
  set (k := length (unks pv pq)) in *.
  set (pos := map (place n) (unks pv pq) ++ [2 * n]).
  assert (length pos = length x) as LP by (unfold pos; rewrite app_length, map_length; unfold k in LXU; cbn; lia).
  assert (forall i, In i pos -> i < length z) as RP.
  { intros i I. rewrite LZ. unfold pos in I. apply in_app_or in I as [I|[<-|[]]]; [|lia]. apply in_map_iff in I as (u & <- & I).
    apply place_range in I. lia. }
  pose proof (places_nodup ND) as NP. fold pos in NP.
  set (z1 := scatter z pos x).
  assert (length z1 = 2 * n + 1) as LZ1 by (unfold z1; rewrite scatter_length; auto).
  assert (forall c i, nth_error pos c = Some i -> nth i z1 0%R = nth c x 0%R) as Z1.
  { intros c i E. pose proof (nth_error_some_lt _ _ _ E) as Lc. apply nth_error_nth. apply (scatter_at pos z x c i); auto.
    - apply nth_error_nth'. lia.
    - apply RP. eapply nth_error_In; eauto. }
  assert (forall c u, nth_error (unks pv pq) c = Some u -> nth (place n u) z1 0%R = nth c x 0%R) as ZU.
  { intros c u Hu. apply Z1. unfold pos. pose proof (nth_error_some_lt _ _ _ Hu). rewrite nth_error_app1 by (rewrite map_length; auto).
    rewrite nth_error_map, Hu. reflexivity. }
  assert (nth (2 * n) z1 0%R = nth k x 0%R) as ZL.
  { apply Z1. unfold pos. rewrite nth_error_app2 by (rewrite map_length; auto). rewrite map_length. fold k. rewrite Nat.sub_diag. reflexivity. }
  (* rows against the raw direction *)
  assert (forall D dl, lsum (fun c => nth c (map D (unks pv pq) ++ [dl]) 0 * nth c x 0)%K (seq 0 (length x))
     = (lsum (fun u => D u * nth (place n u) z1 0) (unks pv pq) + dl * nth (2 * n) z1 0)%R) as ROW.
  { intros D dl. apply row_sum; auto. intros c u Hu. symmetry. apply ZU; auto. }
  assert ((lsum (fun u => Dp u * nth (place n u) z1 0) (unks pv pq) + dl0 * nth (2 * n) z1 0)%R = 1%R) as ROWP.
  { rewrite <- ROW. rewrite (SV (length (eqns pv pq)) (map Dp (unks pv pq) ++ [dl0])).
    - unfold b. rewrite app_nth2 by (rewrite repeat_length; lia). rewrite repeat_length, LEU, UL, Nat.sub_diag. reflexivity.
    - rewrite nth_error_app2 by (rewrite map_length; auto). rewrite map_length, Nat.sub_diag. reflexivity. }
  assert (forall e, In e (eqns pv pq) -> (lsum (fun u => D0 e u * nth (place n u) z1 0) (unks pv pq)
      + - part_of (fst e) (nth (snd e) Sx 0%K) * nth (2 * n) z1 0)%R = 0%R) as ROWE.
  { intros e Ie. apply In_nth_error in Ie as (q & Hq). pose proof (nth_error_some_lt _ _ _ Hq) as Lq.
    rewrite <- ROW. rewrite (SV q (map (D0 e) (unks pv pq) ++ [(- part_of (fst e) (nth (snd e) Sx 0%K))%R])).
    - unfold b. rewrite app_nth1 by (rewrite repeat_length; lia). apply nth_repeat.
    - rewrite nth_error_app1 by (rewrite map_length; auto). rewrite nth_error_map, Hq. reflexivity. }
  (* its length is positive *)
  set (nz := euclid z1).
  assert (0 < lsum (fun a => a * a)%R z1)%R as SPOS.
  { destruct (Req_EM_T (nth (2 * n) z1 0%R) 0) as [E|N]; [|apply (sq_pos z1 _ N)].
    assert (exists u, In u (unks pv pq) /\ nth (place n u) z1 0%R <> 0%R) as (u & _ & N); [|apply (sq_pos z1 _ N)].
    rewrite E in ROWP. assert (lsum (fun u => Dp u * nth (place n u) z1 0)%R (unks pv pq) <> 0%R) as NZ by lra.
    apply (some_nonzero Dp (fun u => nth (place n u) z1 0%R)); auto. }
  assert (0 < nz)%R as NZ by (apply sqrt_lt_R0; auto).
  assert (nz * nz = lsum (fun a => a * a)%R z1)%R as NN by (apply sqrt_sqrt; lra).
  set (t := map (fun a => (a / nz)%R) z1).
  assert (forall i, nth i t 0%R = (nth i z1 0 / nz)%R) as NT.
  { intros i. unfold t. destruct (lt_dec i (length z1)) as [H|H]; [apply (nth_map_lt (fun a => (a / nz)%R) z1 i 0%R 0%R H)|].
    rewrite !nth_overflow by (rewrite ?map_length; lia). field. lra. }
  assert (length t = 2 * n + 1) as LT by (unfold t; rewrite map_length; auto).
  pose proof (read_ang s PS) as RA. pose proof (read_mag s O) as RM. destruct O as (LM & LA & POS).
  assert (length (volt s) = n) as LV by (apply volt_len; auto).
  destruct (add_at_tot (ang s) (pv ++ pq) (map (fun i => (step * nth i t 0)%R) (pv ++ pq)) ND) as (Va & EA & LVA & UA & OA).
  { rewrite LA; auto. } { rewrite map_length. auto. }
  destruct (add_at_tot (mag s) pq (map (fun i => (step * nth (n + i) t 0)%R) pq) (NoDup_app_r _ _ ND)) as (Vm & EM & LVM & UM & OM).
  { intros. rewrite LM. apply range, in_or_app; auto. } { rewrite map_length. auto. }
  exists (St Vm Va), (lam + step * nth (2 * n) t 0)%R, t.
  assert (forall D dl, (lsum (fun u => D u * nth (place n u) t 0) (unks pv pq) + dl * nth (2 * n) t 0)%R
     = ((lsum (fun u => D u * nth (place n u) z1 0) (unks pv pq) + dl * nth (2 * n) z1 0) / nz)%R) as SC.
  { intros D dl. rewrite (NT (2 * n)).
    assert (lsum (fun u => D u * nth (place n u) t 0)%R (unks pv pq) = (lsum (fun u => D u * nth (place n u) z1 0)%R (unks pv pq) / nz)%R) as ->; [|field; lra].
    apply (lsum_div D (fun u => nth (place n u) t 0%R) (fun u => nth (place n u) z1 0%R)); auto. lra. }
  split; [|split; [|split; [|split; [|split; [|split; [|split; [|split; [|split; [|split; [|split]]]]]]]]]]; cbn [mag ang]; auto; try congruence.
  - unfold cpf_predictor. rewrite HJ'. cbn [bind].
    match goal with |- context [solve _ ?v] => change v with b end. rewrite HS. cbn [bind]. rewrite LV, places. fold pos.
    unfold scatter_checked. rewrite LP, Nat.eqb_refl. cbn [negb].
    assert (forallb (fun i => i <? length z) pos = true) as ->.
    { apply forallb_forall. intros i I. apply Nat.ltb_lt. auto. }
    cbn [bind]. fold z1. cbv zeta. fold nz.
    match goal with |- context [feqb nz ?w] => assert (feqb nz w = false) as -> end.
    { change (r_eqb nz 0%R = false). unfold r_eqb. destruct (Req_EM_T nz 0); [lra|reflexivity]. }
    cbn [negb guard bind]. change (map (fun a => a / nz)%K z1) with t.
    rewrite (gather_tot t _ 0%R) by (intros i I; apply range in I; lia). cbn [bind].
    rewrite (gather_tot t _ 0%R).
    2: { intros i I. apply in_map_iff in I as (j & <- & I). assert (j < n) by (apply range, in_or_app; auto). lia. }
    cbn [bind]. unfold get. rewrite (nth_error_nth' t 0%R) by lia. cbn [of_option bind].
    rewrite RA, RM, !map_map.
    change (add_at (ang s) (pv ++ pq) (map (fun x => step * nth x t 0)%R (pv ++ pq)) = Ok Va) in EA.
    match goal with |- bind ?e _ = _ => replace e with (Ok Va) by (symmetry; exact EA) end. cbn [bind].
    match goal with |- bind ?e _ = _ => replace e with (Ok Vm) by (symmetry; exact EM) end. cbn [bind].
    rewrite polar_tot by congruence. cbn [bind]. f_equal. f_equal. f_equal.
    unfold volt. cbn [mag ang]. unfold map2. apply map_ext. intros (m & a). cbn [fst snd]. apply cpx_eq; cbn; ring.
  - intros u I. unfold unks in I. apply in_app_or in I as [I|I]; apply in_map_iff in I as (i & <- & I); unfold value, place; cbn [fst snd coord_get mag ang].
    + apply In_nth_error in I as (c & Hc). pose proof (UA _ _ Hc) as U.
      rewrite (nth_map_lt _ _ _ _ 0) in U by (eapply nth_error_some_lt; eauto). rewrite (nth_error_nth _ _ _ Hc) in U. exact U.
    + apply In_nth_error in I as (c & Hc). pose proof (UM _ _ Hc) as U.
      rewrite (nth_map_lt _ _ _ _ 0) in U by (eapply nth_error_some_lt; eauto). rewrite (nth_error_nth _ _ _ Hc) in U. exact U.
  - intros (c & i) N Lk. unfold value. cbn [fst snd coord_get] in *. destruct c; cbn [coord_get mag ang].
    + apply OA. intros I. apply N. unfold unks. apply in_or_app. left. apply in_map; auto.
    + apply OM. intros I. apply N. unfold unks. apply in_or_app. right. apply in_map; auto.
  - destruct (sq_scale z1 nz) as [E|E]; [|lra]. unfold t. rewrite E, NN. field. lra.
  - intros i N E. rewrite NT. assert (nth i z1 0%R = nth i z 0%R) as ->; [|rewrite E; field; lra].
    rewrite places in N. fold pos in N. pose proof (scatter_other pos z x i N) as E1. fold z1 in E1.
    destruct (lt_dec i (length z)) as [H|H].
    + destruct (nth_error_lt z i H) as (a & Ha). rewrite Ha in E1. rewrite (nth_error_nth _ _ _ E1), (nth_error_nth _ _ _ Ha). reflexivity.
    + rewrite !nth_overflow; auto; lia.
  - intros e D dl Ie SD DE. rewrite SC.
    assert (dl = - part_of (fst e) (nth (snd e) Sx 0%K))%R as ->.
    { eapply uniqueness_limite; [exact DE|]. apply balance_lam. apply (eqns_range n pv pq range). auto. }
    rewrite <- (ROWE e Ie) at 2.
    assert (lsum (fun u => D u * nth (place n u) z1 0)%R (unks pv pq) = lsum (fun u => D0 e u * nth (place n u) z1 0)%R (unks pv pq)) as ->.
    { apply lsum_ext. intros u I. rewrite (slope_unique _ _ _ _ _ (SD u I) (SL e u Ie I)). reflexivity. }
    rewrite (ROWE e Ie). field. lra.
  - intros D dl C SD DE. rewrite SC.
    assert (dl = dl0)%R as -> by (eapply uniqueness_limite; [exact DE|auto]).
    assert (lsum (fun u => D u * nth (place n u) z1 0)%R (unks pv pq) = lsum (fun u => Dp u * nth (place n u) z1 0)%R (unks pv pq)) as ->.
    { apply lsum_ext. intros u I. rewrite (slope_unique _ _ _ _ _ (SD u I) (SP u I)). reflexivity. }
    rewrite ROWP. apply Rdiv_lt_0_compat; lra.
  - intros C -> E. rewrite NT.
    assert (lsum (fun u => Dp u * nth (place n u) z1 0)%R (unks pv pq) = 0%R) as Z0.
    { apply (lsum_null Dp (fun u => nth (place n u) z1 0%R)). apply Q2; auto. }
    rewrite (Q1 C E), Z0 in ROWP. replace (nth (2 * n) z1 0%R) with 1%R by lra. apply Rdiv_lt_0_compat; lra.
Qed.
End Steps.

(** ** the two buses of C71, with the load at bus 1 growing by 0.5 per unit of lambda *)
Definition ex_x : list (cpx R) := [Cx 0 0; Cx (-(1 / 2)) 0]%R.
Definition ex_z : list R := [0; 0; 0; 0; 1]%R.

Lemma ex_principal : principal 2 ex_s.
Proof. pose proof PI_RGT_0. repeat split; repeat constructor; cbn; lra. Qed.
Lemma ex_jac : jacobian cabsR ex_Y (volt ex_s) [] [1] = Ok [[10; 0]; [0; 10]]%R.
Proof.
  assert (shaped ex_Y 2 2) as SH by (repeat split; repeat constructor; cbn; lia).
  assert (forall i, In i ([] ++ [1]) -> i < 2) as RG by (intros i [<-|[]]; lia).
  destruct ex_slopes as (S1 & S2 & S3 & S4).
  destruct (jac_entries ex_Y ex_S 2 [] [1] SH RG ex_s ltac:(lia) (proj1 ex_principal)) as (D & -> & SL).
  cbn [eqns unks app map].
  rewrite (slope_unique _ _ _ _ _ (SL (Act, 1%nat) (Ang, 1%nat) ltac:(cbn; auto) ltac:(cbn; auto)) S1).
  rewrite (slope_unique _ _ _ _ _ (SL (Act, 1%nat) (Mag, 1%nat) ltac:(cbn; auto) ltac:(cbn; auto)) S2).
  rewrite (slope_unique _ _ _ _ _ (SL (React, 1%nat) (Ang, 1%nat) ltac:(cbn; auto) ltac:(cbn; auto)) S3).
  rewrite (slope_unique _ _ _ _ _ (SL (React, 1%nat) (Mag, 1%nat) ltac:(cbn; auto) ltac:(cbn; auto)) S4). reflexivity.
Qed.
Lemma ex_aug lam : aug_jacobian cabsR P_AcPf.cangR 3 ex_z ex_Y ex_x (volt ex_s) lam (volt ex_s) 0%R [] [1]
  = Ok [[10; 0; 1 / 2]; [0; 10; 0]; [0; 0; 1]]%R.
Proof.
  unfold aug_jacobian. rewrite ex_jac. cbn -[Rdiv]. f_equal. f_equal; [|f_equal]; repeat (f_equal; try ring).
Qed.

(** from the solved state at lambda = 0 the tangent is a unit vector along (-1/20, 0, 1): with lambda growing, the angle
    at bus 1 falls, and its magnitude stays *)
Example C74_example : exists s' lam' t,
  cpf_predictor cis_R cabsR P_AcPf.cangR euclid (fun _ _ => Ok [- (1 / 20); 0; 1]%R) (volt ex_s) 0%R ex_Y ex_x [] [1] (1 / 2)%R ex_z
    (volt ex_s) 0%R 3 = Ok (volt s', lam', t) /\
  (0 < lam')%R /\ (value (Ang, 1%nat) s' = - (1 / 20) * lam')%R /\ value (Mag, 1%nat) s' = 1%R /\ value (Ang, 0%nat) s' = 0%R.
Proof.
  assert (shaped ex_Y 2 2) as SH by (repeat split; repeat constructor; cbn; lia).
  assert (forall i, In i ([] ++ [1]) -> i < 2) as RG by (intros i [<-|[]]; lia).
  assert (solves [[10; 0; 1 / 2]; [0; 10; 0]; [0; 0; 1]]%R [0; 0; 1]%R [- (1 / 20); 0; 1]%R) as SV.
  { split; [reflexivity|]. intros [|[|[|r]]] row H; cbn in H; try (destruct r; discriminate);
      injection H as <-; unfold lsum; cbn -[Rdiv]; field. }
  assert (solvable [] [1] 3) as SB by (split; [discriminate|intros (C & _); discriminate]).
  assert (forall u, In u (unks [] [1]) -> u = (Ang, 1%nat) \/ u = (Mag, 1%nat)) as IU by (cbn; intros u [<-|[<-|[]]]; auto).
  destruct (C74_predictor 2 [] [1] P_AcPf.cangR RG angle_R ex_Y ex_S ex_x SH eq_refl eq_refl
    (fun _ _ => Ok [- (1 / 20); 0; 1]%R) 3 (1 / 2)%R ex_z ex_s 0%R ex_s 0%R _ _ ltac:(lia) SB ltac:(lia) ex_principal ex_principal
    eq_refl ltac:(repeat constructor; auto) (ex_aug 0%R) eq_refl SV)
    as (s' & lam' & t & E & _ & _ & LT & MV & KEEP & EL & N1 & _ & TA & GROW & _).
  exists s', lam', t. split; [exact E|].
  pose proof (MV (Ang, 1%nat) ltac:(cbn; auto)) as M1. pose proof (MV (Mag, 1%nat) ltac:(cbn; auto)) as M2.
  pose proof (KEEP (Ang, 0%nat) ltac:(cbn; intros [H|[H|[]]]; discriminate) ltac:(cbn; lia)) as K1.
  change (value (Ang, 1%nat) ex_s) with 0%R in *. change (value (Mag, 1%nat) ex_s) with 1%R in *.
  change (value (Ang, 0%nat) ex_s) with 0%R in *. cbn [place fst snd] in M1, M2.
  assert (forall e u d, In e (eqns [] [1]) -> slope u (eqn ex_Y ex_S e) ex_s d -> slope u (fun s => balance ex_Y ex_S ex_x e s 0) ex_s d) as SB0.
  { intros e u d Ie. apply slope_ext. intros s. unfold balance, eqn. f_equal. f_equal.
    destruct Ie as [<-|[<-|[]]]; unfold inj, map2; cbn -[Rdiv]; apply cpx_eq; cbn -[Rdiv]; ring. }
  destruct ex_slopes as (S1 & S2 & S3 & S4).
  pose proof (TA (Act, 1%nat) (fun u => match fst u with Ang => 10 | Mag => 0 end)%R (1 / 2)%R ltac:(cbn; auto)
    ltac:(intros u I; destruct (IU u I) as [-> | ->]; apply SB0; cbn; auto)) as T1.
  pose proof (TA (React, 1%nat) (fun u => match fst u with Ang => 0 | Mag => 10 end)%R 0%R ltac:(cbn; auto)
    ltac:(intros u I; destruct (IU u I) as [-> | ->]; apply SB0; cbn; auto)) as T2.
  pose proof (balance_lam 2 ex_Y ex_S ex_x eq_refl eq_refl (Act, 1%nat) ex_s 0%R ltac:(cbn; lia)) as B1.
  pose proof (balance_lam 2 ex_Y ex_S ex_x eq_refl eq_refl (React, 1%nat) ex_s 0%R ltac:(cbn; lia)) as B2.
  cbn [fst snd ex_x nth part_of re im] in B1, B2.
  rewrite Ropp_involutive in B1. rewrite Ropp_0 in B2. specialize (T1 B1). specialize (T2 B2).
  unfold lsum in T1, T2. cbn -[nth Rdiv] in T1, T2.
  pose proof (GROW (fun _ => 0%R) 1%R (or_introl eq_refl)) as G.
  assert (forall (u : coord * nat), slope u (fun s => param 3 (1 / 2) ex_z 2 [] [1] ex_s 0 s 0) ex_s 0) as SP.
  { intros u. apply (slope_ext _ (fun _ => (- (1 / 2))%R)).
    - intros s. unfold param, lsum. cbn -[Rdiv]. field.
    - apply derivable_pt_lim_const. }
  assert (derivable_pt_lim (param 3 (1 / 2) ex_z 2 [] [1] ex_s 0 ex_s) 0%R 1%R) as DP.
  { apply (dl_ext (fun l => 1 * (l - 0) + - (1 / 2))%R).
    - intros y. unfold param, lsum. cbn -[Rdiv]. field.
    - apply dl_shift, dl_lin. }
  specialize (G (fun u _ => SP u) DP). unfold lsum in G. cbn -[nth Rdiv] in G.
  change (2 + 1) with 3 in *. change (2 * 2) with 4 in *. rewrite M1, M2, EL. repeat split; try lra.
Qed.

(** at lambda = 1/2 with the voltages still flat, the mismatch is 3/4: the corrector moves the angle by -3/40 *)
Example C73_example : let Fx := residuals 2 [] [1] ex_Y ex_S ex_x 3 (1 / 2) ex_z ex_s 0 ex_s (1 / 2) in
  Fx = [3 / 4; 0; 0]%R /\ solves [[10; 0; 1 / 2]; [0; 10; 0]; [0; 0; 1]]%R Fx [3 / 40; 0; 0]%R /\
  exists s', corrector_step cis_R cabsR P_AcPf.cangR (fun _ _ => Ok [3 / 40; 0; 0]%R) 3 (1 / 2)%R ex_z ex_Y ex_S ex_x
      (volt ex_s) 0%R [] [1] (volt ex_s, ang ex_s, mag ex_s, (1 / 2)%R, Fx)
    = Ok (volt s', ang s', mag s', (1 / 2)%R, residuals 2 [] [1] ex_Y ex_S ex_x 3 (1 / 2) ex_z ex_s 0 s' (1 / 2)) /\
    value (Ang, 1%nat) s' = (- (3 / 40))%R /\ value (Mag, 1%nat) s' = 1%R.
Proof.
  intros Fx. pose proof PI_RGT_0 as PP.
  assert (shaped ex_Y 2 2) as SH by (repeat split; repeat constructor; cbn; lia).
  assert (forall i, In i ([] ++ [1]) -> i < 2) as RG by (intros i [<-|[]]; lia).
  assert (Fx = [3 / 4; 0; 0]%R) as EF.
  { unfold Fx, residuals. cbn [eqns app map].
    assert (forall p, balance ex_Y ex_S ex_x (p, 1%nat) ex_s (1 / 2) = (eqn ex_Y ex_S (p, 1%nat) ex_s - part_of p (Cx (- (1 / 4)) 0))%R) as BE.
    { intros p. unfold balance, eqn, inj, map2. cbn [fst snd ex_S ex_x combine map nth]. set (w := power ex_Y 1 1 ex_s).
      destruct p; cbn -[Rdiv]; field. }
    rewrite !BE. destruct (ex_power ex_s) as (-> & ->); auto. cbn [ex_s mag ang nth part_of re im]. rewrite sin_0, cos_0.
    f_equal; [field|]. f_equal; [ring|]. f_equal. unfold param, lsum. cbn -[Rdiv]. field. }
  split; [exact EF|].
  assert (solves [[10; 0; 1 / 2]; [0; 10; 0]; [0; 0; 1]]%R Fx [3 / 40; 0; 0]%R) as SV.
  { rewrite EF. split; [reflexivity|]. intros [|[|[|r]]] row H; cbn in H; try (destruct r; discriminate);
      injection H as <-; unfold lsum; cbn -[Rdiv]; field. }
  split; [exact SV|].
  assert (solvable [] [1] 3) as SB by (split; [discriminate|intros (C & _); discriminate]).
  destruct (C73_step 2 [] [1] P_AcPf.cangR RG angle_R ex_Y ex_S ex_x SH eq_refl eq_refl
    (fun _ _ => Ok [3 / 40; 0; 0]%R) 3 (1 / 2)%R ex_z ex_s (1 / 2)%R ex_s 0%R _ _ ltac:(lia) SB ltac:(lia) ex_principal ex_principal
    eq_refl ltac:(repeat constructor; auto) (ex_aug (1 / 2)%R) eq_refl SV)
    as (s' & lam' & LM & LA & E & KEEP & FO & FP).
  assert (forall e u d, In e (eqns [] [1]) -> slope u (eqn ex_Y ex_S e) ex_s d -> slope u (fun s => balance ex_Y ex_S ex_x e s (1 / 2)) ex_s d) as SB0.
  { intros e u d Ie D. apply (slope_ext _ (fun s => eqn ex_Y ex_S e s + - part_of (fst e) (Cx (- (1 / 4)) 0))%R); [|apply slope_shift; auto].
    intros s. unfold balance, eqn. destruct Ie as [<-|[<-|[]]]; unfold inj, map2; cbn [fst snd ex_S ex_x combine map nth];
      set (w := power ex_Y 1 1 s); cbn -[Rdiv]; field. }
  destruct ex_slopes as (S1 & S2 & S3 & S4).
  assert (forall u, In u (unks [] [1]) -> u = (Ang, 1%nat) \/ u = (Mag, 1%nat)) as IU by (cbn; intros u [<-|[<-|[]]]; auto).
  pose proof (FO (Act, 1%nat) (fun u => match fst u with Ang => 10 | Mag => 0 end)%R (1 / 2)%R ltac:(cbn; auto)
    ltac:(intros u I; destruct (IU u I) as [-> | ->]; apply SB0; cbn; auto)) as T1.
  pose proof (FO (React, 1%nat) (fun u => match fst u with Ang => 0 | Mag => 10 end)%R 0%R ltac:(cbn; auto)
    ltac:(intros u I; destruct (IU u I) as [-> | ->]; apply SB0; cbn; auto)) as T2.
  pose proof (balance_lam 2 ex_Y ex_S ex_x eq_refl eq_refl (Act, 1%nat) ex_s (1 / 2)%R ltac:(cbn; lia)) as B1.
  pose proof (balance_lam 2 ex_Y ex_S ex_x eq_refl eq_refl (React, 1%nat) ex_s (1 / 2)%R ltac:(cbn; lia)) as B2.
  cbn [fst snd ex_x nth part_of re im] in B1, B2.
  rewrite Ropp_involutive in B1. rewrite Ropp_0 in B2. specialize (T1 B1). specialize (T2 B2).
  pose proof (FP (fun _ => 0%R) 1%R (or_introl eq_refl)) as T3.
  assert (forall (u : coord * nat), slope u (fun s => param 3 (1 / 2) ex_z 2 [] [1] ex_s 0 s (1 / 2)) ex_s 0) as SP.
  { intros u. apply (slope_ext _ (fun _ => 0%R)).
    - intros s. unfold param, lsum. cbn -[Rdiv]. field.
    - apply derivable_pt_lim_const. }
  assert (derivable_pt_lim (param 3 (1 / 2) ex_z 2 [] [1] ex_s 0 ex_s) (1 / 2)%R 1%R) as DP.
  { apply (dl_ext (fun l => 1 * (l - 0) + - (1 / 2))%R).
    - intros y. unfold param, lsum. cbn -[Rdiv]. field.
    - apply dl_shift, dl_lin. }
  specialize (T3 (fun u _ => SP u) DP).
  assert (balance ex_Y ex_S ex_x (Act, 1%nat) ex_s (1 / 2) = 3 / 4 /\ balance ex_Y ex_S ex_x (React, 1%nat) ex_s (1 / 2) = 0 /\
    param 3 (1 / 2) ex_z 2 [] [1%nat] ex_s 0 ex_s (1 / 2) = 0)%R as (E1 & E2 & E3).
  { unfold Fx, residuals in EF. cbn [eqns app map] in EF. injection EF as A B C. auto. }
  rewrite E1 in T1. rewrite E2 in T2. rewrite E3 in T3. unfold lsum in T1, T2, T3. cbn -[value Rdiv] in T1, T2, T3.
  change (value (Ang, 1%nat) ex_s) with 0%R in *. change (value (Mag, 1%nat) ex_s) with 1%R in *.
  assert (lam' = 1 / 2)%R as -> by lra.
  assert (value (Ang, 1%nat) s' = - (3 / 40))%R as VA by lra. assert (value (Mag, 1%nat) s' = 1)%R as VM by lra.
  exists s'. split; [|auto]. apply E.
  pose proof (KEEP (Ang, 0%nat) ltac:(cbn; intros [H|[H|[]]]; discriminate) ltac:(cbn; lia)) as K1.
  pose proof (KEEP (Mag, 0%nat) ltac:(cbn; intros [H|[H|[]]]; discriminate) ltac:(cbn; lia)) as K2.
  change (value (Ang, 0%nat) ex_s) with 0%R in *. change (value (Mag, 0%nat) ex_s) with 1%R in *.
  destruct s' as [[|m0 [|m1 [|? ?]]] [|a0 [|a1 [|? ?]]]]; cbn in LM, LA; try discriminate.
  cbn in VA, VM, K1, K2. subst. pose proof PI2_1. repeat split; repeat constructor; cbn; lra.
Qed.

Print Assumptions C72_value.
Print Assumptions C72_row.
Print Assumptions C73_residual.
Print Assumptions C73_step.
Print Assumptions C74_predictor.
