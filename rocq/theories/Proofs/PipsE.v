(** The gradient of the Lagrangian in terms of the original constraints; the returned multipliers. *)
From Verif Require Import Lib.ListFacts Model.Pips Spec.PipsSpec Spec.PipsRun Proofs.LinAlgFacts Proofs.SparseFacts
  Proofs.FldFacts Proofs.OrdFacts Proofs.NetworkB Proofs.AcPfA Proofs.BlockFacts Proofs.PipsA Proofs.PipsB
  Proofs.PipsC Proofs.PipsD.
Local Open Scope nat_scope.

Section PipsE.
Context {K : Type} {F : Fld K}.
Add Field KF : (@f_ok K F).

Lemma shaped_wf nr nc (M : smat K) : shaped nr nc M -> wf M /\ nrows M = nr /\ ncols M = nc.
Proof. intros (A & B & C). unfold wf. rewrite A, B. auto. Qed.

Lemma shaped_opt_wf nx (A : option (smat K)) : shaped_opt nx A -> wf_opt A.
Proof. destruct A as [M|]; simpl; auto. intros H. apply shaped_wf in H. tauto. Qed.

Section Rows.
Variables (nx : nat) (A : option (smat K)) (ll uu : list (ext K)) (sp : Pips.split (K := K)).
Hypothesis WA : shaped_opt nx A.
Notation n := (nx + rows_of A).
Hypothesis SF : split_facts nx n (con_val nx A) ll uu sp.

Notation pull_rows := (pull_rows nx A).

Lemma pull_rows_sum sg j : j < nx ->
  lsum (fun p => con_val nx A (unit nx j) p * sg p)%K (seq 0 n) = pull_rows sg j.
Proof.
  intros Hj. unfold pull_rows. rewrite seq_app, lsum_app. f_equal.
  - rewrite (lsum_ext _ (fun p => if p =? j then sg p else 0%K)).
    + rewrite lsum_seq_single. simpl. destruct (Nat.ltb_spec j nx); auto; lia.
    + intros p Hp. apply in_seq in Hp. unfold con_val. destruct (Nat.ltb_spec p nx); [|lia].
      unfold unit. rewrite (nth_map_lt _ _ _ _ 0) by (rewrite seq_length; auto). rewrite seq_nth by auto.
      simpl. destruct (p =? j); ring.
  - replace (0 + nx) with (nx + 0) by lia.
    assert (forall (f : nat -> K) a b m, lsum f (seq (a + b) m) = lsum (fun i => f (a + i)) (seq b m)) as SH.
    { clear. intros f a b m. revert b. induction m as [|m IH]; intros b; simpl; auto.
      f_equal. rewrite <- Nat.add_succ_r. apply IH. }
    rewrite SH. apply lsum_ext. intros i Hi. f_equal. unfold con_val.
    destruct (Nat.ltb_spec (nx + i) nx); [lia|]. replace (nx + i - nx) with i by lia.
    destruct A as [M|]; auto. simpl in WA. apply shaped_wf in WA as (W & _ & C). rewrite <- C.
    apply mulrow_unit; auto. lia.
Qed.

Lemma rows_lt : Forall (fun q => fst q < n) (eq_rows sp) /\ Forall (fun q => fst q < n) (iq_rows sp).
Proof.
  assert (forall f, Forall (fun p => p < n) (find (map2 f uu ll))) as FL.
  { intros f. apply Forall_forall. intros p Hp.
    apply (in_find_map2 _ _ _ _ EPos ENeg (Llen _ _ _ _ _ _ SF)) in Hp.
    rewrite (sf_len' _ _ _ _ _ _ SF) in Hp. tauto. }
  unfold eq_rows, iq_rows, tagged. rewrite !Forall_app, !Forall_map. simpl.
  rewrite (sf_ieq _ _ _ _ _ _ SF), (sf_igt _ _ _ _ _ _ SF), (sf_ilt _ _ _ _ _ _ SF), (sf_ibx _ _ _ _ _ _ SF).
  repeat split; apply FL.
Qed.

Lemma pull_eq w j : j < nx -> length w = length (s_ieq sp) ->
  optmul (option_map transp (s_Ae sp)) w j = pull_rows (signed (eq_rows sp) w) j.
Proof.
  intros Hj L. rewrite <- pull_rows_sum by auto. rewrite (signed_sum _ _ _ _ (proj1 rows_lt)).
  pose proof (sf_Ae _ _ _ _ _ _ SF) as Q. destruct (s_Ae sp) as [M|]; simpl.
  - destruct Q as (_ & W & R & C & V). rewrite mulrow_transp_dot by (auto; congruence).
    rewrite C, V. unfold eq_rows, tagged.
    clear. revert w. induction (s_ieq sp) as [|q L IH]; intros [|x w]; simpl; auto.
    rewrite IH. f_equal. ring.
  - unfold eq_rows. rewrite Q. reflexivity.
Qed.

Lemma pull_iq w j : j < nx ->
  length w = length (s_ilt sp) + length (s_igt sp) + length (s_ibx sp) + length (s_ibx sp) ->
  optmul (option_map transp (s_Ai sp)) w j = pull_rows (signed (iq_rows sp) w) j.
Proof.
  intros Hj L. rewrite <- pull_rows_sum by auto. rewrite (signed_sum _ _ _ _ (proj2 rows_lt)).
  pose proof (sf_Ai _ _ _ _ _ _ SF) as Q. destruct (s_Ai sp) as [M|]; simpl.
  - destruct Q as (_ & W & C & R & V). rewrite mulrow_transp_dot by (auto; congruence).
    rewrite C, V. unfold iq_rows.
    set (g := con_val nx A (unit nx j)).
    assert (forall (X : list (nat * K)) (Y : list K), Y = map (fun q => snd q * g (fst q))%K X -> forall w,
       lsum (fun t => fst t * snd t)%K (combine Y w)
       = lsum (fun t => snd (fst t) * g (fst (fst t)) * snd t)%K (combine X w)) as E.
    { intros X Y ->. clear. induction X as [|q X IH]; intros [|x w]; simpl; auto. rewrite IH. auto. }
    apply E. rewrite !map_app. unfold tagged. rewrite !map_map. simpl.
    f_equal; [|f_equal; [|f_equal]]; apply map_ext; intros q; ring.
  - destruct Q as (Q1 & Q2 & Q3). unfold iq_rows. rewrite Q1, Q2, Q3. reflexivity.
Qed.

Lemma combined_mul (dn B : option (smat K)) M w m j : jacobian nx m dn ->
  with_linear_t (match dn with Some _ => true | None => false end) dn B = Ok M ->
  m <= length w -> j < nx ->
  optmul M w j = (pull dn (firstn m w) j + optmul (option_map transp B) (skipn m w) j)%K.
Proof.
  intros J H Lw Hj. apply with_linear_t_ok in H. unfold pull, lin_val, row_val.
  destruct dn as [d|]; simpl in J.
  - apply shaped_wf in J as (W & R & C). destruct B as [B|]; simpl.
    + destruct H as (M' & -> & HM). simpl. rewrite <- (firstn_skipn m w) at 1.
      rewrite (mulrow_hstackm d (transp B) M') by (auto; rewrite firstn_length; lia).
      rewrite (mulrow_at d) by auto. reflexivity.
    + subst M. simpl. rewrite mulrow_at by auto. rewrite (lsum_ext _ (fun k => at_ d j k * nth k (firstn m w) 0)%K).
      * ring.
      * intros k Hk. apply in_seq in Hk. f_equal. rewrite C in Hk. rewrite <- (firstn_skipn m w) at 1.
        rewrite app_nth1; auto. rewrite firstn_length. lia.
  - subst m M. rewrite skipn_O. ring.
Qed.

Lemma add_mulv_ok v (M : option (smat K)) w r : add_mulv v M w = Ok r ->
  length r = length v /\ (forall j, j < length v -> nth j r 0%K = (nth j v 0 + optmul M w j)%K) /\
  match M with Some M => length w = ncols M | None => True end.
Proof.
  unfold add_mulv. destruct M as [M|].
  - intros H. apply bind_ok in H as (t & Ht & H). apply mulv_rowsv in Ht as (L & ->).
    apply ewise_ok in H as (E & ->). rewrite rowsv_length in E.
    split; [unfold map2; rewrite map_length, combine_length, rowsv_length; lia|]. split; auto.
    intros j Hj. rewrite (nth_map2_d _ _ _ _ 0%K 0%K) by (rewrite ?rowsv_length; lia).
    simpl. rewrite nth_rowsv by lia. reflexivity.
  - intros H; injection H as <-. repeat split; auto. intros j _. simpl. ring.
Qed.

Lemma lagr_grad_ok (df : list K) dg dh lam mu Lx : lagr_grad df dg dh lam mu = Ok Lx ->
  length Lx = length df /\
  (forall j, j < length df -> nth j Lx 0%K = (nth j df 0 + optmul dg lam j + optmul dh mu j)%K).
Proof.
  unfold lagr_grad. intros H. apply bind_ok in H as (v & Hv & H).
  apply add_mulv_ok in Hv as (L1 & V1 & _). apply add_mulv_ok in H as (L2 & V2 & _).
  split; [congruence|]. intros j Hj. rewrite V2 by lia. rewrite V1 by auto. reflexivity.
Qed.
End Rows.
End PipsE.
