(** States of the iteration. *)
From Verif Require Import Lib.ListFacts Model.Pips Spec.PipsSpec Spec.PipsRun Proofs.LinAlgFacts Proofs.SparseFacts
  Proofs.FldFacts Proofs.OrdFacts Proofs.NetworkB Proofs.AcPfA Proofs.BlockFacts Proofs.PipsA Proofs.PipsB.
Local Open Scope nat_scope.

Section PipsC.
Context {K : Type} {F : Fld K}.
Add Field KF : (@f_ok K F).
Notation pstate := (@Pips.state K).
Variable solve : smat K -> list K -> result (option (list K)).
Variable ln : K -> K.
Variables (P : problem (K := K)) (O : popt (K := K)) (sp : Pips.split (K := K)) (nx : nat).

Notation visited := (visited solve ln P O sp nx).

Lemma measure_ok e x z lam mu gamma f0 s : measure ln O e x z lam mu gamma f0 = Ok s ->
  t_x s = x /\ t_z s = z /\ t_lam s = lam /\ t_mu s = mu /\ t_gamma s = gamma /\ t_e s = e /\
  lagr_grad (e_df e) (e_dg e) (e_dh e) lam mu = Ok (t_Lx s) /\
  feas (e_g e) (e_h e) x z = Ok (t_feas s) /\ grad (t_Lx s) lam mu = Ok (t_grad s) /\
  (exists xn, norm_inf x = Ok xn /\ t_comp s = (dotv z mu / (1 + xn))%K) /\
  t_cost s = (fabs (e_f e - f0) / (1 + fabs f0))%K.
Proof.
  unfold measure. intros H. apply bind_ok in H as (Lx & HL & H). apply bind_ok in H as (fc & Hf & H).
  apply bind_ok in H as (gc & Hg & H). apply bind_ok in H as (xn & Hx & H).
  apply bind_ok in H as (L & _ & H). injection H as <-. simpl.
  repeat split; auto. exists xn. auto.
Qed.

(** what holds of every visited state *)
Record interior (niq : nat) (s : pstate) : Prop := Interior {
  i_z : Forall (lt 0%K) (t_z s); i_mu : Forall (lt 0%K) (t_mu s);
  i_lz : length (t_z s) = niq; i_lmu : length (t_mu s) = niq;
  i_gamma : lt 0%K (t_gamma s);
  i_eval : eval P O sp None (t_x s) = Ok (t_e s);
  i_measure : exists f0, measure ln O (t_e s) (t_x s) (t_z s) (t_lam s) (t_mu s) (t_gamma s) f0 = Ok s }.

Lemma start_interior x0 s : start ln P O sp x0 = Ok s ->
  interior (length (e_h (t_e s))) s /\ t_x s = x0.
Proof.
  unfold start. intros H. apply bind_ok in H as (e & He & H).
  pose proof (measure_ok _ _ _ _ _ _ _ _ H) as (X & Z & L & M & G & E & _).
  split; auto. constructor.
  - rewrite Z. apply init_z_pos.
  - rewrite M. apply init_mu_pos.
  - rewrite Z, E. unfold init_z. apply map_length.
  - rewrite M, E. unfold init_mu, init_z. rewrite !map_length. auto.
  - rewrite G. apply lt_0_1.
  - rewrite X, E. auto.
  - exists (e_f e). rewrite X, Z, L, M, G, E. auto.
Qed.

Lemma dotv_pos (u v : list K) : length u = length v -> u <> [] ->
  Forall (lt 0%K) u -> Forall (lt 0%K) v -> lt 0%K (dotv u v).
Proof.
  unfold dotv. revert v. induction u as [|a u IH]; intros [|b v] L N U V; try discriminate; [congruence|].
  inversion U; inversion V; subst. simpl. destruct u as [|c u].
  - simpl. replace (a * b + 0)%K with (a * b)%K by ring. apply mul_pos; auto.
  - apply add_pos; [apply mul_pos; auto|]. apply IH; auto. discriminate.
Qed.

Lemma advance_interior niq s dx dlam dz dmu s' ap ad : interior niq s ->
  advance ln P O sp niq s dx dlam dz dmu = Ok (s', ap, ad) -> interior niq s'.
Proof.
  intros I H. unfold advance in H. apply bind_ok in H as (x & Hx & H).
  apply bind_ok in H as (z & Hz & H). apply bind_ok in H as (lam & Hlam & H).
  apply bind_ok in H as (mu & Hmu & H). apply bind_ok in H as (e & He & H).
  apply bind_ok in H as (s1 & Hs & H). injection H as <- <- <-.
  pose proof (measure_ok _ _ _ _ _ _ _ _ Hs) as (X & Z & L & M & G & E & _).
  destruct (step_len_pos _ _ _ (i_z _ _ I) Hz) as (PZ & LZ).
  destruct (step_len_pos _ _ _ (i_mu _ _ I) Hmu) as (PM & LM).
  pose proof (i_lz _ _ I) as Q1. pose proof (i_lmu _ _ I) as Q2.
  constructor.
  - rewrite Z; auto.
  - rewrite M; auto.
  - congruence.
  - congruence.
  - rewrite G. destruct (Nat.eqb_spec niq 0); [apply (i_gamma _ _ I)|].
    apply div_pos; [|apply fofZ_pos; lia]. apply mul_pos; [apply dec_pos; lia|].
    apply dotv_pos; auto; [congruence|]. intros C. rewrite C in LZ. simpl in LZ. lia.
  - rewrite X, E. auto.
  - exists (e_f (t_e s)). rewrite X, Z, L, M, E. rewrite <- G in Hs. auto.
Qed.

Lemma iterate_advance neqnln niqnln neq niq s s' ap ad :
  iterate solve ln P O sp nx neqnln niqnln neq niq s = Ok (Some (s', ap, ad)) ->
  exists dx dlam dz dmu, advance ln P O sp niq s dx dlam dz dmu = Ok (s', ap, ad).
Proof.
  unfold iterate. intros H. apply bind_ok in H as (d & _ & H).
  destruct d as [((((dx & dlam) & dz) & dmu) & Lxx)|]; [|discriminate].
  apply bind_ok in H as (a & _ & H). apply bind_ok in H as (t & Ht & H). injection H as ->.
  eauto.
Qed.

Lemma visited_interior x0 s0 i s : start ln P O sp x0 = Ok s0 -> visited s0 i s ->
  interior (length (e_h (t_e s0))) s.
Proof.
  intros H V. induction V as [|i s s' ap ad V IH St].
  - eapply start_interior; eauto.
  - apply iterate_advance in St as (dx & dlam & dz & dmu & A). eapply advance_interior; eauto.
Qed.

(** ** the loop *)
Lemma loop_ok s0 fuel : forall i s r j o, visited s0 i s ->
  pips_loop solve ln P O sp nx (e_ng (t_e s0)) (e_nh (t_e s0)) (length (e_g (t_e s0)))
    (length (e_h (t_e s0))) fuel i s = Ok (r, j, o) ->
  i <= j <= i + fuel /\ (exists k, k <= j /\ visited s0 k r) /\
  (o = Converged -> conv O r = true) /\ (o = Limit -> j = i + fuel) /\
  (o <> Converged -> r = s \/ conv O r = false).
Proof.
  induction fuel as [|fuel IH]; intros i s r j o V H; simpl in H.
  - injection H as <- <- <-. repeat split; try lia; try discriminate; auto. exists i. auto.
  - apply bind_ok in H as (t & Ht & H). destruct t as [((s' & ap) & ad)|].
    + assert (visited s0 (S i) s') as V' by (eapply visited_step; eauto).
      destruct (conv O s') eqn:C.
      * injection H as <- <- <-. repeat split; try lia; try discriminate; auto.
        -- exists (S i). auto.
        -- congruence.
      * destruct (_ || _).
        -- injection H as <- <- <-. repeat split; try lia; try discriminate; auto. exists (S i). auto.
        -- apply IH in H as (A & B & D & E & G); auto. repeat split; try lia; auto.
           ++ intros X. specialize (E X). lia.
           ++ intros X. destruct (G X) as [->|]; auto.
    + injection H as <- <- <-. repeat split; try lia; try discriminate; auto. exists i. auto.
Qed.

Lemma run_ok x0 r j o : pips_run solve ln P O sp nx x0 = Ok (r, j, o) ->
  exists s0, start ln P O sp x0 = Ok s0 /\ j <= o_max_it O /\ (exists k, k <= j /\ visited s0 k r) /\
  (o = Converged <-> conv O r = true) /\ (o = Limit -> j = o_max_it O).
Proof.
  unfold pips_run. intros H. apply bind_ok in H as (s0 & H0 & H). exists s0. split; auto.
  destruct (conv O s0) eqn:C.
  - injection H as <- <- <-. repeat split; auto; try lia; try discriminate. exists 0. split; auto. constructor.
  - apply (loop_ok s0) in H as (A & B & D & E & G); [|constructor].
    split; [lia|]. split; auto. split.
    + split; auto. intros X. destruct o; auto.
      * destruct G as [->|G]; congruence.
      * destruct G as [->|G]; congruence.
    + intros X. apply E in X. lia.
Qed.

(** ** convergence *)
Lemma conv_ok niq s : interior niq s -> conv O s = true ->
  feasible_to (o_feastol O) (e_g (t_e s)) (e_h (t_e s)) (t_x s) (t_z s) /\
  stationary_to (o_gradtol O) (t_Lx s) (t_lam s) (t_mu s) /\
  complementary_to (o_comptol O) (t_x s) (t_z s) (t_mu s) /\
  exists f0, cost_settled (o_costtol O) (e_f (t_e s)) f0.
Proof.
  intros I C. unfold conv in C. rewrite !andb_true_iff in C. destruct C as (((C1 & C2) & C3) & C4).
  destruct (i_measure _ _ I) as (f0 & M).
  apply measure_ok in M as (_ & _ & _ & _ & _ & _ & HL & Hf & Hg & (xn & Hx & Hc) & Hco).
  split; [eapply feas_ok; eauto|]. split; [eapply grad_ok; eauto|]. split.
  - intros xn' X. apply norm_inf_is in Hx. rewrite (is_norm_unique _ _ _ X Hx).
    apply div_below; [eapply is_norm_nn; eauto|]. rewrite Hc in C3. exact C3.
  - exists f0. unfold cost_settled. apply div_below; [apply fabs_nn|]. rewrite Hco in C4. exact C4.
Qed.
End PipsC.
