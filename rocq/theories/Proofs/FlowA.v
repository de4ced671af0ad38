(** The DC power flow of a connected case has one solution at most. *)
From Coq Require Import Lia Permutation.
From Verif Require Import Lib.ListFacts Spec.FlowSpec Proofs.SparseFacts Proofs.FldFacts Proofs.OrdFacts Proofs.RunPfB.
Local Open Scope nat_scope.

Section Energy.
Context {K : Type} {F : Fld K}.
Add Field KF : (@f_ok K F).

Lemma mul_zero (a b : K) : (a * b)%K = 0%K -> a = 0%K \/ b = 0%K.
Proof.
  intros H. destruct (feqb a 0%K) eqn:E; [left; apply feqb_ok; exact E|]. right.
  assert (NZ : a <> 0%K) by (intros Z; apply feqb_ok in Z; congruence).
  transitivity (a * b / a)%K; [field; exact NZ|]. rewrite H. field. exact NZ.
Qed.

Lemma lsum_z_single (f : Z -> K) l k : NoDup l -> In k l -> lsum (fun i => if (k =? i)%Z then f i else 0%K) l = f k.
Proof.
  intros N. induction N as [|a l NI N IH]; intros H; [contradiction|]. cbn [lsum].
  destruct (Z.eqb_spec k a) as [->|NE].
  - rewrite lsum_zero; [ring|]. intros x Hx. destruct (Z.eqb_spec a x) as [->|]; [contradiction|reflexivity].
  - destruct H as [H|H]; [congruence|]. rewrite IH by auto. ring.
Qed.

Lemma lsum_pos_zero {T} (f : T -> K) l : (forall t, In t l -> le 0%K (f t)) -> lsum f l = 0%K -> forall t, In t l -> f t = 0%K.
Proof.
  induction l as [|a l IH]; intros H S t I; [destruct I|]. cbn [lsum] in S.
  assert (N : le 0%K (lsum f l)).
  { clear IH S I. induction l as [|b l IH]; [apply le_refl|]. cbn [lsum]. apply add_nn; [apply H; cbn; auto|].
    apply IH. intros x [->|Hx]; apply H; cbn; auto. }
  assert (A : f a = 0%K).
  { apply le_antisym; [|apply H; cbn; auto]. replace (f a) with (0 - lsum f l)%K by (rewrite <- S; ring).
    apply nn_opp. replace (- (0 - lsum f l))%K with (lsum f l) by ring. exact N. }
  destruct I as [<-|I]; [exact A|]. apply IH; auto. { intros x Hx; apply H; cbn; auto. }
  rewrite A in S. rewrite <- S. ring.
Qed.

Variables (T : Type) (es : list T) (ef et : T -> Z) (c : T -> K) (d : Z -> K).
Hypothesis pos : forall e, In e es -> lt 0%K (c e).
Definition through (e : T) : K := (c e * (d (ef e) - d (et e)))%K.
Definition out (z : Z) : K := lsum (fun e => (if (ef e =? z)%Z then through e else 0) - (if (et e =? z)%Z then through e else 0))%K es.
Hypothesis bal : forall e z, In e es -> z = ef e \/ z = et e -> d z = 0%K \/ out z = 0%K.

Lemma energy e : In e es -> d (ef e) = d (et e).
Proof.
  intros I. set (zs := nodup Z.eq_dec (map ef es ++ map et es)).
  assert (ND : NoDup zs) by apply NoDup_nodup.
  assert (IN : forall x, In x es -> In (ef x) zs /\ In (et x) zs).
  { intros x Hx. split; apply nodup_In, in_app_iff; [left|right]; apply in_map; auto. }
  assert (Z0 : lsum (fun z => d z * out z)%K zs = 0%K).
  { apply lsum_zero. intros z Hz. apply nodup_In, in_app_iff in Hz.
    assert (exists x, In x es /\ (z = ef x \/ z = et x)) as (x & Hx & Hz').
    { destruct Hz as [Hz|Hz]; apply in_map_iff in Hz as (x & <- & Hx); eauto. }
    destruct (bal x z Hx Hz') as [-> | ->]; ring. }
  assert (Z1 : lsum (fun x => c x * ((d (ef x) - d (et x)) * (d (ef x) - d (et x))))%K es = 0%K).
  { rewrite <- Z0. unfold out. symmetry.
    transitivity (lsum (fun z => lsum (fun x => d z * ((if (ef x =? z)%Z then through x else 0) - (if (et x =? z)%Z then through x else 0))) es) zs)%K.
    { apply lsum_ext. intros z _. rewrite lsum_scal. reflexivity. }
    rewrite lsum_swap. apply lsum_ext. intros x Hx. destruct (IN x Hx) as (I1 & I2).
    transitivity (lsum (fun z => (if (ef x =? z)%Z then d z * through x else 0) - (if (et x =? z)%Z then d z * through x else 0)) zs)%K.
    { apply lsum_ext. intros z _. destruct (ef x =? z)%Z, (et x =? z)%Z; ring. }
    rewrite lsum_sub, (lsum_z_single (fun z => d z * through x)%K), (lsum_z_single (fun z => d z * through x)%K) by auto. unfold through. ring. }
  pose proof (lsum_pos_zero _ _ (fun x Hx => mul_nn _ _ (lt_le _ _ (pos x Hx)) (sq_nn _)) Z1 e I) as Z2. cbn in Z2.
  pose proof (pos_nz _ (pos e I)) as NZ.
  apply mul_zero in Z2 as [Z2|Z2]; [contradiction|]. apply mul_zero in Z2 as [Z2|Z2].
  - transitivity (d (ef e) - d (et e) + d (et e))%K; [ring|]. rewrite Z2. ring.
  - transitivity (d (ef e) - d (et e) + d (et e))%K; [ring|]. rewrite Z2. ring.
Qed.
End Energy.

Section Unique.
Context {K : Type} {F : Fld K}.
Add Field KF2 : (@f_ok K F).
Variables (B : K) (p : ppc_of K) (gens brs : list nat).
Hypothesis W : wf_case p.
Hypothesis HB : B <> 0%K.
Hypothesis BRS : lists_exactly brs (branch_in_service p).
Hypothesis POS : reactive p.
Hypothesis FED : all_fed p.

Lemma reference_dec i z : bus_in_service p i -> bus_at p z i -> reference p z \/ ~ reference p z.
Proof.
  intros S (b & Hb & Hz). destruct (feqb (cell b BUS_TYPE) (fofZ 3)) eqn:E.
  - left. exists i, b. split; auto. split; [exists b; auto|]. split; auto. apply feqb_ok, E.
  - right. intros (i' & b' & S' & A' & Hb' & T). assert (i = i') by (eapply (wf_bus_distinct _ W); eauto; exists b; auto).
    subst i'. assert (b' = b) by congruence. subst b'. apply feqb_ok in T. congruence.
Qed.

Lemma ends j l : branch_in_service p j -> nth_error (p_branch p) j = Some l ->
  forall z, z = names l F_BUS \/ z = names l T_BUS -> exists i, bus_in_service p i /\ bus_at p z i.
Proof.
  intros (l' & Hl & _ & (zf & jf & Cf & Bf & Sf) & (zt & jt & Ct & Bt & St)) Hl' z Hz. assert (l' = l) by congruence. subst l'.
  unfold names in Hz. rewrite (cell_ofZ _ _ _ Cf), (cell_ofZ _ _ _ Ct) in Hz. destruct Hz as [-> | ->]; eauto.
Qed.

Theorem unique th th' : power_flow B p gens brs th -> power_flow B p gens brs th' ->
  forall i z, bus_in_service p i -> bus_at p z i -> th z = th' z.
Proof.
  intros P P'. set (d := fun z => (th z - th' z)%K). destruct BRS as (ND & IB).
  assert (D : forall i z, bus_in_service p i -> bus_at p z i -> reference p z -> d z = 0%K).
  { intros i z S A R. pose proof A as (b & Hb & _). unfold d. rewrite (fl_reference _ _ _ _ _ P _ _ _ S A Hb R), (fl_reference _ _ _ _ _ P' _ _ _ S A Hb R). ring. }
  assert (EN : forall j, In j brs -> d (names (nth j (p_branch p) []) F_BUS) = d (names (nth j (p_branch p) []) T_BUS)).
  { apply (energy _ brs (fun j => names (nth j (p_branch p) []) F_BUS) (fun j => names (nth j (p_branch p) []) T_BUS)
             (fun j => let l := nth j (p_branch p) [] in (1 / (cell l BR_X * tap_ratio l))%K) d).
    { intros j Hj. apply IB in Hj. pose proof Hj as (l & Hl & _). cbn beta zeta. rewrite (nth_error_nth _ _ _ Hl).
      apply inv_pos, (POS j l Hj Hl). }
    intros j z Hj Hz. apply IB in Hj. pose proof Hj as (l & Hl & _). rewrite (nth_error_nth _ _ _ Hl) in Hz.
    destruct (ends j l Hj Hl z Hz) as (i & S & A). destruct (reference_dec i z S A) as [R|R]; [left; eauto|right].
    pose proof A as (b & Hb & _).
    pose proof (fl_balance _ _ _ _ _ P _ _ _ S A Hb R) as Q. rewrite (fl_balance _ _ _ _ _ P' _ _ _ S A Hb R) in Q.
    assert (Q' : lsum (fun j => leaves B th z (nth j (p_branch p) []) - leaves B th' z (nth j (p_branch p) []))%K brs = 0%K).
    { rewrite lsum_sub. match type of Q with (?c + ?x)%K = (_ + ?y)%K => transitivity ((c + y) - (c + x))%K; [ring|rewrite Q; ring] end. }
    match goal with |- ?o = _ => assert (Q2 : (B * o)%K = 0%K) end.
    { rewrite <- Q'. unfold out. rewrite <- lsum_scal. apply lsum_ext. intros k Hk. apply IB in Hk. pose proof Hk as (m & Hm & _).
      unfold through, leaves, line_flow, across, d. rewrite (nth_error_nth _ _ _ Hm). pose proof (pos_nz _ (POS k m Hk Hm)) as NZ.
      assert (N1 : cell m BR_X <> 0%K) by (intros Z1; apply NZ; rewrite Z1; ring).
      assert (N2 : tap_ratio m <> 0%K) by (intros Z1; apply NZ; rewrite Z1; ring).
      destruct (names m F_BUS =? z)%Z, (names m T_BUS =? z)%Z; field; auto. }
    apply mul_zero in Q2 as [Q2|Q2]; [contradiction|exact Q2]. }
  assert (AF : forall z, fed p z -> d z = 0%K).
  { intros z H. induction H as [z R|a c H IH (j & l & Hj & Hl & Hz)].
    - pose proof R as (i & b & S & A & _). eauto.
    - pose proof (EN j (proj2 (IB j) Hj)) as Q. rewrite (nth_error_nth _ _ _ Hl) in Q. destruct Hz as [(<- & <-)|(<- & <-)]; congruence. }
  intros i z S A. pose proof (AF z (FED i z S A)) as Z0. unfold d in Z0.
  transitivity (th z - th' z + th' z)%K; [ring|rewrite Z0; ring].
Qed.
End Unique.
