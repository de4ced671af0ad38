(** Multipliers: the gradient of the Lagrangian and the way back to the original rows. *)
From Verif Require Import Lib.ListFacts Model.Pips Spec.PipsSpec Spec.PipsRun Proofs.LinAlgFacts Proofs.SparseFacts
  Proofs.FldFacts Proofs.OrdFacts Proofs.NetworkB Proofs.AcPfA Proofs.BlockFacts Proofs.PipsA Proofs.PipsB
  Proofs.PipsC.
Local Open Scope nat_scope.

Section PipsD.
Context {K : Type} {F : Fld K}.
Add Field KF : (@f_ok K F).

Definition unit (n j : nat) : list K := map (fun i => if i =? j then 1%K else 0%K) (seq 0 n).

Lemma mulrow_unit (M : smat K) k j : wf M -> j < ncols M -> mulrow M (unit (ncols M) j) k = at_ M k j.
Proof.
  intros W H. rewrite mulrow_at by auto.
  rewrite (lsum_ext _ (fun i => if i =? j then at_ M k i else 0%K)).
  - rewrite lsum_seq_single. simpl. destruct (Nat.ltb_spec j (ncols M)); auto; lia.
  - intros i Hi. apply in_seq in Hi. unfold unit. rewrite (nth_map_lt _ _ _ _ 0) by (rewrite seq_length; lia).
    rewrite seq_nth by lia. simpl. destruct (i =? j); ring.
Qed.

Lemma mulrow_transp_dot (M : smat K) w j : wf M -> j < ncols M -> length w = nrows M ->
  mulrow (transp M) w j = lsum (fun t => fst t * snd t)%K (combine (rowsv M (unit (ncols M) j)) w).
Proof.
  intros W Hj L. rewrite mulrow_at by (apply wf_transp; auto).
  rewrite (lsum_combine _ _ _ 0%K 0%K) by (rewrite rowsv_length; auto).
  simpl. rewrite rowsv_length. apply lsum_ext. intros k Hk. apply in_seq in Hk. simpl.
  rewrite nth_rowsv by lia. rewrite mulrow_unit by auto. f_equal.
  unfold at_. simpl. rewrite lsum_map. simpl. apply lsum_ext. intros e _. rewrite andb_comm. reflexivity.
Qed.

(** ** signed sums *)
Lemma signed_sum (L : list (nat * K)) w (c : nat -> K) n : Forall (fun q => fst q < n) L ->
  lsum (fun p => c p * signed L w p)%K (seq 0 n)
  = lsum (fun t => snd (fst t) * c (fst (fst t)) * snd t)%K (combine L w).
Proof.
  intros R. unfold signed.
  rewrite (lsum_ext _ (fun p => lsum (fun t => if p =? fst (fst t) then (c p * (snd (fst t) * snd t))%K else 0%K)
                                   (combine L w))).
  2:{ intros p _. rewrite <- lsum_scal. apply lsum_ext. intros t _. rewrite Nat.eqb_sym.
      destruct (_ =? _); ring. }
  rewrite lsum_swap. apply lsum_ext. intros ((q & s) & x) Ht. simpl.
  apply in_combine_l in Ht. rewrite Forall_forall in R. specialize (R _ Ht). simpl in R.
  rewrite lsum_seq_single with (f := fun p => (c p * (s * x))%K). simpl.
  destruct (Nat.ltb_spec q n); [ring|lia].
Qed.

Lemma signed_app (L L' : list (nat * K)) w w' p : length L = length w ->
  signed (L ++ L') (w ++ w') p = (signed L w p + signed L' w' p)%K.
Proof. intros H. unfold signed. rewrite combine_app by auto. apply lsum_app. Qed.


Lemma signed_notin s idx w p : ~ In p idx -> signed (tagged s idx) w p = 0%K.
Proof.
  intros H. unfold signed. apply lsum_zero. intros ((q & s') & x) Ht. simpl.
  apply in_combine_l in Ht. apply in_map_iff in Ht as (q' & E & Hq). injection E as -> ->.
  destruct (Nat.eqb_spec q p); [congruence|auto].
Qed.
Lemma signed_at s idx w p k x : NoDup idx -> nth_error idx k = Some p -> nth_error w k = Some x ->
  signed (tagged s idx) w p = (s * x)%K.
Proof.
  revert w k. induction idx as [|q idx IH]; intros [|y w] [|k] N Hp Hx; try discriminate; simpl in *.
  - injection Hp as ->. injection Hx as ->. inversion N; subst. unfold signed. simpl. rewrite Nat.eqb_refl.
    fold (tagged s idx). change (lsum _ _) with (signed (tagged s idx) w p).
    rewrite signed_notin by auto. ring.
  - inversion N; subst. unfold signed. simpl. destruct (Nat.eqb_spec q p).
    + subst. apply nth_error_In in Hp. tauto.
    + change (lsum _ _) with (signed (tagged s idx) w p). rewrite (IH w k) by auto. ring.
Qed.

(** ** scatter *)
Lemma scatter_add (v : list K) idx w v' : scatter_checked v idx w = Ok v' -> NoDup idx ->
  (forall p, In p idx -> nth p v 0%K = 0%K) ->
  length v' = length v /\ forall p, nth p v' 0%K = (nth p v 0 + signed (tagged 1%K idx) w p)%K.
Proof.
  unfold scatter_checked. destruct (negb _) eqn:E; [discriminate|]. apply negb_false_iff, Nat.eqb_eq in E.
  destruct (forallb _ idx) eqn:B; [|discriminate]. intros H N Z. injection H as <-.
  rewrite forallb_forall in B. split; [apply scatter_length|].
  intros p. destruct (in_dec Nat.eq_dec p idx) as [I|I].
  - rewrite Z by auto. pose proof (B p I) as R. apply Nat.ltb_lt in R.
    apply In_nth_error in I as (k & Hk).
    destruct (nth_error_lt w k) as (x & Hx). { rewrite <- E. eapply nth_error_some_lt; eauto. }
    rewrite (signed_at _ _ _ _ _ _ N Hk Hx). rewrite (nth_error_nth _ _ _ (scatter_at _ _ _ _ _ _ N Hk Hx R)). ring.
  - rewrite signed_notin by auto. replace (nth p v 0 + 0)%K with (nth p v 0%K) by ring.
    pose proof (scatter_other idx v w p I) as Q.
    destruct (nth_error v p) as [x|] eqn:X.
    + rewrite (nth_error_nth _ _ _ Q), (nth_error_nth _ _ _ X). auto.
    + apply nth_error_None in X. rewrite !nth_overflow; auto. rewrite scatter_length. auto.
Qed.

Lemma scatter_Forall {A} (Q : A -> Prop) idx : forall (v w : list A), Forall Q v -> Forall Q w ->
  Forall Q (scatter v idx w).
Proof.
  induction idx as [|i idx IH]; intros v [|x w] V W; simpl; auto. inversion W; subst. apply IH; auto.
  clear IH. revert i. induction V as [|a v HA V IH]; intros [|i]; simpl; constructor; auto.
Qed.

Lemma lsum_find {A} (f : A -> K) (p : A -> bool) (l : list A) d :
  lsum (fun k => f (nth k l d)) (find (map p l)) = lsum (fun x => if p x then f x else 0%K) l.
Proof.
  unfold find. assert (forall a, lsum (fun k => f (nth (k - a) l d)) (find_from a (map p l))
    = lsum (fun x => if p x then f x else 0%K) l) as G.
  { induction l as [|x l IH]; intros a; simpl; auto.
    assert (lsum (fun k => f match k - a with 0 => x | S m => nth m l d end) (find_from (S a) (map p l))
      = lsum (fun x => if p x then f x else 0%K) l) as T.
    { rewrite <- (IH (S a)). apply lsum_ext. intros k Hk. apply find_from_ge in Hk.
      replace (k - a) with (S (k - S a)) by lia. reflexivity. }
    destruct (p x); simpl; rewrite T; [rewrite Nat.sub_diag|]; ring. }
  rewrite <- (G 0). apply lsum_ext. intros k _. rewrite Nat.sub_0_r. auto.
Qed.

Lemma gather_nthmap {A} (l : list A) idx v d : gather l idx = Ok v ->
  v = map (fun k => nth k l d) idx /\ Forall (fun k => k < length l) idx.
Proof.
  unfold gather. revert v. induction idx as [|k idx IH]; intros v H; simpl in H.
  - injection H as <-. auto.
  - apply bind_ok in H as (a & Ha & H). apply bind_ok in H as (b & Hb & H). injection H as <-.
    apply IH in Hb as (-> & R). apply get_ok in Ha. simpl. rewrite (nth_error_nth _ _ d Ha). split; auto.
    constructor; auto. eapply nth_error_some_lt; eauto.
Qed.

Lemma combine_map {A B C} (f : A -> B) (g : A -> C) l : combine (map f l) (map g l) = map (fun x => (f x, g x)) l.
Proof. induction l; simpl; f_equal; auto. Qed.

(** the part of a signed sum selected by a test on the multiplier *)
Lemma signed_select s ieq lam (t : K -> bool) el ll p : length ieq = length lam ->
  gather ieq (find (map t lam)) = Ok el -> gather lam (find (map t lam)) = Ok ll ->
  signed (tagged s el) ll p
  = lsum (fun x => if t (snd x) then (if fst x =? p then (s * snd x)%K else 0%K) else 0%K) (combine ieq lam).
Proof.
  intros L He Hl. apply (gather_nthmap _ _ _ 0) in He as (-> & _). apply (gather_nthmap _ _ _ 0%K) in Hl as (-> & _).
  unfold signed, tagged. rewrite map_map, combine_map, lsum_map. simpl.
  rewrite (lsum_ext _ (fun k => (fun x : nat * K => if fst x =? p then (s * snd x)%K else 0%K)
      (nth k (combine ieq lam) (0, 0%K)))).
  2:{ intros k _. rewrite combine_nth by auto. reflexivity. }
  replace (map t lam) with (map (fun x => t (snd x)) (combine ieq lam)).
  2:{ clear -L. revert lam L. induction ieq; intros [|b lam] L; try discriminate; simpl; f_equal; auto. }
  apply (lsum_find (fun x : nat * K => if fst x =? p then (s * snd x)%K else 0%K)).
Qed.

Lemma gather_sub {A} (l : list A) idx v x : gather l idx = Ok v -> In x v -> In x l.
Proof.
  intros H I. apply In_nth_error in I as (k & Hk).
  pose proof (gather_length _ _ _ H) as L.
  destruct (nth_error_lt idx k) as (i & Hi). { rewrite <- L. eapply nth_error_some_lt; eauto. }
  unfold gather in H. destruct (mapM_nth _ _ _ _ _ H Hi) as (y & Hy & Hn). apply get_ok in Hy.
  rewrite Hk in Hn. injection Hn as <-. eapply nth_error_In; eauto.
Qed.
Lemma gather_NoDup {A} (l : list A) idx v : NoDup l -> NoDup idx -> gather l idx = Ok v -> NoDup v.
Proof.
  intros N NI H. unfold gather in H. revert v H. induction idx as [|k idx IH]; intros v H; simpl in H.
  - injection H as <-. constructor.
  - apply bind_ok in H as (a & Ha & H). apply bind_ok in H as (b & Hb & H). injection H as <-.
    inversion NI; subst. constructor; [|apply IH; auto].
    intros C. apply In_nth_error in C as (j & Hj). pose proof (mapM_length _ _ _ Hb) as L.
    destruct (nth_error_lt idx j) as (i & Hi). { rewrite <- L. eapply nth_error_some_lt; eauto. }
    destruct (mapM_nth _ _ _ _ _ Hb Hi) as (y & Hy & Hn). rewrite Hj in Hn. injection Hn as <-.
    apply get_ok in Ha. apply get_ok in Hy. pose proof (NoDup_nth_error_eq _ _ _ _ N Ha Hy). subst.
    apply nth_error_In in Hi. tauto.
Qed.

Lemma signed_opp s idx w p : signed (tagged s idx) (map ropp w) p = (- signed (tagged s idx) w p)%K.
Proof.
  unfold signed. rewrite <- lsum_opp. generalize (tagged s idx). intros L. revert w.
  induction L as [|q L IH]; intros [|x w]; simpl; auto. rewrite IH. destruct (_ =? _); ring.
Qed.
Lemma signed_neg idx w p : signed (tagged (ropp 1%K) idx) w p = (- signed (tagged 1%K idx) w p)%K.
Proof.
  unfold signed, tagged. rewrite <- lsum_opp. revert w.
  induction idx as [|q L IH]; intros [|x w]; simpl; auto. rewrite IH. destruct (_ =? _); ring.
Qed.


Lemma disjoint_repeat0 (n : nat) p : nth p (repeat (0%K : K) n) 0%K = 0%K.
Proof. apply nth_repeat. Qed.

Lemma unsplit_ok n sp lam mu ml mu_ :
  unsplit n sp lam mu = Ok (ml, mu_) ->
  NoDup (s_ieq sp) -> NoDup (s_ilt sp) -> NoDup (s_igt sp) -> NoDup (s_ibx sp) ->
  (forall p, In p (s_ieq sp) -> ~ In p (s_ilt sp) /\ ~ In p (s_igt sp) /\ ~ In p (s_ibx sp)) ->
  (forall p, In p (s_ibx sp) -> ~ In p (s_ilt sp) /\ ~ In p (s_igt sp)) ->
  length lam = length (s_ieq sp) ->
  length mu = length (s_ilt sp) + length (s_igt sp) + length (s_ibx sp) + length (s_ibx sp) ->
  length ml = n /\ length mu_ = n /\
  forall p, (nth p mu_ 0 - nth p ml 0)%K = (signed (eq_rows sp) lam p + signed (iq_rows sp) mu p)%K.
Proof.
  intros H N1 N2 N3 N4 D1 D2 Ll Lm. unfold unsplit in H.
  apply bind_ok in H as (el & Hel & H). apply bind_ok in H as (eu & Heu & H).
  apply bind_ok in H as (xl & Hxl & H). apply bind_ok in H as (xu & Hxu & H).
  apply bind_ok in H as (l1 & H1 & H). apply bind_ok in H as (l2 & H2 & H). apply bind_ok in H as (l3 & H3 & H).
  apply bind_ok in H as (u1 & H4 & H). apply bind_ok in H as (u2 & H5 & H). apply bind_ok in H as (u3 & H6 & H).
  injection H as <- <-.
  set (nlt := length (s_ilt sp)) in *. set (ngt := length (s_igt sp)) in *. set (nbx := length (s_ibx sp)) in *.
  set (m1 := slice 0 nlt mu) in *. set (m2 := slice nlt (nlt + ngt) mu) in *.
  set (m3 := slice (nlt + ngt) (nlt + ngt + nbx) mu) in *.
  set (m4 := slice (nlt + ngt + nbx) (nlt + ngt + nbx + nbx) mu) in *.
  assert (mu = m1 ++ m2 ++ m3 ++ m4) as EM.
  { unfold m1, m2, m3, m4, slice. rewrite <- (firstn_skipn nlt mu) at 1.
    replace (nlt - 0) with nlt by lia. rewrite skipn_O. f_equal.
    rewrite <- (firstn_skipn ngt (skipn nlt mu)) at 1. replace (nlt + ngt - nlt) with ngt by lia. f_equal.
    assert (forall a b (l : list K), skipn a (skipn b l) = skipn (b + a) l) as SS.
    { clear. intros a b. induction b as [|b IH]; intros l; simpl; auto. destruct l; simpl; auto. apply skipn_nil. }
    rewrite SS. rewrite <- (firstn_skipn nbx (skipn (nlt + ngt) mu)) at 1.
    replace (nlt + ngt + nbx - (nlt + ngt)) with nbx by lia. f_equal.
    rewrite SS. symmetry. apply firstn_all2. rewrite skipn_length. lia. }
  assert (length m1 = nlt /\ length m2 = ngt /\ length m3 = nbx /\ length m4 = nbx) as (M1 & M2 & M3 & M4).
  { unfold m1, m2, m3, m4. rewrite !slice_length. lia. }
  destruct (scatter_add _ _ _ _ H1) as (L1 & V1).
  { eapply gather_NoDup; [exact N1|apply find_NoDup|eassumption]. } { intros p _. apply disjoint_repeat0. }
  assert (forall p, ~ In p (s_ieq sp) -> nth p l1 0%K = 0%K) as Z1.
  { intros p Hp. rewrite V1, disjoint_repeat0, signed_notin; [ring|].
    intros C. apply Hp. exact (gather_sub _ _ _ _ Hel C). }
  destruct (scatter_add _ _ _ _ H2 N3) as (L2 & V2).
  { intros p Hp. apply Z1. intros C. apply D1 in C. tauto. }
  destruct (scatter_add _ _ _ _ H3 N4) as (L3 & V3).
  { intros p Hp. rewrite V2, Z1; [|intros C; apply D1 in C; tauto]. rewrite signed_notin; [ring|].
    apply D2 in Hp. tauto. }
  destruct (scatter_add _ _ _ _ H4) as (L4 & V4).
  { eapply gather_NoDup; [exact N1|apply find_NoDup|eassumption]. } { intros p _. apply disjoint_repeat0. }
  assert (forall p, ~ In p (s_ieq sp) -> nth p u1 0%K = 0%K) as Z4.
  { intros p Hp. rewrite V4, disjoint_repeat0, signed_notin; [ring|].
    intros C. apply Hp. exact (gather_sub _ _ _ _ Heu C). }
  destruct (scatter_add _ _ _ _ H5 N2) as (L5 & V5).
  { intros p Hp. apply Z4. intros C. apply D1 in C. tauto. }
  destruct (scatter_add _ _ _ _ H6 N4) as (L6 & V6).
  { intros p Hp. rewrite V5, Z4; [|intros C; apply D1 in C; tauto]. rewrite signed_notin; [ring|].
    apply D2 in Hp. tauto. }
  rewrite repeat_length in *. split; [congruence|]. split; [congruence|].
  intros p. rewrite V3, V2, V1, V6, V5, V4, !disjoint_repeat0. rewrite EM at 1. unfold iq_rows, eq_rows.
  rewrite !signed_app by (unfold tagged; rewrite map_length; auto).
  rewrite !signed_neg, signed_opp.
  rewrite (signed_select _ _ _ _ _ _ p (eq_sym Ll) Hel Hxl), (signed_select _ _ _ _ _ _ p (eq_sym Ll) Heu Hxu).
  assert (signed (tagged 1%K (s_ieq sp)) lam p =
    (lsum (fun x : nat * K => if fltb (snd x) 0%K then (if fst x =? p then (1 * snd x)%K else 0%K) else 0%K) (combine (s_ieq sp) lam)
     + lsum (fun x : nat * K => if fltb 0%K (snd x) then (if fst x =? p then (1 * snd x)%K else 0%K) else 0%K) (combine (s_ieq sp) lam))%K) as E.
  { rewrite <- lsum_add. unfold signed, tagged. clear. revert lam.
    induction (s_ieq sp) as [|q L IH]; intros [|x w]; simpl; auto. rewrite IH. f_equal.
    destruct (q =? p).
    - destruct (fltb x 0%K) eqn:A, (fltb 0%K x) eqn:B; try ring.
      + apply flt_asym in A. congruence.
      + apply fnlt in A as [->|A]; [ring|congruence].
    - destruct (fltb x 0%K), (fltb 0%K x); ring. }
  rewrite E. ring.
Qed.

Lemma slice_in {A} a b (l : list A) x : In x (slice a b l) -> In x l.
Proof.
  unfold slice. intros H.
  assert (In x (skipn a l)) as H'. { rewrite <- (firstn_skipn (b - a) (skipn a l)). apply in_or_app; auto. }
  rewrite <- (firstn_skipn a l). apply in_or_app; auto.
Qed.

Lemma unsplit_nonneg n (sp : Pips.split (K := K)) lam mu ml mu_ : unsplit n sp lam mu = Ok (ml, mu_) ->
  Forall (le 0%K) mu -> Forall (le 0%K) ml /\ Forall (le 0%K) mu_.
Proof.
  intros H M. unfold unsplit in H.
  apply bind_ok in H as (el & Hel & H). apply bind_ok in H as (eu & Heu & H).
  apply bind_ok in H as (xl & Hxl & H). apply bind_ok in H as (xu & Hxu & H).
  apply bind_ok in H as (l1 & H1 & H). apply bind_ok in H as (l2 & H2 & H). apply bind_ok in H as (l3 & H3 & H).
  apply bind_ok in H as (u1 & H4 & H). apply bind_ok in H as (u2 & H5 & H). apply bind_ok in H as (u3 & H6 & H).
  injection H as <- <-.
  assert (forall v idx w v', scatter_checked v idx w = Ok v' -> Forall (le 0%K) v -> Forall (le 0%K) w ->
            Forall (le 0%K) v') as SC.
  { intros v idx w v' S V W. unfold scatter_checked in S. destruct (negb _); [discriminate|].
    destruct (forallb _ _); [|discriminate]. injection S as <-. apply scatter_Forall; auto. }
  assert (forall a b, Forall (le 0%K) (slice a b mu)) as SL.
  { intros a b. apply Forall_forall. intros x Hx. rewrite Forall_forall in M. apply M. eapply slice_in; eauto. }
  assert (forall (t : K -> bool) v, gather lam (find (map t lam)) = Ok v -> Forall (fun x => t x = true) v) as GT.
  { intros t v G. apply Forall_forall. intros x Hx. apply In_nth_error in Hx as (k & Hk).
    pose proof (gather_length _ _ _ G) as L.
    destruct (nth_error_lt (find (map t lam)) k) as (i & Hi). { rewrite <- L. eapply nth_error_some_lt; eauto. }
    unfold gather in G. destruct (mapM_nth _ _ _ _ _ G Hi) as (y & Hy & Hn). apply get_ok in Hy.
    rewrite Hk in Hn. injection Hn as <-. apply nth_error_In in Hi. apply in_find in Hi.
    rewrite nth_error_map, Hy in Hi. simpl in Hi. congruence. }
  assert (Forall (le 0%K) (repeat (0%K : K) n)) as R0.
  { apply Forall_forall. intros x Hx. apply repeat_spec in Hx. subst. apply le_refl. }
  split.
  - eapply SC; [exact H3| |apply SL]. eapply SC; [exact H2| |apply SL]. eapply SC; [exact H1|exact R0|].
    apply Forall_map. eapply Forall_impl; [|exact (GT _ _ Hxl)]. simpl. intros a A. apply nn_opp, lt_le. exact A.
  - eapply SC; [exact H6| |apply SL]. eapply SC; [exact H5| |apply SL]. eapply SC; [exact H4|exact R0|].
    eapply Forall_impl; [|exact (GT _ _ Hxu)]. simpl. intros a A. apply lt_le. exact A.
Qed.
End PipsD.
