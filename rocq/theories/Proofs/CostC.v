(** polyshift and modcost. *)
From Verif Require Import Lib.QcFacts Lib.LinAlg Lib.ListFacts Model.Cost Spec.CostSpec
  Proofs.LinAlgFacts Proofs.CostA Proofs.CostB.
Local Open Scope nat_scope.

(** ** polyshift *)
(** the binomial coefficient (k+j choose k), as the repeated cumulative sums produce it *)
Fixpoint bin (k : nat) : nat -> Qc :=
  match k with
  | O => fun _ => 1%Qc
  | S k' => fix go j := match j with O => bin k' 0 | S j' => (go j' + bin k' (S j'))%Qc end
  end.
Lemma bin_S0 k : bin (S k) 0 = bin k 0. Proof. reflexivity. Qed.
Lemma bin_SS k j : bin (S k) (S j) = (bin (S k) j + bin k (S j))%Qc. Proof. reflexivity. Qed.

Lemma cumsum_bin k m : forall j s, (s = match j with O => 0 | S j' => bin (S k) j' end)%Qc ->
  cumsum_from s (map (bin k) (seq j m)) = map (bin (S k)) (seq j m).
Proof.
  induction m as [|m IH]; intros j s E; auto. cbn [seq map cumsum_from].
  assert (E' : (s + bin k j = bin (S k) j)%Qc).
  { subst s. destruct j as [|j]; [rewrite bin_S0; ring|rewrite bin_SS; ring]. }
  rewrite E'. f_equal. apply IH. reflexivity.
Qed.

Section Shift.
Variable t : Qc.

Fixpoint W (k j : nat) (l : vec) : Qc :=
  match l with [] => 0%Qc | a :: r => (bin k j * (a * t ^ j) + W k (S j) r)%Qc end.

Lemma W_pascal k l : forall j, W (S k) (S j) l = (t * W (S k) j l + W k (S j) l)%Qc.
Proof.
  induction l as [|a l IH]; intros j; cbn [W].
  - ring.
  - rewrite IH, bin_SS. simpl Qcpower. ring.
Qed.

Definition E (q : vec) (k : nat) : Qc := W k 0 (skipn k q).

Lemma E_pascal k l : W (S k) 0 l = (W k 0 l + t * W (S k) 0 (tl l))%Qc.
Proof.
  destruct l as [|b l]; simpl tl.
  - simpl. ring.
  - cbn [W]. rewrite W_pascal, bin_S0. ring.
Qed.

Lemma skipn_tl (q : vec) k : skipn (S k) q = tl (skipn k q).
Proof. revert q. induction k; intros [|a q]; auto. simpl skipn at 2. rewrite <- IHk. reflexivity. Qed.

Lemma E_cons0 a q : E (a :: q) 0 = (a + t * E q 0)%Qc.
Proof.
  unfold E. simpl skipn. cbn [W].
  assert (G : forall l j, W 0 (S j) l = (t * W 0 j l)%Qc).
  { induction l as [|b l IH]; intros j; cbn [W]; [ring|]. rewrite IH. simpl. ring. }
  rewrite G. simpl. ring.
Qed.

Lemma E_consS a q k : E (a :: q) (S k) = (E q k + t * E q (S k))%Qc.
Proof.
  unfold E. change (skipn (S k) (a :: q)) with (skipn k q). rewrite skipn_tl. apply E_pascal.
Qed.

Lemma low_linear (f g : nat -> Qc) s l x :
  low (map (fun k => f k + s * g k)%Qc l) x = (low (map f l) x + s * low (map g l) x)%Qc.
Proof. induction l as [|a l IH]; simpl; [ring|]. rewrite IH. ring. Qed.

Lemma shift_low q x : low (map (E q) (seq 0 (length q))) x = low q (x + t).
Proof.
  induction q as [|a q IH]; auto.
  cbn [length seq map].
  assert (C : forall (r : vec) y b, low (b :: r) y = (b + y * low r y)%Qc) by reflexivity.
  rewrite !C, <- IH. clear IH.
  rewrite <- seq_shift, map_map.
  rewrite (map_ext _ (fun k => E q k + t * E q (S k))%Qc) by (intros; apply E_consS).
  rewrite low_linear, E_cons0.
  assert (R : (E q 0 + x * low (map (fun k => E q (S k)) (seq 0 (length q))) x
               = low (map (E q) (seq 0 (length q))) x)%Qc).
  { rewrite <- C.
    replace (E q 0 :: map (fun k => E q (S k)) (seq 0 (length q)))
      with (map (E q) (seq 0 (length q)) ++ [E q (length q)]).
    - rewrite low_app. unfold E at 3. rewrite skipn_all. simpl. ring.
    - rewrite <- (map_map S (E q)), seq_shift.
      change (E q 0 :: map (E q) (seq 1 (length q))) with (map (E q) (0 :: seq 1 (length q))).
      change (0 :: seq 1 (length q)) with (seq 0 (S (length q))).
      rewrite seq_S, map_app. reflexivity. }
  rewrite <- R. ring.
Qed.
End Shift.

Lemma dot_W t k m : forall j (l : vec), length l = m ->
  dot (map (bin k) (seq j m)) (map2 Qcmult l (map (fun i => t ^ i)%Qc (seq j m))) = W t k j l.
Proof.
  induction m as [|m IH]; intros j [|a l] L; simpl in L; try discriminate; auto.
  unfold map2. cbn [seq map combine dot W fst snd]. f_equal. apply IH. lia.
Qed.

Lemma firstn_map_seq {A} (f : nat -> A) j m l : l <= m ->
  firstn l (map f (seq j m)) = map f (seq j l).
Proof.
  intros H. rewrite firstn_map. f_equal. clear f. revert j l H.
  induction m as [|m IH]; intros j [|l] H; simpl; auto; try lia. f_equal. apply IH. lia.
Qed.

Lemma polyshift_loop_ok c a n : length c = n -> forall left k acc, k + left = n ->
  polyshift_loop c a n left (map (bin k) (seq 0 left)) acc
  = rev (map (E (- a) (rev c)) (seq k left)) ++ acc.
Proof.
  intros L. induction left as [|l IH]; intros k acc H; auto.
  cbn [polyshift_loop].
  rewrite (firstn_map_seq (fun j => (- a) ^ j)%Qc) by lia.
  rewrite (firstn_map_seq (bin k)) by lia.
  assert (EC : cumsum (map (bin k) (seq 0 l)) = map (bin (S k)) (seq 0 l)).
  { unfold cumsum. apply cumsum_bin. reflexivity. }
  rewrite dot_W by (rewrite rev_length, firstn_length; lia).
  rewrite EC, IH by lia. cbn [seq map rev]. rewrite <- app_assoc. f_equal. simpl app. f_equal.
  unfold E. f_equal.
  replace (skipn k (rev c)) with (rev (firstn (S l) c)); auto.
  rewrite skipn_rev. f_equal. f_equal. lia.
Qed.

Lemma polyshift_as c a : polyshift c a = rev (map (E (- a) (rev c)) (seq 0 (length c))).
Proof.
  unfold polyshift. replace (repeat 1%Qc (length c)) with (map (bin 0) (seq 0 (length c))).
  - rewrite polyshift_loop_ok by lia. apply app_nil_r.
  - generalize 0 at 2. induction (length c); intros s; simpl; auto. f_equal. apply IHn.
Qed.

Lemma polyshift_length c a : length (polyshift c a) = length c.
Proof. rewrite polyshift_as, rev_length, map_length, seq_length. reflexivity. Qed.

Lemma polyshift_value c a x : polyval (polyshift c a) x = polyval c (x - a).
Proof.
  rewrite polyshift_as, <- low_rev, rev_involutive.
  replace (seq 0 (length c)) with (seq 0 (length (rev c))) by (rewrite rev_length; auto).
  rewrite shift_low, low_rev. reflexivity.
Qed.

(** ** modcost on polynomial rows *)
Lemma polyval_scale a c x : polyval (map (fun y => a * y)%Qc c) x = (a * polyval c x)%Qc.
Proof.
  induction c as [|b c IH]; [unfold polyval; simpl; ring|].
  simpl map. rewrite !polyval_cons, IH, map_length. ring.
Qed.

Lemma polyval_snoc c b x : polyval (c ++ [b]) x = (polyval c x * x + b)%Qc.
Proof. unfold polyval. rewrite fold_left_app. reflexivity. Qed.

Lemma mapi_cons {A B} (f : nat -> A -> B) a l :
  mapi f (a :: l) = f 0 a :: mapi (fun i => f (S i)) l.
Proof.
  apply nth_error_ext. intros [|i]; rewrite nth_mapi; simpl; auto. rewrite nth_mapi. reflexivity.
Qed.

Lemma Qcpower_mult a b n : ((a * b) ^ n = a ^ n * b ^ n)%Qc.
Proof. induction n; simpl; [ring|]. rewrite IHn. ring. Qed.

Lemma Qcpower_nz a n : a <> 0%Qc -> (a ^ n <> 0)%Qc.
Proof.
  intros H. induction n; simpl; [discriminate|].
  intros C. apply Qcmult_integral in C. tauto.
Qed.

Lemma polyval_scalex a c x : a <> 0%Qc ->
  polyval (mapi (fun i y => y / a ^ (length c - i - 1))%Qc c) (x * a) = polyval c x.
Proof.
  intros H. induction c as [|b c IH]; auto.
  rewrite mapi_cons, !polyval_cons, mapi_length. cbn [length].
  change (fun i y => (y / a ^ (S (length c) - S i - 1))%Qc)
    with (fun i y => (y / a ^ (length c - i - 1))%Qc).
  rewrite IH. f_equal. replace (S (length c) - 0 - 1) with (length c) by lia.
  rewrite Qcpower_mult. field. apply Qcpower_nz. auto.
Qed.

Lemma skipn_app_exact {A} (l l' : list A) n : length l = n -> skipn n (l ++ l') = l'.
Proof.
  intros H. rewrite skipn_app, skipn_all2 by lia. replace (n - length l) with 0 by lia. reflexivity.
Qed.

Lemma head_nth {A} (r : list A) (tl : list A) i : i < COST -> COST <= length r ->
  nth_error (firstn COST r ++ tl) i = nth_error r i.
Proof.
  intros H L. rewrite nth_error_app1 by (rewrite firstn_length; lia).
  rewrite nth_firstn; auto.
Qed.

Lemma poly_row_len r cs : poly_row r cs -> cs <> [] -> COST < length r.
Proof.
  intros (_ & _ & pad & Ep) NE. assert (L := f_equal (@length _) Ep).
  rewrite skipn_length, app_length in L. destruct cs; [contradiction|]. simpl in L. lia.
Qed.

Lemma poly_row_new r cs cs' pad :
  poly_row r cs -> COST <= length r -> length cs' = length cs ->
  poly_row (firstn COST r ++ cs' ++ pad) cs'.
Proof.
  intros (M & N & _) L L'. split; [|split].
  - rewrite head_nth; auto; unfold MODEL, COST in *; lia.
  - rewrite head_nth, ?L'; auto; unfold NCOST, COST in *; lia.
  - exists pad. apply skipn_app_exact. rewrite firstn_length. lia.
Qed.

Lemma mod_poly_ok a t r cs : poly_row r cs -> cs <> [] -> (t = SCALE_X -> a <> 0%Qc) ->
  exists r' cs', mod_poly a t r = Ok r' /\ poly_row r' cs' /\ cs' <> [] /\
    forall x, match t with
      | SCALE_F => polyval cs' x = (a * polyval cs x)%Qc
      | SCALE_X => polyval cs' (x * a) = polyval cs x
      | SHIFT_F => polyval cs' x = (polyval cs x + a)%Qc
      | SHIFT_X => polyval cs' (x + a) = polyval cs x
      | OtherType => polyval cs' x = polyval cs x
      end.
Proof.
  intros R NE NZ. assert (LC := poly_row_len _ _ R NE).
  pose proof R as (M & N & pad & Ep).
  assert (F1 : firstn (length cs) (skipn COST r) = cs)
    by (rewrite Ep, firstn_app, firstn_all, Nat.sub_diag, firstn_O, app_nil_r; auto).
  assert (F2 : skipn (length cs) (skipn COST r) = pad) by (rewrite Ep; apply skipn_app_exact; auto).
  assert (NEL : forall l : vec, length l = length cs -> l <> []).
  { intros l H C. subst l. destruct cs; [contradiction|discriminate]. }
  unfold mod_poly. rewrite (ncost_of_row _ _ N). cbn [bind].
  destruct t.
  - exists (firstn COST r ++ map (fun x => a * x)%Qc cs ++ map (fun x => a * x)%Qc pad),
      (map (fun x => a * x)%Qc cs).
    split; [rewrite Ep, map_app; reflexivity|]. split.
    + apply (poly_row_new r cs); auto; [lia|apply map_length].
    + split; [apply NEL; apply map_length|]. intros x. apply polyval_scale.
  - rewrite F1, F2.
    replace (length (skipn COST r) <? length cs) with false.
    2:{ symmetry. apply Nat.ltb_ge. rewrite Ep, app_length. lia. }
    replace (qc_eqb a 0) with false by (symmetry; apply qc_eqb_neq; auto). cbn [andb].
    eexists. exists (mapi (fun i x => (x / a ^ (length cs - i - 1))%Qc) cs). split; [reflexivity|].
    split.
    + apply (poly_row_new r cs); auto; [lia|apply mapi_length].
    + split; [apply NEL; apply mapi_length|]. intros x. apply polyval_scalex. auto.
  - destruct (exists_last NE) as (cs0 & b & Ecs).
    assert (LL : length cs = S (length cs0)) by (rewrite Ecs, app_length; simpl; lia).
    rewrite LL. unfold get. rewrite Ep, Ecs.
    rewrite nth_error_app1 by (rewrite app_length; simpl; lia).
    rewrite nth_error_app2, Nat.sub_diag by lia. cbn [nth_error of_option bind].
    exists (upd r (COST + length cs0) (a + b)%Qc), (cs0 ++ [(a + b)%Qc]). split; auto.
    assert (EU : upd r (COST + length cs0) (a + b)%Qc = firstn COST r ++ (cs0 ++ [(a + b)%Qc]) ++ pad).
    { apply nth_error_ext. intros i. rewrite nth_error_upd.
      assert (Lr : length r = COST + (length cs0 + 1) + length pad).
      { assert (L := f_equal (@length _) Ep). rewrite skipn_length, Ecs, !app_length in L. simpl in L. lia. }
      assert (Er : r = firstn COST r ++ (cs0 ++ [b]) ++ pad)
        by (rewrite <- Ecs, <- Ep; symmetry; apply firstn_skipn).
      assert (LF : length (firstn COST r) = COST) by (rewrite firstn_length; lia).
      destruct (Nat.eqb_spec (COST + length cs0) i) as [<-|NEi].
      - replace (COST + length cs0 <? length r) with true by (symmetry; apply Nat.ltb_lt; lia).
        rewrite nth_error_app2 by lia. rewrite LF.
        replace (COST + length cs0 - COST) with (length cs0) by lia.
        rewrite nth_error_app1 by (rewrite app_length; simpl; lia).
        rewrite nth_error_app2, Nat.sub_diag by lia. reflexivity.
      - rewrite Er at 1. destruct (Nat.lt_ge_cases i COST) as [H|H].
        + rewrite !nth_error_app1 by lia. auto.
        + rewrite !(nth_error_app2 (firstn COST r)) by lia. rewrite LF.
          destruct (Nat.lt_ge_cases (i - COST) (length cs0)) as [H1|H1].
          * rewrite !(nth_error_app1 (cs0 ++ _)) by (rewrite app_length; simpl; lia).
            rewrite !nth_error_app1 by lia. auto.
          * rewrite !(nth_error_app2 (cs0 ++ _)) by (rewrite app_length; simpl; lia).
            rewrite !app_length. reflexivity. }
    split.
    + rewrite EU. apply (poly_row_new r cs); auto; [lia|rewrite app_length; simpl; lia].
    + split; [intros C; destruct cs0; discriminate|]. intros x.
      rewrite !polyval_snoc. ring.
  - rewrite F1, F2. eexists. exists (polyshift cs a). split; [reflexivity|].
    split.
    + apply (poly_row_new r cs); auto; [lia|apply polyshift_length].
    + split; [apply NEL; apply polyshift_length|]. intros x.
      rewrite polyshift_value. f_equal. ring.
  - exists r, cs. auto.
Qed.

(** ** modcost on piecewise-linear rows *)
Lemma flat_nth_inv pts j : j < 2 * length pts -> exists k p, nth_error pts k = Some p /\
  ((j = 2 * k /\ nth_error (flat pts) j = Some (fst p)) \/
   (j = 2 * k + 1 /\ nth_error (flat pts) j = Some (snd p))).
Proof.
  intros H. assert (D := Nat.div_mod j 2 ltac:(lia)). assert (B := Nat.mod_upper_bound j 2 ltac:(lia)).
  destruct (nth_error_lt pts (j / 2)) as (p & Hp); [lia|].
  destruct (nth_flat _ _ _ Hp) as [HX HY].
  exists (j / 2), p. split; auto.
  destruct (j mod 2) as [|[|m]] eqn:Em; [left|right|lia].
  - assert (j = 2 * (j / 2)) by lia. split; auto. rewrite H0. auto.
  - assert (j = 2 * (j / 2) + 1) by lia. split; auto. rewrite H0. auto.
Qed.

Lemma pwl_row_nth r pts :
  nth_error r MODEL = Some (zc 1) -> nth_error r NCOST = Some (zc (Z.of_nat (length pts))) ->
  (forall k p, nth_error pts k = Some p -> nth_error r (COST + 2 * k) = Some (fst p) /\
     nth_error r (COST + (2 * k + 1)) = Some (snd p)) ->
  pwl_row r pts.
Proof.
  intros M N H. split; auto. split; auto.
  exists (skipn (2 * length pts) (skipn COST r)).
  rewrite <- (firstn_skipn (2 * length pts) (skipn COST r)) at 1. f_equal.
  apply nth_error_ext. intros j.
  destruct (Nat.lt_ge_cases j (2 * length pts)) as [L|L].
  - rewrite nth_firstn, nth_error_skipn by auto. destruct (flat_nth_inv pts j L) as (k & p & Hk & [[-> ->]|[-> ->]]);
      apply (H k p Hk).
  - rewrite !(proj2 (nth_error_None _ _)); auto.
    + rewrite flat_length. auto.
    + rewrite firstn_length. lia.
Qed.

Lemma pwl_row_cells r pts k p : pwl_row r pts -> nth_error pts k = Some p ->
  nth_error r (COST + 2 * k) = Some (fst p) /\ nth_error r (COST + (2 * k + 1)) = Some (snd p).
Proof.
  intros (_ & _ & pad & Ep) Hk. destruct (nth_flat _ _ _ Hk) as [HX HY].
  assert (L : k < length pts) by (eapply nth_error_some_lt; eauto).
  rewrite <- (nth_error_skipn r COST (2 * k)), <- (nth_error_skipn r COST (2 * k + 1)), Ep.
  rewrite !nth_error_app1 by (rewrite flat_length; lia). auto.
Qed.

Lemma nth_every_other a b f r j :
  nth_error (every_other a b f r) j =
  match nth_error r j with
  | Some x => Some (if (a <=? j) && (j <? b) && Nat.even (j - a) then f x else x)
  | None => None end.
Proof. unfold every_other. apply nth_mapi. Qed.

Lemma every_other_y f r pts : pwl_row r pts ->
  pwl_row (every_other (COST + 1) (length r) f r) (map (fun p => (fst p, f (snd p))) pts).
Proof.
  intros R. pose proof R as (M & N & _). apply pwl_row_nth.
  - rewrite nth_every_other, M. reflexivity.
  - rewrite nth_every_other, N, map_length. reflexivity.
  - intros k p' H. apply nth_error_map_iff in H as (p & Hp & <-). cbn [fst snd].
    destruct (pwl_row_cells _ _ _ _ R Hp) as [HX HY].
    assert (LY := nth_error_some_lt _ _ _ HY).
    rewrite !nth_every_other, HX, HY. split; f_equal.
    + destruct (Nat.leb_spec (COST + 1) (COST + 2 * k)); auto. cbn [andb].
      replace (COST + 2 * k - (COST + 1)) with (2 * (k - 1) + 1) by lia.
      rewrite (Nat.even_add_mul_2 1 (k - 1)) || (replace (2 * (k - 1) + 1) with (1 + 2 * (k - 1)) by lia;
        rewrite Nat.even_add_mul_2).
      rewrite andb_false_r. reflexivity.
    + replace (COST + 1 <=? COST + (2 * k + 1)) with true by (symmetry; apply Nat.leb_le; lia).
      replace (COST + (2 * k + 1) <? length r) with true by (symmetry; apply Nat.ltb_lt; lia).
      replace (COST + (2 * k + 1) - (COST + 1)) with (0 + 2 * k) by lia.
      rewrite Nat.even_add_mul_2. reflexivity.
Qed.

Lemma every_other_x f r pts : pwl_row r pts ->
  pwl_row (every_other COST (length r - 1) f r) (map (fun p => (f (fst p), snd p)) pts).
Proof.
  intros R. pose proof R as (M & N & _). apply pwl_row_nth.
  - rewrite nth_every_other, M. reflexivity.
  - rewrite nth_every_other, N, map_length. reflexivity.
  - intros k p' H. apply nth_error_map_iff in H as (p & Hp & <-). cbn [fst snd].
    destruct (pwl_row_cells _ _ _ _ R Hp) as [HX HY].
    assert (LY := nth_error_some_lt _ _ _ HY).
    rewrite !nth_every_other, HX, HY. split; f_equal.
    + replace (COST <=? COST + 2 * k) with true by (symmetry; apply Nat.leb_le; lia).
      replace (COST + 2 * k <? length r - 1) with true by (symmetry; apply Nat.ltb_lt; lia).
      replace (COST + 2 * k - COST) with (0 + 2 * k) by lia.
      rewrite Nat.even_add_mul_2. reflexivity.
    + replace (COST + (2 * k + 1) - COST) with (1 + 2 * k) by lia.
      rewrite Nat.even_add_mul_2, andb_false_r. reflexivity.
Qed.

Lemma increasing_map (f : Qc * Qc -> Qc * Qc) pts :
  (forall p q, (fst p < fst q)%Qc -> (fst (f p) < fst (f q))%Qc) ->
  x_increasing pts -> x_increasing (map f pts).
Proof.
  intros H. induction pts as [|p [|q pts] IH]; simpl; auto. intros [H1 H2]. split; auto.
  apply IH. auto.
Qed.

Lemma pwl_fun_map (f : Qc * Qc -> Qc * Qc) (g h : Qc -> Qc) t : forall p q x,
  (forall p q, (fst p < fst q)%Qc -> line (f p) (f q) (g x) = h (line p q x)) ->
  (forall q, qc_ltb (g x) (fst (f q)) = qc_ltb x (fst q)) ->
  x_increasing (p :: q :: t) ->
  pwl_fun (f p) (f q) (map f t) (g x) = h (pwl_fun p q t x).
Proof.
  induction t as [|s t IH]; intros p q x H1 H2 I.
  - apply H1. apply I.
  - cbn [map pwl_fun]. rewrite H2. destruct (qc_ltb x (fst q)); [apply H1; apply I|].
    apply IH; auto. apply I.
Qed.

Lemma pwl_at_map (f : Qc * Qc -> Qc * Qc) (g h : Qc -> Qc) pts x :
  (forall p q, (fst p < fst q)%Qc -> line (f p) (f q) (g x) = h (line p q x)) ->
  (forall q, qc_ltb (g x) (fst (f q)) = qc_ltb x (fst q)) ->
  x_increasing pts -> 2 <= length pts ->
  pwl_at (map f pts) (g x) = h (pwl_at pts x).
Proof.
  intros H1 H2 I L. destruct pts as [|p [|q t]]; simpl in L; try lia. apply pwl_fun_map; auto.
Qed.

Lemma ltb_iff a b c d : ((a < b)%Qc <-> (c < d)%Qc) -> qc_ltb a b = qc_ltb c d.
Proof.
  intros H. destruct (qc_ltb a b) eqn:E1, (qc_ltb c d) eqn:E2; auto.
  - apply qc_ltb_lt, H, qc_ltb_lt in E1. congruence.
  - apply qc_ltb_lt, H, qc_ltb_lt in E2. congruence.
Qed.

Lemma mod_pwl_ok a t r pts :
  pwl_row r pts -> x_increasing pts -> 2 <= length pts -> (t = SCALE_X -> 0 < a)%Qc ->
  exists pts', pwl_row (mod_pwl a t r) pts' /\ x_increasing pts' /\ 2 <= length pts' /\
    forall x, match t with
      | SCALE_F => pwl_at pts' x = (a * pwl_at pts x)%Qc
      | SCALE_X => pwl_at pts' (x * a) = pwl_at pts x
      | SHIFT_F => pwl_at pts' x = (pwl_at pts x + a)%Qc
      | SHIFT_X => pwl_at pts' (x + a) = pwl_at pts x
      | OtherType => pwl_at pts' x = pwl_at pts x
      end.
Proof.
  intros R I L PA. unfold mod_pwl. destruct t.
  - eexists. split; [apply every_other_y; eauto|]. split; [|split].
    + apply increasing_map; auto.
    + rewrite map_length. auto.
    + intros x. apply (pwl_at_map _ (fun x => x) (fun y => a * y)%Qc); auto.
      intros p q H. unfold line. cbn [fst snd]. field. apply sub_nonzero; auto.
  - specialize (PA eq_refl). eexists. split; [apply every_other_x; eauto|]. split; [|split].
    + apply increasing_map; auto. intros p q H. cbn [fst]. qc_nra.
    + rewrite map_length. auto.
    + intros x. apply (pwl_at_map _ (fun x => x * a)%Qc (fun y => y)); auto.
      * intros p q H. unfold line. cbn [fst snd]. assert (N1 := sub_nonzero _ _ H).
        assert (a <> 0%Qc) by (intros C; subst; apply (Qclt_not_eq _ _ PA); auto).
        field. repeat split; auto.
        intros C. assert (a * (fst q - fst p) = 0)%Qc by (rewrite <- C; ring).
        apply Qcmult_integral in H1. tauto.
      * intros q. apply ltb_iff. cbn [fst]. split; intros H; qc_nra.
  - eexists. split; [apply every_other_y; eauto|]. split; [|split].
    + apply increasing_map; auto.
    + rewrite map_length. auto.
    + intros x. apply (pwl_at_map _ (fun x => x) (fun y => y + a)%Qc); auto.
      intros p q H. unfold line. cbn [fst snd]. field. apply sub_nonzero; auto.
  - eexists. split; [apply every_other_x; eauto|]. split; [|split].
    + apply increasing_map; auto. intros p q H. cbn [fst]. qc_lra.
    + rewrite map_length. auto.
    + intros x. apply (pwl_at_map _ (fun x => x + a)%Qc (fun y => y)); auto.
      * intros p q H. unfold line. cbn [fst snd]. assert (N1 := sub_nonzero _ _ H).
        field. auto.
      * intros q. apply ltb_iff. cbn [fst]. split; intros H; qc_lra.
  - exists pts. auto.
Qed.

(** ** the whole function *)
Definition related (t : modtype) (a : Qc) (s s' : rowspec) : Prop :=
  forall x, match t with
      | SCALE_F => value s' x = (a * value s x)%Qc
      | SCALE_X => value s' (x * a) = value s x
      | SHIFT_F => value s' x = (value s x + a)%Qc
      | SHIFT_X => value s' (x + a) = value s x
      | OtherType => value s' x = value s x
      end.

Lemma modcost_ok a t g ss :
  Forall2 row_is g ss -> (t = SCALE_X -> 0 < a)%Qc ->
  exists g' ss', modcost g a t = Ok g' /\ Forall2 row_is g' ss' /\ Forall2 (related t a) ss ss'.
Proof.
  intros F PA. assert (NZ : t = SCALE_X -> a <> 0%Qc).
  { intros E C. subst a. apply (Qclt_not_eq _ _ (PA E)). auto. }
  assert (D : qc_eqb (zc 2) PW_LINEAR = false)
    by (apply qc_eqb_neq; intros C; apply zc_inj in C; discriminate).
  unfold modcost. induction F as [|r s g ss R F (g' & ss' & Eg & F' & FR)].
  { exists [], []. split; [reflexivity|]. split; constructor. }
  cbn [mapM]. unfold model_is, get in *. destruct s as [cs|pts].
  - destruct R as (R & NE). destruct (mod_poly_ok a t r cs R NE NZ) as (r' & cs' & Er & R' & NE' & V).
    exists (r' :: g'), (SPoly cs' :: ss'). rewrite (proj1 R). cbn [of_option bind].
    rewrite D. replace (qc_eqb (zc 2) POLYNOMIAL) with true by (symmetry; apply qc_eqb_refl).
    rewrite Er. cbn [bind]. rewrite Eg. split; [reflexivity|]. split; constructor; auto. split; auto.
  - destruct R as (R & I & L). destruct (mod_pwl_ok a t r pts R I L PA) as (pts' & R' & I' & L' & V).
    exists (mod_pwl a t r :: g'), (SPwl pts' :: ss'). rewrite (proj1 R). cbn [of_option bind].
    replace (qc_eqb (zc 1) PW_LINEAR) with true by (symmetry; apply qc_eqb_refl).
    cbn [bind]. rewrite Eg. split; [reflexivity|]. split; constructor; auto. split; auto.
Qed.
