(** totcost. *)
From Verif Require Import Lib.QcFacts Lib.LinAlg Lib.ListFacts Model.Cost Spec.CostSpec
  Proofs.LinAlgFacts Proofs.CostA.
Local Open Scope nat_scope.

(** ** breakpoints of a row *)
Lemma nth_error_skipn {A} (l : list A) a i : nth_error (skipn a l) i = nth_error l (a + i).
Proof.
  revert l. induction a as [|a IH]; intros [|x l]; simpl; auto. destruct i; auto.
Qed.

Lemma flat_length pts : length (flat pts) = 2 * length pts.
Proof. induction pts; simpl; lia. Qed.

Lemma nth_flat pts k p : nth_error pts k = Some p ->
  nth_error (flat pts) (2 * k) = Some (fst p) /\ nth_error (flat pts) (2 * k + 1) = Some (snd p).
Proof.
  revert k. induction pts as [|q pts IH]; intros [|k] H; simpl in *; try discriminate.
  - injection H as ->. auto.
  - replace (k + S (k + 0)) with (S (2 * k)) by lia.
    replace (S (2 * k) + 1) with (S (2 * k + 1)) by lia. simpl nth_error. apply IH. auto.
Qed.

Lemma row_points r pts k p : pwl_row r pts -> nth_error pts k = Some p ->
  bp_x r k = Ok (fst p) /\ bp_y r k = Ok (snd p).
Proof.
  intros (_ & _ & pad & E) H. destruct (nth_flat _ _ _ H) as [HX HY].
  assert (Hk : k < length pts) by (eapply nth_error_some_lt; eauto).
  assert (L : length (skipn COST r) = 2 * length pts + length pad)
    by (rewrite E, app_length, flat_length; lia).
  rewrite skipn_length in L.
  unfold bp_x, bp_y, get.
  replace (COST + 1 + 2 * k) with (COST + (2 * k + 1)) by lia.
  rewrite <- (nth_error_skipn r COST (2 * k)), <- (nth_error_skipn r COST (2 * k + 1)).
  rewrite E, !nth_error_app1 by (rewrite flat_length; lia).
  rewrite HX, HY.
  replace (COST + 2 * k <? length r - 1) with true by (symmetry; apply Nat.ltb_lt; lia).
  auto.
Qed.

Lemma segments_nat n : segments (zc (Z.of_nat n)) = n - 1.
Proof.
  unfold segments. assert (E : (zc (Z.of_nat n) - 1)%Qc = zc (Z.of_nat n - 1)).
  { apply qc_eq_this. rewrite this_sub, !this_zc. unfold inject_Z. change (this 1%Qc) with (1#1)%Q.
    unfold Qeq, Qminus, Qplus, Qopp. simpl. lia. }
  rewrite E.
  unfold zc. cbn [Q2Qc this].
  rewrite (Qred_identity (inject_Z (Z.of_nat n - 1))) by (simpl; apply Z.gcd_1_r).
  cbn [inject_Z Qnum Qden]. rewrite Z.div_1_r. lia.
Qed.

(** ** the loop *)
Fixpoint pwl_fun (p q : Qc * Qc) (t : list (Qc * Qc)) (x : Qc) : Qc :=
  match t with
  | [] => line p q x
  | s :: t' => if qc_ltb x (fst q) then line p q x else pwl_fun q s t' x
  end.

Lemma sub_nonzero a b : (a < b)%Qc -> (b - a <> 0)%Qc.
Proof. intros H C. assert (b = a) by qc_lra. subst. eapply Qclt_not_eq; eauto. Qed.

Lemma line_mx p q x : (fst p < fst q)%Qc ->
  ((snd q - snd p) / (fst q - fst p) * x
   + (snd p - (snd q - snd p) / (fst q - fst p) * fst p) = line p q x)%Qc.
Proof. intros H. unfold line. field. apply sub_nonzero; auto. Qed.

Lemma loop_ok r pts x : pwl_row r pts -> x_increasing pts ->
  forall t k p q v, skipn k pts = p :: q :: t ->
  pwl_loop r x (seq k (length t + 1)) v = Ok (pwl_fun p q t x).
Proof.
  intros R I. induction t as [|s t IH]; intros k p q v E.
  - assert (Hp : nth_error pts k = Some p)
      by (rewrite <- (Nat.add_0_r k), <- nth_error_skipn, E; reflexivity).
    assert (Hq : nth_error pts (k + 1) = Some q)
      by (rewrite <- nth_error_skipn, E; reflexivity).
    assert (IK : (fst p < fst q)%Qc).
    { clear - E I. revert pts E I. induction k as [|k IH]; intros pts E I.
      - simpl in E. subst. apply I.
      - destruct pts as [|a pts]; [discriminate|]. apply (IH pts); auto.
        destruct pts; simpl in *; auto. apply I. }
    cbn [length plus seq pwl_loop].
    destruct (row_points _ _ _ _ R Hp) as [-> ->].
    destruct (row_points _ _ _ _ R Hq) as [-> ->]. cbn [bind].
    destruct (qc_eqb (fst q - fst p) 0) eqn:Z.
    { apply qc_eqb_eq in Z. exfalso. eapply sub_nonzero; eauto. }
    rewrite line_mx by auto. simpl pwl_fun. destruct (qc_ltb x (fst q)); reflexivity.
  - assert (Hp : nth_error pts k = Some p)
      by (rewrite <- (Nat.add_0_r k), <- nth_error_skipn, E; reflexivity).
    assert (Hq : nth_error pts (k + 1) = Some q)
      by (rewrite <- nth_error_skipn, E; reflexivity).
    assert (IK : (fst p < fst q)%Qc).
    { clear - E I. revert pts E I. induction k as [|k IH]; intros pts E I.
      - simpl in E. subst. apply I.
      - destruct pts as [|a pts]; [discriminate|]. apply (IH pts); auto.
        destruct pts; simpl in *; auto. apply I. }
    cbn [length plus seq pwl_loop].
    destruct (row_points _ _ _ _ R Hp) as [-> ->].
    destruct (row_points _ _ _ _ R Hq) as [-> ->]. cbn [bind].
    destruct (qc_eqb (fst q - fst p) 0) eqn:Z.
    { apply qc_eqb_eq in Z. exfalso. eapply sub_nonzero; eauto. }
    rewrite line_mx by auto. cbn [pwl_fun]. destruct (qc_ltb x (fst q)); auto.
    apply IH. replace (S k) with (k + 1) by lia. rewrite Nat.add_comm, <- skipn_skipn, E. reflexivity.
Qed.

(** ** the meaning of the loop *)
Lemma inc_tail p pts : x_increasing (p :: pts) -> x_increasing pts.
Proof. destruct pts; simpl; tauto. Qed.

Lemma inc_lt pts : x_increasing pts -> forall i j p q, i < j ->
  nth_error pts i = Some p -> nth_error pts j = Some q -> (fst p < fst q)%Qc.
Proof.
  induction pts as [|a pts IH]; intros I i j p q Hij Hp Hq; [destruct i; discriminate|].
  destruct j as [|j]; [lia|]. destruct i as [|i].
  - simpl in Hp, Hq. injection Hp as ->. destruct pts as [|b pts]; [destruct j; discriminate|].
    destruct I as [I1 I2]. destruct j as [|j].
    + simpl in Hq. injection Hq as ->. auto.
    + eapply Qclt_trans; [exact I1|]. apply (IH I2 0 (S j) b q); auto. lia.
  - simpl in Hp, Hq. apply (IH (inc_tail _ _ I) i j); auto. lia.
Qed.

Lemma line_left p q : line p q (fst p) = snd p.
Proof. unfold line. ring. Qed.
Lemma line_right p q : (fst p < fst q)%Qc -> line p q (fst q) = snd q.
Proof. intros H. unfold line. field. apply sub_nonzero; auto. Qed.

Lemma responsible_unique pts x : x_increasing pts -> forall j j' p q p' q',
  responsible pts j p q x -> responsible pts j' p' q' x -> line p q x = line p' q' x.
Proof.
  intros I. assert (W : forall j j' p q p' q', j < j' ->
    responsible pts j p q x -> responsible pts j' p' q' x -> line p q x = line p' q' x).
  { intros j j' p q p' q' L (H1 & H2 & A & B) (H1' & H2' & A' & B').
    assert (x0 : (x <= fst q)%Qc).
    { destruct B as [B|B]; auto. apply nth_error_some_lt in H2'. lia. }
    assert (x1 : (fst p' <= x)%Qc) by (destruct A' as [A'|A']; auto; lia).
    assert (PQ : (fst p < fst q)%Qc) by (eapply inc_lt with (i := j) (j := S j); eauto).
    destruct (Nat.eq_dec (S j) j') as [<-|NE].
    - assert (p' = q) by congruence. subst p'. assert (x = fst q) by qc_lra. subst x.
      rewrite line_right, line_left; auto.
    - exfalso. assert ((fst q < fst p')%Qc) by (eapply inc_lt with (i := S j) (j := j'); eauto; lia).
      qc_lra. }
  intros j j' p q p' q' R R'. destruct (Nat.lt_trichotomy j j') as [L|[L|L]].
  - eauto.
  - subst. destruct R as (H1 & H2 & _), R' as (H1' & H2' & _). congruence.
  - symmetry. eauto.
Qed.

Lemma pwl_fun_seg x pts : forall t k p q, skipn k pts = p :: q :: t ->
  (k = 0 \/ (fst p <= x)%Qc) ->
  exists j p' q', responsible pts j p' q' x /\ pwl_fun p q t x = line p' q' x.
Proof.
  assert (G : forall k p q t, skipn k pts = p :: q :: t ->
    nth_error pts k = Some p /\ nth_error pts (S k) = Some q /\ length pts = k + S (S (length t))).
  { intros k p q t E. split; [|split].
    - rewrite <- (Nat.add_0_r k), <- nth_error_skipn, E. reflexivity.
    - replace (S k) with (k + 1) by lia. rewrite <- nth_error_skipn, E. reflexivity.
    - assert (L := f_equal (@length _) E). rewrite skipn_length in L. simpl in L. lia. }
  induction t as [|s t IH]; intros k p q E Hk; destruct (G _ _ _ _ E) as (H1 & H2 & L).
  - exists k, p, q. split; auto. split; auto. split; auto. split; auto. left. simpl in L. lia.
  - simpl. destruct (qc_ltb x (fst q)) eqn:C.
    + apply qc_ltb_lt in C. exists k, p, q. split; auto. split; auto. split; auto. split; auto.
      right. apply Qclt_le_weak. auto.
    + apply qc_ltb_ge in C. apply (IH (S k)).
      * replace (S k) with (1 + k) by lia. rewrite <- skipn_skipn, E. reflexivity.
      * right. auto.
Qed.

Definition pwl_at (pts : list (Qc * Qc)) (x : Qc) : Qc :=
  match pts with p :: q :: t => pwl_fun p q t x | _ => 0%Qc end.

Lemma pwl_at_value pts x : x_increasing pts -> 2 <= length pts -> pwl_value pts x (pwl_at pts x).
Proof.
  intros I L. destruct pts as [|p [|q t]]; simpl in L; try lia.
  destruct (pwl_fun_seg x (p :: q :: t) t 0 p q eq_refl (or_introl eq_refl))
    as (j & p' & q' & R & E).
  intros j' a b R'. simpl. rewrite E. eapply responsible_unique; eauto.
Qed.

Lemma pwl_at_segment pts x : 2 <= length pts ->
  exists j p q, responsible pts j p q x /\ pwl_at pts x = line p q x.
Proof.
  intros L. destruct pts as [|p [|q t]]; simpl in L; try lia.
  apply (pwl_fun_seg x (p :: q :: t) t 0 p q eq_refl (or_introl eq_refl)).
Qed.

Lemma pwl_value_unique pts x v : x_increasing pts -> 2 <= length pts ->
  pwl_value pts x v -> v = pwl_at pts x.
Proof.
  intros I L V. destruct (pwl_at_segment pts x L) as (j & p & q & R & E).
  rewrite E. eapply V; eauto.
Qed.

(** ** the whole function *)
Definition value (s : rowspec) (x : Qc) : Qc :=
  match s with SPoly cs => polyval cs x | SPwl pts => pwl_at pts x end.

Definition is_pwl (s : rowspec) : bool := match s with SPwl _ => true | _ => false end.

Lemma models_ok g ss : Forall2 row_is g ss ->
  mapM (model_is PW_LINEAR) g = Ok (map is_pwl ss) /\
  mapM (model_is POLYNOMIAL) g = Ok (map (fun s => negb (is_pwl s)) ss).
Proof.
  assert (D : qc_eqb (zc 2) PW_LINEAR = false)
    by (apply qc_eqb_neq; intros C; apply zc_inj in C; discriminate).
  assert (D' : qc_eqb (zc 1) POLYNOMIAL = false)
    by (apply qc_eqb_neq; intros C; apply zc_inj in C; discriminate).
  induction 1 as [|r s g ss R F [IH1 IH2]]; auto.
  cbn [mapM map].
  assert (E : exists m, nth_error r MODEL = Some m /\ qc_eqb m PW_LINEAR = is_pwl s /\
                        qc_eqb m POLYNOMIAL = negb (is_pwl s)).
  { destruct s as [cs|pts]; destruct R as ((M & _) & _).
    - exists (zc 2). split; [auto|split; [solve [auto|apply qc_eqb_refl]|solve [auto|apply qc_eqb_refl]]].
    - exists (zc 1). split; [auto|split; [solve [auto|apply qc_eqb_refl]|solve [auto|apply qc_eqb_refl]]]. }
  destruct E as (m & E1 & E2 & E3). rewrite IH1, IH2. unfold model_is, get.
  rewrite E1. cbn [of_option bind]. rewrite E2, E3. auto.
Qed.

Lemma foldM_upd {A} (f : list A -> nat -> result (list A)) (v : nat -> A) idx :
  (forall i t, In i idx -> f t i = Ok (upd t i (v i))) ->
  forall t, foldM f idx t = Ok (scatter t idx (map v idx)).
Proof.
  induction idx as [|i idx IH]; intros H t; simpl; auto.
  rewrite H by (left; auto). simpl. apply IH. intros. apply H. right. auto.
Qed.

Lemma scatter_map {A} (l : list A) idx v j : NoDup idx -> j < length l ->
  nth_error (scatter l idx (map v idx)) j = if in_dec Nat.eq_dec j idx then Some (v j) else nth_error l j.
Proof.
  intros ND L. destruct (in_dec Nat.eq_dec j idx) as [I|I].
  - apply In_nth_error in I as (k & Hk). apply (scatter_at idx l (map v idx) k j (v j)); auto.
    rewrite nth_error_map, Hk. reflexivity.
  - apply scatter_other. auto.
Qed.

Lemma nth_map2 {A B C} (f : A -> B -> C) l l' i :
  nth_error (map2 f l l') i =
  match nth_error l i, nth_error l' i with Some a, Some b => Some (f a b) | _, _ => None end.
Proof.
  unfold map2. revert l' i. induction l as [|a l IH]; intros [|b l'] [|i]; simpl; auto.
  destruct (nth_error l i); auto.
Qed.
Lemma map2_length {A B C} (f : A -> B -> C) l l' : length (map2 f l l') = Nat.min (length l) (length l').
Proof. unfold map2. rewrite map_length, combine_length. reflexivity. Qed.

Lemma gather_map {A} (l : list A) idx d : (forall i, In i idx -> i < length l) ->
  gather l idx = Ok (map (fun i => nth i l d) idx).
Proof.
  intros H. apply mapM_ok. intros i I. unfold get.
  rewrite (nth_error_nth' l d) by auto. reflexivity.
Qed.

Lemma totcost_ok g ss Pg : Forall2 row_is g ss -> length Pg = length g ->
  totcost g Pg = Ok (map2 value ss Pg).
Proof.
  intros F L. pose proof (Forall2_len _ _ _ F) as Ls. unfold totcost.
  destruct (models_ok _ _ F) as [-> ->]. cbn [bind].
  set (ipwl := find (map is_pwl ss)). set (ipol := find (map (fun s => negb (is_pwl s)) ss)).
  set (v i := match nth_error ss i, nth_error Pg i with Some s, Some x => value s x | _, _ => 0%Qc end).
  rewrite (foldM_upd _ v).
  2:{ intros i t I. unfold ipwl in I. apply in_find in I. apply nth_error_map_iff in I as (s & Hs & Es).
      destruct (nth_error_lt g i) as (r & Hr).
      { rewrite Ls. eapply nth_error_some_lt; eauto. }
      destruct (nth_error_lt Pg i) as (x & Hx).
      { rewrite L. eapply nth_error_some_lt; eauto. }
      destruct (Forall2_nth _ _ _ _ _ F Hr) as (s' & Hs' & R). assert (s' = s) by congruence. subst s'.
      destruct s as [cs|pts]; [discriminate|]. destruct R as (R & I & L2).
      unfold get at 1. rewrite Hr. cbn [of_option bind].
      unfold get at 1. rewrite (proj1 (proj2 R)). cbn [of_option bind].
      rewrite segments_nat. unfold get. rewrite Hx.
      destruct pts as [|p [|q tl]]; cbn [length] in L2; try lia.
      pose proof (loop_ok r _ x R I tl 0 p q 0%Qc eq_refl) as LP.
      replace (length (p :: q :: tl) - 1) with (S (length tl)) by (cbn [length]; lia).
      replace (length tl + 1) with (S (length tl)) in LP by lia.
      cbn [of_option bind]. rewrite LP. cbn [bind].
      unfold v. rewrite Hs, Hx. reflexivity. }
  cbn [bind]. set (t1 := scatter _ _ _).
  assert (Lt : length t1 = length g) by (unfold t1; rewrite scatter_length; apply repeat_length).
  assert (T1 : forall j, j < length g -> nth_error t1 j = if in_dec Nat.eq_dec j ipwl then Some (v j) else Some 0%Qc).
  { intros j Hj. unfold t1. rewrite scatter_map; [|apply find_NoDup|rewrite repeat_length; auto].
    destruct (in_dec Nat.eq_dec j ipwl); auto. apply nth_error_repeat. auto. }
  assert (GOAL : forall f, length f = length g ->
     (forall j, j < length g -> nth_error f j = Some (v j)) -> f = map2 value ss Pg).
  { intros f Lf H. apply nth_error_ext. intros j.
    destruct (Nat.lt_ge_cases j (length g)) as [Hj|Hj].
    - rewrite H, nth_map2 by auto. unfold v.
      destruct (nth_error_lt ss j) as (s & ->); [lia|].
      destruct (nth_error_lt Pg j) as (x & ->); [lia|]. reflexivity.
    - rewrite !(proj2 (nth_error_None _ _)); auto.
      + rewrite map2_length. lia.
      + lia. }
  assert (Cpl : forall j, j < length g -> In j ipwl \/ In j ipol).
  { intros j Hj. destruct (nth_error_lt ss j) as (s & Hs); [lia|].
    destruct (is_pwl s) eqn:Es.
    - left. apply in_find. rewrite nth_error_map, Hs. simpl. congruence.
    - right. apply in_find. rewrite nth_error_map, Hs. simpl. rewrite Es. auto. }
  assert (PL : forall j, In j ipol -> exists cs, nth_error ss j = Some (SPoly cs)).
  { intros j I. apply in_find in I. apply nth_error_map_iff in I as ([cs|pts] & Hs & Es).
    - eauto.
    - discriminate. }
  destruct ipol as [|i0 il] eqn:EP.
  { f_equal. apply GOAL; auto. intros j Hj. rewrite T1 by auto.
    destruct (in_dec Nat.eq_dec j ipwl); auto. destruct (Cpl j Hj) as [?|[]]. contradiction. }
  rewrite <- EP in *. clear EP.
  assert (HI : forall i, In i ipol -> i < length g).
  { intros i I. destruct (PL i I) as (cs & Hc). apply nth_error_some_lt in Hc. lia. }
  rewrite (gather_map g ipol []) by auto. rewrite (gather_map Pg ipol 0%Qc) by (rewrite L; auto).
  cbn [bind].
  set (cof i := match nth_error ss i with Some (SPoly cs) => cs | _ => [] end).
  destruct (polycost_ok (map (fun i => nth i g []) ipol) (map cof ipol) (map (fun i => nth i Pg 0%Qc) ipol) 0)
    as (f & Ef & Lf & Vf).
  - clear - F PL HI.
    induction ipol as [|i il IH]; simpl; constructor.
    + destruct (PL i (or_introl eq_refl)) as (cs & Hc). unfold cof. rewrite Hc.
      destruct (nth_error_lt g i) as (r & Hr); [apply HI; left; auto|].
      destruct (Forall2_nth _ _ _ _ _ F Hr) as (s & Hs & R). rewrite Hc in Hs. injection Hs as <-.
      rewrite (nth_error_nth _ _ _ Hr). apply R.
    + apply IH; intros; [apply PL | apply HI]; right; auto.
  - rewrite !map_length. auto.
  - apply Forall_forall. intros cs I. apply in_map_iff in I as (i & <- & I).
    destruct (PL i I) as (cs & Hc). unfold cof. rewrite Hc.
    destruct (nth_error_lt g i) as (r & Hr); [apply HI; auto|].
    destruct (Forall2_nth _ _ _ _ _ F Hr) as (s & Hs & R). rewrite Hc in Hs. injection Hs as <-.
    apply R.
  - rewrite Ef. cbn [bind]. rewrite map_length in Lf. unfold scatter_checked.
    rewrite Lf, Nat.eqb_refl. cbn [negb].
    replace (forallb (fun i => i <? length t1) ipol) with true.
    2:{ symmetry. apply forallb_forall. intros i I. apply Nat.ltb_lt. rewrite Lt. auto. }
    assert (Efv : f = map v ipol).
    { apply nth_error_ext. intros k. destruct (nth_error ipol k) as [i|] eqn:Hk.
      - rewrite nth_error_map, Hk. simpl.
        assert (Hi : i < length g) by (apply HI; eapply nth_error_In; eauto).
        destruct (PL i (nth_error_In _ _ Hk)) as (cs & Hc).
        destruct (nth_error_lt Pg i) as (x & Hx); [lia|].
        destruct (Vf k (cof i) (nth i Pg 0%Qc)) as (pad & ->).
        + rewrite nth_error_map, Hk. reflexivity.
        + rewrite nth_error_map, Hk. reflexivity.
        + simpl pds. rewrite low_app_zeros, low_rev. unfold cof, v.
          rewrite Hc, Hx, (nth_error_nth _ _ _ Hx). reflexivity.
      - rewrite nth_error_map, Hk. apply nth_error_None. rewrite Lf. apply nth_error_None. auto. }
    f_equal. apply GOAL.
    + rewrite scatter_length. auto.
    + intros j Hj. rewrite Efv, scatter_map; [|apply find_NoDup|lia].
      destruct (in_dec Nat.eq_dec j ipol); auto. rewrite T1 by auto.
      destruct (in_dec Nat.eq_dec j ipwl); auto. destruct (Cpl j Hj); contradiction.
Qed.

(** ** convexity: the value is the largest of the segment lines *)
Lemma line_slope_right p q x : (fst p < fst q)%Qc ->
  line p q x = (snd q + slope p q * (x - fst q))%Qc.
Proof. intros H. unfold line, slope. field. apply sub_nonzero; auto. Qed.
Lemma line_slope_left p q x : line p q x = (snd p + slope p q * (x - fst p))%Qc.
Proof. reflexivity. Qed.

Lemma convex_max pts x : x_increasing pts -> convex pts -> 2 <= length pts ->
  forall i p q, nth_error pts i = Some p -> nth_error pts (S i) = Some q ->
  (line p q x <= pwl_at pts x)%Qc.
Proof.
  intros I C L i p q Hp Hq.
  destruct (pwl_at_segment pts x L) as (j & p' & q' & (H1 & H2 & A & B) & E). rewrite E. clear E.
  destruct (Nat.le_gt_cases i j) as [Hij|Hij].
  - (* segments to the left of the responsible one *)
    assert (G : forall d i p q, i + d = j -> nth_error pts i = Some p -> nth_error pts (S i) = Some q ->
              (line p q x <= line p' q' x)%Qc).
    { clear i p q Hp Hq Hij. induction d as [|d IH]; intros i p q Hd Hp Hq.
      - assert (i = j) by lia. subst. replace p' with p by congruence. replace q' with q by congruence.
        apply Qcle_refl.
      - assert (Ls : S (S i) < length pts) by (apply nth_error_some_lt in H2; lia).
        destruct (nth_error_lt _ _ Ls) as (s & Hs).
        eapply Qcle_trans; [|apply (IH (S i) q s); auto; lia].
        assert (PQ : (fst p < fst q)%Qc) by (eapply inc_lt with (i := i) (j := S i); eauto).
        rewrite line_slope_right, (line_slope_left q s) by auto.
        specialize (C i p q s Hp Hq Hs).
        assert (X : (fst q <= x)%Qc).
        { destruct A as [A|A]; [lia|]. destruct (Nat.eq_dec (S i) j) as [<-|NE].
          - replace q with p' by congruence. auto.
          - eapply Qcle_trans; [|exact A]. apply Qclt_le_weak.
            eapply inc_lt with (i := S i) (j := j); eauto. lia. }
        qc_nra. }
    apply (G (j - i) i); auto. lia.
  - assert (G : forall d i p q, j + d = i -> nth_error pts i = Some p -> nth_error pts (S i) = Some q ->
              (line p q x <= line p' q' x)%Qc).
    { clear i p q Hp Hq Hij. induction d as [|d IH]; intros i p q Hd Hp Hq.
      - assert (i = j) by lia. subst. replace p' with p by congruence. replace q' with q by congruence.
        apply Qcle_refl.
      - destruct i as [|i]; [lia|].
        destruct (nth_error_lt pts i) as (o & Ho); [apply nth_error_some_lt in Hp; lia|].
        eapply Qcle_trans; [|apply (IH i o p); auto; lia].
        assert (PQ : (fst o < fst p)%Qc) by (eapply inc_lt with (i := i) (j := S i); eauto).
        rewrite (line_slope_right o p), (line_slope_left p q) by auto.
        specialize (C i o p q Ho Hp Hq).
        assert (X : (x <= fst p)%Qc).
        { destruct B as [B|B]; [apply nth_error_some_lt in Hq; lia|].
          destruct (Nat.eq_dec (S j) (S i)) as [Z|NE].
          - replace p with q' by congruence. auto.
          - eapply Qcle_trans; [exact B|]. apply Qclt_le_weak.
            eapply inc_lt with (i := S j) (j := S i); eauto. lia. }
        qc_nra. }
    apply (G (i - j) i); auto. lia.
Qed.
