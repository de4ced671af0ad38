(** Interface flow limits (C39) and where they go wrong (C69). *)
From Verif Require Import Lib.ListFacts Model.Iflims Spec.IflimsSpec
  Proofs.SparseFacts Proofs.FldFacts Proofs.OrdFacts Proofs.NetworkA Proofs.NetworkB Proofs.NetworkC Proofs.NetworkE Proofs.OpfLinA Proofs.OpfLinB
  Proofs.BlockFacts Proofs.PipsF Proofs.DcOpfA Props.P_Loads.
From Coq Require Import Sorted.
Local Open Scope nat_scope.

Lemma place_nth on i p : NoDup on -> nth_error on p = Some i -> place i on = Some p.
Proof.
  intros ND. revert p. induction on as [|j on IH]; intros [|p] H; cbn in *; try discriminate.
  - injection H as ->. rewrite Nat.eqb_refl. reflexivity.
  - inversion ND; subst. destruct (Nat.eqb_spec j i); [exfalso; subst; eauto using nth_error_In|]. rewrite (IH H3 p H). reflexivity.
Qed.
Lemma place_none on i : ~ In i on -> place i on = None.
Proof. induction on as [|j on IH]; intros H; auto. cbn in *. destruct (Nat.eqb_spec j i); [tauto|]. rewrite IH by tauto. reflexivity. Qed.
Lemma place_some on i p : place i on = Some p -> nth_error on p = Some i.
Proof.
  revert p. induction on as [|j on IH]; intros p H; cbn in H; [discriminate|]. destruct (Nat.eqb_spec j i); [injection H as <-; subst; auto|].
  destruct (place i on) as [q|]; [injection H as <-; apply IH; auto|discriminate].
Qed.

(** ** conversion of the map *)
Definition converted (on : list nat) (r : Z * Z) : Z * Z :=
  (fst r, match place (Z.abs_nat (snd r)) on with Some p => Z.sgn (snd r) * Z.of_nat p | None => 0 end)%Z.
Lemma ext2int_map nl0 on ifmap saved m : NoDup on -> if_ext2int nl0 on ifmap = Ok (saved, m) ->
  saved = map (converted on) ifmap /\ m = filter (fun r => negb (snd r =? 0)%Z) saved /\ Forall (fun r => Z.abs_nat (snd r) < nl0) ifmap.
Proof.
  intros ND H. unfold if_ext2int in H. apply bind_ok in H as (e2i & He & H). apply bind_ok in H as (new & Hn & H). injection H as <- <-.
  apply scatter_checked_ok in He as (L & RG & ->).
  assert (V : forall i, i < nl0 -> nth_error (scatter (repeat 0%Z nl0) on (map Z.of_nat (seq 0 (length on)))) i =
     Some (match place i on with Some p => Z.of_nat p | None => 0%Z end)).
  { intros i Hi. destruct (in_dec Nat.eq_dec i on) as [I|I].
    - apply In_nth_error in I as (p & Hp). rewrite (place_nth _ _ _ ND Hp).
      apply scatter_at with (k := p); auto.
      2:{ rewrite repeat_length. auto. }
      + rewrite nth_error_map. pose proof (nth_error_some_lt _ _ _ Hp) as Lp. rewrite (nth_error_nth' (seq _ _) 0) by (rewrite seq_length; lia). rewrite seq_nth by lia. reflexivity.
    - rewrite (place_none _ _ I). rewrite scatter_other by auto. apply nth_error_repeat. auto. }
  assert (Q : new = map (converted on) ifmap /\ Forall (fun r => Z.abs_nat (snd r) < nl0) ifmap).
  { clear - V Hn. revert new Hn. induction ifmap as [|r t IH]; intros new Hn; cbn [mapM] in Hn; [injection Hn as <-; auto|].
    apply bind_ok in Hn as (a & Ha & Hn). apply bind_ok in Hn as (b & Hb & Hn). injection Hn as <-.
    apply bind_ok in Ha as (v & Hv & Ha). injection Ha as <-. apply get_ok in Hv. destruct (IH b Hb) as (-> & E).
    assert (Lr : Z.abs_nat (snd r) < nl0). { apply nth_error_some_lt in Hv. rewrite scatter_length, repeat_length in Hv. auto. }
    rewrite V in Hv by auto. injection Hv as <-. split; [|constructor; auto]. cbn [map]. f_equal. unfold converted. f_equal.
    destruct (place _ on); auto. lia. }
  destruct Q as (-> & Q). auto.
Qed.

Lemma unique_sorted l : StronglySorted Z.lt l -> unique_z l = l.
Proof.
  intros H. induction H as [|a l Hl IH Ha]; auto. unfold unique_z in *. cbn [fold_right]. rewrite IH. destruct l as [|b l]; auto.
  cbn [insert_z]. apply Forall_cons_iff in Ha as (Hb & _). destruct (Z.ltb_spec a b); [auto|lia].
Qed.
Lemma insert_in a l x : In x (insert_z a l) <-> x = a \/ In x l.
Proof.
  induction l as [|b l IH]; cbn [insert_z]; [simpl; intuition congruence|].
  destruct (Z.ltb_spec a b); [simpl; intuition congruence|].
  destruct (Z.eqb_spec a b); [simpl; intuition congruence|]. cbn [In]. rewrite IH. intuition congruence.
Qed.
Lemma insert_sorted a l : StronglySorted Z.lt l -> StronglySorted Z.lt (insert_z a l).
Proof.
  induction 1 as [|b l H IH A]; cbn [insert_z]; [repeat constructor|].
  destruct (Z.ltb_spec a b) as [L|L].
  - constructor; [constructor; auto|]. constructor; auto. eapply Forall_impl; [|exact A]. intros; simpl in *; lia.
  - destruct (Z.eqb_spec a b) as [E|E]; [constructor; auto|]. constructor; auto.
    apply Forall_forall. intros x I. apply insert_in in I as [->|I]; [lia|]. rewrite Forall_forall in A. auto.
Qed.
(** sorted lists are determined by their elements *)
Lemma sorted_eq l l' : StronglySorted Z.lt l -> StronglySorted Z.lt l' -> (forall x, In x l <-> In x l') -> l = l'.
Proof.
  intros H. revert l'. induction H as [|a l H IH A]; intros l' H' E.
  - destruct l' as [|b l']; auto. destruct (proj2 (E b)); left; auto.
  - destruct H' as [|b l' H' A']; [destruct (proj1 (E a)); left; auto|].
    rewrite Forall_forall in A, A'.
    assert (a = b) as ->.
    { destruct (proj1 (E a) (or_introl eq_refl)) as [|I1]; [auto|].
      destruct (proj2 (E b) (or_introl eq_refl)) as [|I2]; [auto|].
      apply A in I2. apply A' in I1. lia. }
    f_equal. apply IH; auto. intros x. split; intros I.
    + destruct (proj1 (E x) (or_intror I)) as [<-|]; auto. apply A in I. lia.
    + destruct (proj2 (E x) (or_intror I)) as [<-|]; auto. apply A' in I. lia.
Qed.
Lemma unique_is l nums : StronglySorted Z.lt nums -> (forall x, In x nums <-> In x l) -> unique_z l = nums.
Proof.
  intros S E. apply sorted_eq; auto.
  - clear E. unfold unique_z. induction l; [constructor|]. cbn [fold_right]. apply insert_sorted. auto.
  - intros x. rewrite E. unfold unique_z. clear. induction l as [|a l IH]; [tauto|].
    cbn [fold_right]. rewrite insert_in, IH. simpl. intuition congruence.
Qed.

Section P_Iflims.
Context {K : Type} {F : Fld K}.
Add Field KF : (@f_ok K F).

Lemma le_div_pos (a b : K) : lt 0%K b -> (le 0%K (a / b)%K <-> le 0%K a).
Proof.
  intros PB. assert (b <> 0%K) by (apply pos_nz; auto). split; intros H0; [|apply div_nn; auto].
  replace a with (a / b * b)%K by (field; auto). apply mul_nn; auto. apply lt_le. auto.
Qed.
Lemma mul_1_sgn (a : K) : (fofZ 1 * a = a)%K.
Proof. rewrite fofZ_1. ring. Qed.
Lemma mul_m1_sgn (a : K) : (fofZ (-1) * a = - a)%K.
Proof.
  pose proof (fofZ_add (K := K) (-1) 1) as E. cbn [Z.add Z.pos_sub] in E. rewrite fofZ_0, fofZ_1 in E.
  assert (X : fofZ (-1) = ((fofZ (-1) + 1) - 1)%K) by ring. rewrite <- E in X. rewrite X. ring.
Qed.
(** sum over the converted map = sum over the user's map *)
Lemma sum_conv (g : Z -> K) (fl : nat -> K) on ifmap num : (forall s p, s <> 0%Z -> g (Z.sgn s * Z.of_nat (S p))%Z = (fofZ (Z.sgn s) * fl (S p))%K) ->
  lsum g (map snd (filter (fun r => (fst r =? num)%Z) (filter (fun r => negb (snd r =? 0)%Z) (map (converted on) ifmap))))
  = if_flow fl on ifmap num.
Proof.
  intros G. unfold if_flow. induction ifmap as [|r t IH]; auto. cbn [map filter lsum]. rewrite <- IH. clear IH. destruct r as (k & b).
  unfold converted at 1 2. cbn [fst snd]. destruct (place (Z.abs_nat b) on) as [[|p]|].
  - rewrite Z.mul_0_r. cbn [Z.eqb negb]. destruct (k =? num)%Z; ring.
  - destruct (Z.eqb_spec (Z.sgn b * Z.of_nat (S p)) 0) as [E|E]; cbn [negb].
    + assert (Z.sgn b = 0%Z) as -> by (destruct (Z.sgn b); lia). rewrite fofZ_0. destruct (k =? num)%Z; ring.
    + cbn [filter fst]. destruct (k =? num)%Z; [|ring]. cbn [map lsum snd]. rewrite G by (intros ->; apply E; reflexivity). reflexivity.
  - cbn [Z.eqb negb]. destruct (k =? num)%Z; ring.
Qed.
Lemma abs_sgn_pos s p : s <> 0%Z -> Z.abs_nat (Z.sgn s * Z.of_nat (S p)) = S p /\ Z.sgn (Z.sgn s * Z.of_nat (S p)) = Z.sgn s.
Proof. intros H. destruct s; cbn [Z.sgn]; lia. Qed.

Lemma if_row_ok Bf Pfinj ifmap k num es bk : if_row true Bf Pfinj ifmap k num = Ok (es, bk) -> wf Bf ->
  let br := map snd (filter (fun r => (fst r =? num)%Z) ifmap) in
  Forall (fun b => Z.abs_nat b < length Pfinj) br /\
  Forall (fun e => erow e = k /\ ecol e < ncols Bf) es /\
  (forall x, lsum (fun e => ev e * nth (ecol e) x 0)%K es = lsum (fun b => fofZ (Z.sgn b) * mulrow Bf x (Z.abs_nat b))%K br) /\
  bk = lsum (fun b => fofZ (Z.sgn b) * nth (Z.abs_nat b) Pfinj 0)%K br.
Proof.
  intros H WB br. unfold if_row in H. cbv zeta in H. fold br in H. 
  assert (Q : forall br (es0 : list (entry K)) bk0, foldM (fun acc b =>
           _ <- guard true IndexError ;; p <- get Pfinj (Z.abs_nat b) ;;
           Ok (fst acc ++ map (fun e => Ent k (ecol e) (sgn_k b * ev e)%K) (filter (fun e => erow e =? Z.abs_nat b) (ents Bf)),
               (snd acc + sgn_k b * p)%K)) br (es0, bk0) = Ok (es, bk) ->
     Forall (fun e => erow e = k /\ ecol e < ncols Bf) es0 ->
     Forall (fun b => Z.abs_nat b < length Pfinj) br /\ Forall (fun e => erow e = k /\ ecol e < ncols Bf) es /\
     (forall x, lsum (fun e => ev e * nth (ecol e) x 0)%K es = (lsum (fun e => ev e * nth (ecol e) x 0)%K es0 + lsum (fun b => fofZ (Z.sgn b) * mulrow Bf x (Z.abs_nat b))%K br)%K) /\
     bk = (bk0 + lsum (fun b => fofZ (Z.sgn b) * nth (Z.abs_nat b) Pfinj 0)%K br)%K).
  { clear H br. induction br as [|b br IH]; intros es0 bk0 H W0; cbn [foldM] in H.
    - injection H as -> ->. split; auto. split; auto. split; [intros x|]; cbn [lsum]; ring.
    - apply bind_ok in H as (acc & Ha & H). cbn [guard bind] in Ha. apply bind_ok in Ha as (p & Hp & Ha). injection Ha as <-. cbn [fst snd] in H.
      apply get_ok in Hp. apply IH in H as (I1 & I2 & I3 & I4).
      + split; [constructor; auto; eapply nth_error_some_lt; eauto|]. split; auto. split.
        * intros x. rewrite I3, lsum_app. cbn [lsum]. rewrite lsum_map. cbn [ev ecol].
          assert (lsum (fun e => (sgn_k b * ev e * nth (ecol e) x 0)%K) (filter (fun e => erow e =? Z.abs_nat b) (ents Bf)) = (fofZ (Z.sgn b) * mulrow Bf x (Z.abs_nat b))%K) as ->; [|ring].
          unfold mulrow, sgn_k. generalize (ents Bf). clear. intros ent. induction ent as [|e l IHe]; cbn [filter lsum]; [ring|]. destruct (erow e =? Z.abs_nat b); cbn [lsum]; rewrite ?IHe; ring.
        * rewrite I4. cbn [lsum]. rewrite (nth_error_nth _ _ _ Hp). unfold sgn_k. ring.
      + apply Forall_app. split; auto. apply Forall_map. apply Forall_forall. intros e I. cbn [erow ecol]. apply filter_In in I as (I & _).
        unfold wf in WB. rewrite Forall_forall in WB. split; auto. apply WB. auto. }
  destruct (Q br [] 0%K H) as (Q1 & Q2 & Q3 & Q4); auto. split; auto. split; auto. split.
  - intros x. rewrite Q3. cbn [lsum]. ring.
  - rewrite Q4. ring.
Qed.

Lemma row_concat (rows : list (list (entry K))) nr nc x k es : (forall p es, nth_error rows p = Some es -> Forall (fun e => erow e = p /\ ecol e < nc) es) ->
  nth_error rows k = Some es -> mulrow (SM nr nc (concat rows)) x k = lsum (fun e => ev e * nth (ecol e) x 0)%K es.
Proof.
  intros H Hk. unfold mulrow. cbn [ents].
  assert (Q : forall rows a, (forall p es, nth_error rows p = Some es -> Forall (fun e => erow e = a + p /\ ecol e < nc) es) ->
     lsum (fun e => if erow e =? k then ev e * nth (ecol e) x 0 else 0)%K (concat rows)
     = if a <=? k then match nth_error rows (k - a) with Some es => lsum (fun e => ev e * nth (ecol e) x 0)%K es | None => 0%K end else 0%K).
  { clear. induction rows as [|r rows IH]; intros a H; cbn [concat].
    - cbn [lsum]. destruct (a <=? k); auto. destruct (k - a); auto.
    - rewrite lsum_app. rewrite (IH (S a)) by (intros p es Hp; specialize (H (S p) es Hp); eapply Forall_impl; [|exact H]; cbn; intros e (E & E2); lia).
      pose proof (H 0 r eq_refl) as H0. destruct (Nat.leb_spec a k) as [L|L].
      + destruct (Nat.eq_dec a k) as [->|NE].
        * rewrite Nat.sub_diag. cbn [nth_error]. destruct (Nat.leb_spec (S k) k); [lia|].
          rewrite (lsum_ext (fun e => if erow e =? k then _ else _) (fun e => ev e * nth (ecol e) x 0)%K); [ring|].
          intros e I. rewrite Forall_forall in H0. destruct (H0 e I) as (-> & _). rewrite Nat.add_0_r, Nat.eqb_refl. reflexivity.
        * destruct (Nat.leb_spec (S a) k); [|lia]. replace (k - a) with (S (k - S a)) by lia. cbn [nth_error].
          rewrite (lsum_ext (fun e => if erow e =? k then _ else _) (fun e => 0%K) r).
          { rewrite lsum_0. ring. }
          intros e I. rewrite Forall_forall in H0. destruct (H0 e I) as (-> & _). destruct (Nat.eqb_spec (a + 0) k); [lia|reflexivity].
      + destruct (Nat.leb_spec (S a) k); [lia|]. rewrite (lsum_ext (fun e => if erow e =? k then _ else _) (fun e => 0%K) r).
        { rewrite lsum_0. ring. }
        intros e I. rewrite Forall_forall in H0. destruct (H0 e I) as (-> & _). destruct (Nat.eqb_spec (a + 0) k); [lia|reflexivity]. }
  rewrite (Q rows 0 H), Nat.sub_0_r, Hk. reflexivity.
Qed.

(** ** the constraint *)
Theorem C39_constraint nl0 on ifmap saved m (base : K) bus branch lims A l u Va :
  NoDup on -> length branch = length on ->
  if_ext2int nl0 on ifmap = Ok (saved, m) -> if_formulation true base bus branch m lims = Ok (A, l, u) ->
  StronglySorted Z.lt (map fst lims) -> lt 0%K base ->
  nrows A = length lims /\ ncols A = length bus /\
  (rows_in A l u Va <->
   forall num lim, In (num, lim) lims -> within_lim lim (base * if_flow (fun p => dc_flow (nth p branch []) Va) on ifmap num)%K).
Proof.
  intros ND LB HE HF SS PB. apply ext2int_map in HE as (-> & -> & RG); auto.
  unfold if_formulation in HF. apply bind_ok in HF as ((((Bb & Bf) & Pbi) & Pfi) & HB & HF). apply makeBdc_ok in HB.
  rewrite unique_sorted in HF by auto. rewrite map_length in HF. apply bind_ok in HF as (rows & HR & HF). injection HF as <- <- <-.
  pose proof (bs_Bf _ _ _ _ _ _ HB) as (WB & NRB & NCB).
  cbn [nrows ncols]. split; auto. split; auto.
  set (mm := filter (fun r => negb (snd r =? 0)%Z) (map (converted on) ifmap)) in *.
  set (fl := fun p => dc_flow (nth p branch []) Va).
  assert (LP : length Pfi = length branch) by (rewrite (bs_Pfi _ _ _ _ _ _ HB); apply map_length).
  assert (ROW : forall k num lo up, nth_error lims k = Some (num, (lo, up)) -> exists es l u,
      nth_error rows k = Some (es, (l, u)) /\ Forall (fun e => erow e = k /\ ecol e < ncols Bf) es /\
      (within_lim (l, u) (lsum (fun e => ev e * nth (ecol e) Va 0)%K es) <-> within_lim (lo, up) (base * if_flow fl on ifmap num)%K)).
  { intros k num lo up Hk. pose proof (nth_error_some_lt _ _ _ Hk) as Lk.
    assert (Hc : nth_error (combine (seq 0 (length lims)) (map fst lims)) k = Some (k, num)).
    { rewrite nth_error_combine, nth_error_map, Hk, (nth_error_nth' (seq _ _) 0), seq_nth by (rewrite ?seq_length; auto). reflexivity. }
    destruct (mapM_nth _ _ _ _ _ HR Hc) as (row & Hrow & Hn). cbn [fst snd] in Hrow.
    apply bind_ok in Hrow as ((es & bk) & Hes & Hrow). apply bind_ok in Hrow as ((num' & (lo' & up')) & Hg & Hrow).
    apply get_ok in Hg. rewrite Hk in Hg. injection Hg as <- <- <-.
    apply bind_ok in Hrow as (l & Hl & Hrow). apply bind_ok in Hrow as (u & Hu & Hrow). injection Hrow as <-.
    exists es, l, u. split; auto. destruct (if_row_ok _ _ _ _ _ _ _ Hes WB) as (R1 & R2 & R3 & R4). split; auto. rewrite R3.
    set (br := map snd (filter (fun r => (fst r =? num)%Z) mm)) in *.
    assert (V : lsum (fun b => fofZ (Z.sgn b) * mulrow Bf Va (Z.abs_nat b))%K br = (if_flow fl on ifmap num - bk)%K).
    { rewrite R4. rewrite <- (sum_conv (fun b => fofZ (Z.sgn b) * fl (Z.abs_nat b))%K fl on ifmap num).
      2:{ intros z p NZ. destruct (abs_sgn_pos z p NZ) as (-> & ->). reflexivity. }
      fold mm. fold br. rewrite <- lsum_sub. apply lsum_ext. intros b Ib. rewrite Forall_forall in R1. pose proof (R1 b Ib) as Lb.
      rewrite LP in Lb. destruct (nth_error_lt branch _ Lb) as (r & Hr). rewrite (bf_row _ _ _ _ _ _ HB Va _ _ Hr).
      unfold fl. rewrite (nth_error_nth _ _ [] Hr). ring. }
    rewrite V. set (f := if_flow fl on ifmap num). unfold within_lim. cbn [fst snd].
    assert (NB : base <> 0%K) by (intros ->; unfold lt in PB; rewrite f_lt_irrefl in PB; discriminate).
    assert (SC : forall a : K, (le (a / base - bk) (f - bk) <-> le a (base * f))%K /\ (le (f - bk) (a / base - bk) <-> le (base * f) a)%K).
    { intros a. split.
      - rewrite (le_sub (a / base - bk)%K), (le_sub a). replace (f - bk - (a / base - bk))%K with ((base * f - a) / base)%K by (field; auto). apply le_div_pos. auto.
      - rewrite (le_sub (f - bk)%K), (le_sub (base * f)%K). replace (a / base - bk - (f - bk))%K with ((a - base * f) / base)%K by (field; auto). apply le_div_pos. auto. }
    assert (PU : forall e e', lim_pu base bk e = Ok e' -> e' = match e with EFin a => EFin (a / base - bk)%K | _ => e end).
    { intros e e' E. unfold lim_pu in E. destruct (feqb base 0%K) eqn:EB; [apply feqb_ok in EB; congruence|]. destruct e; [injection E as <-; auto| |];
        destruct (fltb 0%K base); try discriminate; injection E as <-; auto. }
    apply PU in Hl, Hu. subst l u. destruct lo as [a| |]; destruct up as [b| |]; cbn [above_lo below_up]; try (pose proof (SC a)); try (pose proof (SC b)); tauto. }
  assert (LR : length rows = length lims). { apply mapM_length in HR. rewrite HR, combine_length, seq_length, map_length. lia. }
  assert (RV : forall k es lu, nth_error rows k = Some (es, lu) -> row_val (SM (length lims) (ncols Bf) (concat (map fst rows))) Va k = lsum (fun e => ev e * nth (ecol e) Va 0)%K es).
  { intros k es lu Hk.
    assert (HE : forall p es, nth_error (map fst rows) p = Some es -> Forall (fun e => erow e = p /\ ecol e < ncols Bf) es).
    { intros p es' Hp. rewrite nth_error_map in Hp. destruct (nth_error rows p) as [(e0 & lu0)|] eqn:Ep; [|discriminate]. injection Hp as <-.
      pose proof (nth_error_some_lt _ _ _ Ep) as Lp. rewrite LR in Lp. destruct (nth_error_lt lims p Lp) as ((num & (lo & up)) & Hl).
      destruct (ROW p num lo up Hl) as (es1 & l1 & u1 & E1 & E2 & _). rewrite E1 in Ep. injection Ep as <- _. auto. }
    rewrite row_val_mulrow.
    - apply row_concat; auto. rewrite nth_error_map, Hk. reflexivity.
    - unfold wf. cbn [ents nrows ncols]. apply Forall_forall. intros e I. apply in_concat in I as (es' & I1 & I2). apply In_nth_error in I1 as (p & Hp).
      pose proof (HE p es' Hp) as Q. rewrite Forall_forall in Q. destruct (Q e I2) as (-> & Q2). split; auto.
      apply nth_error_some_lt in Hp. rewrite map_length in Hp. lia. }
  unfold rows_in. cbn [nrows]. split.
  - intros H num (lo & up) I. apply In_nth_error in I as (k & Hk). pose proof (nth_error_some_lt _ _ _ Hk) as Lk.
    destruct (ROW k num lo up Hk) as (es & l & u & E1 & _ & E2). apply E2. specialize (H k Lk). rewrite (RV _ _ _ E1) in H.
    rewrite (nth_error_nth (map _ rows) k ENeg (x := l)), (nth_error_nth (map _ rows) k EPos (x := u)) in H by (rewrite nth_error_map, E1; reflexivity). exact H.
  - intros H k Lk. destruct (nth_error_lt lims k Lk) as ((num & (lo & up)) & Hk). destruct (ROW k num lo up Hk) as (es & l & u & E1 & _ & E2).
    rewrite (RV _ _ _ E1). rewrite (nth_error_nth (map _ rows) k ENeg (x := l)), (nth_error_nth (map _ rows) k EPos (x := u)) by (rewrite nth_error_map, E1; reflexivity).
    apply E2. apply H. eapply nth_error_In; eauto.
Qed.

(** ** reported flows and map *)
Theorem C39_reported nl0 on ifmap saved m branch lims map' P nums : NoDup on ->
  if_ext2int nl0 on ifmap = Ok (saved, m) -> if_int2ext (K := K) true saved m branch lims = Ok (map', P) ->
  StronglySorted Z.lt nums -> (forall x, In x nums <-> In x (map fst lims)) ->
  map' = saved /\ length P = length nums /\
  forall k num, nth_error nums k = Some num -> nth_error P k = Some (if_flow (fun p => cell (nth p branch []) PF) on ifmap num).
Proof.
  intros ND HE H SS SA. apply ext2int_map in HE as (-> & -> & RG); auto. unfold if_int2ext in H. rewrite (unique_is _ _ SS SA) in H.
  apply bind_ok in H as (P' & HP & H). injection H as <- <-. split; auto. split; [apply mapM_length in HP; auto|].
  intros k num Hk. destruct (mapM_nth _ _ _ k num HP Hk) as (v & Hv & Hn). rewrite Hn. f_equal.
  apply bind_ok in Hv as (vs & Hvs & Hv). injection Hv as <-.
  rewrite <- (sum_conv (fun b => fofZ (Z.sgn b) * cell (nth (Z.abs_nat b) branch []) PF)%K _ on ifmap num).
  2:{ intros z p NZ. destruct (abs_sgn_pos z p NZ) as (-> & ->). reflexivity. }
  set (br := map snd _) in *. clearbody br. clear - Hvs. revert vs Hvs. induction br as [|b br IH]; intros vs Hvs; cbn [mapM] in Hvs; [injection Hvs as <-; reflexivity|].
  apply bind_ok in Hvs as (a & Ha & Hvs). apply bind_ok in Hvs as (vs' & Hvs' & Hvs). injection Hvs as <-. cbn [lsum]. rewrite (IH _ Hvs').
  cbn [guard bind] in Ha. apply bind_ok in Ha as (r & Hr & Ha). apply bind_ok in Ha as (q & Hq & Ha). injection Ha as <-.
  apply get_ok in Hr, Hq. rewrite (nth_error_nth _ _ [] Hr). unfold cell. rewrite (nth_error_nth _ _ _ Hq). reflexivity.
Qed.
End P_Iflims.

(** with every branch in service the map comes back as it was *)
Theorem C39_map nl0 ifmap saved m : if_ext2int nl0 (seq 0 nl0) ifmap = Ok (saved, m) -> saved = ifmap.
Proof.
  intros H. apply ext2int_map in H as (-> & _ & RG); [|apply seq_NoDup].
  induction RG as [|(k & b) t Hr _ IH]; auto. cbn [map]. rewrite IH. f_equal. unfold converted. cbn [fst snd] in *.
  rewrite (place_nth (seq 0 nl0) (Z.abs_nat b) (Z.abs_nat b)); [|apply seq_NoDup|].
  - f_equal. lia.
  - rewrite (nth_error_nth' _ 0), seq_nth by (rewrite ?seq_length; auto). reflexivity.
Qed.

(** * C69 *)
(** the map returned lists positions among the in-service branches, signed, and zero for branches out of service *)
Theorem C69_map_partial nl0 on ifmap saved m : NoDup on -> if_ext2int nl0 on ifmap = Ok (saved, m) -> length saved = length ifmap /\
  forall j k b, nth_error ifmap j = Some (k, b) -> exists b', nth_error saved j = Some (k, b') /\
    (~ In (Z.abs_nat b) on -> b' = 0%Z) /\ (forall p, nth_error on p = Some (Z.abs_nat b) -> b' = (Z.sgn b * Z.of_nat p)%Z).
Proof.
  intros ND H. apply ext2int_map in H as (-> & _ & _); auto. split; [apply map_length|]. intros j k b Hj.
  rewrite nth_error_map, Hj. eexists. split; [reflexivity|]. cbn [fst snd]. split.
  - intros N. rewrite place_none by auto. reflexivity.
  - intros p Hp. rewrite (place_nth _ _ _ ND Hp). reflexivity.
Qed.
(** the flow that is limited is the right one for interfaces without the first in-service branch *)
Theorem C69_flow_partial {K} {F : Fld K} (fl : nat -> K) on ifmap num : StronglySorted Nat.lt on ->
  (forall b, In (num, b) ifmap -> nth_error on 0 <> Some (Z.abs_nat b)) -> if_flow fl on ifmap num = if_flow_all fl on ifmap num.
Proof.
  intros SS H. unfold if_flow, if_flow_all. apply lsum_ext. intros (k & b) I. cbn [fst snd]. destruct (Z.eqb_spec k num) as [->|]; auto.
  destruct (place (Z.abs_nat b) on) as [[|p]|] eqn:E; auto; apply place_some in E; [exfalso; exact (H b I E)|].
  assert (b <> 0%Z) as NZ.
  { intros ->. cbn in E. inversion SS as [|a l S1 S2 E3]; subst on; [destruct p; discriminate|]. cbn in E. rewrite Forall_forall in S2. apply nth_error_In in E. apply S2 in E. lia. }
  destruct b; [congruence| |]; cbn [Z.sgn Z.ltb Z.compare]; [apply mul_1_sgn|apply mul_m1_sgn].
Qed.

(** ** examples: four buses in a ring, four branches *)
Definition i_bus : list (list Qc) := map (map (fun z => lq z 1)) [[0; 3]; [1; 1]; [2; 1]; [3; 1]]%Z.
Definition i_br (f t : Z) (x : Qc) (pf : Z) : list Qc :=
  [lq f 1; lq t 1; lq 0 1; x] ++ map (fun z => lq z 1) [0; 0; 0; 0; 0; 0; 1; -360; 360; pf]%Z.
Definition i_branch : list (list Qc) := [i_br 0 1 (lq 1 10) 30; i_br 1 2 (lq 1 5) 10; i_br 3 2 (lq 1 4) (-5); i_br 3 0 (lq 1 10) (-20)]%Z.
(** interface 1: branches 1 and, reversed, 2; interface 7: branch 3 *)
Definition i_map : list (Z * Z) := [(1, 1); (7, 3); (1, -2)]%Z.
Definition i_lims : list (Z * (ext Qc * ext Qc)) := [(1%Z, (EFin (lq (-10) 1), EFin (lq 20 1))); (7%Z, (ENeg, EFin (lq 15 1)))].
Definition i_va : list Qc := map (fun z => lq z 100) [0; -3; -5; -2]%Z.
Definition ql (a : ext Qc) : option Q := match a with EFin q => Some (this q) | _ => None end.
Example C39_example :
  match if_ext2int 4 [0; 1; 2; 3] i_map with
  | Ok (saved, m) =>
      match if_formulation true (lq 100 1) i_bus i_branch m i_lims, if_int2ext true saved m i_branch i_lims with
      | Ok (A, l, u), Ok (mp, P) => (map this (map (row_val A i_va) [0; 1]), map ql l, map ql u, mp, map this P)
      | _, _ => ([], [], [], [], [])
      end
  | _ => ([], [], [], [], [])
  end = ([-1 # 50; -1 # 5]%Q, [Some (-1 # 10); None]%Q, [Some (1 # 5); Some (3 # 20)]%Q, i_map, [15; -20]%Q).
Proof. vm_compute. reflexivity. Qed.
(** a repeated and unordered list of limits: rows for interfaces 1 and 7 *)
Example C69_example_rows :
  match if_formulation true (lq 100 1) i_bus i_branch i_map (i_lims ++ i_lims) with
  | Ok (A, _, _) => nrows A = 2
  | Err _ => False
  end.
Proof. vm_compute. reflexivity. Qed.
Example C39_example_sorted : StronglySorted Z.lt (map fst i_lims).
Proof. repeat constructor. Qed.

(** the first branch is dropped, the map comes back changed, and limits of unsorted rows belong to other interfaces *)
Theorem C69_refuted :
  (exists saved P, if_ext2int 4 [0; 1; 2; 3] [(1, 0); (1, 1)]%Z = Ok (saved, [(1, 1)]%Z) /\
     if_int2ext true saved [(1, 1)]%Z i_branch [(1%Z, (ENeg, EPos))] = Ok (saved, P) /\
     map this P = [10]%Q /\ this (if_flow_all (fun p => cell (nth p i_branch []) PF) [0; 1; 2; 3] [(1, 0); (1, 1)]%Z 1) = 40%Q) /\
  (exists saved m, if_ext2int 4 [1; 2; 3] [(1, 1); (1, -3)]%Z = Ok (saved, m) /\ saved = [(1, 0); (1, -2)]%Z /\ m = [(1, -2)]%Z) /\
  (exists A l u, if_formulation true (lq 100 1) i_bus i_branch i_map
      [(7%Z, (ENeg, EFin (lq 15 1))); (1%Z, (EFin (lq (-10) 1), EFin (lq 20 1)))] = Ok (A, l, u) /\ map ql u = [Some (3 # 20); Some (1 # 5)]%Q).
Proof.
  split; [|split].
  - eexists _, _. split; [reflexivity|]. split; [|split]; [vm_compute; reflexivity|vm_compute; reflexivity|vm_compute; reflexivity].
  - eexists _, _. split; [reflexivity|]. split; reflexivity.
  - eexists _, _, _. split; [vm_compute; reflexivity|]. vm_compute. reflexivity.
Qed.
(** whatever the order of the limit rows, there is one constraint row for each interface named, not for each row *)
Theorem C69_rows_partial {K} {F : Fld K} (base : K) bus branch ifmap lims A l u nums :
  if_formulation true base bus branch ifmap lims = Ok (A, l, u) ->
  StronglySorted Z.lt nums -> (forall x, In x nums <-> In x (map fst lims)) ->
  nrows A = length nums /\ length l = length nums /\ length u = length nums.
Proof.
  intros H SS SA. unfold if_formulation in H. apply bind_ok in H as ((((Bb & Bf) & Pbi) & Pfi) & HB & H).
  rewrite (unique_is _ _ SS SA) in H. apply bind_ok in H as (rows & HR & H). injection H as <- <- <-.
  apply mapM_length in HR. rewrite combine_length, seq_length, Nat.min_id in HR. cbn [nrows]. rewrite !map_length. auto.
Qed.
(** a map of floats never gets past the formulation *)
Theorem C69_float_map {K} {F : Fld K} base bus branch ifmap (lims : list (Z * (ext K * ext K))) x num b l : StronglySorted Z.lt (map fst lims) ->
  In (num, l) lims -> In (num, b) ifmap -> if_formulation false base bus branch ifmap lims <> Ok x.
Proof.
  intros SS I1 I2 H. unfold if_formulation in H. apply bind_ok in H as ((((Bb & Bf) & Pbi) & Pfi) & HB & H).
  rewrite unique_sorted, map_length in H by auto. apply bind_ok in H as (rows & HR & H). apply In_nth_error in I1 as (k & Hk).
  pose proof (nth_error_some_lt _ _ _ Hk) as Lk.
  assert (Hc : nth_error (combine (seq 0 (length lims)) (map fst lims)) k = Some (k, num)).
  { rewrite nth_error_combine, nth_error_map, Hk, (nth_error_nth' (seq _ _) 0), seq_nth by (rewrite ?seq_length; auto). reflexivity. }
  destruct (mapM_nth _ _ _ _ _ HR Hc) as (row & Hrow & _). cbn [fst snd] in Hrow. apply bind_ok in Hrow as ((es & bk) & Hes & _).
  unfold if_row in Hes. assert (I3 : In b (map snd (filter (fun r => (fst r =? num)%Z) ifmap))).
  { apply in_map_iff. exists (num, b). split; auto. apply filter_In. split; auto. apply Z.eqb_refl. }
  destruct (map snd (filter (fun r => (fst r =? num)%Z) ifmap)); [destruct I3|]. discriminate.
Qed.
Print Assumptions C39_constraint.
Print Assumptions C39_reported.
Print Assumptions C69_refuted.
Print Assumptions C69_rows_partial.
