(** The piecewise-linear cost constraints of makeAy. *)
From Verif Require Import Lib.ListFacts Model.OpfLin Spec.OpfSpec Proofs.LinAlgFacts Proofs.SparseFacts
  Proofs.FldFacts Proofs.OrdFacts Proofs.NetworkB Proofs.BlockFacts Proofs.MatFacts Proofs.PipsF.
Local Open Scope nat_scope.

Lemma mapM_inv {A B} (f : A -> result B) (g : A -> B) l l' :
  (forall x y, In x l -> f x = Ok y -> y = g x) -> mapM f l = Ok l' -> l' = map g l.
Proof.
  revert l'. induction l as [|a l IH]; intros l' H E; simpl in E.
  - injection E as <-. reflexivity.
  - apply bind_ok in E as (y & Hy & E). apply bind_ok in E as (ys & Hys & E). injection E as <-.
    simpl. f_equal; [apply H; simpl; auto|]. apply IH; auto. intros; apply H; simpl; auto.
Qed.

Lemma find_from_filter {A} (f : A -> bool) d l k :
  find_from k (map f l) = filter (fun i => f (nth (i - k) l d)) (seq k (length l)).
Proof.
  revert k. induction l as [|a l IH]; intros k; simpl; auto.
  rewrite Nat.sub_diag. rewrite IH.
  assert (filter (fun i => f (nth (i - S k) l d)) (seq (S k) (length l))
          = filter (fun i => f match i - k with 0 => a | S m => nth m l d end) (seq (S k) (length l))) as E.
  { apply filter_ext_in. intros i Hi. apply in_seq in Hi. replace (i - k) with (S (i - S k)) by lia. reflexivity. }
  rewrite E. destruct (f a); reflexivity.
Qed.

Lemma find_filter {A} (f : A -> bool) d l :
  find (map f l) = filter (fun i => f (nth i l d)) (seq 0 (length l)).
Proof.
  unfold find. rewrite (find_from_filter f d). apply filter_ext. intros i. rewrite Nat.sub_0_r. reflexivity.
Qed.

Lemma Forall2_app_eq {A B} (P : A -> B -> Prop) l1 l2 r1 r2 : length l1 = length r1 ->
  (Forall2 P (l1 ++ l2) (r1 ++ r2) <-> Forall2 P l1 r1 /\ Forall2 P l2 r2).
Proof.
  revert r1. induction l1 as [|a l1 IH]; intros [|b r1] H; simpl in *; try discriminate.
  - split; [auto|tauto].
  - split.
    + intros H1. inversion H1 as [|? ? ? ? P1 P2]; subst. apply IH in P2; [|lia]. destruct P2. auto.
    + intros [H1 H2]. inversion H1; subst. constructor; auto. apply IH; auto.
Qed.

Lemma Forall2_map_lr {A B C} (P : B -> C -> Prop) (f : A -> B) (g : A -> C) l :
  Forall2 P (map f l) (map g l) <-> Forall (fun a => P (f a) (g a)) l.
Proof.
  induction l; simpl; split; intros H; auto; inversion H; subst; constructor; tauto.
Qed.

Lemma nth_error_combine {A B} (l : list A) (l' : list B) n :
  nth_error (combine l l') n
  = match nth_error l n, nth_error l' n with Some a, Some b => Some (a, b) | _, _ => None end.
Proof.
  revert l' n. induction l as [|a l IH]; intros [|b l'] [|n]; simpl; auto.
  destruct (nth_error l n); auto.
Qed.

Section OpfLinA.
Context {K : Type} {F : Fld K}.
Local Open Scope nat_scope.
Add Field KF : (@f_ok K F).

Definition per_unit (B : K) (a : K * K) : K * K := ((fst a / B)%K, snd a).

Lemma points_ok B r pts : points B r = Ok pts ->
  pts = map (per_unit B) (bpts r) /\ B <> 0%K /\ 0 < npoints r.
Proof.
  unfold points. intros H. apply bind_ok in H as (q & Hq & H). apply bind_ok in H as (ns & Hn & H).
  apply get_ok in Hq. unfold to_idx in Hn. destruct (_ <? 0)%Z; [discriminate|]. injection Hn as Hn.
  assert (ns = npoints r) as -> by (unfold npoints, cell; rewrite (nth_error_nth _ _ _ Hq); auto).
  destruct (_ =? 0) eqn:E0; [discriminate|]. apply Nat.eqb_neq in E0.
  destruct (feqb B 0%K) eqn:EB; [discriminate|].
  assert (B <> 0%K) as NB. { intros C. apply feqb_ok in C. congruence. }
  split; [|split; auto; lia].
  unfold bpts. rewrite map_map. eapply mapM_inv; [|exact H].
  intros k y _ Hy. apply bind_ok in Hy as (p & Hp & Hy). apply bind_ok in Hy as (c & Hc & Hy).
  injection Hy as <-. unfold per_unit, cell. cbn [fst snd].
  destruct (nth_error r (COST + 2 * k)) as [p'|] eqn:E1; [|discriminate]. injection Hp as ->.
  destruct (nth_error r (COST + 1 + 2 * k)) as [c'|] eqn:E2; [|discriminate]. injection Hc as ->.
  rewrite (nth_error_nth _ _ _ E1), (nth_error_nth _ _ _ E2). reflexivity.
Qed.

Lemma combine_map {A B C D} (f : A -> C) (g : B -> D) l l' :
  combine (map f l) (map g l') = map (fun p => (f (fst p), g (snd p))) (combine l l').
Proof. revert l'. induction l as [|a l IH]; intros [|b l']; simpl; f_equal; auto. Qed.

Lemma tl_map {A B} (f : A -> B) l : tl (map f l) = map f (tl l).
Proof. destruct l; auto. Qed.

(** one segment *)
Definition seg_m (B : K) (s : (K * K) * (K * K)) : K := (slope (fst s) (snd s) * B)%K.
Definition seg_b (B : K) (s : (K * K) * (K * K)) : K := (slope (fst s) (snd s) * fst (fst s) - snd (fst s))%K.

Lemma div_eq_0 (a B : K) : B <> 0%K -> (a / B = 0 <-> a = 0)%K.
Proof.
  intros NB. split; intros H.
  - assert (a = (a / B) * B)%K as -> by (field; auto). rewrite H. ring.
  - rewrite H. field; auto.
Qed.

Lemma segment_ok B s y : B <> 0%K -> segment (per_unit B (fst s), per_unit B (snd s)) = Ok y ->
  y = (seg_m B s, seg_b B s) /\ (fst (snd s) - fst (fst s))%K <> 0%K.
Proof.
  intros NB. destruct s as ((p1, c1), (p2, c2)). unfold segment, per_unit, seg_m, seg_b, slope. cbn [fst snd].
  destruct (feqb _ _) eqn:E; [discriminate|]. intros H; injection H as <-.
  assert (p2 - p1 <> 0)%K as N.
  { intros C. assert (p2 / B - p1 / B = 0)%K as C'.
    { replace (p2 / B - p1 / B)%K with ((p2 - p1) / B)%K by (field; auto). rewrite C. field; auto. }
    apply feqb_ok in C'. congruence. }
  split; auto. f_equal; field; auto.
Qed.

Lemma seg_le B s (v y : K) : B <> 0%K -> (fst (snd s) - fst (fst s))%K <> 0%K ->
  (le (seg_m B s * v + - (1) * y)%K (seg_b B s) <-> le (chord (fst s) (snd s) (B * v)%K) y).
Proof.
  intros NB N. rewrite le_sub, (le_sub _ y). unfold seg_m, seg_b, chord.
  replace (slope (fst s) (snd s) * fst (fst s) - snd (fst s) - (slope (fst s) (snd s) * B * v + - (1) * y))%K
    with (y - (snd (fst s) + slope (fst s) (snd s) * (B * v - fst (fst s))))%K by ring.
  tauto.
Qed.

(** ** the loop *)
Variables (B : K) (ng : nat) (gencost : list (list K)) (pgbas qgbas ybas : nat).
Let step := ycost B ng gencost pgbas qgbas ybas.

Lemma mulrow_new (k n c1 c2 nr nc : nat) (ms : list K) x i : length ms = n ->
  mulrow (SM nr nc (map2 (fun kk mb => Ent kk c1 mb) (seq k n) ms ++ map (fun kk => Ent kk c2 (ropp 1%K)) (seq k n))) x i
  = (if (k <=? i) && (i <? k + n) then nth (i - k) ms 0 * nth c1 x 0 + - (1) * nth c2 x 0 else 0)%K.
Proof.
  intros L. rewrite mulrow_app. unfold mulrow at 1 2. cbn [ents].
  unfold map2. rewrite lsum_map, lsum_map. cbn [erow ecol ev].
  rewrite (lsum_combine _ _ _ 0 0%K) by (rewrite seq_length; auto). cbn [fst snd].
  rewrite (lsum_nth _ (seq k n) 0). rewrite !seq_length. rewrite <- lsum_add.
  rewrite (lsum_ext _ (fun p => if k + p =? i then nth (i - k) ms 0 * nth c1 x 0 + - (1) * nth c2 x 0 else 0)%K).
  - destruct ((k <=? i) && (i <? k + n)) eqn:E.
    + apply andb_true_iff in E as (E1 & E2). apply Nat.leb_le in E1. apply Nat.ltb_lt in E2.
      rewrite (lsum_ext _ (fun p => if i - k =? p then nth (i - k) ms 0 * nth c1 x 0 + - (1) * nth c2 x 0 else 0)%K).
      * rewrite lsum_seq_single' by lia. reflexivity.
      * intros p Hp. replace (k + p =? i) with (i - k =? p); auto.
        apply Bool.eq_true_iff_eq. rewrite !Nat.eqb_eq. lia.
    + apply lsum_zero. intros p Hp. apply in_seq in Hp. destruct (k + p =? i) eqn:Q; auto.
      apply Nat.eqb_eq in Q. apply andb_false_iff in E as [E|E].
      * apply Nat.leb_gt in E. lia.
      * apply Nat.ltb_ge in E. lia.
  - intros p Hp. apply in_seq in Hp. rewrite seq_nth by lia. destruct (k + p =? i) eqn:Q; [|ring].
    apply Nat.eqb_eq in Q. replace (i - k) with p by lia. reflexivity.
Qed.

(** segments of the cost of row [i]; left and right hand sides of its constraints, with cost variable [j] *)
Definition segs (i : nat) : list ((K * K) * (K * K)) :=
  combine (bpts (nth i gencost [])) (tl (bpts (nth i gencost []))).
Definition seg_lhs (x : list K) (ji : nat * nat) : list K :=
  map (fun t => seg_m B t * nth (sidx ng pgbas qgbas (snd ji)) x 0 + - (1) * nth (ybas + fst ji - 1) x 0)%K (segs (snd ji)).
Definition seg_rhs (ji : nat * nat) : list K := map (seg_b B) (segs (snd ji)).

(** what the state says after a number of rows *)
Definition ccv_inv (nc : nat) (done : list (nat * nat)) (st : nat * list (entry K) * list K) : Prop :=
  let '(k, es, by_) := st in
  length by_ = k /\ Forall (fun e => erow e < k /\ ecol e < nc) es /\
  by_ = flat_map seg_rhs done /\ (forall x, rowsv (SM k nc es) x = flat_map (seg_lhs x) done) /\
  (done <> [] -> B <> 0%K) /\
  forall ji t, In ji done -> In t (segs (snd ji)) -> (fst (snd t) - fst (fst t))%K <> 0%K.

Lemma rowsv_extend k n nc (es ns : list (entry K)) x :
  Forall (fun e => erow e < k) es -> Forall (fun e => k <= erow e) ns ->
  rowsv (SM (k + n) nc (es ++ ns)) x = rowsv (SM k nc es) x ++ map (mulrow (SM (k + n) nc ns) x) (seq k n).
Proof.
  intros H1 H2. unfold rowsv. cbn [nrows]. rewrite seq_app, map_app. f_equal.
  - apply map_ext_in. intros i Hi. apply in_seq in Hi. rewrite mulrow_app.
    replace (mulrow (SM (k + n) nc ns) x i) with (0 : K)%K.
    + unfold mulrow. cbn [ents]. ring.
    + symmetry. unfold mulrow. apply lsum_zero. cbn [ents]. intros e He. rewrite Forall_forall in H2.
      specialize (H2 e He). destruct (erow e =? i) eqn:E; auto. apply Nat.eqb_eq in E. lia.
  - apply map_ext_in. intros i Hi. apply in_seq in Hi. rewrite mulrow_app.
    replace (mulrow (SM (k + n) nc es) x i) with (0 : K)%K; [ring|].
    symmetry. unfold mulrow. apply lsum_zero. cbn [ents]. intros e He. rewrite Forall_forall in H1.
    specialize (H1 e He). destruct (erow e =? i) eqn:E; auto. apply Nat.eqb_eq in E. lia.
Qed.

Lemma flat_map_snoc {A C} (f : A -> list C) l a : flat_map f (l ++ [a]) = flat_map f l ++ f a.
Proof. rewrite flat_map_app. simpl. rewrite app_nil_r. reflexivity. Qed.

Lemma ccv_step nc done st j i st' : ybas - 1 + j < nc -> 0 < ybas -> ccv_inv nc done st ->
  step st (j, i) = Ok st' -> ccv_inv nc (done ++ [(j, i)]) st'.
Proof.
  destruct st as ((k, es), by_). intros Hj HY (L & W & EB & EV & EN & EZ) H. unfold step, ycost in H.
  apply bind_ok in H as (r & Hr & H). apply bind_ok in H as (pts & Hp & H). apply bind_ok in H as (seg & Hs & H).
  cbv zeta in H. destruct (_ <? ybas - 1) eqn:EC; [|discriminate]. apply Nat.ltb_lt in EC. injection H as <-.
  apply get_ok in Hr. apply points_ok in Hp as (-> & NB & NP).
  rewrite tl_map, combine_map in Hs.
  assert (segs i = combine (bpts r) (tl (bpts r))) as ES by (unfold segs; rewrite (nth_error_nth _ _ _ Hr); auto).
  assert (forall s, In s (combine (bpts r) (tl (bpts r))) -> (fst (snd s) - fst (fst s))%K <> 0%K) as NZ.
  { intros s Hin.
    destruct (mapM_map _ _ _ Hs (per_unit B (fst s), per_unit B (snd s))) as (y & Hy & _).
    - apply in_map_iff. exists s; auto.
    - apply (segment_ok B s y NB Hy). }
  assert (seg = map (fun s => (seg_m B s, seg_b B s)) (combine (bpts r) (tl (bpts r)))) as ->.
  { clear -Hs NB. revert seg Hs. generalize (combine (bpts r) (tl (bpts r))) as l.
    induction l as [|s l IH]; intros seg E; simpl in E.
    - injection E as <-. auto.
    - apply bind_ok in E as (y & Hy & E). apply bind_ok in E as (ys & Hys & E). injection E as <-.
      simpl. f_equal; auto. apply (segment_ok B s y NB Hy). }
  rewrite <- ES in *. set (S := segs i) in *. set (s := sidx ng pgbas qgbas i) in *.
  rewrite map_length. rewrite map_map. cbn [snd].
  assert (map2 (fun kk (mb : K * K) => Ent kk s (fst mb)) (seq k (length S)) (map (fun s => (seg_m B s, seg_b B s)) S)
          = map2 (fun kk m => Ent kk s m) (seq k (length S)) (map (seg_m B) S)) as ->.
  { unfold map2. clear. generalize (seq k (length S)) as q. clearbody S. induction S as [|t S IH]; intros [|a q]; simpl; auto.
    f_equal; auto. }
  set (ns := map2 _ _ _ ++ map _ _).
  assert (Forall (fun e => (k <= erow e < k + length S) /\ ecol e < nc) ns) as WN.
  { unfold ns. apply Forall_app. split; apply Forall_forall; intros e He.
    - unfold map2 in He. apply in_map_iff in He as ((a & b) & <- & He). apply in_combine_l in He.
      apply in_seq in He. cbn. lia.
    - apply in_map_iff in He as (a & <- & He). apply in_seq in He. cbn. lia. }
  split; [rewrite app_length, map_length; lia|]. split.
  { apply Forall_app. split; eapply Forall_impl; eauto; simpl; intros; lia. }
  split. { rewrite flat_map_snoc, EB. reflexivity. }
  split; [|split; auto].
  - intros x. rewrite rowsv_extend.
    2:{ eapply Forall_impl; [|exact W]. simpl; tauto. }
    2:{ eapply Forall_impl; [|exact WN]. simpl; intros; lia. }
    rewrite flat_map_snoc, EV. f_equal. unfold seg_lhs. cbn [fst snd]. fold S s.
    apply nth_error_ext. intros p. rewrite !nth_error_map.
    destruct (Nat.lt_ge_cases p (length S)) as [Hp|Hp].
    + rewrite seq_nth_error by auto. destruct (nth_error_lt _ _ Hp) as (t & Ht). rewrite Ht. simpl. f_equal.
      unfold ns. rewrite (mulrow_new k (length S)) by apply map_length.
      replace ((k <=? k + p) && (k + p <? k + length S)) with true.
      * replace (k + p - k) with p by lia. rewrite (nth_map_lt _ S p _ t) by auto.
        rewrite (nth_error_nth _ _ _ Ht). reflexivity.
      * symmetry. apply andb_true_iff. split; [apply Nat.leb_le|apply Nat.ltb_lt]; lia.
    + rewrite !(proj2 (nth_error_None _ _)); auto. rewrite seq_length; auto.
  - intros ji t Hin. apply in_app_or in Hin as [Hin|[<-|[]]]; [apply EZ; auto|]. cbn [snd]. fold S. intros Ht.
    apply NZ. exact Ht.
Qed.

Lemma ccv_fold nc todo : forall done st st', 0 < ybas -> Forall (fun ji => ybas - 1 + fst ji < nc) todo ->
  ccv_inv nc done st -> foldM step todo st = Ok st' -> ccv_inv nc (done ++ todo) st'.
Proof.
  induction todo as [|(j, i) todo IH]; intros done st st' HY HF INV H; simpl in H.
  - injection H as <-. rewrite app_nil_r. auto.
  - apply bind_ok in H as (st1 & H1 & H). inversion HF; subst.
    replace (done ++ (j, i) :: todo) with ((done ++ [(j, i)]) ++ todo) by (rewrite <- app_assoc; auto).
    eapply IH; eauto. eapply ccv_step; eauto.
Qed.

Lemma Forall2_rowsv A (b x : list K) : wf A -> length b = nrows A ->
  (Forall2 le (rowsv A x) b <-> rows_le A b x).
Proof.
  intros WA L. unfold rows_le. split.
  - intros H k Hk. rewrite row_val_mulrow by auto.
    destruct (nth_error_lt (rowsv A x) k) as (v & Hv); [rewrite rowsv_length; auto|].
    destruct (Forall2_nth _ _ _ _ _ H Hv) as (c & Hc & Hle).
    rewrite (nth_error_nth _ _ _ Hc). rewrite <- nth_rowsv by auto. rewrite (nth_error_nth _ _ _ Hv). auto.
  - intros H. assert (forall k, k < nrows A -> le (nth k (rowsv A x) 0%K) (nth k b 0%K)) as H'.
    { intros k Hk. rewrite nth_rowsv by auto. rewrite <- row_val_mulrow by auto. auto. }
    assert (length (rowsv A x) = length b) as LL by (rewrite rowsv_length; lia).
    assert (forall k, k < length b -> le (nth k (rowsv A x) 0%K) (nth k b 0%K)) as H2 by (rewrite L; auto).
    clear H H' L. revert LL H2. generalize (rowsv A x) as v. clear A WA.
    induction b as [|c b IH]; intros [|a v] LL H; simpl in LL; try discriminate; constructor.
    + apply (H 0). simpl; lia.
    + apply IH; [lia|]. intros k Hk. apply (H (S k)). simpl; lia.
Qed.

Lemma pwl_find m : col MODEL gencost = Ok m -> find (map is_pwl m) = pwl_rows gencost.
Proof.
  intros H. apply col_ok in H as (_ & ->). rewrite (find_filter _ 0%K), map_length. unfold pwl_rows.
  apply filter_ext_in. intros i Hi. apply in_seq in Hi. rewrite (nth_map_lt _ gencost i _ []) by lia. reflexivity.
Qed.

Definition ypairs : list (nat * nat) := combine (seq 0 (length (pwl_rows gencost))) (pwl_rows gencost).
Lemma in_ypairs j i : In (j, i) ypairs <-> nth_error (pwl_rows gencost) j = Some i.
Proof.
  unfold ypairs. set (P := pwl_rows gencost). split.
  - intros Hin. apply In_nth_error in Hin as (p & Hp). rewrite nth_error_combine in Hp.
    destruct (nth_error (seq 0 (length P)) p) as [a|] eqn:E1; [|discriminate].
    destruct (nth_error P p) as [c|] eqn:E2; [|discriminate]. injection Hp as <- <-.
    rewrite seq_nth_error in E1 by (eapply nth_error_some_lt; eauto). injection E1 as <-. auto.
  - intros Hj. apply nth_error_In with (n := j). rewrite nth_error_combine.
    rewrite seq_nth_error by (eapply nth_error_some_lt; eauto). rewrite Hj. reflexivity.
Qed.

(** the rows, one by one *)
Lemma makeAy_rows A b : 0 < ybas -> makeAy B ng gencost pgbas qgbas ybas = Ok (A, b) ->
  wf A /\ length b = nrows A /\ ncols A = ybas - 1 + length (pwl_rows gencost) /\
  b = flat_map seg_rhs ypairs /\ (forall x, rowsv A x = flat_map (seg_lhs x) ypairs) /\
  (ypairs <> [] -> B <> 0%K) /\
  forall ji t, In ji ypairs -> In t (segs (snd ji)) -> (fst (snd t) - fst (fst t))%K <> 0%K.
Proof.
  intros HY H. unfold makeAy in H. apply bind_ok in H as (m & Hm & H). rewrite (pwl_find m Hm) in H.
  cbv zeta in H. unfold ypairs. destruct (length (pwl_rows gencost) =? 0) eqn:E0.
  - injection H as <- <-. apply Nat.eqb_eq in E0. destruct (pwl_rows gencost); [|discriminate]. cbn.
    split; [constructor|]. do 1 (split; [auto|]). split; [lia|]. do 2 (split; [auto|]).
    split; [congruence|]. intros ji t [].
  - apply bind_ok in H as (((k, es), by_) & HF & H). injection H as <- <-. cbn [nrows ncols].
    set (P := pwl_rows gencost) in *. set (nc := ybas + length P - 1) in *.
    assert (ccv_inv nc ([] ++ combine (seq 0 (length P)) P) (k, es, by_)) as (L & W & INV).
    { eapply ccv_fold; [auto| | |exact HF].
      - apply Forall_forall. intros (j, i) Hin. apply in_combine_l in Hin. apply in_seq in Hin. cbn [fst]. unfold nc. lia.
      - split; [auto|]. split; [constructor|]. do 2 (split; [auto|]). split; [congruence|]. intros ji t []. }
    do 2 (split; [auto|]). split; [unfold nc; lia|]. exact INV.
Qed.

Lemma Forall2_flat_map {A C D} (R : C -> D -> Prop) (f : A -> list C) (g : A -> list D) l :
  (forall a, In a l -> length (f a) = length (g a)) ->
  (Forall2 R (flat_map f l) (flat_map g l) <-> forall a, In a l -> Forall2 R (f a) (g a)).
Proof.
  induction l as [|a l IH]; intros HL; simpl; [split; auto; intros _ a []|].
  rewrite Forall2_app_eq by (apply HL; simpl; auto). rewrite IH by (intros; apply HL; simpl; auto). split.
  - intros (H1 & H2) c [<-|Hc]; auto.
  - intros H. split; auto.
Qed.

Lemma makeAy_ok A b : 0 < ybas -> makeAy B ng gencost pgbas qgbas ybas = Ok (A, b) ->
  wf A /\ length b = nrows A /\ ncols A = ybas - 1 + length (pwl_rows gencost) /\
  forall x, rows_le A b x <->
    forall j i, nth_error (pwl_rows gencost) j = Some i ->
      above (bpts (nth i gencost [])) (B * nth (sidx ng pgbas qgbas i) x 0)%K (nth (ybas - 1 + j) x 0%K).
Proof.
  intros HY H. destruct (makeAy_rows A b HY H) as (W & L & C & EB & EV & EN & EZ).
  split; auto. split; auto. split; auto. intros x. rewrite <- Forall2_rowsv by auto. rewrite EV, EB.
  rewrite Forall2_flat_map by (intros; unfold seg_lhs, seg_rhs; rewrite !map_length; auto).
  assert (forall j i, In (j, i) ypairs -> (Forall2 le (seg_lhs x (j, i)) (seg_rhs (j, i)) <->
     above (bpts (nth i gencost [])) (B * nth (sidx ng pgbas qgbas i) x 0)%K (nth (ybas - 1 + j) x 0%K))) as E.
  { intros j i Hin. assert (B <> 0%K) as NB by (apply EN; intros C'; rewrite C' in Hin; destruct Hin).
    unfold seg_lhs, seg_rhs. cbn [fst snd]. rewrite Forall2_map_lr, Forall_forall.
    replace (ybas + j - 1) with (ybas - 1 + j) by lia. unfold above. split.
    - intros H1 a b' Hab. exact (proj1 (seg_le B (a, b') _ _ NB (EZ _ _ Hin Hab)) (H1 _ Hab)).
    - intros H1 (a, b') Ht. exact (proj2 (seg_le B (a, b') _ _ NB (EZ _ _ Hin Ht)) (H1 _ _ Ht)). }
  split.
  - intros H1 j i Hj. apply in_ypairs in Hj. apply (E j i Hj). apply H1; auto.
  - intros H1 (j, i) Hin. apply (E j i Hin). apply H1. apply in_ypairs; auto.
Qed.
End OpfLinA.
