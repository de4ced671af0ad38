(** polycost over any field: evaluation and formal derivatives. *)
From Verif Require Import Lib.ListFacts Model.OpfFcn Spec.AcOpfSpec Proofs.LinAlgFacts Proofs.SparseFacts
  Proofs.FldFacts Proofs.PipsF.
Local Open Scope nat_scope.

Section AcCostA.
Context {K : Type} {F : Fld K}.
Add Field KF : (@f_ok K F).

Fixpoint low (c : list K) (x : K) : K := match c with [] => 0%K | a :: r => (a + x * low r x)%K end.

Lemma low_zeros n x : low (repeat 0%K n) x = 0%K.
Proof. induction n as [|n IH]; simpl; auto. rewrite IH. ring. Qed.
Lemma low_app l l' x : low (l ++ l') x = (low l x + pow x (length l) * low l' x)%K.
Proof.
  induction l as [|a l IH]; cbn [low app length pow].
  - ring.
  - rewrite IH. ring.
Qed.
Lemma low_app_zeros l n x : low (l ++ repeat 0%K n) x = low l x.
Proof. rewrite low_app, low_zeros. ring. Qed.

Lemma horner_acc (c : list K) (x s : K) :
  fold_left (fun a c => a * x + c)%K c s = (s * pow x (length c) + horner c x)%K.
Proof.
  unfold horner. revert s. induction c as [|a c IH]; intros s; cbn [fold_left length pow].
  - ring.
  - rewrite IH, (IH (0 * x + a)%K). ring.
Qed.
Lemma horner_cons (a : K) c x : horner (a :: c) x = (a * pow x (length c) + horner c x)%K.
Proof. unfold horner at 1. cbn [fold_left]. rewrite horner_acc. ring. Qed.
Lemma low_rev (c : list K) x : low (rev c) x = horner c x.
Proof.
  induction c as [|a c IH]; simpl; auto.
  rewrite low_app, IH, rev_length, horner_cons. cbn [low]. ring.
Qed.
Lemma eval_loop (cs : list K) x : forall k f,
  fold_left (fun f p => (f + snd p * pow x (fst p))%K) (combine (seq k (length cs)) cs) f
  = (f + pow x k * low cs x)%K.
Proof.
  induction cs as [|a cs IH]; intros k f; cbn [fold_left combine seq length low fst snd].
  - ring.
  - rewrite IH. cbn [pow].  ring.
Qed.
Lemma eval_row_low (c : list K) x : eval_row c x = low c x.
Proof.
  destruct c as [|a c]; auto. unfold eval_row. rewrite eval_loop. cbn [pow low].  ring.
Qed.

(** ** formal derivative *)
Fixpoint pd_from (k : nat) (l : list K) : list K :=
  match l with [] => [] | a :: r => (a * fofZ (Z.of_nat k))%K :: pd_from (S k) r end.
Definition pd (l : list K) : list K := match l with [] => [] | _ :: r => pd_from 1 r end.
Fixpoint pds (n : nat) (l : list K) : list K := match n with O => l | S n => pds n (pd l) end.

Lemma pd_from_length k l : length (pd_from k l) = length l.
Proof. revert k; induction l; simpl; auto. Qed.
Lemma pd_length l : length (pd l) = length l - 1.
Proof. destruct l; simpl; auto. rewrite pd_from_length. lia. Qed.
Lemma pd_from_app k l l' : pd_from k (l ++ l') = pd_from k l ++ pd_from (k + length l) l'.
Proof.
  revert k. induction l as [|a l IH]; intros k; simpl; [rewrite Nat.add_0_r; auto|].
  rewrite IH. do 3 f_equal. lia.
Qed.
Lemma pd_from_zeros k n : pd_from k (repeat 0%K n) = repeat 0%K n.
Proof. revert k. induction n as [|n IH]; intros k; simpl; auto. rewrite IH. f_equal. ring. Qed.
Lemma pd_app_zeros l n : exists m, pd (l ++ repeat 0%K n) = pd l ++ repeat 0%K m.
Proof.
  destruct l as [|a l].
  - destruct n as [|n]; simpl; [exists 0; auto|]. exists n. apply pd_from_zeros.
  - simpl. exists n. rewrite pd_from_app, pd_from_zeros. reflexivity.
Qed.
Lemma pds_app_zeros k : forall l n, exists m, pds k (l ++ repeat 0%K n) = pds k l ++ repeat 0%K m.
Proof.
  induction k as [|k IH]; intros l n; simpl; [exists n; auto|].
  destruct (pd_app_zeros l n) as (m & ->). apply IH.
Qed.
Lemma low_pds_zeros k l n x : low (pds k (l ++ repeat 0%K n)) x = low (pds k l) x.
Proof. destruct (pds_app_zeros k l n) as (m & ->). apply low_app_zeros. Qed.

Lemma mapi_length {A B} (f : nat -> A -> B) l : length (mapi f l) = length l.
Proof. unfold mapi. rewrite map_length, combine_length, seq_length. lia. Qed.
Lemma nth_combine_seq {A} (l : list A) : forall s i,
  nth_error (combine (seq s (length l)) l) i =
  match nth_error l i with Some a => Some (s + i, a) | None => None end.
Proof.
  induction l as [|a l IH]; intros s [|i]; simpl; auto.
  - rewrite Nat.add_0_r. reflexivity.
  - rewrite IH. destruct (nth_error l i); auto. f_equal. f_equal. lia.
Qed.
Lemma nth_mapi {A B} (f : nat -> A -> B) l i :
  nth_error (mapi f l) i = match nth_error l i with Some a => Some (f i a) | None => None end.
Proof.
  unfold mapi. rewrite nth_error_map, nth_combine_seq. destruct (nth_error l i); reflexivity.
Qed.
Lemma nth_pd_from l : forall k i,
  nth_error (pd_from k l) i =
  match nth_error l i with Some a => Some (a * fofZ (Z.of_nat (k + i)))%K | None => None end.
Proof.
  induction l as [|a l IH]; intros k [|i]; cbn [pd_from nth_error]; auto.
  - rewrite Nat.add_0_r. reflexivity.
  - rewrite IH. destruct (nth_error l i); auto. do 4 f_equal. lia.
Qed.
Lemma nth_pd l i :
  nth_error (pd l) i =
  match nth_error l (S i) with Some a => Some (a * fofZ (Z.of_nat (S i)))%K | None => None end.
Proof. destruct l; cbn [pd nth_error]; [destruct i; auto|]. rewrite nth_pd_from. reflexivity. Qed.

Lemma der_row maxN d (r : list K) :
  2 <= length r -> length r = maxN - d + 1 ->
  mapi (fun j a => if (1 <=? j) && (j <? maxN - d) then (a * fofZ (Z.of_nat (j + 1)))%K else a)
       (slice 1 (maxN - d + 1) r) = pd r.
Proof.
  intros L2 L. apply nth_error_ext. intros i. rewrite nth_mapi, nth_pd, nth_slice.
  change (1 + i) with (S i). replace (maxN - d + 1 - 1) with (maxN - d) by lia.
  destruct (Nat.ltb_spec i (maxN - d)) as [Hi|Hi].
  - destruct (nth_error r (S i)) as [a|] eqn:E; auto. f_equal.
    destruct i as [|i].
    + cbn [Nat.leb andb]. change (Z.of_nat 1) with 1%Z. rewrite fofZ_1. ring.
    + cbn [Nat.leb andb].
      replace (S i <? maxN - d) with true by (symmetry; apply Nat.ltb_lt; lia).
      replace (S i + 1) with (S (S i)) by lia. reflexivity.
  - assert (N : nth_error r (S i) = None) by (apply nth_error_None; lia).
    rewrite N. reflexivity.
Qed.

Lemma pds_zero n (l : list K) x : length l <= n -> low (pds n l) x = 0%K.
Proof.
  revert l. induction n as [|n IH]; simpl; intros l H.
  - destruct l; simpl in *; auto. lia.
  - apply IH. rewrite pd_length. lia.
Qed.

Lemma ders_ok ng maxN n : forall d w c,
  length c = ng -> 1 <= w -> w = maxN - d + 1 -> 1 <= d ->
  Forall (fun r => length r = w) c ->
  exists w' c', ders ng maxN (seq d n) w c = (w', c') /\ w' <> 0 /\ length c' = ng /\
    forall i r, nth_error c i = Some r ->
      exists r', nth_error c' i = Some r' /\ forall x, low r' x = low (pds n r) x.
Proof.
  induction n as [|n IH]; intros d w c L W1 W D Fc.
  - exists w, c. split; auto. split; [lia|]. split; auto. intros i r H. exists r. auto.
  - cbn [seq ders pds]. destruct (Nat.leb_spec 2 w) as [H2|H2].
    + rewrite map_map.
      replace (map (fun x => mapi (fun j a => if (1 <=? j) && (j <? maxN - d)
          then (a * fofZ (Z.of_nat (j + 1)))%K else a) (slice 1 (maxN - d + 1) x)) c)
        with (map pd c).
      2:{ apply map_ext_in. intros r I. rewrite Forall_forall in Fc. specialize (Fc r I).
          simpl in Fc. rewrite der_row; auto; lia. }
      replace (Nat.min w (maxN - d + 1) - 1) with (w - 1) by lia.
      destruct (IH (S d) (w - 1) (map pd c)) as (w' & c' & E & Z & L' & R); try lia.
      * rewrite map_length. auto.
      * rewrite Forall_map. eapply Forall_impl; [|exact Fc]. intros r Hr. simpl in Hr.
        rewrite pd_length. lia.
      * exists w', c'. split; auto. split; auto. split; auto. intros i r H.
        apply R. rewrite nth_error_map, H. reflexivity.
    + exists 1, (repeat [0%K] ng). split; auto. split; [lia|]. split; [apply repeat_length|].
      intros i r H. exists [0%K].
      assert (i < ng) by (rewrite <- L; eapply nth_error_some_lt; eauto).
      split; [apply nth_error_repeat; auto|]. intros x.
      rewrite Forall_forall in Fc. specialize (Fc r (nth_error_In _ _ H)). simpl in Fc.
      rewrite pds_zero by (rewrite pd_length; lia). cbn [low]. ring.
Qed.

Lemma list_max_ge l x : In x l -> x <= list_max l.
Proof.
  intros I. pose proof (proj1 (list_max_le l (list_max l)) (le_n _)) as Fl.
  rewrite Forall_forall in Fl. auto.
Qed.

Lemma poly_row_npoints (r : list K) : poly_cost_row r ->
  ncost_of r = Ok (npoints r) /\ 1 <= npoints r /\ length (coeffs r) = npoints r /\
  get r NCOST = Ok (fofZ (Z.of_nat (npoints r))) /\ slice COST (COST + npoints r) r = coeffs r.
Proof.
  intros (n & N1 & E & L).
  assert (P : npoints r = n).
  { unfold npoints, cell. rewrite (nth_error_nth _ _ _ E), ftrunc_ofZ, Nat2Z.id. reflexivity. }
  rewrite P. split; [|split; [|split; [|split]]]; auto.
  - unfold ncost_of, get. rewrite E. cbn [of_option bind]. rewrite ftrunc_ofZ.
    destruct (Z.ltb_spec (Z.of_nat n) 0); [lia|]. rewrite Nat2Z.id. reflexivity.
  - unfold coeffs. rewrite P, firstn_length, skipn_length. lia.
  - apply get_ok. auto.
  - unfold slice, coeffs. rewrite P. f_equal. lia.
Qed.

Lemma coef_row_ok maxN (r : list K) : poly_cost_row r -> npoints r <= maxN ->
  coef_row maxN r = Ok (rev (coeffs r) ++ repeat 0%K (maxN - npoints r)).
Proof.
  intros P L. destruct (poly_row_npoints r P) as (E1 & _ & Lc & E2 & E3). unfold coef_row. rewrite E2, E1.
  cbn [bind]. rewrite (proj2 (feqb_ok _ _) eq_refl). cbn [negb].
  rewrite E3, rev_length, Lc, Nat.eqb_refl. reflexivity.
Qed.

(** derivative number [der] of the polynomial with coefficients [cs], highest first *)
Definition pder (der : nat) (cs : list K) (p : K) : K := low (pds der (rev cs)) p.
Lemma pder_0 cs p : pder 0 cs p = horner cs p.
Proof. apply low_rev. Qed.

Lemma polycost_ok (g : list (list K)) Pg der : Forall poly_cost_row g -> length Pg = length g ->
  polycost g Pg der = Ok (map2 (fun r p => pder der (coeffs r) p) g Pg).
Proof.
  intros Fg L. unfold polycost. destruct g as [|r0 g0] eqn:Eg; [reflexivity|].
  rewrite <- Eg in *. assert (Lg : 1 <= length g) by (rewrite Eg; simpl; lia).
  assert (I0 : In r0 g) by (rewrite Eg; left; auto). clear Eg g0.
  assert (EN : mapM ncost_of g = Ok (map npoints g)).
  { apply mapM_ok. intros r I. rewrite Forall_forall in Fg. apply poly_row_npoints. auto. }
  rewrite EN. cbn [bind]. set (maxN := list_max (map npoints g)).
  assert (MX : forall r, In r g -> npoints r <= maxN).
  { intros r I. apply list_max_ge. apply in_map. auto. }
  assert (ER : mapM (coef_row maxN) g
               = Ok (map (fun r => rev (coeffs r) ++ repeat 0%K (maxN - npoints r)) g)).
  { apply mapM_ok. intros r I. rewrite Forall_forall in Fg. apply coef_row_ok; auto. }
  rewrite ER. cbn [bind].
  replace (length Pg <? length g) with false by (symmetry; apply Nat.ltb_ge; lia).
  rewrite L, Nat.sub_diag. cbn [repeat]. rewrite app_nil_r.
  set (c := map _ g).
  assert (Lc : length c = length g) by (unfold c; apply map_length).
  assert (M1 : 1 <= maxN).
  { rewrite Forall_forall in Fg. destruct (poly_row_npoints r0 (Fg r0 I0)) as (_ & N1 & _).
    specialize (MX r0 I0). lia. }
  destruct (ders_ok (length g) maxN der 1 maxN c) as (w' & c' & E & Z & L' & R); auto; try lia.
  { unfold c. apply Forall_forall. intros r I. apply in_map_iff in I as (cs & <- & I).
    rewrite Forall_forall in Fg. destruct (poly_row_npoints cs (Fg cs I)) as (_ & _ & Lcs & _).
    rewrite app_length, rev_length, repeat_length, Lcs. specialize (MX cs I). lia. }
  rewrite E. destruct (Nat.eqb_spec w' 0); [contradiction|]. f_equal.
  apply (nth_ext _ _ 0%K 0%K).
  { rewrite !map2_length. lia. }
  intros i Hi. rewrite map2_length in Hi.
  rewrite (nth_map2_d _ _ _ _ [] 0%K) by lia. rewrite (nth_map2_d _ _ _ _ [] 0%K) by lia.
  rewrite eval_row_low.
  destruct (nth_error_lt g i) as (r & Er); [lia|].
  destruct (R i (rev (coeffs r) ++ repeat 0%K (maxN - npoints r))) as (r' & Hr & V).
  { unfold c. rewrite nth_error_map, Er. reflexivity. }
  rewrite (nth_error_nth _ _ _ Hr), (nth_error_nth _ _ _ Er), V. apply low_pds_zeros.
Qed.
End AcCostA.
