(** polycost: evaluation and formal derivatives. *)
From Verif Require Import Lib.QcFacts Lib.LinAlg Lib.ListFacts Model.Cost Spec.CostSpec
  Proofs.LinAlgFacts.
Local Open Scope nat_scope.

Lemma zc_nat_inj a b : zc (Z.of_nat a) = zc (Z.of_nat b) -> a = b.
Proof. intros H. apply zc_inj in H. lia. Qed.

Lemma ncost_of_row r n :
  nth_error r NCOST = Some (zc (Z.of_nat n)) -> ncost_of r = Ok n.
Proof.
  intros H. unfold ncost_of, get. rewrite H. cbn [of_option bind]. rewrite qtrunc_zc.
  destruct (Z.ltb_spec (Z.of_nat n) 0); [lia|]. rewrite Nat2Z.id. reflexivity.
Qed.

(** ** low-first evaluation *)
Definition low (c : vec) (x : Qc) : Qc := fold_right (fun a s => a + x * s)%Qc 0%Qc c.

Lemma low_zeros n x : low (repeat 0%Qc n) x = 0%Qc.
Proof. induction n; simpl; auto. rewrite IHn. ring. Qed.

Lemma low_app l l' x : low (l ++ l') x = (low l x + x ^ length l * low l' x)%Qc.
Proof.
  induction l as [|a l IH]; simpl.
  - ring.
  - rewrite IH. ring.
Qed.

Lemma low_app_zeros l n x : low (l ++ repeat 0%Qc n) x = low l x.
Proof. rewrite low_app, low_zeros. ring. Qed.

Lemma polyval_acc c x s :
  fold_left (fun s a => s * x + a)%Qc c s = (s * x ^ length c + polyval c x)%Qc.
Proof.
  unfold polyval. revert s. induction c as [|a c IH]; intros s; simpl.
  - ring.
  - rewrite IH, (IH (0 * x + a)%Qc). ring.
Qed.

Lemma polyval_cons a c x : polyval (a :: c) x = (a * x ^ length c + polyval c x)%Qc.
Proof. unfold polyval at 1. simpl. rewrite polyval_acc. ring. Qed.

Lemma low_rev c x : low (rev c) x = polyval c x.
Proof.
  induction c as [|a c IH]; simpl; auto.
  rewrite low_app, IH, rev_length, polyval_cons. simpl. ring.
Qed.

Lemma eval_loop cs x : forall k f,
  fold_left (fun f p => (f + snd p * x ^ fst p)%Qc) (combine (seq k (length cs)) cs) f
  = (f + x ^ k * low cs x)%Qc.
Proof.
  induction cs as [|a cs IH]; intros k f; simpl.
  - ring.
  - rewrite IH. simpl. ring.
Qed.

Lemma eval_row_low c x : eval_row c x = low c x.
Proof.
  destruct c as [|a c]; simpl; auto. rewrite eval_loop. simpl. ring.
Qed.

(** ** formal derivative *)
Fixpoint pd_from (k : nat) (l : vec) : vec :=
  match l with [] => [] | a :: r => (a * zc (Z.of_nat k))%Qc :: pd_from (S k) r end.
Definition pd (l : vec) : vec := match l with [] => [] | _ :: r => pd_from 1 r end.

Lemma pd_from_length k l : length (pd_from k l) = length l.
Proof. revert k; induction l; simpl; auto. Qed.
Lemma pd_length l : length (pd l) = length l - 1.
Proof. destruct l; simpl; auto. rewrite pd_from_length. lia. Qed.

Lemma mapi_length {A B} (f : nat -> A -> B) l : length (mapi f l) = length l.
Proof. unfold mapi. rewrite map_length, combine_length, seq_length. lia. Qed.

Lemma nth_combine_seq {A} (l : list A) : forall s i,
  nth_error (combine (seq s (length l)) l) i =
  match nth_error l i with Some a => Some (s + i, a) | None => None end.
Proof.
  induction l as [|a l IH]; intros s [|i]; simpl; auto.
  - rewrite Nat.add_0_r. reflexivity.
  - rewrite IH. destruct (nth_error l i); auto. f_equal. f_equal. lia.
Qed.

Lemma nth_mapi {A B} (f : nat -> A -> B) l i :
  nth_error (mapi f l) i = match nth_error l i with Some a => Some (f i a) | None => None end.
Proof.
  unfold mapi. rewrite nth_error_map, nth_combine_seq.
  destruct (nth_error l i); reflexivity.
Qed.

Lemma nth_pd_from l : forall k i,
  nth_error (pd_from k l) i =
  match nth_error l i with Some a => Some (a * zc (Z.of_nat (k + i)))%Qc | None => None end.
Proof.
  induction l as [|a l IH]; intros k [|i]; simpl; auto.
  - rewrite Nat.add_0_r. reflexivity.
  - rewrite IH. destruct (nth_error l i); auto. f_equal. f_equal. f_equal. f_equal. lia.
Qed.

Lemma nth_pd l i :
  nth_error (pd l) i =
  match nth_error l (S i) with Some a => Some (a * zc (Z.of_nat (S i)))%Qc | None => None end.
Proof. destruct l; simpl; [destruct i; auto|]. rewrite nth_pd_from. reflexivity. Qed.

(** one derivative pass of the code on one row *)
Lemma der_row maxN d (r : vec) :
  2 <= length r -> length r = maxN - d + 1 ->
  mapi (fun j a => if (1 <=? j) && (j <? maxN - d) then (a * zc (Z.of_nat (j + 1)))%Qc else a)
       (slice 1 (maxN - d + 1) r) = pd r.
Proof.
  intros L2 L. apply nth_error_ext. intros i. rewrite nth_mapi, nth_pd, nth_slice.
  change (1 + i) with (S i). replace (maxN - d + 1 - 1) with (maxN - d) by lia.
  destruct (Nat.ltb_spec i (maxN - d)) as [Hi|Hi].
  - destruct (nth_error r (S i)) as [a|] eqn:E; auto. f_equal.
    destruct i as [|i]; simpl.
    + replace (zc 1) with 1%Qc by reflexivity. ring.
    + replace (S i <? maxN - d) with true by (symmetry; apply Nat.ltb_lt; lia).
      replace (i + 1) with (S i) by lia. reflexivity.
  - assert (N : nth_error r (S i) = None) by (apply nth_error_None; lia).
    rewrite N. reflexivity.
Qed.

Fixpoint pds (n : nat) (l : vec) : vec := match n with O => l | S n => pds n (pd l) end.

Lemma pds_zero n (l : vec) x : length l <= n -> low (pds n l) x = 0%Qc.
Proof.
  revert l. induction n as [|n IH]; simpl; intros l H.
  - destruct l; simpl in *; auto. lia.
  - apply IH. rewrite pd_length. lia.
Qed.

Lemma ders_ok ng maxN n : forall d w c,
  length c = ng -> 1 <= w -> w = maxN - d + 1 -> 1 <= d ->
  Forall (fun r => length r = w) c ->
  exists w' c', ders ng maxN (seq d n) w c = (w', c') /\ w' <> 0 /\ length c' = ng /\
    forall i r, nth_error c i = Some r ->
      exists r', nth_error c' i = Some r' /\ forall x, low r' x = low (pds n r) x.
Proof.
  induction n as [|n IH]; intros d w c L W1 W D F.
  - exists w, c. split; auto. split; [lia|]. split; auto. intros i r H. exists r. auto.
  - cbn [seq ders pds]. destruct (Nat.leb_spec 2 w) as [H2|H2].
    + rewrite map_map.
      replace (map (fun x => mapi (fun j a => if (1 <=? j) && (j <? maxN - d)
          then (a * zc (Z.of_nat (j + 1)))%Qc else a) (slice 1 (maxN - d + 1) x)) c)
        with (map pd c).
      2:{ apply map_ext_in. intros r I. rewrite Forall_forall in F. specialize (F r I).
          simpl in F. rewrite der_row; auto; lia. }
      replace (Nat.min w (maxN - d + 1) - 1) with (w - 1) by lia.
      destruct (IH (S d) (w - 1) (map pd c)) as (w' & c' & E & Z & L' & R); try lia.
      * rewrite map_length. auto.
      * rewrite Forall_map. eapply Forall_impl; [|exact F]. intros r Hr. simpl in Hr.
        rewrite pd_length. lia.
      * exists w', c'. split; auto. split; auto. split; auto. intros i r H.
        apply R. rewrite nth_error_map, H. reflexivity.
    + exists 1, (repeat [0%Qc] ng). split; auto. split; [lia|]. split; [apply repeat_length|].
      intros i r H. exists [0%Qc].
      assert (i < ng) by (rewrite <- L; eapply nth_error_some_lt; eauto).
      split; [apply nth_error_repeat; auto|]. intros x.
      rewrite Forall_forall in F. specialize (F r (nth_error_In _ _ H)). simpl in F.
      rewrite pds_zero by (rewrite pd_length; lia). simpl. ring.
Qed.

Lemma list_max_ge l x : In x l -> x <= list_max l.
Proof.
  intros I. pose proof (proj1 (list_max_le l (list_max l)) (le_n _)) as F.
  rewrite Forall_forall in F. auto.
Qed.

Lemma coef_row_ok maxN r cs :
  poly_row r cs -> length cs <= maxN ->
  coef_row maxN r = Ok (rev cs ++ repeat 0%Qc (maxN - length cs)).
Proof.
  intros (_ & N & pad & E) L. unfold coef_row. rewrite (ncost_of_row _ _ N).
  unfold get. rewrite N. cbn [of_option bind].
  rewrite qc_eqb_refl. cbn [negb].
  unfold slice. rewrite E. replace (COST + length cs - COST) with (length cs) by lia.
  rewrite firstn_app, firstn_all, Nat.sub_diag, firstn_O, app_nil_r, rev_length, Nat.eqb_refl.
  reflexivity.
Qed.

(** the whole function: one polynomial per row *)
Lemma polycost_ok g css Pg der :
  Forall2 poly_row g css -> length Pg = length g -> Forall (fun cs => cs <> []) css ->
  exists f, polycost g Pg der = Ok f /\ length f = length g /\
    forall i cs P, nth_error css i = Some cs -> nth_error Pg i = Some P ->
      exists pad, nth_error f i = Some (low (pds der (rev cs ++ repeat 0%Qc pad)) P).
Proof.
  intros F L NE. unfold polycost.
  destruct g as [|r0 g0] eqn:Eg.
  { inversion F; subst. exists []. split; auto. split; auto. intros [|i]; discriminate. }
  rewrite <- Eg in *. assert (Lg : 1 <= length g) by (rewrite Eg; simpl; lia). clear Eg.
  assert (EN : mapM ncost_of g = Ok (map (@length Qc) css)).
  { clear - F. induction F as [|r cs g css (_ & N & _) F IH]; simpl; auto.
    rewrite (ncost_of_row _ _ N), IH. reflexivity. }
  rewrite EN. cbn [bind]. set (maxN := list_max (map (@length Qc) css)).
  assert (MX : forall cs, In cs css -> length cs <= maxN).
  { intros cs I. apply list_max_ge. apply in_map. auto. }
  assert (ER : mapM (coef_row maxN) g
               = Ok (map (fun cs => rev cs ++ repeat 0%Qc (maxN - length cs)) css)).
  { clearbody maxN. clear - F MX. induction F as [|r cs g css R F IH]; auto.
    cbn [mapM map]. rewrite (coef_row_ok _ _ _ R) by (apply MX; left; auto).
    cbn [bind]. rewrite IH by (intros; apply MX; right; auto). reflexivity. }
  rewrite ER. cbn [bind].
  replace (length Pg <? length g) with false by (symmetry; apply Nat.ltb_ge; lia).
  rewrite L, Nat.sub_diag. simpl repeat. rewrite app_nil_r.
  set (c := map _ css).
  assert (Lc : length c = length g).
  { unfold c. rewrite map_length. symmetry. eapply Forall2_len; eauto. }
  assert (M1 : 1 <= maxN).
  { inversion F as [|r cs g' css' Rr F' E1 E2]; subst; [simpl in Lg; lia|].
    inversion NE; subst. specialize (MX cs (or_introl eq_refl)).
    destruct cs; [contradiction|]. simpl in MX. lia. }
  destruct (ders_ok (length g) maxN der 1 maxN c) as (w' & c' & E & Z & L' & R); auto; try lia.
  { unfold c. apply Forall_forall. intros r I. apply in_map_iff in I as (cs & <- & I).
    rewrite app_length, rev_length, repeat_length. specialize (MX cs I). lia. }
  rewrite E. destruct (Nat.eqb_spec w' 0); [contradiction|].
  exists (map2 eval_row c' Pg). split; auto. split.
  { unfold map2. rewrite map_length, combine_length. lia. }
  intros i cs P Hi HP.
  destruct (R i (rev cs ++ repeat 0%Qc (maxN - length cs))) as (r' & Hr & V).
  { unfold c. rewrite nth_error_map, Hi. reflexivity. }
  exists (maxN - length cs). rewrite <- V.
  unfold map2. rewrite nth_error_map.
  assert (EC : nth_error (combine c' Pg) i = Some (r', P)).
  { clear - Hr HP. revert i Pg Hr HP. induction c' as [|a c' IH]; intros [|i] [|p Pg] Hr HP;
      simpl in *; try discriminate; auto. congruence. }
  rewrite EC. simpl. rewrite eval_row_low. reflexivity.
Qed.
