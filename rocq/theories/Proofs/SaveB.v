(** Cost tables, and cases that cannot be written. *)
From Coq Require Import Lia.
From Verif Require Import Lib.ListFacts Lib.Fld Lib.QcFacts Proofs.NetworkC Spec.SaveSpec Proofs.SaveA.
Local Open Scope nat_scope.

Lemma qmax_zc a b : qmax (zc a) (zc b) = zc (Z.max a b).
Proof.
  unfold qmax. destruct (qc_ltb (zc a) (zc b)) eqn:E.
  - apply qc_ltb_lt in E. unfold Qclt in E. rewrite !this_zc in E. unfold Qlt in E. cbn in E. f_equal. lia.
  - apply qc_ltb_ge in E. unfold Qcle in E. rewrite !this_zc in E. unfold Qle in E. cbn in E. f_equal. lia.
Qed.
Lemma qmax_fold ks : forall k, fold_left qmax (map zc ks) (zc k) = zc (fold_left Z.max ks k).
Proof. induction ks as [|x ks IH]; intros k; [reflexivity|]. cbn [map fold_left]. rewrite qmax_zc. apply IH. Qed.
Lemma zmax_fold ks : forall k, (k <= fold_left Z.max ks k)%Z /\ (forall x, In x ks -> (x <= fold_left Z.max ks k)%Z) /\ (fold_left Z.max ks k = k \/ In (fold_left Z.max ks k) ks).
Proof.
  induction ks as [|x ks IH]; intros k; cbn [fold_left]; [split; [lia|split; [intros ? []|auto]]|].
  destruct (IH (Z.max k x)) as (A & B & C). split; [lia|]. split; [intros y [<-|Hy]; [lia|auto]|]. cbn [In]. destruct C as [C|C]; [|auto]. rewrite C. lia.
Qed.

Lemma some_ofZ a b : Some (ofZ a : num) = Some (ofZ b) -> a = b.
Proof. intros H. assert (E : Some (to_int (ofZ a : num)) = Some (to_int (ofZ b : num))) by (change (option_map to_int (Some (ofZ a : num)) = option_map to_int (Some (ofZ b : num))); rewrite H; reflexivity). rewrite !to_int_ofZ in E. congruence. Qed.
Definition counted (r : list num) : Prop := exists m k, nth_error r MODEL = Some (ofZ m) /\ nth_error r NCOST = Some (ofZ k) /\ (0 <= k)%Z.
Definition has (m : Z) (r : list num) : bool := match nth_error r MODEL with Some x => num_eqb x (ofZ m) | None => false end.
Lemma counts_ok l : (forall r, In r l -> counted r) ->
  exists ks, mapM (fun r => x <- get r NCOST ;; finite x) l = Ok (map zc ks) /\ (forall k, In k ks <-> exists r, In r l /\ nth_error r NCOST = Some (ofZ k)).
Proof.
  induction l as [|r l IH]; intros H; [exists []; split; [reflexivity|]; intros k; split; [intros []|intros (? & [] & _)]|].
  destruct (H r (or_introl eq_refl)) as (m & k & M & N & P). destruct IH as (ks & E & S); [intros; apply H; right; auto|].
  exists (k :: ks). split; [cbn [mapM]; assert (F : (x <- get r NCOST ;; finite x) = Ok (zc k)) by (unfold get; rewrite N; reflexivity); rewrite F; cbn [bind]; rewrite E; reflexivity|].
  intros z. cbn [In]. rewrite S. split.
  - intros [<-|(r' & I & Q)]; [exists r|exists r']; auto.
  - intros (r' & [<-|I] & Q); [left|right; eauto]. rewrite N in Q. apply some_ofZ. exact Q.
Qed.
Lemma max_count_ok m l : (forall r, In r l -> counted r) -> exists K, max_count m l = Ok (zc K) /\ (0 <= K)%Z /\
  (forall r k, In r l -> nth_error r MODEL = Some (ofZ m) -> nth_error r NCOST = Some (ofZ k) -> (k <= K)%Z) /\
  (K = 0%Z \/ exists r, In r l /\ nth_error r MODEL = Some (ofZ m) /\ nth_error r NCOST = Some (ofZ K)).
Proof.
  intros H. unfold max_count.
  assert (E : exists ms, mapM (fun r => get r MODEL) l = Ok ms /\ map (fun x => num_eqb x (ofZ m)) ms = map (has m) l).
  { clear -H. induction l as [|r l IH]; [exists []; auto|]. destruct IH as (ms & E & F); [intros; apply H; right; auto|].
    destruct (H r (or_introl eq_refl)) as (a & k & M & _). exists (ofZ a :: ms). cbn [mapM map]. unfold get at 1, has at 1. rewrite M. cbn [of_option bind]. rewrite E, F. auto. }
  destruct E as (ms & E & F). rewrite E. cbn [bind]. rewrite F, gather_find. cbn [bind].
  assert (HS : forall r, In r (filter (has m) l) -> counted r) by (intros r I; apply filter_In in I as (I & _); auto).
  destruct (counts_ok _ HS) as (ks & G & S). rewrite G. cbn [bind].
  assert (U : forall r, In r l -> has m r = true <-> nth_error r MODEL = Some (ofZ m)).
  { intros r I. destruct (H r I) as (a & k & M & _). unfold has. rewrite M. rewrite num_eqb_ofZ, Z.eqb_eq. split; [intros ->; auto|]. apply some_ofZ. }
  destruct ks as [|k ks].
  - exists 0%Z. split; [reflexivity|]. split; [lia|]. split; [|auto]. intros r k I M N. exfalso. apply (S k). exists r. split; auto. apply filter_In. split; auto. apply U; auto.
  - exists (fold_left Z.max ks k). cbn [map]. rewrite qmax_fold. split; [reflexivity|]. destruct (zmax_fold ks k) as (A & B & C).
    assert (P : forall z, In z (k :: ks) -> (0 <= z)%Z).
    { intros z I. apply S in I as (r & I & N). destruct (HS r I) as (? & z' & _ & N' & P). rewrite N in N'. apply some_ofZ in N'. lia. }
    split; [specialize (P k (or_introl eq_refl)); lia|]. split.
    + intros r z I M N. assert (In z (k :: ks)) as [<-|J]; auto. apply S. exists r. split; auto. apply filter_In. split; auto. apply U; auto.
    + right. assert (In (fold_left Z.max ks k) (k :: ks)) as J by (destruct C as [->|C]; [left|right]; auto).
      apply S in J as (r & I & N). apply filter_In in I as (I & M). exists r. split; auto. split; auto. apply U; auto.
Qed.

Lemma uses_counted r m : uses r m -> counted r /\ (0 <= m)%Z.
Proof. intros (k & P & N & [(M & ->)|(M & ->)]); (split; [do 2 eexists; eauto|lia]). Qed.
Lemma uses_fun r m n : uses r m -> uses r n -> m = n.
Proof.
  intros (k & P & N & C) (k' & P' & N' & C'). assert (k = k') as <- by (rewrite N in N'; apply some_ofZ; exact N').
  destruct C as [(M & ->)|(M & ->)], C' as [(M' & ->)|(M' & ->)]; auto; rewrite M in M'; apply some_ofZ in M'; discriminate.
Qed.
(** number of places for cost data *)
Lemma places l : (forall r, In r l -> exists m, uses r m) -> exists n1 n2, max_count 1 l = Ok (zc n1) /\ max_count 2 l = Ok (zc n2) /\
  let n := Z.max (2 * n1) n2 in (0 <= n)%Z /\ (forall r m, In r l -> uses r m -> (m <= n)%Z) /\ (n = 0%Z \/ exists r, In r l /\ uses r n).
Proof.
  intros H. assert (HC : forall r, In r l -> counted r) by (intros r I; destruct (H r I) as (m & U); apply (uses_counted _ _ U)).
  destruct (max_count_ok 1 l HC) as (n1 & E1 & P1 & B1 & A1). destruct (max_count_ok 2 l HC) as (n2 & E2 & P2 & B2 & A2).
  exists n1, n2. do 2 (split; [assumption|]). cbv zeta. split; [lia|]. split.
  - intros r m I (k & P & N & [(M & ->)|(M & ->)]); [specialize (B1 r k I M N); lia|specialize (B2 r k I M N); lia].
  - destruct (Z.max_spec (2 * n1) n2) as [(_ & ->)|(_ & ->)].
    + destruct A2 as [->|(r & I & M & N)]; [auto|]. right. exists r. split; auto. exists n2. auto.
    + destruct A1 as [->|(r & I & M & N)]; [auto|]. right. exists r. split; auto. exists n1. auto.
Qed.

Section Never.
Variables g9 f4 : Qc -> Qc.
Lemma show_row_length fs : forall r ts, show_row g9 f4 fs r = Ok ts -> length r = length fs.
Proof.
  induction fs as [|f fs IH]; intros [|x r] ts; cbn [show_row]; intros E; try discriminate; [reflexivity|]. destruct (show g9 f4 f x); [cbn [bind] in E|discriminate].
  destruct (show_row g9 f4 fs r) eqn:E'; [|discriminate]. cbn. f_equal. eauto.
Qed.
Lemma mapM_all {A B} (f : A -> result B) l : forall ys, mapM f l = Ok ys -> forall x, In x l -> exists y, f x = Ok y.
Proof.
  induction l as [|a l IH]; intros ys E x; [intros []|]. cbn [mapM] in E. destruct (f a) eqn:Ea; [cbn [bind] in E|discriminate]. destruct (mapM f l) eqn:El; [|discriminate].
  intros [<-|I]; eauto.
Qed.
Lemma gencost_ok n1 n2 l : max_count 1 l = Ok (zc n1) -> max_count 2 l = Ok (zc n2) ->
  save_gencost g9 f4 l = mapM (show_row g9 f4 ([FD; F9; F9; FD] ++ repeat F9 (Z.to_nat (Z.max (2 * n1) n2)))) l.
Proof.
  intros E1 E2. unfold save_gencost. rewrite E1, E2. cbn [bind]. replace (zc 2 * zc n1)%Qc with (zc (2 * n1)).
  - rewrite qmax_zc, qtrunc_zc. reflexivity.
  - apply Qc_is_canon. rewrite this_zc. unfold Qcmult. cbn [this Q2Qc]. rewrite Qred_correct, !this_zc. unfold Qeq. cbn. lia.
Qed.
Lemma gencost_fits t : table_ok t -> costs_fit t ->
  save_gencost g9 f4 (a_rows t) = Ok (map (map TNum) (out g9 f4 ([FD; F9; F9; FD] ++ repeat F9 (a_cols t - 4)) t)).
Proof.
  intros (R & A & N) (n & L & P & (r0 & I0 & U0) & H). destruct (places (a_rows t)) as (n1 & n2 & E1 & E2 & Q); [intros r I; destruct (H r I) as (m & U & _); eauto|].
  cbv zeta in Q. destruct Q as (Q & B & W). rewrite (gencost_ok _ _ _ E1 E2).
  assert (Z.max (2 * n1) n2 = n) as ->.
  { pose proof (B r0 n I0 U0). destruct W as [W|(r & I & U)]; [lia|]. destruct (H r I) as (m & U' & Hm). pose proof (uses_fun _ _ _ U U'). lia. }
  rewrite L. replace (4 + Z.to_nat n - 4) with (Z.to_nat n) by lia. set (fs := _ ++ repeat _ _).
  assert (LF : length fs = a_cols t) by (unfold fs; rewrite app_length, repeat_length, L; reflexivity).
  rewrite <- (rows_ok g9 f4 fs t R A) by lia. unfold show_rows. clear -R LF. revert R. unfold rectangular. induction (a_rows t) as [|r l IH]; intros R; [reflexivity|]. inversion R as [|? ? R1 R2]; subst. cbn [mapM].
  rewrite (IH R2). rewrite firstn_all2 by lia. reflexivity.
Qed.
Lemma gencost_wide l : l <> [] -> (forall r, In r l -> exists m, uses r m /\ 4 + Z.to_nat m < length r) -> forall x, save_gencost g9 f4 l <> Ok x.
Proof.
  intros N H x C. destruct (places l) as (n1 & n2 & E1 & E2 & Q); [intros r I; destruct (H r I) as (m & U & _); eauto|].
  cbv zeta in Q. destruct Q as (Q & B & W). rewrite (gencost_ok _ _ _ E1 E2) in C. set (n := Z.max (2 * n1) n2) in *.
  assert (exists r, In r l /\ 4 + Z.to_nat n < length r) as (r & I & Hr).
  { destruct W as [->|(r & I & U)].
    - destruct l as [|r l]; [contradiction|]. exists r. split; [left; auto|]. destruct (H r (or_introl eq_refl)) as (m & _ & L). cbn. lia.
    - exists r. split; auto. destruct (H r I) as (m & U' & L). rewrite (uses_fun _ _ _ U U'). exact L. }
  destruct (mapM_all _ _ _ C r I) as (y & Y). apply show_row_length in Y. rewrite app_length, repeat_length in Y. cbn in Y. lia.
Qed.
Lemma rows_width fs w l x r : show_rows g9 f4 fs w l = Ok x -> In r l -> Nat.min w (length r) = length fs.
Proof. intros C I. destruct (mapM_all _ _ _ C r I) as (y & Y). apply show_row_length in Y. rewrite firstn_length in Y. exact Y. Qed.
End Never.
