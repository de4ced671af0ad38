(** The user cost of the AC optimal power flow: the sparse products against the rows. *)
From Verif Require Import Lib.ListFacts Model.OpfFcn Spec.AcOpfSpec Proofs.LinAlgFacts Proofs.SparseFacts
  Proofs.FldFacts Proofs.OrdFacts Proofs.MatFacts Proofs.PipsF Proofs.NetworkA Proofs.OpfLinB.
Local Open Scope nat_scope.

Section AcCostB.
Context {K : Type} {F : Fld K}.
Add Field KF : (@f_ok K F).

Definition diag_of (M : smat K) (n : nat) (d : nat -> K) : Prop :=
  ismat M n n (fun i j => if i =? j then d i else 0%K).

Lemma sparse_diag (data : list K) idx n f d : NoDup idx -> (forall i, In i idx -> i < n) -> data = map f idx ->
  (forall i, i < n -> (In i idx -> d i = f i) /\ (~ In i idx -> d i = 0%K)) ->
  exists M, sparse data idx idx n n = Ok M /\ diag_of M n d.
Proof.
  intros ND LT -> D.
  assert (FL : Forall (fun i => i < n) idx) by (apply Forall_forall; auto).
  assert (E : sparse (map f idx) idx idx n n = Ok (SM n n (zip3 idx idx (map f idx)))).
  { apply sparse_def; rewrite ?map_length; auto. }
  exists (SM n n (zip3 idx idx (map f idx))). split; auto.
  split; [eapply sparse_wf; exact E|]. split; auto. split; auto. intros i j Hi Hj.
  assert (Z : zip3 idx idx (map f idx) = map (fun k => Ent k k (f k)) idx).
  { clear. unfold zip3. induction idx as [|a l IH]; simpl; auto. rewrite IH. reflexivity. }
  unfold at_. cbn [ents]. rewrite Z, lsum_map. cbn [erow ecol ev].
  destruct (Nat.eqb_spec i j) as [<-|NE].
  - rewrite (lsum_ext _ (fun k => if i =? k then f k else 0%K)).
    2:{ intros k _. rewrite (Nat.eqb_sym i k). destruct (k =? i); auto. }
    destruct (in_dec Nat.eq_dec i idx) as [I|I].
    + rewrite (lsum_list_single f) by auto. symmetry. apply D; auto.
    + rewrite (proj2 (D i Hi) I). apply lsum_zero. intros k Ik. destruct (Nat.eqb_spec i k); auto. subst. tauto.
  - apply lsum_zero. intros k _. destruct (Nat.eqb_spec k i), (Nat.eqb_spec k j); auto. subst. lia.
Qed.

Lemma diag_mul (A B : smat K) n nc d g : diag_of A n d -> ismat B n nc g ->
  exists M, mulm A B = Ok M /\ ismat M n nc (fun i j => d i * g i j)%K.
Proof.
  intros HA HB. destruct (ismat_mul A B n n nc _ _ HA HB) as (M & E & HM).
  exists M. split; auto. eapply ismat_eq; [exact HM|]. intros i j Hi Hj. cbv beta.
  rewrite (lsum_ext _ (fun k => if i =? k then d i * g i j else 0)%K).
  - apply (lsum_seq_single' (fun k => (d i * g i j)%K)); auto.
  - intros k _. destruct (Nat.eqb_spec i k); subst; ring.
Qed.
Lemma mul_diag (A B : smat K) n nr d g : ismat A nr n g -> diag_of B n d ->
  exists M, mulm A B = Ok M /\ ismat M nr n (fun i j => g i j * d j)%K.
Proof.
  intros HA HB. destruct (ismat_mul A B nr n n _ _ HA HB) as (M & E & HM).
  exists M. split; auto. eapply ismat_eq; [exact HM|]. intros i j Hi Hj. cbv beta.
  rewrite (lsum_ext _ (fun k => if j =? k then g i j * d j else 0)%K).
  - apply (lsum_seq_single' (fun k => (g i j * d j)%K)); auto.
  - intros k _. rewrite (Nat.eqb_sym j k). destruct (Nat.eqb_spec k j); subst; ring.
Qed.
Lemma diag_diag (A B : smat K) n d e : diag_of A n d -> diag_of B n e ->
  exists M, mulm A B = Ok M /\ diag_of M n (fun i => d i * e i)%K.
Proof.
  intros HA HB. destruct (diag_mul A B n n _ _ HA HB) as (M & E & HM). exists M. split; auto.
  eapply ismat_eq; [exact HM|]. intros i j _ _. cbv beta. destruct (Nat.eqb_spec i j); ring.
Qed.
Lemma diag_add (A B : smat K) n d e : diag_of A n d -> diag_of B n e ->
  exists M, addm A B = Ok M /\ diag_of M n (fun i => d i + e i)%K.
Proof.
  intros HA HB. destruct (ismat_add A B n n _ _ HA HB) as (M & E & HM). exists M. split; auto.
  eapply ismat_eq; [exact HM|]. intros i j _ _. cbv beta. destruct (Nat.eqb_spec i j); ring.
Qed.
Lemma diag_mulv (A : smat K) n d x : diag_of A n d -> length x = n ->
  exists y, mulv A x = Ok y /\ length y = n /\ forall i, i < n -> nth i y 0%K = (d i * nth i x 0)%K.
Proof.
  intros HA L. destruct (ismat_mulv A n n _ x HA L) as (y & E & Ly & HY). exists y. split; auto. split; auto.
  intros i Hi. rewrite HY by auto.
  rewrite (lsum_ext _ (fun k => if i =? k then d i * nth i x 0 else 0)%K).
  - apply (lsum_seq_single' (fun k => (d i * nth i x 0)%K)); auto.
  - intros k _. destruct (Nat.eqb_spec i k); subst; ring.
Qed.
Lemma diag_eq (A : smat K) n d e : diag_of A n d -> (forall i, i < n -> d i = e i) -> diag_of A n e.
Proof. intros H E. eapply ismat_eq; [exact H|]. intros i j Hi _. cbv beta. rewrite E by auto. reflexivity. Qed.
Lemma diag_scale (A : smat K) n d c : diag_of A n d -> diag_of (mapm (rmul c) A) n (fun i => c * d i)%K.
Proof.
  intros H. eapply ismat_eq.
  - apply (ismat_mapm (rmul c)); [ring|intros; ring|exact H].
  - intros i j _ _. cbv beta. destruct (i =? j); ring.
Qed.

Lemma find_map2 {A B} (f : A -> B -> bool) u v i da db : length u = length v ->
  In i (find (map2 f u v)) <-> i < length u /\ f (nth i u da) (nth i v db) = true.
Proof.
  intros L. rewrite in_find. destruct (Nat.lt_ge_cases i (length u)) as [H|H].
  - rewrite (nth_error_nth' _ false) by (rewrite map2_length; lia).
    rewrite (nth_map2_d _ _ _ _ da db) by lia. split; [intros E; injection E as E; auto|]. intros (_ & ->). reflexivity.
  - assert (nth_error (map2 f u v) i = None) as ->.
    { apply nth_error_None. rewrite map2_length. lia. }
    split; [discriminate|lia].
Qed.
Lemma find_map {A} (f : A -> bool) u i da :
  In i (find (map f u)) <-> i < length u /\ f (nth i u da) = true.
Proof.
  rewrite in_find. destruct (Nat.lt_ge_cases i (length u)) as [H|H].
  - rewrite (nth_error_nth' _ false) by (rewrite map_length; lia).
    rewrite (nth_map_lt _ _ _ _ da) by lia. split; [intros E; injection E as E; auto|]. intros (_ & ->). reflexivity.
  - assert (nth_error (map f u) i = None) as -> by (apply nth_error_None; rewrite map_length; lia).
    split; [discriminate|lia].
Qed.
Lemma repeat_map {A B} (a : B) (l : list A) : repeat a (length l) = map (fun _ => a) l.
Proof. induction l; simpl; auto. f_equal. auto. Qed.
Lemma NoDup_app' {A} (l l' : list A) : NoDup l -> NoDup l' -> (forall x, In x l -> ~ In x l') -> NoDup (l ++ l').
Proof.
  intros N N' D. induction N as [|a l I N IH]; simpl; auto. constructor.
  - rewrite in_app_iff. intros [H|H]; [tauto|]. apply (D a); [left; auto|auto].
  - apply IH. intros x H. apply D. right. auto.
Qed.
Lemma ewise_def {A B C} (f : A -> B -> C) u v : length u = length v -> ewise f u v = Ok (map2 f u v).
Proof. unfold ewise. intros ->. rewrite Nat.eqb_refl. reflexivity. Qed.
Lemma gather_def {A} (l : list A) idx d : (forall i, In i idx -> i < length l) ->
  gather l idx = Ok (map (fun i => nth i l d) idx).
Proof.
  intros H. destruct (gather_ok l idx H) as (v & E). rewrite E. f_equal. apply (gather_all _ _ _ d E).
Qed.

Variable D : acdata (K := K).
Variable x : list K.
Notation cp := (a_cp D).
Notation N := (g_N cp).
Notation nw := (nrows (g_N cp)).
Hypothesis ZD : zone_data (length x) N (g_H cp) (g_Cw cp) (g_dd cp) (g_rh cp) (g_kk cp) (g_mm cp).

Definition rr_ (i : nat) : K := zone_r N (g_rh cp) x i.
Definition kk_ (i : nat) : K := nth i (g_kk cp) 0%K.
Definition out_ (i : nat) : K := outside (rr_ i) (kk_ i).
Definition active_ (i : nat) : bool :=
  fltb (rr_ i) (- kk_ i)%K || (feqb (rr_ i) 0%K && feqb (kk_ i) 0%K) || fltb (kk_ i) (rr_ i).
Definition dd_ (z : Z) (i : nat) : bool := feqb (nth i (g_dd cp) 0%K) (fofZ z).
Definition M_ (i : nat) : K := if active_ i then nth i (g_mm cp) 0%K else 0%K.
Definition Q_ (i : nat) : K := if dd_ 2 i then 1%K else 0%K.
(** derivative of the row's cost with respect to its argument *)
Definition slope_ (i : nat) : K :=
  (M_ i * ((if dd_ 1 i then 1 else 0) + fofZ 2 * Q_ i * out_ i))%K.

Lemma kk_nn i : i < nw -> le 0%K (kk_ i).
Proof.
  destruct ZD as (_ & _ & _ & _ & _ & Lk & _ & FK). intros Hi. rewrite Forall_forall in FK. apply FK.
  apply nth_In. lia.
Qed.
Lemma disj_lt_gt i : i < nw -> fltb (rr_ i) (- kk_ i)%K = true -> fltb (kk_ i) (rr_ i) = true -> False.
Proof.
  intros Hi A B. pose proof (kk_nn i Hi) as P. apply (lt_irrefl (kk_ i)).
  apply (lt_trans _ (rr_ i)); auto. apply (lt_le_trans _ (- kk_ i)%K); auto.
  apply (le_trans _ 0%K); auto. apply nn_opp. replace (- - kk_ i)%K with (kk_ i) by ring. auto.
Qed.
Lemma disj_lt_eq i : fltb (rr_ i) (- kk_ i)%K = true -> feqb (rr_ i) 0%K && feqb (kk_ i) 0%K = true -> False.
Proof.
  intros A B. apply andb_prop in B as (B1 & B2). apply feqb_ok in B1, B2. rewrite B1, B2 in A.
  apply (lt_irrefl (0%K : K)). replace (- 0)%K with (0 : K)%K in A by ring. exact A.
Qed.
Lemma disj_gt_eq i : fltb (kk_ i) (rr_ i) = true -> feqb (rr_ i) 0%K && feqb (kk_ i) 0%K = true -> False.
Proof.
  intros A B. apply andb_prop in B as (B1 & B2). apply feqb_ok in B1, B2. rewrite B1, B2 in A.
  apply (lt_irrefl (0%K : K)). exact A.
Qed.

Record general_spec (t : gterm (K := K)) : Prop := {
  gs_w : gt_w t = zone_w N (g_dd cp) (g_rh cp) (g_kk cp) (g_mm cp) x;
  gs_HwC : length (gt_HwC t) = nw;
  gs_HwC_at : forall i, i < nw ->
    nth i (gt_HwC t) 0%K = (lsum (fun j => at_ (g_H cp) i j * nth j (gt_w t) 0) (seq 0 nw) + nth i (g_Cw cp) 0)%K;
  gs_AA : ismat (gt_AA t) (length x) nw (fun j i => at_ N i j * slope_ i)%K;
  gs_M : diag_of (gt_M t) nw M_;
  gs_QQ : diag_of (gt_QQ t) nw Q_ }.

Lemma general_ok : exists t, general D x = Ok t /\ general_spec t.
Proof.
  pose proof ZD as (SN & SH & LC & Ld & Lr & Lk & Lm & FK).
  assert (WN : ismat N nw (length x) (at_ N)).
  { destruct SN as (A & B & C). split; auto. unfold wf. rewrite B. auto. }
  assert (WH : ismat (g_H cp) nw nw (at_ (g_H cp))).
  { destruct SH as (A & B & C). split; auto. unfold wf. rewrite A, B. auto. }
  unfold general.
  destruct (ismat_mulv N nw (length x) _ x WN eq_refl) as (Nx & E1 & LNx & HNx).
  rewrite E1. cbn [bind]. clear E1.
  rewrite (ewise_def rsub) by lia. cbn [bind]. set (r := map2 rsub Nx (g_rh cp)).
  assert (Lrr : length r = nw) by (unfold r; rewrite map2_length; lia).
  assert (Hr : forall i, i < nw -> nth i r 0%K = rr_ i).
  { intros i Hi. unfold r, rr_, zone_r. rewrite (nth_map2_d _ _ _ _ 0%K 0%K) by lia. rewrite HNx by auto.
    unfold row_val. destruct WN as (_ & _ & -> & _). reflexivity. }
  clearbody r.
  do 3 (rewrite ewise_def by lia; cbn [bind]).
  set (iLT := find (map2 _ r (g_kk cp))). set (iEQ := find (map2 (fun a k => feqb a 0%K && _) r (g_kk cp))).
  set (iGT := find (map2 (fun a k => fltb k a) r (g_kk cp))).
  assert (IL : forall i, In i iLT <-> i < nw /\ fltb (rr_ i) (- kk_ i)%K = true).
  { intros i. unfold iLT. rewrite (find_map2 _ _ _ _ 0%K 0%K) by lia. rewrite Lrr.
    split; intros (A & B); (split; [exact A|]); rewrite Hr in * by auto; exact B. }
  assert (IE : forall i, In i iEQ <-> i < nw /\ feqb (rr_ i) 0%K && feqb (kk_ i) 0%K = true).
  { intros i. unfold iEQ. rewrite (find_map2 _ _ _ _ 0%K 0%K) by lia. rewrite Lrr.
    split; intros (A & B); (split; [exact A|]); rewrite Hr in * by auto; exact B. }
  assert (IG : forall i, In i iGT <-> i < nw /\ fltb (kk_ i) (rr_ i) = true).
  { intros i. unfold iGT. rewrite (find_map2 _ _ _ _ 0%K 0%K) by lia. rewrite Lrr.
    split; intros (A & B); (split; [exact A|]); rewrite Hr in * by auto; exact B. }
  assert (NL : NoDup iLT) by apply find_NoDup. assert (NE : NoDup iEQ) by apply find_NoDup.
  assert (NG : NoDup iGT) by apply find_NoDup. clearbody iLT iEQ iGT.
  set (iND := iLT ++ iEQ ++ iGT).
  assert (ND : NoDup iND).
  { apply NoDup_app'; auto.
    - apply NoDup_app'; auto. intros i A B. apply IE in A as (_ & A). apply IG in B as (_ & B). eapply disj_gt_eq; eauto.
    - intros i A B. apply IL in A as (Hi & A). apply in_app_or in B as [B|B].
      + apply IE in B as (_ & B). eapply disj_lt_eq; eauto.
      + apply IG in B as (_ & B). eapply disj_lt_gt; eauto. }
  assert (IN : forall i, In i iND <-> i < nw /\ active_ i = true).
  { intros i. unfold iND, active_. rewrite !in_app_iff, IL, IE, IG, !orb_true_iff. tauto. }
  assert (INn : forall i, i < nw -> ~ In i iND -> active_ i = false).
  { intros i Hi A. destruct (active_ i) eqn:Q; auto. destruct A. apply IN. auto. }
  set (iL := find (map _ (g_dd cp))). set (iQ := find (map (fun d => feqb d (fofZ 2)) (g_dd cp))).
  assert (II : forall i, In i iL <-> i < nw /\ dd_ 1 i = true).
  { intros i. unfold iL. rewrite (find_map _ _ _ 0%K), Ld. reflexivity. }
  assert (IQ : forall i, In i iQ <-> i < nw /\ dd_ 2 i = true).
  { intros i. unfold iQ. rewrite (find_map _ _ _ 0%K), Ld. reflexivity. }
  assert (NI : NoDup iL) by apply find_NoDup. assert (NQ : NoDup iQ) by apply find_NoDup. clearbody iL iQ.
  destruct (sparse_diag (repeat 1%K (length iL)) iL nw (fun _ => 1%K) (fun i => if dd_ 1 i then 1 else 0)%K NI) as (LL & E & HLL).
  { intros i I. apply II in I. tauto. }
  { apply repeat_map. }
  { intros i Hi. split; intros I.
    - apply II in I as (_ & ->). reflexivity.
    - destruct (dd_ 1 i) eqn:Q; auto. destruct I. apply II. auto. }
  rewrite E. cbn [bind]. clear E.
  destruct (sparse_diag (repeat 1%K (length iQ)) iQ nw (fun _ => 1%K) Q_ NQ) as (QQ & E & HQQ).
  { intros i I. apply IQ in I. tauto. }
  { apply repeat_map. }
  { intros i Hi. unfold Q_. split; intros I.
    - apply IQ in I as (_ & ->). reflexivity.
    - destruct (dd_ 2 i) eqn:Q; auto. destruct I. apply IQ. auto. }
  rewrite E. cbn [bind]. clear E.
  set (kf := fun i => if fltb (rr_ i) (- kk_ i)%K then 1%K else if fltb (kk_ i) (rr_ i) then (- (1))%K else (0 : K)%K).
  destruct (sparse_diag (repeat 1%K (length iLT) ++ repeat 0%K (length iEQ) ++ repeat (ropp 1%K) (length iGT))
     iND nw kf kf ND) as (KB & E & HKB).
  { intros i I. apply IN in I. tauto. }
  { unfold iND. rewrite !map_app, !repeat_map. f_equal; [|f_equal]; apply map_ext_in; intros i I; unfold kf.
    - apply IL in I as (_ & ->). reflexivity.
    - apply IE in I as (_ & I). destruct (fltb (rr_ i) _) eqn:Q; [destruct (disj_lt_eq i Q I)|].
      destruct (fltb (kk_ i) _) eqn:Q'; [destruct (disj_gt_eq i Q' I)|]. reflexivity.
    - apply IG in I as (Hi & I). destruct (fltb (rr_ i) _) eqn:Q; [destruct (disj_lt_gt i Hi Q I)|]. rewrite I. reflexivity. }
  { intros i Hi. split; intros I; auto. specialize (INn i Hi I). unfold active_ in INn.
    apply orb_false_iff in INn as (Q & Q2). apply orb_false_iff in Q as (Q & _).
    unfold kf. rewrite Q, Q2. reflexivity. }
  rewrite E. cbn [bind]. clear E.
  destruct (diag_mulv KB nw kf (g_kk cp) HKB Lk) as (kbar & E & Lkb & Hkb). rewrite E. cbn [bind]. clear E.
  rewrite (ewise_def radd) by lia. cbn [bind]. set (rr := map2 radd r kbar).
  assert (LR : length rr = nw) by (unfold rr; rewrite map2_length; lia).
  (* the shifted argument, where it counts *)
  assert (HR : forall i, i < nw -> active_ i = true -> nth i rr 0%K = out_ i).
  { intros i Hi A. unfold rr. rewrite (nth_map2_d _ _ _ _ 0%K 0%K) by lia. rewrite Hr, Hkb by auto.
    unfold kf, out_, outside. fold (kk_ i). destruct (fltb (rr_ i) _) eqn:Q; [ring|].
    destruct (fltb (kk_ i) _) eqn:Q'; [ring|]. unfold active_ in A. rewrite Q, Q' in A.
    rewrite orb_false_r in A. cbn [orb] in A. apply andb_prop in A as (A & _). apply feqb_ok in A. rewrite A. ring. }
  assert (HO : forall i, i < nw -> active_ i = false -> out_ i = 0%K).
  { intros i Hi A. unfold active_ in A. apply orb_false_iff in A as (A & Q2). apply orb_false_iff in A as (A & _).
    unfold out_, outside. rewrite A, Q2. reflexivity. }
  clearbody rr.
  rewrite (gather_def _ _ 0%K) by (intros i I; apply IN in I; lia). cbn [bind].
  destruct (sparse_diag (map (fun i => nth i (g_mm cp) 0%K) iND) iND nw (fun i => nth i (g_mm cp) 0%K) M_ ND) as (M & E & HM).
  { intros i I. apply IN in I. tauto. }
  { reflexivity. }
  { intros i Hi. unfold M_. split; intros I.
    - apply IN in I as (_ & ->). reflexivity.
    - rewrite (INn i Hi I). reflexivity. }
  rewrite E. cbn [bind]. clear E.
  destruct (sparse_diag rr (seq 0 nw) nw (fun i => nth i rr 0%K) (fun i => nth i rr 0%K)) as (DR & E & HDR).
  { apply seq_NoDup. }
  { intros i I. apply in_seq in I. lia. }
  { apply (nth_ext _ _ 0%K 0%K); [rewrite map_length, seq_length; auto|]. intros i Hi.
    rewrite (nth_map_lt _ _ _ _ 0) by (rewrite seq_length; lia). rewrite seq_nth by lia. reflexivity. }
  { intros i Hi. split; auto. intros I. destruct I. apply in_seq. lia. }
  rewrite E. cbn [bind]. clear E.
  destruct (diag_diag QQ DR nw _ _ HQQ HDR) as (Qr & E & HQr). rewrite E. cbn [bind]. clear E.
  destruct (diag_add LL Qr nw _ _ HLL HQr) as (LQ & E & HLQ). rewrite E. cbn [bind]. clear E.
  destruct (diag_diag M LQ nw _ _ HM HLQ) as (MLQ & E & HMLQ). rewrite E. cbn [bind]. clear E.
  destruct (diag_mulv MLQ nw _ rr HMLQ LR) as (w & E & Lw & Hw). rewrite E. cbn [bind]. clear E.
  assert (W : w = zone_w N (g_dd cp) (g_rh cp) (g_kk cp) (g_mm cp) x).
  { apply (nth_ext _ _ 0%K 0%K); unfold zone_w; [rewrite map_length, seq_length; auto|]. intros i Hi. rewrite Lw in Hi.
    rewrite (nth_map_lt _ _ _ _ 0) by (rewrite seq_length; lia). rewrite seq_nth by lia. cbn [Nat.add].
    rewrite Hw by auto. cbv beta. fold (rr_ i) (kk_ i). fold (out_ i). unfold shape_cost. fold (dd_ 1 i) (dd_ 2 i). unfold M_, Q_.
    destruct (active_ i) eqn:A.
    - rewrite HR by auto. destruct (dd_ 1 i) eqn:D1.
      + assert (dd_ 2 i = false) as ->.
        { destruct (dd_ 2 i) eqn:D2; auto. unfold dd_ in D1, D2. apply feqb_ok in D1, D2. rewrite D1 in D2.
          apply fofZ_inj in D2. discriminate. }
        ring.
      + destruct (dd_ 2 i); ring.
    - rewrite HO by auto. destruct (dd_ 1 i), (dd_ 2 i); ring. }
  destruct (ismat_mulv (g_H cp) nw nw _ w WH Lw) as (Hw' & E & LHw & HHw). rewrite E. cbn [bind]. clear E.
  rewrite (ewise_def radd) by lia. cbn [bind].
  destruct (mul_diag (transp N) M nw (length x) _ _ (ismat_transp _ _ _ _ WN) HM) as (NM & E & HNM). rewrite E. cbn [bind]. clear E.
  destruct (diag_diag _ DR nw _ _ (diag_scale QQ nw _ (fofZ 2) HQQ) HDR) as (Q2 & E & HQ2). rewrite E. cbn [bind]. clear E.
  destruct (diag_add LL Q2 nw _ _ HLL HQ2) as (LQ2 & E & HLQ2). rewrite E. cbn [bind]. clear E.
  destruct (mul_diag NM LQ2 nw (length x) _ _ HNM HLQ2) as (AA & E & HAA). rewrite E. cbn [bind]. clear E.
  eexists. split; [reflexivity|]. constructor; cbn [gt_w gt_HwC gt_AA gt_M gt_QQ]; auto.
  - rewrite map2_length. lia.
  - intros i Hi. rewrite (nth_map2_d _ _ _ _ 0%K 0%K) by lia. rewrite HHw by auto. reflexivity.
  - eapply ismat_eq; [exact HAA|]. intros j i Hj Hi. cbv beta. unfold slope_.
    unfold M_. destruct (active_ i) eqn:A; [|ring]. rewrite HR by auto. ring.
Qed.
End AcCostB.
