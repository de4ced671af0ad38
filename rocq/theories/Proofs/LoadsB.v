(** Load scaling: products of factors cell by cell. *)
From Verif Require Import Lib.ListFacts Model.Loads Spec.LoadSpec
  Proofs.SparseFacts Proofs.FldFacts Proofs.NetworkA Proofs.NetworkC Proofs.NetworkD Proofs.PfsolnA Proofs.OpfLinA Proofs.OpfLinB
  Proofs.BlockFacts Proofs.MatFacts Proofs.AcPfB Proofs.PipsD Proofs.LoadsA.
Local Open Scope nat_scope.

Section LoadsB.
Context {K : Type} {F : Fld K}.
Add Field KF : (@f_ok K F).

Definition mem (i : nat) (l : list nat) : bool := existsb (Nat.eqb i) l.
Lemma mem_in i l : mem i l = true <-> In i l.
Proof.
  unfold mem. rewrite existsb_exists. split; [intros (k & I & E); apply Nat.eqb_eq in E; congruence|].
  intros I. exists i. rewrite Nat.eqb_refl. auto.
Qed.
Lemma mem_out i l : mem i l = false <-> ~ In i l.
Proof. rewrite <- mem_in. destruct (mem i l); split; congruence. Qed.

(** [g i j] multiplies cell j of row i *)
Definition mult (t t' : list (list K)) (g : nat -> nat -> K) : Prop :=
  length t' = length t /\
  forall i r, nth_error t i = Some r -> exists r', nth_error t' i = Some r' /\ length r' = length r /\
    forall j, cell r' j = (cell r j * g i j)%K.
Lemma mult_refl t : mult t t (fun _ _ => 1%K).
Proof. split; auto. intros i r H. exists r. split; auto. split; auto. intros j. ring. Qed.
Lemma mult_trans t1 t2 t3 g1 g2 : mult t1 t2 g1 -> mult t2 t3 g2 -> mult t1 t3 (fun i j => g1 i j * g2 i j)%K.
Proof.
  intros (L1 & H1) (L2 & H2). split; [congruence|]. intros i r Hr.
  destruct (H1 i r Hr) as (r1 & A1 & A2 & A3). destruct (H2 i r1 A1) as (r2 & B1 & B2 & B3).
  exists r2. split; auto. split; [congruence|]. intros j. rewrite B3, A3. ring.
Qed.
Lemma mult_ext t t' g g' : (forall i j, i < length t -> g i j = g' i j) -> mult t t' g -> mult t t' g'.
Proof.
  intros E (L & H). split; auto. intros i r Hr. destruct (H i r Hr) as (r' & A & B & C). exists r'.
  split; auto. split; auto. intros j. rewrite C, E; auto. eapply nth_error_some_lt; eauto.
Qed.

Lemma scale_col_ok rows j a t t' : NoDup rows ->
  (sub <- gather t rows ;; v <- col j sub ;; set_rows t rows j (map (fun b => b * a)%K v)) = Ok t' ->
  mult t t' (fun i c => if (c =? j) && mem i rows then a else 1%K).
Proof.
  intros ND H. apply bind_ok in H as (sub & Hs & H). apply bind_ok in H as (v & Hv & H).
  apply col_ok in Hv as (_ & ->). pose proof (gather_length _ _ _ Hs) as LS.
  destruct (set_rows_ok _ _ _ _ _ ND H) as (L & L' & O & N). split; auto. intros i r Hr.
  destruct (mem i rows) eqn:E.
  - apply mem_in in E. apply In_nth_error in E as (p & Hp). destruct (N p i Hp) as (r0 & Hr0 & W & Hn). assert (r0 = r) as -> by congruence.
    eexists. split; [exact Hn|]. split; [apply upd_length|]. intros c. unfold cell at 1. rewrite AcPfB.nth_upd_d by auto.
    rewrite (Nat.eqb_sym c). destruct (Nat.eqb_spec j c) as [->|NE]; cbn [andb]; [|unfold cell; ring].
    pose proof (nth_error_some_lt _ _ _ Hp) as Lp. rewrite map_map, (nth_map_lt _ _ _ _ []) by lia.
    pose proof (gather_nth _ _ _ _ _ Hs Hp) as G. rewrite Hr in G. rewrite (nth_error_nth _ _ _ G). reflexivity.
  - apply mem_out in E. exists r. rewrite (O i E). split; auto. split; auto. intros c. rewrite andb_false_r. ring.
Qed.
Lemma scale_cols_ok rows js a : NoDup rows -> NoDup js -> forall t t', scale_cols rows js a t = Ok t' ->
  mult t t' (fun i c => if mem c js && mem i rows then a else 1%K).
Proof.
  intros NR NJ. unfold scale_cols. induction js as [|j js IH]; intros t t' H; cbn [foldM] in H.
  - injection H as <-. eapply mult_ext; [|apply mult_refl]. reflexivity.
  - apply bind_ok in H as (t1 & H1 & H). apply (scale_col_ok rows j a t t1 NR) in H1. apply NoDup_cons_iff in NJ as (N1 & N2).
    specialize (IH N2 _ _ H). eapply mult_ext; [|exact (mult_trans _ _ _ _ _ H1 IH)]. intros i c _. cbv beta.
    unfold mem at 4. cbn [existsb]. fold (mem c js). destruct (Nat.eqb_spec c j) as [->|NE]; cbn [andb orb].
    + apply mem_out in N1. rewrite N1. cbn [andb]. destruct (mem i rows); ring.
    + ring.
Qed.

(** ** loops over the zones *)
Definition prod {A} (f : A -> K) (l : list A) : K := fold_right (fun p acc => f p * acc)%K 1%K l.
Lemma prod_ext {A} (f g : A -> K) l : (forall p, In p l -> f p = g p) -> prod f l = prod g l.
Proof. unfold prod. induction l; intros H; cbn [fold_right]; auto. rewrite H by (left; auto). rewrite IHl; auto. intros; apply H; right; auto. Qed.
Lemma prod_one {A} (f : A -> K) l : (forall p, In p l -> f p = 1%K) -> prod f l = 1%K.
Proof. unfold prod. induction l; intros H; cbn [fold_right]; auto. rewrite H by (left; auto). rewrite IHl; [ring|]. intros; apply H; right; auto. Qed.
Lemma foldM_mult {A} (f : list (list K) -> A -> result (list (list K))) (st : A -> nat -> nat -> K) (I : list (list K) -> Prop) :
  (forall p t t', I t -> f t p = Ok t' -> mult t t' (st p) /\ I t') ->
  forall ps t t', I t -> foldM f ps t = Ok t' -> mult t t' (fun i j => prod (fun p => st p i j) ps).
Proof.
  intros S. induction ps as [|p ps IH]; intros t t' It H; cbn [foldM] in H.
  - injection H as <-. apply mult_refl.
  - apply bind_ok in H as (t1 & H1 & H). destruct (S p t t1 It H1) as (M1 & I1). specialize (IH _ _ I1 H).
    exact (mult_trans _ _ _ _ _ M1 IH).
Qed.

Lemma fofZ_nat_inj a b : fofZ (Z.of_nat a) = fofZ (Z.of_nat b) :> K -> a = b.
Proof. intros H. apply fofZ_inj in H. lia. Qed.
Lemma factor_from z : forall scale s,
  prod (fun p => if feqb z (fofZ (Z.of_nat (S (fst p)))) then snd p else 1%K) (combine (seq s (length scale)) scale)
  = match List.find (fun k => feqb z (fofZ (Z.of_nat (S k)))) (seq s (length scale)) with Some k => nth (k - s) scale 0%K | None => 1%K end.
Proof.
  induction scale as [|a scale IH]; intros s; [reflexivity|]. cbn [length seq combine List.find prod fold_right fst snd].
  destruct (feqb z (fofZ (Z.of_nat (S s)))) eqn:E.
  - rewrite Nat.sub_diag. cbn [nth]. change (a * prod (fun p => if feqb z (fofZ (Z.of_nat (S (fst p)))) then snd p else 1) (combine (seq (S s) (length scale)) scale) = a)%K.
    rewrite prod_one; [ring|]. intros (k & b) I. cbn [fst snd]. apply in_combine_l in I. apply in_seq in I.
    destruct (feqb z (fofZ (Z.of_nat (S k)))) eqn:E'; auto. apply feqb_ok in E, E'. exfalso.
    assert (S s = S k) by (apply fofZ_nat_inj; congruence). lia.
  - change (1 * prod (fun p => if feqb z (fofZ (Z.of_nat (S (fst p)))) then snd p else 1) (combine (seq (S s) (length scale)) scale)
      = match List.find (fun k => feqb z (fofZ (Z.of_nat (S k)))) (seq (S s) (length scale)) with Some k => nth (k - s) (a :: scale) 0 | None => 1 end)%K.
    rewrite IH. destruct (List.find _ _) as [k|] eqn:EF; [|ring]. apply find_some in EF as (I & _). apply in_seq in I.
    replace (k - s) with (S (k - S s)) by lia. cbn [nth]. ring.
Qed.
Lemma factor_ok z scale :
  prod (fun p => if feqb z (fofZ (Z.of_nat (S (fst p)))) then snd p else 1%K) (combine (seq 0 (length scale)) scale) = zone_factor scale z.
Proof. rewrite factor_from. unfold zone_factor. destruct (List.find _ _); auto. rewrite Nat.sub_0_r. reflexivity. Qed.
Lemma factor_at z scale k : k < length scale -> z = fofZ (Z.of_nat (S k)) -> zone_factor scale z = nth k scale 0%K.
Proof.
  intros L ->. unfold zone_factor. rewrite (find_single _ k); auto. intros i _.
  destruct (Nat.eqb_spec i k) as [->|N]; [apply feqb_ok; auto|]. apply feqb_false. intros E. apply N.
  assert (S k = S i) by (apply fofZ_nat_inj; auto). lia.
Qed.

Lemma zone_mem lz k i : i < length lz -> mem i (zone_at_k lz k) = feqb (nth i lz 0%K) (fofZ (Z.of_nat k)).
Proof.
  intros L. destruct (feqb _ _) eqn:E; [apply mem_in|apply mem_out]; unfold zone_at_k; rewrite find_mask.
  - exists (nth i lz 0%K). split; [apply nth_error_nth'; auto|auto].
  - intros (r & Hr & E'). rewrite (nth_error_nth _ _ _ Hr) in E. congruence.
Qed.

(** the fixed loads *)
Lemma bus_loop lz js scale bus bus' : length lz = length bus -> NoDup js ->
  foldM (fun t p => scale_cols (zone_at_k lz (S (fst p))) js (snd p) t) (combine (seq 0 (length scale)) scale) bus = Ok bus' ->
  mult bus bus' (fun i j => if mem j js then zone_factor scale (nth i lz 0) else 1)%K.
Proof.
  intros LZ NJ H. eapply mult_ext; [|eapply (foldM_mult _ (fun p i c => if mem c js && mem i (zone_at_k lz (S (fst p))) then snd p else 1%K) (fun _ => True)); [|exact Logic.I|exact H]].
  - intros i j Hi. cbv beta. destruct (mem j js); cbn [andb].
    + rewrite <- factor_ok. apply prod_ext. intros p _. rewrite zone_mem by lia. reflexivity.
    + apply prod_one. auto.
  - intros p t t' _ Hp. split; auto. apply scale_cols_ok; auto. apply find_NoDup.
Qed.

(** the dispatchable loads *)
Section Gens.
Variables (bus gen : list (list K)) (e2i : list nat) (lz : list K).
Hypothesis LZ : length lz = length bus.
Hypothesis HE : make_e2i bus = Ok e2i.
Hypothesis ND : numbered bus.
Hypothesis PL : placed bus gen.
Notation ld := (find (map disp_load gen)).
Definition same_bus (t : list (list K)) : Prop :=
  forall k g, nth_error gen k = Some g -> exists g', nth_error t k = Some g' /\ cell g' GEN_BUS = cell g GEN_BUS.

Lemma place g : In g gen -> disp_load g = true -> exists i, i < length bus /\ nth_error e2i (bus_no g GEN_BUS) = Some i /\
  List.find (sits_at bus g) (seq 0 (length bus)) = Some i /\ forall i', i' < length bus -> sits_at bus g i' = (i' =? i).
Proof.
  intros I D. pose proof (PL g I D) as Q. apply in_map_iff in Q as (r & E & Q). apply In_nth_error in Q as (i & Hr).
  pose proof (nth_error_some_lt _ _ _ Hr) as Li. pose proof (sits_unique bus g i r ND Hr E) as S.
  exists i. split; auto. split; [rewrite <- E; exact (e2i_ok bus e2i HE ND i r Hr)|]. split; auto. apply find_single; auto.
Qed.

Lemma gen_step js p t t' : NoDup js -> same_bus t ->
  (rows <- gather t ld ;; gbus <- idxcol OutOfModel GEN_BUS rows ;; b <- gather e2i gbus ;;
   ig <- gather ld (find (map (fun i => existsb (Nat.eqb i) (zone_at_k lz (S (fst p)))) b)) ;;
   scale_cols ig js (snd p) t) = Ok t' ->
  mult t t' (fun k c => let g := nth k gen [] in
     if mem c js && disp_load g && (k <? length gen) && feqb (nth (match List.find (sits_at bus g) (seq 0 (length bus)) with Some i => i | None => 0 end) lz 0%K)
          (fofZ (Z.of_nat (S (fst p)))) then snd p else 1%K).
Proof.
  intros NJ SB H. apply bind_ok in H as (rows & HR & H). apply bind_ok in H as (gbus & HG & H).
  apply bind_ok in H as (b & Hb & H). apply bind_ok in H as (ig & Hig & H).
  pose proof (gather_length _ _ _ HR) as LR. apply idxcol_ok in HG as (_ & _ & ->). pose proof (gather_length _ _ _ Hb) as LB. rewrite map_length in LB.
  assert (NoDup ig) as NI by (eapply gather_NoDup; [| |exact Hig]; apply find_NoDup).
  pose proof (scale_cols_ok _ _ _ NI NJ _ _ H) as M. eapply mult_ext; [|exact M]. intros k c _. cbv beta zeta.
  destruct (mem c js); cbn [andb]; auto.
  assert (B : forall q k', nth_error ld q = Some k' -> exists g i, nth_error gen k' = Some g /\ disp_load g = true /\ i < length bus /\
     nth_error b q = Some i /\ List.find (sits_at bus g) (seq 0 (length bus)) = Some i).
  { intros q k' Hq. pose proof (nth_error_In _ _ Hq) as I. apply find_mask in I as (g & Hg & D).
    destruct (place g (nth_error_In _ _ Hg) D) as (i & Li & Ei & Fi & _). exists g, i. do 3 (split; auto). split; auto.
    destruct (SB k' g Hg) as (g' & Hg' & EG).
    rewrite (gather_nth _ _ _ q (bus_no g GEN_BUS) Hb); auto. rewrite nth_error_map. rewrite (gather_nth _ _ _ _ _ HR Hq), Hg'. cbn. unfold bus_no. rewrite EG. reflexivity. }
  assert (E : mem k ig = disp_load (nth k gen []) && (k <? length gen) &&
     feqb (nth (match List.find (sits_at bus (nth k gen [])) (seq 0 (length bus)) with Some i => i | None => 0 end) lz 0%K) (fofZ (Z.of_nat (S (fst p))))).
  { destruct (mem k ig) eqn:E; symmetry.
    - apply mem_in in E. apply In_nth_error in E as (n & Hn).
      pose proof (nth_error_some_lt _ _ _ Hn) as Ln. rewrite (gather_length _ _ _ Hig) in Ln. destruct (nth_error_lt _ _ Ln) as (q & Hq).
      pose proof (gather_nth _ _ _ _ _ Hig Hq) as Eq. rewrite Hn in Eq. symmetry in Eq. destruct (B q k Eq) as (g & i & Hg & D & Li & Hi & Fi).
      pose proof (nth_error_In _ _ Hq) as Iq. apply find_mask in Iq as (i' & Hi' & Z). assert (i' = i) as -> by congruence.
      rewrite (nth_error_nth _ _ _ Hg), D, Fi. pose proof (nth_error_some_lt _ _ _ Hg) as Lk. apply Nat.ltb_lt in Lk. rewrite Lk. cbn [andb].
      rewrite <- zone_mem by lia. exact Z.
    - destruct (disp_load (nth k gen [])) eqn:D; auto. destruct (Nat.ltb_spec k (length gen)) as [Lk|]; auto. cbn [andb].
      destruct (nth_error_lt gen k Lk) as (g & Hg). rewrite (nth_error_nth _ _ _ Hg) in *.
      assert (In k ld) as I by (apply find_mask; eauto). apply In_nth_error in I as (q & Hq).
      destruct (B q k Hq) as (g1 & i & Hg1 & _ & Li & Hi & Fi). assert (g1 = g) as -> by congruence. rewrite Fi. rewrite <- zone_mem by lia.
      destruct (mem i (zone_at_k lz (S (fst p)))) eqn:Z; auto. exfalso. apply mem_out in E. apply E.
      assert (In q (find (map (fun i => existsb (Nat.eqb i) (zone_at_k lz (S (fst p)))) b))) as IQ by (apply find_mask; eauto).
      apply In_nth_error in IQ as (n & Hn). apply (nth_error_In _ n). rewrite (gather_nth _ _ _ _ _ Hig Hn). exact Hq. }
  rewrite E. reflexivity.
Qed.

Lemma gen_loop js scale gen' : NoDup js -> ~ In GEN_BUS js ->
  foldM (fun t p =>
     let idx := zone_at_k lz (S (fst p)) in
     rows <- gather t ld ;; gbus <- idxcol OutOfModel GEN_BUS rows ;; b <- gather e2i gbus ;;
     ig <- gather ld (find (map (fun i => existsb (Nat.eqb i) idx) b)) ;;
     scale_cols ig js (snd p) t) (combine (seq 0 (length scale)) scale) gen = Ok gen' ->
  mult gen gen' (fun k j => if mem j js && disp_load (nth k gen []) then gen_factor bus (fun i => zone_factor scale (nth i lz 0%K)) (nth k gen []) else 1)%K.
Proof.
  intros NJ NB H. eapply mult_ext; [|eapply (foldM_mult _ _ same_bus); [|intros k g Hg; eauto|exact H]].
  2:{ intros p t t' SB Hp. pose proof (gen_step js p t t' NJ SB Hp) as M. split; [exact M|]. intros k g Hg.
      destruct (SB k g Hg) as (g1 & Hg1 & E1). destruct M as (_ & M). destruct (M k g1 Hg1) as (g2 & Hg2 & _ & E2). exists g2. split; auto.
      rewrite E2. apply mem_out in NB. cbv zeta. rewrite NB. cbn [andb]. rewrite <- E1. ring. }
  intros k j Hk. cbv beta zeta. destruct (mem j js); cbn [andb]; [|apply prod_one; auto].
  destruct (disp_load (nth k gen [])) eqn:D; cbn [andb]; [|apply prod_one; auto].
  destruct (nth_error_lt gen k Hk) as (g & Hg). rewrite (nth_error_nth _ _ _ Hg) in *. apply Nat.ltb_lt in Hk. rewrite Hk. cbn [andb].
  destruct (place g (nth_error_In _ _ Hg) D) as (i & _ & _ & Fi & _). unfold gen_factor. rewrite Fi. rewrite <- factor_ok. reflexivity.
Qed.
End Gens.
End LoadsB.
