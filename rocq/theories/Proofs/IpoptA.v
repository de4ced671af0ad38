(** Structure of matrices: shapes and positions of entries. *)
From Coq Require Import Lia.
From Verif Require Import Lib.ListFacts Model.IpoptOpf Proofs.SparseFacts Proofs.FldFacts Proofs.NetworkA Proofs.BlockFacts Proofs.OrdFacts.
Local Open Scope nat_scope.

Definition shape {L} (M : smat L) (r c : nat) (P : nat -> nat -> Prop) : Prop :=
  nrows M = r /\ ncols M = c /\ forall e, In e (ents M) -> P (erow e) (ecol e).

Section Shapes.
Lemma sh_weak {L} (M : smat L) r c (P Q : nat -> nat -> Prop) : shape M r c P -> (forall i j, P i j -> Q i j) -> shape M r c Q.
Proof. intros (A & B & C) H. repeat split; auto. Qed.
Lemma sh_mapm {L L'} (f : L -> L') (M : smat L) r c P : shape M r c P -> shape (mapm f M) r c P.
Proof. intros (A & B & C). repeat split; auto. intros e He. cbn in He. apply in_map_iff in He as (x & <- & Hx). cbn. auto. Qed.
Lemma sh_transp {L} (M : smat L) r c P : shape M r c P -> shape (transp M) c r (fun i j => P j i).
Proof. intros (A & B & C). repeat split; auto. intros e He. cbn in He. apply in_map_iff in He as (x & <- & Hx). cbn. auto. Qed.
Lemma sh_mulm {L} {R : Rng L} (A B M : smat L) r k k' c P Q (S : nat -> nat -> Prop) : mulm A B = Ok M -> shape A r k P -> shape B k' c Q ->
  (forall i m j, P i m -> Q m j -> S i j) -> shape M r c S.
Proof.
  intros E (A1 & A2 & A3) (B1 & B2 & B3) H. unfold mulm in E. destruct (_ =? _); [|discriminate]. injection E as <-. repeat split; auto.
  intros e He. cbn in He. unfold mulm_ents in He. apply in_flat_map in He as (x & Hx & He). apply in_flat_map in He as (y & Hy & He).
  destruct (Nat.eqb_spec (ecol x) (erow y)) as [Q1|]; [|destruct He]. destruct He as [<-|[]]. cbn. eapply H; [apply A3, Hx|rewrite Q1; apply B3, Hy].
Qed.
Lemma sh_dl {L} {R : Rng L} (A B M : smat L) r k k' c P : mulm A B = Ok M -> shape A r k eq -> shape B k' c P -> shape M r c P.
Proof. intros E HA HB. eapply sh_mulm; eauto. intros i m j <-. auto. Qed.
Lemma sh_dr {L} {R : Rng L} (A B M : smat L) r k k' c P : mulm A B = Ok M -> shape A r k P -> shape B k' c eq -> shape M r c P.
Proof. intros E HA HB. eapply sh_mulm; eauto. intros i m j H <-. auto. Qed.
Lemma sh_addm {L} {R : Rng L} (A B M : smat L) r c r' c' P : addm A B = Ok M -> shape A r c P -> shape B r' c' P -> shape M r c P.
Proof.
  intros E (A1 & A2 & A3) (B1 & B2 & B3). unfold addm in E. destruct (_ && _); [|discriminate]. injection E as <-. repeat split; auto.
  intros e He. cbn in He. apply in_app_or in He as [He|He]; auto.
Qed.
Lemma zip3_pos {L} rows cols (data : list L) e : In e (zip3 rows cols data) -> exists k, nth_error rows k = Some (erow e) /\ nth_error cols k = Some (ecol e).
Proof.
  unfold zip3. intros H. apply in_map_iff in H as (((a, b), d) & <- & H). cbn. revert cols data H.
  induction rows as [|x rows IH]; intros [|y cols] [|z data] H; cbn in H; try destruct H.
  - injection H as <- <- <-. exists 0. auto.
  - destruct (IH _ _ H) as (k & H1 & H2). exists (S k). auto.
Qed.
Lemma sh_diagm {L} (v : list L) M : diagm v = Ok M -> shape M (length v) (length v) eq.
Proof. unfold diagm. destruct v as [|a v]; [discriminate|]. intros E. injection E as <-. repeat split; auto. intros e He. cbn [ents] in He. apply zip3_pos in He as (k & H1 & H2). congruence. Qed.
Lemma sh_sparse {L} {R : Rng L} (data : list L) rows cols r c M : sparse data rows cols r c = Ok M ->
  shape M r c (fun i j => exists k, nth_error rows k = Some i /\ nth_error cols k = Some j).
Proof. unfold sparse. destruct (negb _); [discriminate|]. destruct (_ && _); [|discriminate]. intros E. injection E as <-. repeat split; auto. intros e He. apply zip3_pos in He. exact He. Qed.
Lemma sh_rowsel {L} {R : Rng L} (A M : smat L) idx r c P : rowsel A idx = Ok M -> shape A r c P ->
  shape M (length idx) c (fun k j => exists l, nth_error idx k = Some l /\ P l j).
Proof.
  unfold rowsel. intros E (A1 & A2 & A3). destruct (forallb _ _); [|discriminate]. injection E as <-. repeat split; auto. intros e He. cbn [ents] in He.
  apply in_flat_map in He as ((k, l) & Hk & He). apply in_map_iff in He as (x & <- & Hx). apply filter_In in Hx as (Hx & Q). apply Nat.eqb_eq in Q. cbn [fst snd erow ecol] in *.
  exists l. split; [|rewrite <- Q; auto]. clear - Hk. apply In_nth_error in Hk as (n & Hn).
  assert (G : forall a (l0 : list nat) n p, nth_error (combine (seq a (length l0)) l0) n = Some p -> fst p = a + n /\ nth_error l0 n = Some (snd p)).
  { intros a l0. revert a. induction l0 as [|y l0 IH]; intros a [|n'] p Hp; cbn in Hp; try discriminate.
    - injection Hp as <-. cbn. split; [lia|auto].
    - apply IH in Hp as (Q1 & Q2). cbn. split; [lia|auto]. }
  apply G in Hn as (Q1 & Q2). cbn in *. subst k. exact Q2.
Qed.
End Shapes.

(** every position of A is one of B *)
Definition cov {L L'} (A : smat L) (B : smat L') : Prop :=
  forall e, In e (ents A) -> exists e', In e' (ents B) /\ erow e' = erow e /\ ecol e' = ecol e.
Lemma cov_hstack {L L'} {R : Rng L} {R' : Rng L'} (A B M : smat L) (A' B' M' : smat L') : hstackm A B = Ok M -> hstackm A' B' = Ok M' ->
  ncols A = ncols A' -> cov A A' -> cov B B' -> cov M M'.
Proof.
  unfold hstackm. intros E E' N CA CB. destruct (nrows A =? _); [|discriminate]. destruct (nrows A' =? _); [|discriminate]. injection E as <-. injection E' as <-.
  intros e He. cbn [ents] in *. apply in_app_or in He as [He|He].
  - destruct (CA e He) as (e' & H & Q). exists e'. split; [apply in_or_app; auto|exact Q].
  - apply in_map_iff in He as (x & <- & Hx). destruct (CB x Hx) as (x' & H & Q1 & Q2). eexists. split; [apply in_or_app; right; apply in_map_iff; exists x'; split; [reflexivity|exact H]|].
    cbn. split; congruence.
Qed.
Lemma cov_vstack {L L'} {R : Rng L} {R' : Rng L'} (A B M : smat L) (A' B' M' : smat L') : vstackm A B = Ok M -> vstackm A' B' = Ok M' ->
  nrows A = nrows A' -> cov A A' -> cov B B' -> cov M M'.
Proof.
  unfold vstackm. intros E E' N CA CB. destruct (ncols A =? _); [|discriminate]. destruct (ncols A' =? _); [|discriminate]. injection E as <-. injection E' as <-.
  intros e He. cbn [ents] in *. apply in_app_or in He as [He|He].
  - destruct (CA e He) as (e' & H & Q). exists e'. split; [apply in_or_app; auto|exact Q].
  - apply in_map_iff in He as (x & <- & Hx). destruct (CB x Hx) as (x' & H & Q1 & Q2). eexists. split; [apply in_or_app; right; apply in_map_iff; exists x'; split; [reflexivity|exact H]|].
    cbn. split; congruence.
Qed.
Lemma cov_map {L L' L''} (f : L -> L'') (A : smat L) (B : smat L') : cov A B -> cov (mapm f A) B.
Proof. intros C e He. cbn in He. apply in_map_iff in He as (x & <- & Hx). cbn. auto. Qed.
Lemma cov_ents {L L'} (A : smat L) (B : smat L') r c r' c' : cov A B -> cov (SM r c (ents A)) (SM r' c' (ents B)).
Proof. intros C e He. exact (C e He). Qed.
Lemma cov_nil {L L'} r c (B : smat L') : cov (SM r c [] : smat L) B.
Proof. intros e []. Qed.
Lemma cov_shape {L L'} (A : smat L) (B : smat L') r c P : shape A r c P -> (forall i j, P i j -> exists e, In e (ents B) /\ erow e = i /\ ecol e = j) -> cov A B.
Proof. intros (_ & _ & S) H e He. apply H, S, He. Qed.

Lemma hst_dims {L} {R : Rng L} (A B M : smat L) : hstackm A B = Ok M -> nrows M = nrows A /\ nrows A = nrows B /\ ncols M = ncols A + ncols B.
Proof. unfold hstackm. destruct (Nat.eqb_spec (nrows A) (nrows B)); [|discriminate]. intros E. injection E as <-. auto. Qed.
Lemma vst_dims {L} {R : Rng L} (A B M : smat L) : vstackm A B = Ok M -> ncols M = ncols A /\ ncols A = ncols B /\ nrows M = nrows A + nrows B.
Proof. unfold vstackm. destruct (Nat.eqb_spec (ncols A) (ncols B)); [|discriminate]. intros E. injection E as <-. auto. Qed.

Section Positive.
Context {K : Type} {F : Fld K}.
Add Field KF : (@f_ok K F).
Definition pos (M : smat K) : Prop := forall e, In e (ents M) -> lt 0%K (ev e).
Lemma pos_at (M : smat K) e : pos M -> In e (ents M) -> lt 0%K (at_ M (erow e) (ecol e)).
Proof.
  unfold pos, at_. induction (ents M) as [|a l IH]; intros P I; [destruct I|]. cbn [lsum].
  assert (NN : forall l', (forall x, In x l' -> lt 0%K (ev x)) -> le 0%K (lsum (fun x : entry K => if (erow x =? erow e) && (ecol x =? ecol e) then ev x else 0%K) l')).
  { induction l' as [|b l' IH']; intros Q; [apply le_refl|]. cbn [lsum]. apply add_nn; [|apply IH'; intros; apply Q; right; assumption].
    destruct (_ && _); [apply lt_le, Q; left; reflexivity|apply le_refl]. }
  destruct I as [->|I].
  - rewrite !Nat.eqb_refl. cbn [andb]. apply add_pos_nn; [apply P; left; reflexivity|apply NN; intros; apply P; right; assumption].
  - apply add_nn_pos; [destruct (_ && _); [apply lt_le, P; left; reflexivity|apply le_refl]|apply IH; auto; intros; apply P; right; assumption].
Qed.
Lemma at_entry (M : smat K) i j : at_ M i j <> 0%K -> exists e, In e (ents M) /\ erow e = i /\ ecol e = j.
Proof.
  unfold at_. induction (ents M) as [|a l IH]; cbn [lsum]; intros N; [contradiction|].
  destruct ((erow a =? i) && (ecol a =? j)) eqn:E.
  - apply andb_prop in E as (E1 & E2). apply Nat.eqb_eq in E1, E2. exists a. split; [left; reflexivity|auto].
  - destruct IH as (e & I & Q); [intros C; apply N; rewrite C; ring|]. exists e. split; [right; exact I|exact Q].
Qed.
(** nothing is lost on a structure with positive entries that covers a matrix *)
Lemma cov_at (A B : smat K) i j : pos B -> cov A B -> at_ A i j <> 0%K -> at_ B i j <> 0%K.
Proof. intros P C N. destruct (at_entry _ _ _ N) as (e & I & <- & <-). destruct (C e I) as (e' & I' & <- & <-). apply pos_nz, pos_at; auto. Qed.

Lemma pos_sparse n rows cols r c (M : smat K) : sparse (repeat 1%K n) rows cols r c = Ok M -> pos M.
Proof.
  unfold sparse. destruct (negb _); [discriminate|]. destruct (_ && _); [|discriminate]. intros E. injection E as <-. intros e He. cbn [ents] in He. unfold zip3 in He.
  apply in_map_iff in He as (((a, b), d) & <- & H). cbn. apply in_combine_r in H. apply repeat_spec in H. subst d. apply lt_0_1.
Qed.
Lemma pos_eye n : pos (eyem n).
Proof. intros e He. cbn [eyem ents] in He. unfold zip3 in He. apply in_map_iff in He as (((a, b), d) & <- & H). cbn. apply in_combine_r in H. apply repeat_spec in H. subst d. apply lt_0_1. Qed.
Lemma pos_transp (M : smat K) : pos M -> pos (transp M).
Proof. intros P e He. cbn in He. apply in_map_iff in He as (x & <- & Hx). cbn. auto. Qed.
Lemma pos_add (A B M : smat K) : addm A B = Ok M -> pos A -> pos B -> pos M.
Proof. unfold addm. destruct (_ && _); [|discriminate]. intros E PA PB. injection E as <-. intros e He. cbn in He. apply in_app_or in He as [?|?]; auto. Qed.
Lemma pos_mul (A B M : smat K) : mulm A B = Ok M -> pos A -> pos B -> pos M.
Proof.
  unfold mulm. destruct (_ =? _); [|discriminate]. intros E PA PB. injection E as <-. intros e He. cbn in He. unfold mulm_ents in He.
  apply in_flat_map in He as (x & Hx & He). apply in_flat_map in He as (y & Hy & He). destruct (_ =? _); [|destruct He]. destruct He as [<-|[]]. cbn. apply mul_pos; auto.
Qed.
Lemma pos_rowsel (A M : smat K) idx : rowsel A idx = Ok M -> pos A -> pos M.
Proof.
  unfold rowsel. destruct (forallb _ _); [|discriminate]. intros E PA. injection E as <-. intros e He. cbn [ents] in He.
  apply in_flat_map in He as (p & _ & He). apply in_map_iff in He as (x & <- & Hx). apply filter_In in Hx as (Hx & _). cbn. auto.
Qed.
Lemma pos_hstack (A B M : smat K) : hstackm A B = Ok M -> pos A -> pos B -> pos M.
Proof. unfold hstackm. destruct (_ =? _); [|discriminate]. intros E PA PB. injection E as <-. intros e He. cbn in He. apply in_app_or in He as [?|H]; auto. apply in_map_iff in H as (x & <- & Hx). cbn. auto. Qed.
Lemma pos_vstack (A B M : smat K) : vstackm A B = Ok M -> pos A -> pos B -> pos M.
Proof. unfold vstackm. destruct (_ =? _); [|discriminate]. intros E PA PB. injection E as <-. intros e He. cbn in He. apply in_app_or in He as [?|H]; auto. apply in_map_iff in H as (x & <- & Hx). cbn. auto. Qed.
Lemma pos_nil r c : pos (SM r c [] : smat K).
Proof. intros e []. Qed.

(** ** buses and branches *)
Section Net.
Variables f t : list nat.
Definition touches (l j : nat) : Prop := nth_error f l = Some j \/ nth_error t l = Some j.
Definition linked (i j : nat) : Prop := i = j \/ exists l, touches l i /\ touches l j.

Lemma in_zip3 (rows cols : list nat) (data : list K) k i j : nth_error rows k = Some i -> nth_error cols k = Some j -> k < length data ->
  exists e, In e (zip3 rows cols data) /\ erow e = i /\ ecol e = j.
Proof.
  revert cols data k. induction rows as [|x rows IH]; intros [|y cols] [|z data] [|k] H1 H2 H3; cbn in *; try discriminate; try lia.
  - injection H1 as ->. injection H2 as ->. exists (Ent i j z). split; [left; reflexivity|auto].
  - destruct (IH cols data k H1 H2) as (e & I & Q); [lia|]. exists e. split; [right; exact I|exact Q].
Qed.
Lemma sparse_entry n cols r c (M : smat K) l j : sparse (repeat 1%K n) (seq 0 n) cols r c = Ok M -> nth_error cols l = Some j -> exists e, In e (ents M) /\ erow e = l /\ ecol e = j.
Proof.
  unfold sparse. destruct (negb _) eqn:E; [discriminate|]. apply Bool.negb_false_iff, andb_prop in E as (E1 & E2). apply Nat.eqb_eq in E2. destruct (_ && _); [|discriminate].
  intros E0 H. injection E0 as <-. assert (L : l < length cols) by (apply nth_error_Some; congruence). rewrite repeat_length in E2. cbn [ents].
  apply (in_zip3 _ _ _ l); auto; [|rewrite repeat_length; lia]. rewrite (nth_error_nth' _ 0) by (rewrite seq_length; lia). rewrite seq_nth by lia. reflexivity.
Qed.

Variables (branch : list (list K)) (nb : nat) (il : list nat) (Cb Cl2 : smat K).
Hypothesis Ef : idxcol ValueError F_BUS branch = Ok f.
Hypothesis Et : idxcol ValueError T_BUS branch = Ok t.
Hypothesis ES : net_structure nb branch il = Ok (Cb, Cl2).

Lemma net_ok : pos Cb /\ pos Cl2 /\ nrows Cb = nb /\ ncols Cb = nb /\ nrows Cl2 = length il /\ ncols Cl2 = nb /\
  (forall i j, i < nb -> linked i j -> exists e, In e (ents Cb) /\ erow e = i /\ ecol e = j) /\
  (forall k l j, nth_error il k = Some l -> touches l j -> exists e, In e (ents Cl2) /\ erow e = k /\ ecol e = j).
Proof.
  unfold net_structure in ES. rewrite Ef, Et in ES. cbn [bind] in ES.
  destruct (sparse (repeat 1%K (length branch)) (seq 0 (length branch)) f _ _) as [Cf|] eqn:E1; [|discriminate].
  destruct (sparse (repeat 1%K (length branch)) (seq 0 (length branch)) t _ _) as [Ct|] eqn:E2; [|discriminate]. cbn [bind] in ES.
  destruct (addm Cf Ct) as [Cl|] eqn:E3; [|discriminate]. cbn [bind] in ES. destruct (mulm (transp Cl) Cl) as [CC|] eqn:E4; [|discriminate]. cbn [bind] in ES.
  destruct (addm CC (eyem nb)) as [Cb'|] eqn:E5; [|discriminate]. cbn [bind] in ES. destruct (rowsel Cl il) as [Cl'|] eqn:E6; [|discriminate]. injection ES as -> ->.
  assert (PL : pos Cl) by (eapply pos_add; eauto using pos_sparse).
  assert (SL : shape Cl (length branch) nb (fun _ _ => True)).
  { eapply sh_addm; [exact E3|eapply sh_weak; [eapply sh_sparse, E1|auto]|eapply sh_weak; [eapply sh_sparse, E2|auto]]. }
  assert (IL : forall l j, touches l j -> exists e, In e (ents Cl) /\ erow e = l /\ ecol e = j).
  { intros l j T. unfold addm in E3. destruct (_ && _) in E3; [|discriminate]. injection E3 as <-. cbn [ents].
    destruct T as [T|T]; [destruct (sparse_entry _ _ _ _ _ _ _ E1 T) as (e & I & Q)|destruct (sparse_entry _ _ _ _ _ _ _ E2 T) as (e & I & Q)]; exists e; split; auto; apply in_or_app; auto. }
  assert (SC : shape CC nb nb (fun _ _ => True)) by (eapply sh_mulm; [exact E4|apply sh_transp, SL|exact SL|auto]).
  assert (PC : pos CC) by (eapply pos_mul; eauto using pos_transp).
  destruct SC as (SC1 & SC2 & _). destruct SL as (_ & SL2 & _). unfold addm in E5. destruct (_ && _) in E5; [|discriminate]. injection E5 as <-. cbn [nrows ncols ents].
  pose proof (pos_rowsel _ _ _ E6 PL) as P6. unfold rowsel in E6. destruct (forallb _ _) in E6; [|discriminate]. injection E6 as <-. cbn [nrows ncols ents] in *.
  split; [|split; [exact P6|]]; [|do 4 (split; [auto|]); split].
  - intros e He. cbn [ents] in He. apply in_app_or in He as [He|He]; [apply PC, He|apply (pos_eye nb), He].
  - intros i j Hi [<- |(l & T1 & T2)].
    + destruct (in_zip3 (seq 0 nb) (seq 0 nb) (repeat 1%K nb) i i i) as (e & I & Q);
        try (rewrite (nth_error_nth' _ 0) by (rewrite seq_length; lia); rewrite seq_nth by lia; reflexivity); [rewrite repeat_length; lia|].
      exists e. split; [apply in_or_app; right; exact I|exact Q].
    + destruct (IL l i T1) as (e1 & I1 & A1 & A2). destruct (IL l j T2) as (e2 & I2 & B1 & B2). unfold mulm in E4. destruct (_ =? _) in E4; [|discriminate]. injection E4 as <-. cbn [ents].
      exists (Ent i j (ev e1 * ev e2)%K). split; [|auto]. apply in_or_app. left. unfold mulm_ents. apply in_flat_map. exists (Ent (ecol e1) (erow e1) (ev e1)). split.
      { cbn. apply in_map_iff. exists e1. auto. }
      apply in_flat_map. exists e2. split; auto. cbn [ecol erow ev]. rewrite A1, B1, Nat.eqb_refl, A2, B2. left. reflexivity.
  - intros k l j Hk T. destruct (IL l j T) as (e & I & Q1 & Q2). exists (Ent k (ecol e) (ev e)). split; [|auto]. apply in_flat_map. exists (k, l). split.
    + clear - Hk. assert (G : forall a (l0 : list nat) k, nth_error l0 k = Some l -> In (a + k, l) (combine (seq a (length l0)) l0)).
      { intros a l0. revert a. induction l0 as [|y l0 IH]; intros a [|k'] H; cbn in *; try discriminate; [injection H as ->; left; f_equal; lia|]. right. replace (a + S k') with (S a + k') by lia. apply IH, H. }
      apply (G 0), Hk.
    + apply in_map_iff. exists e. split; [reflexivity|]. apply filter_In. split; auto. cbn. apply Nat.eqb_eq. exact Q1.
Qed.
End Net.
End Positive.
