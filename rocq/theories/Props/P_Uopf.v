(** Unit decommitment.  C36: descent and termination; C67: what the first phase does. *)
From Verif Require Import Lib.ListFacts Lib.QcFacts Model.Uopf Spec.UopfSpec
  Proofs.SparseFacts Proofs.FldFacts Proofs.OrdFacts Proofs.NetworkA Proofs.NetworkC Proofs.NetworkD Proofs.OpfLinA Proofs.OpfLinB
  Proofs.PfsolnA Proofs.TableEdit Proofs.LoadsA Proofs.LoadsB Proofs.PipsD Props.P_Loads.
Local Open Scope nat_scope.

Section Tables.
Context {K : Type} {F : Fld K}.
Lemma zero_rows_ok rows js : NoDup rows -> forall t t' : list (list K), zero_rows rows js t = Ok t' ->
  edit t t' (fun i j => if mem i rows && mem j js then Some 0%K else None).
Proof.
  intros ND. unfold zero_rows. induction js as [|j js IH]; intros t t' H; cbn [foldM] in H.
  - injection H as <-. eapply edit_ext; [|apply edit_refl]. intros i k. cbn. rewrite andb_false_r. reflexivity.
  - apply bind_ok in H as (t1 & H1 & H). apply edit_set_rows in H1 as (_ & E1); auto. specialize (IH _ _ H).
    eapply edit_ext; [|exact (edit_trans _ _ _ _ _ E1 IH)]. intros i k. unfold over. unfold mem at 4. cbn [existsb]. fold (mem k js).
    destruct (mem i rows) eqn:E; cbn [andb].
    + destruct (mem k js); [rewrite orb_true_r; auto|]. rewrite orb_false_r. destruct (k =? j); auto.
      destruct (posn i rows) eqn:P; [cbn; rewrite nth_repeat; auto|]. apply mem_in in E. apply posn_none in P. contradiction.
    + destruct (k =? j); auto. destruct (posn i rows) eqn:P; auto. apply posn_some in P. apply nth_error_In in P. apply mem_out in E. contradiction.
Qed.
Lemma shut_ok (gen gen' : list (list K)) k : k < length gen -> zero_rows [k] [PG; QG; GEN_STATUS] gen = Ok gen' -> shut_down gen gen' k.
Proof.
  intros L H. apply zero_rows_ok in H as (L' & H); [|repeat constructor; cbn; tauto]. split; auto. split; auto.
  intros i g Hg. destruct (H i g Hg) as (g' & A & B & C). exists g'. split; auto. split; auto. intros j. rewrite C.
  unfold mem. cbn [existsb]. rewrite !orb_false_r, orb_assoc. destruct ((i =? k) && _); auto.
Qed.
Lemma row_ext (r r' : list K) : length r = length r' -> (forall j, cell r j = cell r' j) -> r = r'.
Proof. intros L H. apply (nth_ext _ _ 0%K 0%K L). intros j _. apply H. Qed.
Lemma shut_unique (gen g1 g2 : list (list K)) k : shut_down gen g1 k -> shut_down gen g2 k -> g1 = g2.
Proof.
  intros (L1 & _ & H1) (L2 & _ & H2). apply nth_error_ext. intros i. destruct (Nat.lt_ge_cases i (length gen)) as [Li|Li].
  - destruct (nth_error_lt gen i Li) as (g & Hg). destruct (H1 i g Hg) as (a & A1 & A2 & A3). destruct (H2 i g Hg) as (b & B1 & B2 & B3).
    rewrite A1, B1. f_equal. apply row_ext; [congruence|]. intros j. rewrite A3, B3. reflexivity.
  - rewrite (proj2 (nth_error_None g1 i)), (proj2 (nth_error_None g2 i)); auto; lia.
Qed.
End Tables.

Section Uopf.
Context {K : Type} {F : Fld K}.
Add Field KF : (@f_ok K F).
Variable solve : list (list K) -> list (list K) -> result (ores K).
Notation opf := (opf solve).

(** the outcome of the OPF with unit [k] of the result [r0] shut down, started from [r0] *)
Definition trial (r0 : ores K) (k : nat) (r : ores K) : Prop :=
  exists gen, shut_down (o_gen r0) gen k /\ opf (o_bus r0) gen = Ok r.
(** the best of the improving shutdowns of units at their minimum *)
Definition best_trial (r0 : ores K) (k : nat) (r : ores K) : Prop :=
  at_minimum (o_gen r0) k /\ trial r0 k r /\ o_success r = true /\ fltb (o_f r) (o_f r0) = true /\
  forall k' r', at_minimum (o_gen r0) k' -> trial r0 k' r' -> o_success r' = true -> fltb (o_f r') (o_f r) = false.
(** units [ks] shut down one after the other, each the best of its stage *)
Inductive descent : ores K -> list nat -> ores K -> Prop :=
| descent_nil r : descent r [] r
| descent_cons r0 k r1 ks r : best_trial r0 k r1 -> descent r1 ks r -> descent r0 (k :: ks) r.
Definition no_better (r : ores K) : Prop :=
  forall k r', at_minimum (o_gen r) k -> trial r k r' -> o_success r' = true -> fltb (o_f r') (o_f r) = false.

Lemma trial_unique r0 k r r' : trial r0 k r -> trial r0 k r' -> r = r'.
Proof. intros (g & S & H) (g' & S' & H'). rewrite (shut_unique _ _ _ _ S' S) in H'. congruence. Qed.
Lemma candidates_ok (gen : list (list K)) cs : candidates gen = Ok cs -> forall k, In k cs <-> at_minimum gen k.
Proof.
  unfold candidates. intros H k. apply bind_ok in H as (mu & H1 & H). apply bind_ok in H as (lo & H2 & H). injection H as <-.
  apply col_ok in H1 as (_ & ->). apply col_ok in H2 as (_ & ->). unfold map2. rewrite OpfLinA.combine_map, map_map, find_mask.
  assert (nth_error (combine gen gen) k = option_map (fun g => (g, g)) (nth_error gen k)) as E.
  { rewrite nth_error_combine. destruct (nth_error gen k); auto. }
  rewrite E. unfold at_minimum. split.
  - intros (x & Hx & B). destruct (nth_error gen k) as [g|]; [|discriminate]. injection Hx as <-. cbn [fst snd] in B.
    apply andb_true_iff in B as (B1 & B2). eauto.
  - intros (g & Hg & B1 & B2). rewrite Hg. eexists. split; [reflexivity|]. cbn [fst snd]. fold (cell g MU_PMIN) (cell g PMIN).
    rewrite B1, B2. reflexivity.
Qed.

(** *** one stage *)
Lemma flt_trans (a b c : K) : fltb a b = true -> fltb b c = true -> fltb a c = true.
Proof. exact (OrdFacts.lt_trans a b c). Qed.
Lemma flt_irrefl (a : K) : fltb a a = false.
Proof. destruct (fltb a a) eqn:E; auto. destruct (OrdFacts.lt_irrefl a E). Qed.
Lemma fltb_trans_lt (a b c : K) : fltb a b = true -> fltb c b = false -> fltb c a = false.
Proof.
  intros H1 H2. destruct (fltb c a) eqn:E; auto. pose proof (flt_trans c a b) as T. rewrite T in H2; auto.
Qed.
Lemma stage_ok r0 cs : forall b0 b1, foldM (try_unit solve r0) cs b0 = Ok b1 ->
  (forall k, In k cs -> k < length (o_gen r0)) ->
  fltb (o_f (fst b1)) (o_f (fst b0)) || negb (fltb (o_f (fst b0)) (o_f (fst b1))) = true /\
  (b1 = b0 \/ snd b1 = true /\ fltb (o_f (fst b1)) (o_f (fst b0)) = true /\ o_success (fst b1) = true /\ exists k, In k cs /\ trial r0 k (fst b1)) /\
  (forall k r, In k cs -> trial r0 k r -> o_success r = true -> fltb (o_f r) (o_f (fst b1)) = false).
Proof.
  induction cs as [|k cs IH]; intros b0 b1 H R; cbn [foldM] in H.
  - injection H as <-. split; [|split; [auto|intros ? ? []]]. destruct (fltb (o_f (fst b0)) (o_f (fst b0))) eqn:E; auto.
  - apply bind_ok in H as (b & Hb & H). unfold try_unit in Hb. apply bind_ok in Hb as (gen & Hg & Hb). apply bind_ok in Hb as (r & Hr & Hb).
    apply shut_ok in Hg; [|apply R; left; auto]. assert (trial r0 k r) as T by (exists gen; auto).
    destruct (IH _ _ H) as (L & C & N); [intros; apply R; right; auto|]. injection Hb as Eb.
    destruct (o_success r) eqn:Es; cbn [andb] in Eb.
    + destruct (fltb (o_f r) (o_f (fst b0))) eqn:Ef.
      * subst b. cbn [fst snd] in *. assert (fltb (o_f (fst b1)) (o_f (fst b0)) = true) as LT.
        { destruct C as [->|(_ & C & _)]; auto. eapply flt_trans; eauto. }
        split; [rewrite LT; auto|]. split.
        { right. split; [destruct C as [->|C]; auto; apply C|]. split; auto. destruct C as [->|(_ & _ & C & k' & I & T')]; cbn [fst snd].
          - split; auto. exists k. split; [left; auto|auto].
          - split; auto. exists k'. split; [right; auto|auto]. }
        intros k' r' [<-|I] T' S'; [|eapply N; eauto]. rewrite (trial_unique _ _ _ _ T' T).
        destruct C as [->|(_ & C & _)]; cbn [fst]; [apply flt_irrefl|]. destruct (fltb (o_f r) (o_f (fst b1))) eqn:E; auto.
        pose proof (flt_trans _ _ _ C E) as X. rewrite flt_irrefl in X. discriminate.
      * subst b. split; auto. split. { destruct C as [->|(A & B & C & k' & I & T')]; auto. right. split; auto. split; auto. split; auto. exists k'. split; [right; auto|auto]. }
        intros k' r' [<-|I] T' S'; [|eapply N; eauto]. rewrite (trial_unique _ _ _ _ T' T).
        destruct C as [->|(_ & C & _)]; auto. eapply fltb_trans_lt; eauto.
    + subst b. split; auto. split. { destruct C as [->|(A & B & C & k' & I & T')]; auto. right. split; auto. split; auto. split; auto. exists k'. split; [right; auto|auto]. }
      intros k' r' [<-|I] T' S'; [|eapply N; eauto]. rewrite (trial_unique _ _ _ _ T' T) in S'. congruence.
Qed.

Lemma stage_end r0 r1 cs b : candidates (o_gen r0) = Ok cs -> foldM (try_unit solve r0) cs (r0, false) = Ok (r1, b) ->
  if b then exists k, best_trial r0 k r1 else no_better r0.
Proof.
  intros HC H. pose proof (candidates_ok _ _ HC) as C. destruct (stage_ok r0 cs _ _ H) as (_ & D & N).
  { intros k I. apply C in I as (g & Hg & _). eapply nth_error_some_lt; eauto. }
  cbn [fst snd] in *. destruct b.
  - destruct D as [D|(_ & LT & S & k & I & T)]; [discriminate|]. exists k. split; [apply C; auto|]. split; auto. split; auto. split; auto.
    intros k' r' A. apply C in A. eauto.
  - intros k' r' A T S. apply C in A. destruct D as [D|(D & _)]; [|discriminate]. injection D as <-. eauto.
Qed.

Lemma stages_ok fuel : forall r0 r, stages solve fuel r0 = Some (Ok r) -> exists ks, descent r0 ks r /\ no_better r.
Proof.
  induction fuel as [|fuel IH]; intros r0 r H; [discriminate|]. cbn [stages] in H.
  destruct (candidates (o_gen r0)) as [cs|e] eqn:HC; [|discriminate].
  assert (cs = [] \/ match foldM (try_unit solve r0) cs (r0, false) with
          | Err e => Some (Err e) | Ok (r1, true) => stages solve fuel r1 | Ok (_, false) => Some (Ok r0) end = Some (Ok r)) as [->|H'].
  { destruct cs; auto. }
  - injection H as <-. exists []. split; [constructor|]. intros k r' A. apply (candidates_ok _ _ HC) in A. destruct A.
  - destruct (foldM _ _ _) as [(r1 & b)|e] eqn:HF; [|discriminate]. pose proof (stage_end _ _ _ _ HC HF) as E. destruct b.
    + destruct E as (k & E). destruct (IH _ _ H') as (ks & D & N). exists (k :: ks). split; auto. econstructor; eauto.
    + injection H' as <-. exists []. split; [constructor|auto].
Qed.

Lemma descent_lt r0 ks r : descent r0 ks r -> r = r0 /\ ks = [] \/ o_success r = true /\ fltb (o_f r) (o_f r0) = true.
Proof.
  induction 1 as [r|r0 k r1 ks r (A & T & S & L & _) D IH]; auto. right. destruct IH as [(-> & _)|(S' & L')]; auto.
  split; auto. eapply flt_trans; eauto.
Qed.

(** the result comes from the initial OPF by shutting down one unit per stage, each time the best of the
    improving ones among the units at their minimum, until none improves; hence it is the initial result or a
    strictly cheaper solution *)
Theorem C36_descent fuel bus gen r : uopf solve fuel bus gen = Some (Ok r) ->
  exists r0 ks, opf bus gen = Ok r0 /\ descent r0 ks r /\ no_better r /\
    (r = r0 /\ ks = [] \/ o_success r = true /\ fltb (o_f r) (o_f r0) = true).
Proof.
  intros H. unfold uopf in H. set (st := bind _ _) in H. destruct st as [r0|e] eqn:E; [|discriminate]. subst st.
  apply bind_ok in E as (on & _ & E). apply bind_ok in E as (onld & _ & E). apply bind_ok in E as (pd & _ & E).
  apply bind_ok in E as (lm & _ & E). apply bind_ok in E as (pm & _ & E). apply bind_ok in E as (u & _ & E).
  destruct (stages_ok _ _ _ H) as (ks & D & N). exists r0, ks. split; auto. split; auto. split; auto. apply (descent_lt _ _ _ D).
Qed.

(** ** termination.  ext2int and int2ext keep the status column and list every generator with status 0 as off. *)
Definition keeps_status : Prop := forall bus gen r, solve bus gen = Ok r ->
  NoDup (o_off r) /\ map (fun g => cell g GEN_STATUS) (o_gen r) = map (fun g => cell g GEN_STATUS) gen /\
  forall k g, nth_error gen k = Some g -> in_service g = false -> In k (o_off r).

Lemma cell_pad (r : list K) n j : cell (r ++ repeat 0%K n) j = cell r j.
Proof.
  unfold cell. destruct (Nat.lt_ge_cases j (length r)); [apply app_nth1; auto|].
  rewrite app_nth2, nth_repeat by auto. rewrite nth_overflow; auto.
Qed.
Lemma opf_status bus gen r : keeps_status -> opf bus gen = Ok r ->
  map (fun g => cell g GEN_STATUS) (o_gen r) = map (fun g => cell g GEN_STATUS) gen /\
  forall k g, nth_error (o_gen r) k = Some g -> in_service g = false ->
    cell g PG = 0%K /\ cell g QG = 0%K /\ cell g MU_PMAX = 0%K /\ cell g MU_PMIN = 0%K.
Proof.
  intros KS H. unfold Uopf.opf in H. apply bind_ok in H as (q & Hq & H). apply bind_ok in H as (g1 & Hg & H). injection H as <-. cbn [o_gen].
  destruct (KS _ _ _ Hq) as (ND & E & O). unfold pad in E. rewrite map_map in E.
  assert (map (fun g => cell g GEN_STATUS) (o_gen q) = map (fun g => cell g GEN_STATUS) gen) as E'.
  { rewrite E. apply map_ext. intros g. apply cell_pad. }
  assert (ED : edit (o_gen q) g1 (fun i j => if mem i (o_off q) && mem j [PG; QG; MU_PMAX; MU_PMIN] then Some 0%K else None)).
  { destruct (Nat.ltb_spec 0 (length (o_off q))) as [L|L]; [apply zero_rows_ok; auto|]. injection Hg as <-.
    destruct (o_off q); [|cbn in L; lia]. eapply edit_ext; [|apply edit_refl]. reflexivity. }
  destruct ED as (L & ED).
  assert (ES : map (fun g => cell g GEN_STATUS) g1 = map (fun g => cell g GEN_STATUS) (o_gen q)).
  { apply nth_error_ext. intros i. rewrite !nth_error_map. destruct (nth_error (o_gen q) i) as [g|] eqn:Eg.
    - destruct (ED i g Eg) as (g' & A & _ & C). rewrite A. cbn [option_map]. f_equal. rewrite C. destruct (mem i _); reflexivity.
    - rewrite (proj2 (nth_error_None g1 i)); auto. apply nth_error_None in Eg. lia. }
  split; [congruence|]. intros k g Hk Hs.
  pose proof (nth_error_some_lt _ _ _ Hk) as Lk. rewrite L in Lk. destruct (nth_error_lt _ _ Lk) as (g0 & Hg0).
  destruct (ED k g0 Hg0) as (g' & A & _ & C). assert (g' = g) as -> by congruence.
  assert (In k (o_off q)) as I.
  { assert (nth_error (map (fun g => cell g GEN_STATUS) g1) k = nth_error (map (fun g => cell g GEN_STATUS) gen) k) as EE by congruence.
    rewrite !nth_error_map, Hk in EE. destruct (nth_error gen k) as [gg|] eqn:Egg; [|discriminate]. injection EE as EE.
    apply (O k (gg ++ repeat 0%K (S MU_QMIN - length gg))); [unfold pad; rewrite nth_error_map, Egg; reflexivity|].
    unfold in_service in *. rewrite cell_pad. rewrite <- EE. exact Hs. }
  apply mem_in in I. rewrite !C, I. cbn. auto.
Qed.
Definition statuses (gen : list (list K)) : list K := map (fun g => cell g GEN_STATUS) gen.
Lemma units_statuses gen : units_on gen = length (filter (fltb 0%K) (statuses gen)).
Proof. unfold units_on, statuses. induction gen as [|g t IH]; cbn [map filter]; auto. unfold in_service at 1. destruct (fltb 0%K (cell g GEN_STATUS)); cbn [length]; auto. Qed.
Lemma filter_len_upd (l : list K) : forall k x, nth_error l k = Some x -> fltb 0%K x = true ->
  forall l', length l' = length l -> (forall i, nth i l' 0%K = if i =? k then 0%K else nth i l 0%K) ->
  length (filter (fltb 0%K) l) = S (length (filter (fltb 0%K) l')).
Proof.
  induction l as [|a l IH]; intros k x Hk Hx l' L E; [destruct k; discriminate|]. destruct l' as [|a' l']; [discriminate|].
  destruct k as [|k].
  - injection Hk as ->. pose proof (E 0) as E0. cbn in E0. subst a'. cbn [filter]. rewrite Hx, flt_irrefl. cbn [length]. cbn in L. injection L as L.
    assert (l' = l) as -> by (apply (nth_ext _ _ 0%K 0%K L); intros i _; exact (E (S i))). reflexivity.
  - pose proof (E 0) as E0. cbn in E0. subst a'. cbn [filter]. cbn in L. injection L as L.
    specialize (IH k x Hk Hx l' L (fun i => E (S i))). destruct (fltb 0%K a); cbn [length]; lia.
Qed.
Lemma best_units r0 k r1 : keeps_status -> (forall i g, nth_error (o_gen r0) i = Some g -> in_service g = false -> cell g MU_PMIN = 0%K) ->
  best_trial r0 k r1 ->
  (exists g, nth_error (o_gen r0) k = Some g /\ in_service g = true) /\
  (exists g, nth_error (o_gen r1) k = Some g /\ cell g GEN_STATUS = 0%K) /\
  (forall i, i <> k -> nth i (statuses (o_gen r1)) 0%K = nth i (statuses (o_gen r0)) 0%K) /\
  units_on (o_gen r0) = S (units_on (o_gen r1)) /\ (forall i g, nth_error (o_gen r1) i = Some g -> in_service g = false -> cell g MU_PMIN = 0%K).
Proof.
  intros KS Z ((g & Hg & M & _) & (gen & (L & Lk & SD) & HO) & _). destruct (opf_status _ _ _ KS HO) as (ES & ZS).
  assert (in_service g = true) as S. { destruct (in_service g) eqn:S; auto. rewrite (Z k g Hg S), flt_irrefl in M. discriminate. }
  destruct (SD k g Hg) as (g' & Hg' & _ & C). 
  assert (E : forall i, nth i (statuses (o_gen r1)) 0%K = if i =? k then 0%K else nth i (statuses (o_gen r0)) 0%K).
  { intros i. unfold statuses. rewrite ES. destruct (Nat.lt_ge_cases i (length (o_gen r0))) as [Li|Li].
    - destruct (nth_error_lt _ _ Li) as (a & Ha). destruct (SD i a Ha) as (a' & Ha' & _ & Ca).
      rewrite !(nth_map_lt _ _ _ _ []) by lia. rewrite (nth_error_nth _ _ _ Ha), (nth_error_nth _ _ _ Ha'), Ca. destruct (i =? k); reflexivity.
    - rewrite !nth_overflow by (rewrite map_length; lia). destruct (i =? k); auto. }
  assert (LS : length (statuses (o_gen r1)) = length (statuses (o_gen r0))).
  { unfold statuses. rewrite ES, !map_length. auto. }
  split; [eauto|]. split; [|split; [|split]].
  - unfold statuses in LS. rewrite !map_length in LS. destruct (nth_error_lt (o_gen r1) k) as (b & Hb); [lia|]. exists b. split; auto.
    pose proof (E k) as Ek. rewrite Nat.eqb_refl in Ek. unfold statuses in Ek. rewrite (nth_map_lt _ _ _ _ []) in Ek by lia. rewrite (nth_error_nth _ _ _ Hb) in Ek. auto.
  - intros i N. rewrite E. destruct (Nat.eqb_spec i k); congruence.
  - rewrite !units_statuses. apply (filter_len_upd _ k (cell g GEN_STATUS)); auto. unfold statuses. rewrite nth_error_map, Hg. reflexivity.
  - intros i a Ha Sa. apply (ZS i a Ha Sa).
Qed.

Lemma stages_end fuel : forall r0, keeps_status -> (forall i g, nth_error (o_gen r0) i = Some g -> in_service g = false -> cell g MU_PMIN = 0%K) ->
  units_on (o_gen r0) < fuel -> stages solve fuel r0 <> None.
Proof.
  induction fuel as [|fuel IH]; intros r0 KS Z L; [lia|]. cbn [stages].
  destruct (candidates (o_gen r0)) as [cs|e] eqn:HC; [|discriminate]. destruct cs as [|c cs]; [discriminate|].
  destruct (foldM _ _ _) as [(r1 & b)|e] eqn:HF; [|discriminate]. destruct b; [|discriminate].
  destruct (stage_end _ _ _ _ HC HF) as (k & B). destruct (best_units _ _ _ KS Z B) as (_ & _ & _ & U & Z'). apply IH; auto. lia.
Qed.
Lemma opf_units bus gen r : keeps_status -> opf bus gen = Ok r -> units_on (o_gen r) = units_on gen.
Proof. intros KS H. destruct (opf_status _ _ _ KS H) as (E & _). rewrite !units_statuses. unfold statuses. rewrite E. reflexivity. Qed.

(** the loop ends after at most one stage more than there are units in service *)
Theorem C36_terminates fuel bus gen : keeps_status -> units_on gen < fuel -> uopf solve fuel bus gen <> None.
Proof.
  intros KS L. unfold uopf. set (st := bind _ _). destruct st as [r0|e] eqn:E; [|discriminate]. subst st.
  apply bind_ok in E as (on & _ & E). apply bind_ok in E as (onld & _ & E). apply bind_ok in E as (pd & _ & E).
  apply bind_ok in E as (lm & _ & E). apply bind_ok in E as (pm & _ & E). apply bind_ok in E as (u & _ & E).
  apply stages_end; auto; [|rewrite (opf_units _ _ _ KS E); auto]. intros i g Hg S. apply (opf_status _ _ _ KS E) with (k := i); auto.
Qed.
(** and its outcome does not depend on the number of stages allowed *)
Theorem C36_deterministic fuel fuel' bus gen a b : uopf solve fuel bus gen = Some a -> uopf solve fuel' bus gen = Some b -> a = b.
Proof.
  unfold uopf. destruct (bind _ _) as [r0|e]; [|congruence]. revert fuel' r0 a b.
  induction fuel as [|fuel IH]; intros [|fuel'] r0 a b; cbn [stages]; try discriminate.
  destruct (candidates (o_gen r0)) as [[|c cs]|e]; try congruence.
  destruct (foldM _ _ _) as [(r1 & [|])|e]; try congruence. apply IH.
Qed.

(** the units shut down were in service, differ from each other, and are off in the result; the others keep their status *)
Theorem C36_units bus gen r0 ks r : keeps_status -> opf bus gen = Ok r0 -> descent r0 ks r ->
  NoDup ks /\ units_on (o_gen r) + length ks = units_on gen /\
  (forall k, In k ks -> nth k (statuses (o_gen r)) 0%K = 0%K /\ fltb 0%K (nth k (statuses gen) 0%K) = true) /\
  (forall k, ~ In k ks -> nth k (statuses (o_gen r)) 0%K = nth k (statuses gen) 0%K).
Proof.
  intros KS HO D. rewrite <- (opf_units _ _ _ KS HO). destruct (opf_status _ _ _ KS HO) as (ES & Z).
  assert (statuses gen = statuses (o_gen r0)) as -> by (unfold statuses; auto). 
  assert (Z' : forall i g, nth_error (o_gen r0) i = Some g -> in_service g = false -> cell g MU_PMIN = 0%K) by (intros i g A B; apply (Z i g A B)).
  clear HO ES Z. induction D as [r|r0 k r1 ks r B D IH]; [split; [constructor|]; split; [cbn; lia|]; split; [intros ? []|auto]|].
  destruct (best_units _ _ _ KS Z' B) as ((g & Hg & S) & (g1 & Hg1 & S1) & O & U & Z1). destruct (IH Z1) as (ND & UU & I1 & I2).
  assert (nth k (statuses (o_gen r0)) 0%K = cell g GEN_STATUS) as E0.
  { unfold statuses. pose proof (nth_error_some_lt _ _ _ Hg). rewrite (nth_map_lt _ _ _ _ []) by auto. rewrite (nth_error_nth _ _ _ Hg). auto. }
  assert (nth k (statuses (o_gen r1)) 0%K = 0%K) as E1.
  { unfold statuses. pose proof (nth_error_some_lt _ _ _ Hg1). rewrite (nth_map_lt _ _ _ _ []) by auto. rewrite (nth_error_nth _ _ _ Hg1). auto. }
  assert (~ In k ks) as NI. { intros I. destruct (I1 k I) as (_ & F1). rewrite E1, flt_irrefl in F1. discriminate. }
  split; [constructor; auto|]. split; [cbn [length]; lia|]. split.
  - intros i [<-|I]. { rewrite (I2 k NI). split; auto. rewrite E0. exact S. }
    destruct (I1 i I) as (A & A'). split; auto. rewrite <- O; auto. intros ->. contradiction.
  - intros i N. cbn in N. rewrite I2 by tauto. apply O. intros ->. tauto.
Qed.

(** out-of-service generators are reported with zero output and zero prices of their output limits *)
Theorem C36_off_report bus gen r : keeps_status -> opf bus gen = Ok r -> forall k g, nth_error (o_gen r) k = Some g -> in_service g = false ->
  cell g PG = 0%K /\ cell g QG = 0%K /\ cell g MU_PMAX = 0%K /\ cell g MU_PMIN = 0%K.
Proof. intros KS H. apply (opf_status _ _ _ KS H). Qed.

(** ** the first phase: with minimum outputs above the load nothing is shut down, the call fails *)
Definition unit_minimum (gen : list (list K)) : K :=
  lsum (fun g => if in_service g && negb (fltb (cell g PMIN) 0%K && feqb (cell g PMAX) 0%K) then cell g PMIN else 0%K) gen.
Definition load_capacity (bus gen : list (list K)) : K :=
  (lsum (fun r => cell r PD) bus - lsum (fun g => if disp_load g then cell g PMIN else 0%K) gen)%K.

Lemma isload_ok gen ld : mapM isload gen = Ok ld -> ld = map (fun g : list K => fltb (cell g PMIN) 0%K && feqb (cell g PMAX) 0%K) gen.
Proof.
  intros Hl. eapply mapM_inv; [|exact Hl]. intros g y _ Hg. unfold isload in Hg. apply bind_ok in Hg as (lo & H1 & Hg).
  apply bind_ok in Hg as (hi & H2 & Hg). injection Hg as <-. apply get_ok in H1, H2.
  unfold cell. rewrite (nth_error_nth _ _ _ H1), (nth_error_nth _ _ _ H2). reflexivity.
Qed.
Lemma pmin_on gen w on v : on_gens gen w = Ok on -> pmin_of gen on = Ok v ->
  v = lsum (fun g : list K => if in_service g && Bool.eqb (fltb (cell g PMIN) 0%K && feqb (cell g PMAX) 0%K) w then cell g PMIN else 0%K) gen.
Proof.
  intros H P. unfold on_gens in H. apply bind_ok in H as (ld & Hl & H). apply bind_ok in H as (st & Hs & H). injection H as <-.
  apply isload_ok in Hl as ->. apply col_ok in Hs as (_ & ->). unfold pmin_of in P. apply bind_ok in P as (rows & Hr & P).
  apply bind_ok in P as (x & Hx & P). injection P as <-. apply col_ok in Hx as (_ & ->). apply (gather_all _ _ _ []) in Hr as ->.
  rewrite !lsum_map. unfold map2. rewrite PipsD.combine_map, map_map.
  rewrite (find_filter _ []), lsum_filter. rewrite (lsum_nth (fun g => if in_service g && Bool.eqb (fltb (cell g PMIN) 0%K && feqb (cell g PMAX) 0%K) w then cell g PMIN else 0%K) gen []).
  apply lsum_ext. intros i _. reflexivity.
Qed.
Theorem C67_first_phase_partial fuel bus gen r : uopf solve fuel bus gen = Some (Ok r) ->
  fltb (load_capacity bus gen) (unit_minimum gen) = false.
Proof.
  intros H. unfold uopf in H. set (st := bind _ _) in H. destruct st as [r0|e] eqn:E; [|discriminate]. subst st.
  apply bind_ok in E as (on & H1 & E). apply bind_ok in E as (onld & H2 & E). apply bind_ok in E as (pd & H3 & E).
  apply bind_ok in E as (lm & H4 & E). apply bind_ok in E as (pm & H5 & E). apply bind_ok in E as (u & H6 & E).
  rewrite (pmin_on _ _ _ _ H2 H4) in *. rewrite (pmin_on _ _ _ _ H1 H5) in *. apply col_ok in H3 as (_ & ->). rewrite lsum_map in H6.
  unfold load_capacity, unit_minimum, disp_load.
  match type of H6 with guard (negb (fltb ?a ?b)) _ = _ => destruct (fltb a b) eqn:EE; [discriminate|] end.
  rewrite <- EE. apply f_equal2; [apply f_equal2; [reflexivity|]|]; apply lsum_ext; intros g _.
  - destruct (in_service g), (fltb (cell g PMIN) 0%K), (feqb (cell g PMAX) 0%K); reflexivity.
  - destruct (in_service g), (fltb (cell g PMIN) 0%K), (feqb (cell g PMAX) 0%K); reflexivity.
Qed.
End Uopf.

(** ** an example: two units and a dispatchable load; the solver dispatches a must-run minimum and charges 50
    per running unit plus 10 per MW, with a price on every positive minimum *)
Definition u_solve (bus gen : list (list Qc)) : result (ores Qc) :=
  let run := map (fun g => in_service g && fltb 0%K (cell g PMIN)) gen in
  let cost := lsum (fun g => if in_service g && fltb 0%K (cell g PMIN) then (lq 50 1 + lq 10 1 * cell g PMIN)%K else 0%K) gen in
  let gen' := map (fun g => if in_service g && fltb 0%K (cell g PMIN) then upd g MU_PMIN (lq 1 1) else g) gen in
  Ok (ORes bus gen' cost (0 <? length (filter (fun b => b) run)) (find (map (fun g => negb (in_service g)) gen))).
Definition u_bus := [l_busrow 1 100 0 1; l_busrow 2 50 0 1]%Z.
Definition u_gen := [l_genrow 1 40 0 50 (-50) 1 200 40; l_genrow 2 60 0 50 (-50) 1 200 60; l_genrow 2 30 0 50 (-50) 0 200 30;
                     l_genrow 1 (-10) 0 0 0 1 0 (-10)]%Z.

Lemma u_keeps : keeps_status u_solve.
Proof.
  intros bus gen r H. injection H as <-. cbn [o_off o_gen]. split; [apply find_NoDup|]. split.
  - rewrite map_map. apply map_ext. intros g. destruct (_ && _); auto. unfold cell.
    rewrite NetworkD.nth_upd_other; auto. discriminate.
  - intros k g Hg S. apply find_mask. exists g. split; auto. change (negb (in_service g) = true). rewrite S. auto.
Qed.
(** initial cost 1100; without unit 2 it is 450, without unit 1 it is 650; then nothing more can be shut down *)
Example C36_example : exists r,
  uopf u_solve 5 u_bus u_gen = Some (Ok r) /\ this (o_f r) = 450%Q /\
  l_table (o_gen r) [PG; GEN_STATUS; MU_PMIN] = [[40; 1; 1]; [0; 0; 0]; [0; 0; 0]; [-(10); 1; 0]]%Q.
Proof.
  eexists. split; [vm_compute; reflexivity|]. split; vm_compute; reflexivity.
Qed.
Example C36_example_fuel : units_on u_gen < 5 /\ uopf u_solve 1 u_bus u_gen = None.
Proof. split; [vm_compute; lia|vm_compute; reflexivity]. Qed.

(** minimum outputs of 140 MW at a load capacity of 110 MW: no unit is shut down, the call raises *)
Definition u_small := [l_busrow 1 30 0 1; l_busrow 2 50 0 1]%Z.
Theorem C67_refuted : exists bus gen : list (list Qc),
  fltb (load_capacity bus gen) (unit_minimum gen) = true /\
  (* the case is feasible with unit 2 off *)
  (forall gen', shut_down gen gen' 1 -> fltb (load_capacity bus gen') (unit_minimum gen') = false) /\
  forall solve fuel, uopf solve fuel bus gen = Some (Err TypeError).
Proof.
  exists u_small, u_gen. split; [vm_compute; reflexivity|]. split.
  - intros gen' S. assert (exists g, zero_rows [1] [PG; QG; GEN_STATUS] u_gen = Ok g) as (g & Hg).
    { eexists. vm_compute. reflexivity. }
    assert (shut_down u_gen g 1) as S' by (apply shut_ok; [cbn; lia|exact Hg]). rewrite (shut_unique _ _ _ _ S S'). vm_compute in Hg. injection Hg as <-. vm_compute. reflexivity.
  - intros solve fuel. vm_compute. reflexivity.
Qed.
(** a failed initial run whose objective is low hides successful commitments *)
Definition u_solve' (bus gen : list (list Qc)) : result (ores Qc) :=
  r <- u_solve bus gen ;;
  Ok (if 1 <? units_on (filter (fun g => fltb 0%K (cell g PMIN)) gen) then ORes (o_bus r) (o_gen r) (lq 1 1) false (o_off r) else r).
Theorem C67_failed_start_refuted : exists (bus gen : list (list Qc)) r r0 k r',
  keeps_status u_solve' /\ uopf u_solve' 5 bus gen = Some (Ok r) /\ o_success r = false /\
  opf u_solve' bus gen = Ok r0 /\ at_minimum (o_gen r0) k /\ trial u_solve' r0 k r' /\ o_success r' = true.
Proof.
  exists u_bus, u_gen. do 2 eexists. exists 1. eexists. split.
  { intros bus gen r H. unfold u_solve' in H. apply bind_ok in H as (q & Hq & H). pose proof (u_keeps _ _ _ Hq) as P. injection H as <-.
    destruct (_ <? _); exact P. }
  split; [vm_compute; reflexivity|]. split; [reflexivity|]. split; [vm_compute; reflexivity|]. split.
  { eexists. split; [vm_compute; reflexivity|]. split; vm_compute; reflexivity. }
  split; [|shelve]. eexists. split.
  { apply shut_ok; [cbn; lia|vm_compute; reflexivity]. }
  vm_compute. reflexivity.
  Unshelve. reflexivity.
Qed.

Print Assumptions C36_descent.
Print Assumptions C36_terminates.
Print Assumptions C36_deterministic.
Print Assumptions C36_units.
Print Assumptions C36_off_report.
Print Assumptions C67_first_phase_partial.
Print Assumptions C67_refuted.
Print Assumptions C67_failed_start_refuted.
