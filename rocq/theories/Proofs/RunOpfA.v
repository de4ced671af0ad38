(** Results carried from the internal tables to the external ones, for any solver that changes only some
    columns. *)
From Coq Require Import Permutation.
From Verif Require Import Lib.ListFacts Model.RunPf Spec.RunSpec Spec.RunOpfSpec Proofs.SparseFacts Proofs.PfsolnA
  Proofs.TableEdit Proofs.Ext2intA Proofs.Ext2intB Proofs.Ext2intC Proofs.Ext2intD Proofs.RunPfA Proofs.RunPfB.
Local Open Scope nat_scope.

Section Table.
Context {K : Type} {F : Fld K}.
Variables (bcols rcols zcols idx off : list nat) (orig int res t1 t2 : list (list K)).
Hypothesis NDi : NoDup idx.
Hypothesis Ri : forall i, In i idx -> i < length orig.
Hypothesis Li : length int = length idx.
Hypothesis INT : forall k i r, nth_error idx k = Some i -> nth_error orig i = Some r ->
  exists r1, nth_error int k = Some r1 /\ length r1 = length r /\ forall j, ~ In j bcols -> cell r1 j = cell r j.
Hypothesis RES : only_changes rcols int res.
Hypothesis WB : written_back bcols idx orig res t1.
Hypothesis NDo : NoDup off.
Hypothesis OFF : forall i, In i off <-> i < length orig /\ ~ In i idx.
Hypothesis Z : zero_out t1 off zcols = Ok t2.

Lemma put_on k i r a b : nth_error idx k = Some i -> nth_error orig i = Some r -> nth_error t2 i = Some a ->
  nth_error res k = Some b ->
  (forall c, In c bcols -> cell a c = cell r c) /\ (forall c, ~ In c bcols -> cell a c = cell b c) /\
  (forall c, ~ In c rcols -> cell a c = cell r c) /\ length r <= length a.
Proof.
  intros Hk Hr Ha Hb.
  destruct (back_rows _ _ _ _ _ _ _ Li INT RES WB _ _ _ _ Hk Hr Hb) as (a1 & A1 & LA & B1 & B2 & B3).
  destruct (zero_out_ok _ _ _ _ NDo Z) as (L & H). destruct (H _ _ A1) as (a' & A & LL & C).
  assert (a' = a) by congruence. subst a'.
  assert (~ In i off) as N. { intros J. apply OFF in J as [_ J]. apply J. eapply nth_error_In; eauto. }
  split; [|split; [|split]]; [| | |lia];
    intros c I; rewrite C; (destruct (in_dec Nat.eq_dec i off); [contradiction|]); auto.
Qed.

Lemma put_off i r a : nth_error orig i = Some r -> nth_error t2 i = Some a -> ~ In i idx ->
  length a = length r /\ forall c, cell a c = if in_dec Nat.eq_dec c zcols then 0%K else cell r c.
Proof.
  intros Hr Ha N. destruct (zero_out_ok _ _ _ _ NDo Z) as (L & H).
  assert (nth_error t1 i = Some r) as H1 by (rewrite (back_other _ _ _ _ _ WB); auto).
  destruct (H _ _ H1) as (r' & A & LL & C). assert (r' = a) by congruence. subst r'. split; auto.
  intros c. rewrite C. destruct (in_dec Nat.eq_dec i off) as [J|J]; auto.
  exfalso. apply J, OFF. split; auto. eapply nth_error_some_lt; eauto.
Qed.

Lemma put_len : length t2 = length orig.
Proof. destruct (zero_out_ok _ _ _ _ NDo Z) as (L & _). destruct WB as (L1 & _). congruence. Qed.

Lemma put_res_len : length res = length idx.
Proof. destruct RES as (L & _). congruence. Qed.

Lemma put_changes : only_changes (rcols ++ zcols) orig t2.
Proof.
  split; [apply put_len|]. intros i r Hr.
  destruct (nth_error_lt t2 i) as [a Ha]; [rewrite put_len; eapply nth_error_some_lt; eauto|].
  exists a. split; auto. destruct (in_dec Nat.eq_dec i idx) as [I|N].
  - apply In_nth_error in I as (k & Hk).
    destruct (nth_error_lt res k) as [b Hb]; [rewrite put_res_len; eapply nth_error_some_lt; eauto|].
    destruct (put_on _ _ _ _ _ Hk Hr Ha Hb) as (_ & _ & C & LL). split; auto. intros j J. apply C.
    intros I. apply J, in_or_app. auto.
  - destruct (put_off _ _ _ Hr Ha N) as (LL & C). split; [lia|]. intros j J. rewrite C.
    destruct (in_dec Nat.eq_dec j zcols); auto. exfalso. apply J, in_or_app. auto.
Qed.
End Table.

Section Through.
Context {K : Type} {F : Fld K}.

(** row by row: original [p], internal [q], solved internal tables, reported [r] *)
Record carried (p q : ppc_of K) (bus' gen' branch' : list (list K)) (r : ppc_of K) (sb sg sl : list nat) : Prop := {
  ca_bus_len : length bus' = length sb;
  ca_gen_len : length gen' = length sg;
  ca_br_len : length branch' = length sl;
  ca_bus : forall k i b, nth_error sb k = Some i -> nth_error bus' k = Some b -> exists x y a,
     nth_error (p_bus p) i = Some x /\ nth_error (p_bus q) k = Some y /\ nth_error (p_bus r) i = Some a /\
     (forall c, c <> BUS_I -> cell y c = cell x c) /\ (forall c, c <> BUS_I -> cell a c = cell b c);
  ca_gen : forall k j g, nth_error sg k = Some j -> nth_error gen' k = Some g -> exists x y a z n,
     nth_error (p_gen p) j = Some x /\ nth_error (p_gen q) k = Some y /\ nth_error (p_gen r) j = Some a /\
     nth_error x GEN_BUS = Some (ofZ z) /\ stands_for p sb n z /\ cell y GEN_BUS = ofN n /\
     cell a GEN_BUS = cell x GEN_BUS /\ in_service x = true /\
     (forall c, c <> GEN_BUS -> cell y c = cell x c) /\ (forall c, c <> GEN_BUS -> cell a c = cell g c);
  ca_br : forall k j g, nth_error sl k = Some j -> nth_error branch' k = Some g -> exists x y a zf zt nf nt,
     nth_error (p_branch p) j = Some x /\ nth_error (p_branch q) k = Some y /\ nth_error (p_branch r) j = Some a /\
     nth_error x F_BUS = Some (ofZ zf) /\ stands_for p sb nf zf /\ cell y F_BUS = ofN nf /\
     nth_error x T_BUS = Some (ofZ zt) /\ stands_for p sb nt zt /\ cell y T_BUS = ofN nt /\
     cell a F_BUS = cell x F_BUS /\ cell a T_BUS = cell x T_BUS /\ nth_error x BR_STATUS = Some (ofZ 1) /\
     (forall c, c <> F_BUS -> c <> T_BUS -> cell y c = cell x c) /\
     (forall c, c <> F_BUS -> c <> T_BUS -> cell a c = cell g c);
  ca_same : forall k i z z' b, nth_error sb k = Some i -> bus_at p z i -> stands_for p sb b z' ->
     (z' =? z)%Z = (b =? k) }.

Lemma ofN_no (x : list K) c b : cell x c = ofN b -> bus_no x c = b.
Proof.
  intros H. unfold bus_no. rewrite H. change (ofN b : K) with (fofZ (Z.of_nat b) : K).
  rewrite ftrunc_ofZ. apply Nat2Z.id.
Qed.

Variable argsort : list Z -> list nat.
Hypothesis Has : argsort_spec argsort.
Variables (bc gc gz lc lz : list nat).
Hypothesis Db : ~ In BUS_I bc.
Hypothesis Dg : ~ In GEN_BUS gc.
Hypothesis Dl : ~ In F_BUS lc /\ ~ In T_BUS lc.
Hypothesis Dgz : ~ In GEN_BUS gz.
Hypothesis Dlz : ~ In F_BUS lz /\ ~ In T_BUS lz.
Variables (p q r1 : ppc_of K) (o : order_of K) (bus' gen' branch' gen2 br2 : list (list K)).
Hypothesis W : wf_case p.
Hypothesis E : in_ext_state p.
Hypothesis Hq : ext2int argsort p = Ok q.
Hypothesis KB : keeps bc (p_bus q) bus'.
Hypothesis KG : keeps gc (p_gen q) gen'.
Hypothesis KL : keeps lc (p_branch q) branch'.
Hypothesis Hr : int2ext (with_tables q bus' gen' branch') = Ok r1.
Hypothesis Ho : p_order r1 = Some o.
Hypothesis HG2 : zero_out (p_gen r1) (o_gen_off o) gz = Ok gen2.
Hypothesis HL2 : zero_out (p_branch r1) (o_br_off o) lz = Ok br2.

Theorem through_conv : exists sb sg sl sa,
  (exists o0 i2eZ gon ge, conv argsort p q o0 i2eZ sb gon ge sg sl sa) /\
  let r := with_tables r1 (p_bus r1) gen2 br2 in
  internal_form p q sb sg sl sa /\ reports_in bc gc gz lc lz p r /\
  carried p q bus' gen' branch' r sb sg sl /\
  (forall k i z c, nth_error sb k = Some i -> bus_at p z i -> In c gz ->
     total_at GEN_BUS (fun g => cell g c) gen2 z
     = lsum (fun g => if bus_no g GEN_BUS =? k then cell g c else 0%K) gen') /\
  (forall k i z c d, nth_error sb k = Some i -> bus_at p z i -> In c lz -> In d lz ->
     (total_at F_BUS (fun g => cell g c) br2 z + total_at T_BUS (fun g => cell g d) br2 z)%K
     = drawn (fun g => cell g c) (fun g => cell g d) branch' k).
Proof.
  rewrite ext2int_unfold in Hq by auto.
  destruct (ext2int_conv argsort Has p W)
    as (q' & o0 & i2eZ & sb & gon & ge & sg & sl & sa & Hq' & C).
  assert (q' = q) by congruence. subst q'.
  pose proof (cv_form _ _ _ _ _ _ _ _ _ _ _ C) as IF.
  destruct (int2ext_back argsort Has p W q o0 i2eZ sb gon ge sg sl sa C bus' gen' branch')
    as (r2 & Hr' & B1 & B2 & B3 & Hgc & Har & HA & HN & o' & Ho' & _ & Hgo & Hlo).
  { eapply keeps_shape; [|exact KB]. intros c I J. destruct I as [<-|[]]. contradiction. }
  { eapply keeps_shape; [|exact KG]. intros c I J. destruct I as [<-|[]]. contradiction. }
  { eapply keeps_shape; [|exact KL]. intros c I J. destruct Dl. destruct I as [<-|[<-|[]]]; contradiction. }
  change (with_results q bus' gen' branch') with (with_tables q bus' gen' branch') in Hr'.
  assert (r2 = r1) by congruence. subst r2. assert (o' = o) by congruence. subst o'.
  rewrite Hgo in HG2. rewrite Hlo in HL2.
  destruct (if_sb _ _ _ _ _ _ IF) as ((Nsb & Isb) & _).
  destruct (if_sl _ _ _ _ _ _ IF) as ((Nsl & Isl) & _).
  destruct (if_sg _ _ _ _ _ _ IF) as (Nsg & Isg).
  destruct (cv_goff _ _ _ _ _ _ _ _ _ _ _ C) as (Ngo & Igo).
  destruct (cv_loff _ _ _ _ _ _ _ _ _ _ _ C) as (Nlo & Ilo).
  (* bus table *)
  assert (RB : forall i, In i sb -> i < length (p_bus p)).
  { intros i I. apply Isb in I as (x & Hx & _). eapply nth_error_some_lt; exact Hx. }
  assert (INB : forall k i x, nth_error sb k = Some i -> nth_error (p_bus p) i = Some x ->
    exists x1, nth_error (p_bus q) k = Some x1 /\ length x1 = length x /\
      forall j, ~ In j [BUS_I] -> cell x1 j = cell x j).
  { intros k i x Hk Hx. eexists. split; [apply (if_bus _ _ _ _ _ _ IF _ _ _ Hk Hx)|].
    split; [apply upd_length|]. intros j N. apply cell_nth_error. apply nth_error_upd_other.
    intros EQ. apply N. left. auto. }
  (* generator table *)
  assert (RG : forall i, In i sg -> i < length (p_gen p)).
  { intros i I. apply Isg in I as (x & s & Hx & _). eapply nth_error_some_lt; exact Hx. }
  assert (GR : forall k i x, nth_error sg k = Some i -> nth_error (p_gen p) i = Some x ->
    exists z b, nth_error x GEN_BUS = Some (ofZ z) /\ stands_for p sb b z /\ in_service x = true /\
      nth_error (p_gen q) k = Some (upd x GEN_BUS (ofN b))).
  { intros k i x Hk Hx. destruct (proj1 (Isg i) (nth_error_In _ _ Hk)) as (x' & s & Hx' & Hs & Gs & z & j & Hz & Bz & Sj).
    assert (x' = x) by congruence. subst x'.
    apply Isb in Sj. apply In_nth_error in Sj as (b & Hb).
    exists z, b. split; auto. assert (stands_for p sb b z) as ST by (exists j; auto). split; auto.
    split. { unfold in_service. rewrite (nth_error_cell _ _ _ Hs). exact Gs. }
    apply (if_gen _ _ _ _ _ _ IF _ _ _ _ _ Hk Hx Hz ST). }
  assert (ING : forall k i x, nth_error sg k = Some i -> nth_error (p_gen p) i = Some x ->
    exists x1, nth_error (p_gen q) k = Some x1 /\ length x1 = length x /\
      forall j, ~ In j [GEN_BUS] -> cell x1 j = cell x j).
  { intros k i x Hk Hx. destruct (GR _ _ _ Hk Hx) as (z & b & _ & _ & _ & H). eexists. split; [exact H|].
    split; [apply upd_length|]. intros j N. apply cell_nth_error. apply nth_error_upd_other.
    intros EQ. apply N. left. auto. }
  assert (OG : forall i, In i (o_gen_off o0) <-> i < length (p_gen p) /\ ~ In i sg).
  { intros i. rewrite Igo. rewrite Isg. tauto. }
  (* branch table *)
  assert (RL : forall i, In i sl -> i < length (p_branch p)).
  { intros i I. apply Isl in I as (x & Hx & _). eapply nth_error_some_lt; exact Hx. }
  assert (LR : forall k i x, nth_error sl k = Some i -> nth_error (p_branch p) i = Some x ->
    exists zf bf zt bt, nth_error x F_BUS = Some (ofZ zf) /\ stands_for p sb bf zf /\
      nth_error x T_BUS = Some (ofZ zt) /\ stands_for p sb bt zt /\ nth_error x BR_STATUS = Some (ofZ 1) /\
      nth_error (p_branch q) k = Some (upd (upd x F_BUS (ofN bf)) T_BUS (ofN bt))).
  { intros k i x Hk Hx. destruct (proj1 (Isl i) (nth_error_In _ _ Hk))
      as (x' & Hx' & HS & (zf & jf & Hf & Bf & Sf) & (zt & jt & Ht & Bt & Stt)).
    assert (x' = x) by congruence. subst x'.
    apply Isb in Sf. apply In_nth_error in Sf as (bf & Hbf).
    apply Isb in Stt. apply In_nth_error in Stt as (bt & Hbt).
    assert (stands_for p sb bf zf) as S1 by (exists jf; auto).
    assert (stands_for p sb bt zt) as S2 by (exists jt; auto).
    exists zf, bf, zt, bt. split; auto. split; auto. split; auto. split; auto. split; auto.
    apply (if_br _ _ _ _ _ _ IF _ _ _ _ _ _ _ Hk Hx Hf Ht S1 S2). }
  assert (INL : forall k i x, nth_error sl k = Some i -> nth_error (p_branch p) i = Some x ->
    exists x1, nth_error (p_branch q) k = Some x1 /\ length x1 = length x /\
      forall j, ~ In j [F_BUS; T_BUS] -> cell x1 j = cell x j).
  { intros k i x Hk Hx. destruct (LR _ _ _ Hk Hx) as (zf & bf & zt & bt & _ & _ & _ & _ & _ & H).
    eexists. split; [exact H|]. split; [rewrite !upd_length; auto|]. intros j N. apply cell_nth_error.
    assert (F_BUS <> j /\ T_BUS <> j) as [N1 N2] by (split; intros EQ; apply N; [left|right; left]; auto).
    rewrite !nth_error_upd_other; auto. }
  assert (OL : forall i, In i (o_br_off o0) <-> i < length (p_branch p) /\ ~ In i sl).
  { intros i. rewrite Ilo. rewrite Isl. tauto. }
  (* same bus *)
  assert (SB : forall k i z z' b, nth_error sb k = Some i -> bus_at p z i -> stands_for p sb b z' ->
                 (z' =? z)%Z = (b =? k)).
  { intros k i z z' b Hk Bi (j & Hj & Bj). destruct (Nat.eqb_spec b k) as [->|N].
    - assert (j = i) by congruence. subst j. apply Z.eqb_eq.
      destruct Bi as (x & X1 & X2), Bj as (y & Y1 & Y2). assert (y = x) by congruence. subst y.
      apply ofZ_some. congruence.
    - apply Z.eqb_neq. intros ->. apply N. assert (j = i) by (eapply (wf_bus_distinct _ W); eauto). subst j.
      eapply (NoDup_nth_error_eq sb); eauto. }
  pose proof (keeps_changes _ _ _ KB) as CB. pose proof (keeps_changes _ _ _ KG) as CG.
  pose proof (keeps_changes _ _ _ KL) as CL.
  pose proof (put_on _ _ gz _ _ _ _ _ _ _ (if_gen_len _ _ _ _ _ _ IF) ING CG B2 Ngo OG HG2) as GON.
  pose proof (put_off _ gz _ _ _ _ _ _ B2 Ngo OG HG2) as GOFF.
  pose proof (put_len _ gz _ _ _ _ _ _ B2 Ngo HG2) as GLEN.
  pose proof (put_on _ _ lz _ _ _ _ _ _ _ (if_br_len _ _ _ _ _ _ IF) INL CL B3 Nlo OL HL2) as LON.
  pose proof (put_off _ lz _ _ _ _ _ _ B3 Nlo OL HL2) as LOFF.
  pose proof (put_len _ lz _ _ _ _ _ _ B3 Nlo HL2) as LLEN.
  assert (LG' : length gen' = length sg) by (destruct KG as (-> & _); apply (if_gen_len _ _ _ _ _ _ IF)).
  assert (LL' : length branch' = length sl) by (destruct KL as (-> & _); apply (if_br_len _ _ _ _ _ _ IF)).
  assert (LB' : length bus' = length sb) by (destruct KB as (-> & _); apply (if_bus_len _ _ _ _ _ _ IF)).
  assert (CAR : carried p q bus' gen' branch' (with_tables r1 (p_bus r1) gen2 br2) sb sg sl).
  { constructor; auto; cbn [with_tables p_bus p_gen p_branch].
    - intros k i b Hk Hb. destruct (nth_error_lt (p_bus p) i) as [x Hx]; [apply RB; eapply nth_error_In; eauto|].
      destruct (INB _ _ _ Hk Hx) as (y & Hy & _ & Cy).
      destruct (back_rows [BUS_I] bc sb (p_bus p) (p_bus q) bus' (p_bus r1) (if_bus_len _ _ _ _ _ _ IF) INB CB B1 k i x b Hk Hx Hb)
        as (a & Ha & _ & _ & H & _).
      exists x, y, a. split; auto. split; auto. split; auto.
      split; intros c N; [apply Cy|apply H]; intros [I|[]]; congruence.
    - intros k j g Hk Hg. destruct (nth_error_lt (p_gen p) j) as [x Hx]; [apply RG; eapply nth_error_In; eauto|].
      destruct (nth_error_lt gen2 j) as [a Ha]; [rewrite GLEN; eapply nth_error_some_lt; eauto|].
      destruct (GR _ _ _ Hk Hx) as (z & n & Hz & ST & ON & Hy).
      destruct (GON _ _ _ _ _ Hk Hx Ha Hg) as (G1 & G2 & _ & _).
      exists x, (upd x GEN_BUS (ofN n)), a, z, n. split; auto. split; auto. split; auto. split; auto. split; auto.
      split. { apply nth_error_cell, nth_error_upd_same. eapply nth_error_some_lt; eauto. }
      split; [apply G1; left; auto|]. split; auto.
      split; intros c N; [apply cell_nth_error, nth_error_upd_other; auto|apply G2]. intros [I|[]]; congruence.
    - intros k j g Hk Hg. destruct (nth_error_lt (p_branch p) j) as [x Hx]; [apply RL; eapply nth_error_In; eauto|].
      destruct (nth_error_lt br2 j) as [a Ha]; [rewrite LLEN; eapply nth_error_some_lt; eauto|].
      destruct (LR _ _ _ Hk Hx) as (zf & bf & zt & bt & Hf & Sf & Ht & Stt & ON & Hy).
      destruct (LON _ _ _ _ _ Hk Hx Ha Hg) as (G1 & G2 & _ & _).
      exists x, (upd (upd x F_BUS (ofN bf)) T_BUS (ofN bt)), a, zf, zt, bf, bt.
      split; auto. split; auto. split; auto. split; auto. split; auto.
      split. { apply nth_error_cell. rewrite nth_error_upd_other by discriminate. apply nth_error_upd_same.
               eapply nth_error_some_lt; eauto. }
      split; auto. split; auto.
      split. { apply nth_error_cell, nth_error_upd_same. rewrite upd_length. eapply nth_error_some_lt; eauto. }
      split; [apply G1; left; auto|]. split; [apply G1; right; left; auto|]. split; auto.
      split; intros c N1 N2.
      + apply cell_nth_error. rewrite !nth_error_upd_other; auto.
      + apply G2. intros [I|[I|[]]]; congruence. }
  exists sb, sg, sl, sa. split; [exists o0, i2eZ, gon, ge; exact C|]. cbv zeta. split; auto. split; [|split; [exact CAR|split]].
  - constructor; cbn [with_tables p_bus p_gen p_branch p_gencost p_areas p_A p_N]; auto.
    + exact (back_changes [BUS_I] bc sb (p_bus p) (p_bus q) bus' (p_bus r1) (if_bus_len _ _ _ _ _ _ IF) INB CB B1).
    + intros i b b' Hb Hb' N c. rewrite (back_other [BUS_I] sb (p_bus p) bus' (p_bus r1) B1 i) in Hb' by (rewrite Isb; auto).
      congruence.
    + exact (put_changes _ _ gz _ _ _ _ _ _ _ (if_gen_len _ _ _ _ _ _ IF) ING CG B2 Ngo OG HG2).
    + intros i g g' Hg Hg' S c N. apply Isg in S. apply In_nth_error in S as (k & Hk).
      destruct (nth_error_lt gen' k) as [b Hb]; [rewrite LG'; eapply nth_error_some_lt; eauto|].
      destruct (GON _ _ _ _ _ Hk Hg Hg' Hb) as (_ & _ & H & _). auto.
    + intros i g g' Hg Hg' N. rewrite <- Isg in N. apply (GOFF _ _ _ Hg Hg' N).
    + exact (put_changes _ _ lz _ _ _ _ _ _ _ (if_br_len _ _ _ _ _ _ IF) INL CL B3 Nlo OL HL2).
    + intros i g g' Hg Hg' S c N. apply Isl in S. apply In_nth_error in S as (k & Hk).
      destruct (nth_error_lt branch' k) as [b Hb]; [rewrite LL'; eapply nth_error_some_lt; eauto|].
      destruct (LON _ _ _ _ _ Hk Hg Hg' Hb) as (_ & _ & H & _). auto.
    + intros i g g' Hg Hg' N. rewrite <- Isl in N. apply (LOFF _ _ _ Hg Hg' N).
  - intros k i z c Hk Bi Ic. unfold total_at. apply (lsum_report _ _ sg); auto.
    + intros j I. rewrite GLEN. auto.
    + intros j g Hg N. destruct (nth_error_lt (p_gen p) j) as [x Hx]; [rewrite <- GLEN; eapply nth_error_some_lt; eauto|].
      destruct (GOFF _ _ _ Hx Hg N) as (_ & H). rewrite (H c). destruct (in_dec Nat.eq_dec c gz); [|contradiction].
      destruct (_ =? z)%Z; auto.
    + intros m j a b Hm Ha Hb.
      destruct (ca_gen _ _ _ _ _ _ _ _ _ CAR _ _ _ Hm Hb) as (x & y & a' & z' & n & Hx & Hy & Ha' & Hz' & ST & Ny & Ex & _ & _ & EC).
      cbn [with_tables p_gen] in Ha'. assert (a' = a) by congruence. subst a'.
      destruct CG as (_ & HC). destruct (HC _ _ Hy) as (b' & Hb' & _ & Cb). assert (b' = b) by congruence. subst b'.
      rewrite Ex, (cell_ofZ _ _ _ Hz'), (SB _ _ _ _ _ Hk Bi ST), (ofN_no b GEN_BUS n) by (rewrite Cb; auto).
      destruct (n =? k); auto. apply EC. intros ->. contradiction.
  - intros k i z c d Hk Bi Ic Id. unfold drawn. rewrite lsum_add. unfold total_at.
    assert (R2 : forall j, In j sl -> j < length br2) by (intros j I; rewrite LLEN; auto).
    assert (Z0 : forall e, In e lz -> forall j g, nth_error br2 j = Some g -> ~ In j sl -> cell g e = 0%K).
    { intros e Ie j g Hg N. destruct (nth_error_lt (p_branch p) j) as [x Hx]; [rewrite <- LLEN; eapply nth_error_some_lt; eauto|].
      destruct (LOFF _ _ _ Hx Hg N) as (_ & H). rewrite (H e). destruct (in_dec Nat.eq_dec e lz); [auto|contradiction]. }
    destruct Dlz as (D1 & D2).
    assert (ROW : forall m j a b, nth_error sl m = Some j -> nth_error br2 j = Some a ->
         nth_error branch' m = Some b -> exists zf bf zt bt,
           ftrunc (cell a F_BUS) = zf /\ ftrunc (cell a T_BUS) = zt /\ bus_no b F_BUS = bf /\ bus_no b T_BUS = bt /\
           stands_for p sb bf zf /\ stands_for p sb bt zt /\ forall e, In e lz -> cell a e = cell b e).
    { intros m j a b Hm Ha Hb.
      destruct (ca_br _ _ _ _ _ _ _ _ _ CAR _ _ _ Hm Hb) as (x & y & a' & zf & zt & bf & bt & Hx & Hy & Ha' & Hf & Sf & Nf & Ht & Stt & Nt & E1 & E2 & _ & _ & EC).
      cbn [with_tables p_branch] in Ha'. assert (a' = a) by congruence. subst a'.
      destruct CL as (_ & HC). destruct (HC _ _ Hy) as (b' & Hb' & _ & Cb). assert (b' = b) by congruence. subst b'.
      destruct Dl as (Dl1 & Dl2).
      exists zf, bf, zt, bt. rewrite E1, E2, (cell_ofZ _ _ _ Hf), (cell_ofZ _ _ _ Ht).
      rewrite (ofN_no b F_BUS bf), (ofN_no b T_BUS bt) by (rewrite Cb; auto).
      split; auto. split; auto. split; auto. split; auto. split; auto. split; auto.
      intros e Ie. apply EC; intros ->; contradiction. }
    f_equal.
    + apply (lsum_report _ _ sl); auto.
      { intros j g Hg N. rewrite (Z0 c Ic j g Hg N). destruct (_ =? z)%Z; auto. }
      intros m j a b Hm Ha Hb. destruct (ROW _ _ _ _ Hm Ha Hb) as (zf & bf & zt & bt & -> & _ & -> & _ & S1 & _ & Z2).
      rewrite (SB _ _ _ _ _ Hk Bi S1), Z2; auto.
    + apply (lsum_report _ _ sl); auto.
      { intros j g Hg N. rewrite (Z0 d Id j g Hg N). destruct (_ =? z)%Z; auto. }
      intros m j a b Hm Ha Hb. destruct (ROW _ _ _ _ Hm Ha Hb) as (zf & bf & zt & bt & _ & -> & _ & -> & _ & S2 & Z2).
      rewrite (SB _ _ _ _ _ Hk Bi S2), Z2; auto.
Qed.
Theorem through : exists sb sg sl sa,
  let r := with_tables r1 (p_bus r1) gen2 br2 in
  internal_form p q sb sg sl sa /\ reports_in bc gc gz lc lz p r /\
  carried p q bus' gen' branch' r sb sg sl /\
  (forall k i z c, nth_error sb k = Some i -> bus_at p z i -> In c gz ->
     total_at GEN_BUS (fun g => cell g c) gen2 z
     = lsum (fun g => if bus_no g GEN_BUS =? k then cell g c else 0%K) gen') /\
  (forall k i z c d, nth_error sb k = Some i -> bus_at p z i -> In c lz -> In d lz ->
     (total_at F_BUS (fun g => cell g c) br2 z + total_at T_BUS (fun g => cell g d) br2 z)%K
     = drawn (fun g => cell g c) (fun g => cell g d) branch' k).
Proof. destruct through_conv as (sb & sg & sl & sa & _ & H). exists sb, sg, sl, sa. exact H. Qed.
End Through.
