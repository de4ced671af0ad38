(** Multipliers of capability curves added to those of generator limits. *)
From Verif Require Import Lib.ListFacts Model.RunAcOpf Spec.RunAcOpfSpec Proofs.SparseFacts Proofs.FldFacts Proofs.OrdFacts
  Proofs.PipsF   Proofs.NetworkA Proofs.NetworkB Proofs.NetworkC Proofs.NetworkD Proofs.PfsolnA Proofs.TableEdit Proofs.OpfLinA Proofs.OpfLinB Proofs.DcOpfA
  Proofs.DcOpfB Proofs.DcOpfE Proofs.PipsG Proofs.AcCostC Proofs.AcOptA Proofs.AcOptB.
Local Open Scope nat_scope.

Section Edge.
Context {K : Type} {F : Fld K}.
Add Field KF : (@f_ok K F).

Definition share (idx : list nat) (w : nat -> K) (k : nat) : K := match posn k idx with Some p => w p | None => 0%K end.

Lemma share_sum idx w k : NoDup idx -> lsum (fun p => if nth p idx 0 =? k then w p else 0%K) (seq 0 (length idx)) = share idx w k.
Proof.
  intros ND. unfold share. destruct (posn k idx) as [p|] eqn:P.
  - apply posn_some in P. pose proof (nth_error_some_lt _ _ _ P) as L.
    rewrite <- (lsum_seq_single' w (length idx) p L). apply lsum_ext. intros q Hq. apply in_seq in Hq.
    destruct (Nat.eqb_spec (nth q idx 0) k) as [E|N], (Nat.eqb_spec p q) as [E'|N']; auto; exfalso.
    + apply N'. symmetry. destruct (nth_error_lt idx q) as [v Hv]; [lia|]. rewrite (nth_error_nth _ _ _ Hv) in E. subst v.
      eapply (NoDup_nth_error_eq idx); eauto.
    + subst q. apply N. rewrite (nth_error_nth _ _ _ P). auto.
  - apply posn_none in P. apply lsum_zero. intros q Hq. apply in_seq in Hq.
    destruct (Nat.eqb_spec (nth q idx 0) k) as [E|N]; auto. exfalso. apply P. rewrite <- E. apply nth_In. lia.
Qed.

Lemma add_edge_ok B d c mu (v v' : list K) : NoDup (fst d) -> add_edge B d c mu v = Ok v' ->
  fst d <> [] /\ B <> 0%K /\ length mu = length (fst d) /\ length v' = length v /\
  forall k, k < length v -> nth k v' 0%K = (nth k v 0 - share (fst d) (fun p => nth p mu 0 * c (nth p (snd d) (0, 0)) / B) k)%K.
Proof.
  intros ND H. unfold add_edge in H. destruct (fst d) as [|i0 idx0] eqn:EI; [discriminate|].
  assert (NE : fst d <> []) by congruence. rewrite <- EI in *. clear EI.
  destruct (feqb B 0%K) eqn:EB; [discriminate|]. apply feqb_false in EB.
  apply bind_ok in H as (old & Ho & H). apply bind_ok in H as (s & Hs & H). apply bind_ok in H as (new & Hn & H).
  unfold ewise in Hs, Hn. destruct (Nat.eqb_spec (length mu) (length (snd d))) as [L1|]; [|discriminate].
  destruct (Nat.eqb_spec (length old) (length s)) as [L2|]; [|discriminate].
  assert (s = map2 (fun m a => (m * c a / B)%K) mu (snd d)) by congruence.
  assert (new = map2 (fun a b => (a - b)%K) old s) by congruence. clear Hs Hn.
  apply scatter_checked_ok in H as (L3 & R & ->).
  pose proof (gather_length _ _ _ Ho) as L4.
  assert (length s = length mu) as L5 by (subst s; rewrite PipsF.map2_length; lia).
  assert (length mu = length (fst d)) as LM by lia.
  split; auto. split; auto. split; auto. split; [apply scatter_length|].
  intros k Hk. unfold share. destruct (posn k (fst d)) as [p|] eqn:P.
  - apply posn_some in P. pose proof (nth_error_some_lt _ _ _ P) as Lp.
    rewrite <- (nth_error_nth _ _ 0 P) at 1. rewrite nth_scatter_at by (auto; lia).
    subst new. rewrite (nth_map2_d _ old s p 0%K 0%K) by lia. f_equal.
    + pose proof (ListFacts.gather_nth _ _ _ _ _ Ho P) as E. 
      destruct (nth_error_lt v k Hk) as [w Hw]. rewrite Hw in E. rewrite (nth_error_nth _ _ _ E), (nth_error_nth _ _ _ Hw). auto.
    + subst s. exact (nth_map2_d (fun m a => (m * c a / B)%K) mu (snd d) p 0%K (0, 0)%K 0%K ltac:(lia) ltac:(lia)).
  - apply posn_none in P. rewrite nth_scatter_other by auto. ring.
Qed.

Definition pos_part (a : K) : K := if fltb 0%K a then a else 0%K.
Definition neg_part (a : K) : K := if fltb a 0%K then (- a)%K else 0%K.
Lemma parts_net B a d : d = (B * a)%K -> net_price B (pos_part a) (neg_part a) d.
Proof.
  intros ->. unfold net_price, pos_part, neg_part.
  destruct (fltb 0%K a) eqn:P.
  - assert (fltb a 0%K = false) as N by exact (lt_le _ _ P).
    rewrite N. split; [ring|]. split; [apply lt_le; exact P|]. split; [apply le_refl|auto].
  - destruct (fltb a 0%K) eqn:N.
    + split; [ring|]. split; [apply le_refl|]. split; [|auto]. apply lt_le. apply (proj1 (pos_opp a)). exact N.
    + assert (a = 0%K) as -> by (apply le_antisym; assumption). split; [ring|]. split; [apply le_refl|]. split; [apply le_refl|auto].
Qed.

Definition pq_net (B : K) (h l : list nat * list (K * K)) (muh mul : list K) (c : K * K -> K) (v : K) (k : nat) : K :=
  (v - share (fst h) (fun p => nth p muh 0 * c (nth p (snd h) (0, 0)) / B) k
     - share (fst l) (fun p => nth p mul 0 * c (nth p (snd l) (0, 0)) / B) k)%K.

Lemma update_mupq_ok B gen muh mul h l gen' : NoDup (fst h) -> NoDup (fst l) -> update_mupq B gen muh mul h l = Ok gen' ->
  fst h <> [] /\ fst l <> [] /\ length muh = length (fst h) /\ length mul = length (fst l) /\ length gen' = length gen /\
  forall k g, nth_error gen k = Some g -> exists g', nth_error gen' k = Some g' /\
    kept_but [MU_PMIN; MU_PMAX; MU_QMIN; MU_QMAX] g g' /\
    let dP := pq_net B h l muh mul fst (cell g MU_PMAX - cell g MU_PMIN)%K k in
    let dQ := pq_net B h l muh mul snd (cell g MU_QMAX - cell g MU_QMIN)%K k in
    cell g' MU_PMAX = pos_part dP /\ cell g' MU_PMIN = neg_part dP /\
    cell g' MU_QMAX = pos_part dQ /\ cell g' MU_QMIN = neg_part dQ.
Proof.
  intros N1 N2 H. unfold update_mupq in H. cbv zeta in H.
  apply bind_ok in H as (pmax & H1 & H). apply bind_ok in H as (pmin & H2 & H).
  apply bind_ok in H as (qmax & H3 & H). apply bind_ok in H as (qmin & H4 & H).
  apply bind_ok in H as (p1 & P1 & H). apply bind_ok in H as (q1 & Q1 & H).
  apply bind_ok in H as (p2 & P2 & H). apply bind_ok in H as (q2 & Q2 & H).
  apply bind_ok in H as (g1 & G1 & H). apply bind_ok in H as (g2 & G2 & H). apply bind_ok in H as (g3 & G3 & G4).
  apply col_ok in H1 as (_ & ->). apply col_ok in H2 as (_ & ->). apply col_ok in H3 as (_ & ->). apply col_ok in H4 as (_ & ->).
  rewrite NetworkB.map2_map in P1, Q1.
  apply add_edge_ok in P1 as (NH & _ & LH & L1 & E1); auto. apply add_edge_ok in Q1 as (_ & _ & _ & L2 & E2); auto.
  apply add_edge_ok in P2 as (NL & _ & LL & L3 & E3); auto. apply add_edge_ok in Q2 as (_ & _ & _ & L4 & E4); auto.
  rewrite map_length in *.
  apply edit_setcol in G1 as (_ & D1). apply edit_setcol in G2 as (_ & D2).
  apply edit_setcol in G3 as (_ & D3). apply edit_setcol in G4 as (_ & D4).
  pose proof (edit_trans _ _ _ _ _ (edit_trans _ _ _ _ _ (edit_trans _ _ _ _ _ D1 D2) D3) D4) as (LR & ER).
  do 5 (split; [auto|]). intros k g Hg. destruct (ER k g Hg) as (g' & A1 & A2 & A3). exists g'. split; auto.
  pose proof (nth_error_some_lt _ _ _ Hg) as Lk. split.
  - split; auto. intros j Hj. rewrite A3. unfold over. cbn [In] in *.
    repeat (match goal with |- context [j =? ?c] => destruct (Nat.eqb_spec j c); [exfalso; subst; tauto|] end). reflexivity.
  - cbv zeta. rewrite !A3. unfold over. cbn [Nat.eqb MU_PMAX MU_PMIN MU_QMAX MU_QMIN].
    rewrite !(nth_map_lt _ _ _ _ 0%K) by lia. fold (pos_part (nth k p2 0%K)) (pos_part (nth k q2 0%K)) (neg_part (nth k p2 0%K)) (neg_part (nth k q2 0%K)).
    rewrite E3, E4, E1, E2 by lia. rewrite !(nth_map_lt _ _ _ _ []) by lia. rewrite (nth_error_nth _ _ _ Hg).
    unfold pq_net, cell. auto.
Qed.
End Edge.

Section Rows.
Context {K : Type} {F : Fld K}.
Add Field KF2 : (@f_ok K F).
Variables (sin_ cos_ : K -> K) (atan2 norm2 : K -> K -> K).
Variables (ign : bool) (B : K) (bus gen branch gencost : list (list K)) (U : user (K := K)) (o : acom (K := K)).
Variables (ih il ivl iang : list nat).
Notation nb := (length bus).
Notation ng := (length gen).
Notation g_ i := (nth i gen []).
Hypothesis S : ac_spec sin_ cos_ atan2 norm2 ign B bus gen branch gencost U o ih il ivl iang.

Definition up_co (i : nat) : K * K :=
  ((cell (g_ i) QC1MAX - cell (g_ i) QC2MAX) / hn norm2 (g_ i), (cell (g_ i) PC2 - cell (g_ i) PC1) / hn norm2 (g_ i))%K.
Definition lo_co (i : nat) : K * K :=
  ((cell (g_ i) QC2MIN - cell (g_ i) QC1MIN) / ln_ norm2 (g_ i), (cell (g_ i) PC1 - cell (g_ i) PC2) / ln_ norm2 (g_ i))%K.

Lemma edge_data_def idx edge (f : nat -> K * K) (r : smat K * list K) :
  (forall i t, edge (g_ i) = Ok t -> (fst (fst t), snd (fst t)) = f i) ->
  edge_rows B ng gen idx edge = Ok r -> edge_data gen idx edge = Ok (idx, map f idx).
Proof.
  intros HE H. unfold edge_rows in H. cbv zeta in H. apply bind_ok in H as (rows & Hr & H). apply bind_ok in H as (d & Hd & _).
  unfold edge_data. rewrite Hr. cbn [bind]. rewrite Hd. cbn [bind]. f_equal. f_equal.
  rewrite (gather_all _ _ _ [] Hr) in Hd. clear Hr rows r. revert d Hd.
  induction idx as [|i idx IH]; intros d Hd; cbn [map mapM] in Hd.
  - injection Hd as <-. reflexivity.
  - apply bind_ok in Hd as (t & Ht & Hd). apply bind_ok in Hd as (ts & Hts & Hd). injection Hd as <-. cbn [map].
    rewrite (HE _ _ Ht). f_equal. auto.
Qed.

Lemma apq_data_def Ah uh AUl : makeApq norm2 B gen = Ok (Ah, uh, AUl, (ih, il)) ->
  apq_data norm2 gen = Ok ((ih, map up_co ih), (il, map lo_co il)) /\ NoDup ih /\ NoDup il.
Proof.
  intros H. unfold makeApq in H. apply bind_ok in H as (up & Hu & H). apply bind_ok in H as (lo & Hl & H).
  cbv zeta in H. apply bind_ok in H as (r1 & H1 & H). destruct r1 as (Ah', uh'). apply bind_ok in H as (r2 & H2 & H).
  destruct r2 as (Al', ul'). assert (ih = find up /\ il = find lo) as (-> & ->) by (split; congruence). clear H.
  split; [|split; apply find_NoDup]. unfold apq_data. rewrite Hu. cbn [bind]. rewrite Hl. cbn [bind].
  assert (HU : forall i t, upper_edge norm2 (g_ i) = Ok t -> (fst (fst t), snd (fst t)) = up_co i).
  { intros i t Ht. apply upper_val in Ht as (-> & _). reflexivity. }
  assert (HL : forall i t, lower_edge norm2 (g_ i) = Ok t -> (fst (fst t), snd (fst t)) = lo_co i).
  { intros i t Ht. apply lower_val in Ht as (-> & _). reflexivity. }
  rewrite (edge_data_def _ _ _ _ HU H1). cbn [bind].
  rewrite (edge_data_def _ _ _ _ HL H2). reflexivity.
Qed.

(** ** the rows of the edges *)
Lemma row_h p i : nth_error ih p = Some i -> forall x, length x = c_nx o ->
  row_val (c_A o) x p = (fst (up_co i) * ac_output nb x i + snd (up_co i) * ac_output nb x (ng + i))%K.
Proof.
  intros Hp x Lx.
  destruct (desc_nth _ _ _ _ _ p (ENeg, EFin (h_rhs (g_ i) / hn norm2 (g_ i) / B)%K,
     fun x => (fst (up_co i) * ac_output nb x i + snd (up_co i) * ac_output nb x (ng + i))%K)
     (as_desc _ _ _ _ _ _ _ _ _ _ _ _ _ _ _ _ S)) as (_ & _ & _ & H).
  { rewrite nth_error_app1 by (unfold pqh_rows, pq_rows; rewrite map_length; eapply nth_error_some_lt; eauto).
    unfold pqh_rows, pq_rows. rewrite nth_error_map, Hp. reflexivity. }
  apply (H x Lx).
Qed.
Lemma row_l p i : nth_error il p = Some i -> forall x, length x = c_nx o ->
  row_val (c_A o) x (length ih + p) = (fst (lo_co i) * ac_output nb x i + snd (lo_co i) * ac_output nb x (ng + i))%K.
Proof.
  intros Hp x Lx.
  destruct (desc_nth _ _ _ _ _ (length ih + p) (ENeg, EFin (l_rhs (g_ i) / ln_ norm2 (g_ i) / B)%K,
     fun x => (fst (lo_co i) * ac_output nb x i + snd (lo_co i) * ac_output nb x (ng + i))%K)
     (as_desc _ _ _ _ _ _ _ _ _ _ _ _ _ _ _ _ S)) as (_ & _ & _ & H).
  { rewrite nth_error_app2 by (unfold pqh_rows, pq_rows; rewrite map_length; lia).
    unfold pqh_rows, pq_rows at 1. rewrite map_length. replace (length ih + p - length ih) with p by lia.
    rewrite nth_error_app1 by (unfold pql_rows, pq_rows; rewrite map_length; eapply nth_error_some_lt; eauto).
    unfold pql_rows, pq_rows. rewrite nth_error_map, Hp. reflexivity. }
  apply (H x Lx).
Qed.

Lemma says_h p i g : nth_error ih p = Some i -> nth_error gen i = Some g ->
  row_says (c_nx o) (c_A o) (c_l o) (c_u o) p ENeg (EFin 0%K)
    (fun x => over_upper norm2 g (B * ac_output nb x i, B * ac_output nb x (ng + i)) / B)%K.
Proof.
  intros Hp Hg. pose proof (as_B _ _ _ _ _ _ _ _ _ _ _ _ _ _ _ _ S) as NB.
  pose proof (as_hn _ _ _ _ _ _ _ _ _ _ _ _ _ _ _ _ S) as HN. rewrite Forall_forall in HN.
  specialize (HN i (nth_error_In _ _ Hp)). rewrite (nth_error_nth _ _ _ Hg) in HN.
  destruct (desc_nth _ _ _ _ _ p (ENeg, EFin (h_rhs g / hn norm2 g / B)%K,
     fun x => (fst (up_co i) * ac_output nb x i + snd (up_co i) * ac_output nb x (ng + i))%K)
     (as_desc _ _ _ _ _ _ _ _ _ _ _ _ _ _ _ _ S)) as (H1 & H2 & H3 & H4).
  { rewrite nth_error_app1 by (unfold pqh_rows, pq_rows; rewrite map_length; eapply nth_error_some_lt; eauto).
    unfold pqh_rows, pq_rows. rewrite nth_error_map, Hp. cbn [option_map]. rewrite (nth_error_nth _ _ _ Hg). unfold up_co.
    rewrite (nth_error_nth _ _ _ Hg). reflexivity. }
  split; auto. exists (- (h_rhs g / hn norm2 g / B))%K. rewrite H2, H3. unfold rlo, rup. cbn [fst snd].
  split; [reflexivity|]. split; [apply (f_equal EFin); ring|].
  intros x Lx. rewrite H4 by auto. cbn [snd]. unfold up_co. rewrite (nth_error_nth _ _ _ Hg).
  unfold over_upper, left_of, h_rhs. cbn [fst snd]. fold (hn norm2 g). field. auto.
Qed.
Lemma says_l p i g : nth_error il p = Some i -> nth_error gen i = Some g ->
  row_says (c_nx o) (c_A o) (c_l o) (c_u o) (length ih + p) ENeg (EFin 0%K)
    (fun x => under_lower norm2 g (B * ac_output nb x i, B * ac_output nb x (ng + i)) / B)%K.
Proof.
  intros Hp Hg. pose proof (as_B _ _ _ _ _ _ _ _ _ _ _ _ _ _ _ _ S) as NB.
  pose proof (as_ln _ _ _ _ _ _ _ _ _ _ _ _ _ _ _ _ S) as HN. rewrite Forall_forall in HN.
  specialize (HN i (nth_error_In _ _ Hp)). rewrite (nth_error_nth _ _ _ Hg) in HN.
  destruct (desc_nth _ _ _ _ _ (length ih + p) (ENeg, EFin (l_rhs g / ln_ norm2 g / B)%K,
     fun x => (fst (lo_co i) * ac_output nb x i + snd (lo_co i) * ac_output nb x (ng + i))%K)
     (as_desc _ _ _ _ _ _ _ _ _ _ _ _ _ _ _ _ S)) as (H1 & H2 & H3 & H4).
  { rewrite nth_error_app2 by (unfold pqh_rows, pq_rows; rewrite map_length; lia).
    unfold pqh_rows, pq_rows at 1. rewrite map_length. replace (length ih + p - length ih) with p by lia.
    rewrite nth_error_app1 by (unfold pql_rows, pq_rows; rewrite map_length; eapply nth_error_some_lt; eauto).
    unfold pql_rows, pq_rows. rewrite nth_error_map, Hp. cbn [option_map]. rewrite (nth_error_nth _ _ _ Hg). unfold lo_co.
    rewrite (nth_error_nth _ _ _ Hg). reflexivity. }
  split; auto. exists (- (l_rhs g / ln_ norm2 g / B))%K. rewrite H2, H3. unfold rlo, rup. cbn [fst snd].
  split; [reflexivity|]. split; [apply (f_equal EFin); ring|].
  intros x Lx. rewrite H4 by auto. cbn [snd]. unfold lo_co. rewrite (nth_error_nth _ _ _ Hg).
  unfold under_lower, left_of, l_rhs. cbn [fst snd]. fold (ln_ norm2 g). field. auto.
Qed.

Lemma says_ang p l r : nth_error iang p = Some l -> nth_error branch l = Some r ->
  row_says (c_nx o) (c_A o) (c_l o) (c_u o) (c_npqh o + c_npql o + c_nvl o + p) (ang_bound ENeg (cell r ANGMIN))
    (ang_bound EPos (cell r ANGMAX)) (fun x => angle_diff r (angles nb x)).
Proof.
  intros Hp Hl. rewrite (as_npqh _ _ _ _ _ _ _ _ _ _ _ _ _ _ _ _ S), (as_npql _ _ _ _ _ _ _ _ _ _ _ _ _ _ _ _ S),
    (as_nvl _ _ _ _ _ _ _ _ _ _ _ _ _ _ _ _ S).
  destruct (desc_nth _ _ _ _ _ (length ih + length il + length ivl + p)
    (ang_bound ENeg (cell r ANGMIN), ang_bound EPos (cell r ANGMAX), fun x => angle_diff r (angles nb x))
    (as_desc _ _ _ _ _ _ _ _ _ _ _ _ _ _ _ _ S)) as (H1 & H2 & H3 & H4).
  { rewrite nth_error_app2 by (unfold pqh_rows, pq_rows; rewrite map_length; lia).
    unfold pqh_rows, pq_rows at 1. rewrite map_length.
    rewrite nth_error_app2 by (unfold pql_rows, pq_rows; rewrite map_length; lia). unfold pql_rows, pq_rows at 1. rewrite map_length.
    rewrite nth_error_app2 by (unfold vl_rows, pq_rows; rewrite map_length; lia). unfold vl_rows, pq_rows at 1. rewrite map_length.
    match goal with |- nth_error _ ?k = _ => replace k with p by lia end.
    rewrite nth_error_app1 by (unfold ang_rows; rewrite map_length; eapply nth_error_some_lt; eauto).
    unfold ang_rows. rewrite nth_error_map, Hp. cbn [option_map]. rewrite (nth_error_nth _ _ _ Hl). reflexivity. }
  split; auto. exists 0%K. rewrite H2, H3. unfold rlo, rup. cbn [fst snd].
  split; [|split].
  - destruct (ang_bound ENeg _) as [a| |]; auto. apply (f_equal EFin). ring.
  - destruct (ang_bound EPos _) as [a| |]; auto. apply (f_equal EFin). ring.
  - intros x Lx. rewrite H4 by auto. cbn [snd]. ring.
Qed.

Definition unit_ (j : nat) : list K := map (fun i => if i =? j then 1%K else 0%K) (seq 0 (c_nx o)).
Lemma unit_len j : length (unit_ j) = c_nx o.
Proof. unfold unit_. rewrite map_length, seq_length. auto. Qed.
Lemma unit_nth j i : i < c_nx o -> nth i (unit_ j) 0%K = if i =? j then 1%K else 0%K.
Proof.
  intros H. unfold unit_. rewrite (nth_map_lt _ _ _ _ 0) by (rewrite seq_length; auto). rewrite seq_nth by auto. reflexivity.
Qed.
Lemma nx_bound i : i < ng + ng -> nb + nb + i < c_nx o.
Proof. rewrite (ac_nx_eq _ _ _ _ _ _ _ _ _ _ _ o ih il ivl iang S). lia. Qed.

Lemma unit_out k i : k < ng + ng -> i < ng + ng -> ac_output nb (unit_ (nb + nb + k)) i = if i =? k then 1%K else 0%K.
Proof.
  intros Hk Hi. unfold ac_output. rewrite unit_nth by (apply nx_bound; auto).
  destruct (Nat.eqb_spec (nb + nb + i) (nb + nb + k)), (Nat.eqb_spec i k); auto; lia.
Qed.
Lemma ih_lt p i : nth_error ih p = Some i -> i < ng.
Proof.
  intros H. apply nth_error_In in H. apply (as_ih _ _ _ _ _ _ _ _ _ _ _ _ _ _ _ _ S) in H as (g & Hg & _).
  eapply nth_error_some_lt; eauto.
Qed.
Lemma il_lt p i : nth_error il p = Some i -> i < ng.
Proof.
  intros H. apply nth_error_In in H. apply (as_il _ _ _ _ _ _ _ _ _ _ _ _ _ _ _ _ S) in H as (g & Hg & _).
  eapply nth_error_some_lt; eauto.
Qed.

Definition pickc (q : bool) (c : K * K) : K := if q then snd c else fst c.
Definition var_of (q : bool) (k : nat) : nat := nb + nb + (if q then ng + k else k).
Lemma coef_h q p i k : nth_error ih p = Some i -> k < ng ->
  coef (c_nx o) (c_A o) p (var_of q k) = if i =? k then pickc q (up_co i) else 0%K.
Proof.
  intros Hp Hk. pose proof (ih_lt _ _ Hp) as Hi. unfold coef. fold (unit_ (var_of q k)).
  rewrite (row_h _ _ Hp) by apply unit_len. unfold var_of, pickc. destruct q; rewrite !unit_out by lia;
    repeat match goal with |- context [?a =? ?b] => destruct (Nat.eqb_spec a b); try lia end; try ring.
Qed.
Lemma coef_l q p i k : nth_error il p = Some i -> k < ng ->
  coef (c_nx o) (c_A o) (length ih + p) (var_of q k) = if i =? k then pickc q (lo_co i) else 0%K.
Proof.
  intros Hp Hk. pose proof (il_lt _ _ Hp) as Hi. unfold coef. fold (unit_ (var_of q k)).
  rewrite (row_l _ _ Hp) by apply unit_len. unfold var_of, pickc. destruct q; rewrite !unit_out by lia;
    repeat match goal with |- context [?a =? ?b] => destruct (Nat.eqb_spec a b); try lia end; try ring.
Qed.

Lemma lsum_shift (f : nat -> K) a n : lsum f (seq a n) = lsum (fun p => f (a + p)) (seq 0 n).
Proof.
  revert f a. induction n as [|n IH]; intros f a; cbn [seq lsum]; auto. rewrite Nat.add_0_r. f_equal.
  rewrite IH, (IH _ 1). apply lsum_ext. intros p _. f_equal. lia.
Qed.

Variables (ml mu : list K).
Notation net := (map2 (fun a b => a - b)%K ml mu).
Lemma share_rows q k : NoDup ih -> NoDup il -> k < ng ->
  length ih + length il <= length ml -> length ih + length il <= length mu -> B <> 0%K ->
  (B * (share ih (fun p => nth p (slice 0 (length ih) net) 0 * pickc q (nth p (map up_co ih) (0, 0)) / B) k
      + share il (fun p => nth p (slice (length ih) (length ih + length il) net) 0 * pickc q (nth p (map lo_co il) (0, 0)) / B) k))%K
  = (- row_prices (c_nx o) (c_A o) (length ih + length il) ml mu (var_of q k))%K.
Proof.
  intros N1 N2 Hk L1 L2 NB. rewrite <- !share_sum by auto. unfold row_prices. rewrite seq_app, lsum_app, (lsum_shift _ (0 + length ih)).
  cbn [Nat.add].
  assert (X1 : (B * lsum (fun p => if (nth p ih 0 =? k)%nat then (nth p (slice 0 (length ih) net) 0 * pickc q (nth p (map up_co ih) (0, 0)) / B)%K else 0%K) (seq 0 (length ih)))%K
    = (- lsum (fun n => (nth n mu 0 - nth n ml 0) * coef (c_nx o) (c_A o) n (var_of q k))%K (seq 0 (length ih)))%K).
  { assert (LN : length net = Nat.min (length ml) (length mu)) by apply PipsF.map2_length.
    rewrite <- lsum_scal, <- lsum_opp. apply lsum_ext. intros p Hp. apply in_seq in Hp.
    destruct (nth_error_lt ih p) as [i Hi]; [lia|]. rewrite (coef_h q _ _ _ Hi Hk), (nth_error_nth _ _ _ Hi).
    rewrite nth_slice_d by lia. cbn [Nat.add]. rewrite (nth_map2_d (fun a b => (a - b)%K) ml mu p 0%K 0%K 0%K) by lia.
    rewrite (nth_map_lt _ _ _ _ 0) by lia. rewrite (nth_error_nth _ _ _ Hi). destruct (i =? k); field; auto. }
  assert (X2 : (B * lsum (fun p => if (nth p il 0 =? k)%nat then (nth p (slice (length ih) (length ih + length il) net) 0 * pickc q (nth p (map lo_co il) (0, 0)) / B)%K else 0%K) (seq 0 (length il)))%K
    = (- lsum (fun p => (nth (length ih + p) mu 0 - nth (length ih + p) ml 0) * coef (c_nx o) (c_A o) (length ih + p) (var_of q k))%K (seq 0 (length il)))%K).
  { assert (LN : length net = Nat.min (length ml) (length mu)) by apply PipsF.map2_length.
    rewrite <- lsum_scal, <- lsum_opp. apply lsum_ext. intros p Hp. apply in_seq in Hp.
    destruct (nth_error_lt il p) as [i Hi]; [lia|]. rewrite (coef_l q _ _ _ Hi Hk), (nth_error_nth _ _ _ Hi).
    rewrite nth_slice_d by lia. rewrite (nth_map2_d (fun a b => (a - b)%K) ml mu (length ih + p) 0%K 0%K 0%K) by lia.
    rewrite (nth_map_lt _ _ _ _ 0) by lia. rewrite (nth_error_nth _ _ _ Hi). destruct (i =? k); field; auto. }
  match goal with |- (B * (?a + ?b))%K = _ => transitivity (B * a + B * b)%K; [ring|] end. rewrite X1, X2. ring.
Qed.

Lemma edge_mults_ok bus' gen0 gen' : NoDup ih -> NoDup il -> length gen0 = ng ->
  edge_mults B (length ih) (length il) ml mu (Ok ((ih, map up_co ih), (il, map lo_co il))) bus' gen0 = Ok gen' ->
  length gen' = length gen0 /\ (ih = [] <-> il = []) /\
  forall k g, nth_error gen0 k = Some g -> exists g', nth_error gen' k = Some g' /\
    kept_but [VG; MU_PMIN; MU_PMAX; MU_QMIN; MU_QMAX] g g' /\
    (exists b, nth_error bus' (bus_no g GEN_BUS) = Some b /\ cell g' VG = cell b VM) /\
    (ih = [] -> il = [] -> forall c, In c [MU_PMIN; MU_PMAX; MU_QMIN; MU_QMAX] -> cell g' c = cell g c) /\
    (ih <> [] \/ il <> [] ->
       net_price B (cell g' MU_PMAX) (cell g' MU_PMIN)
         (B * (cell g MU_PMAX - cell g MU_PMIN) + row_prices (c_nx o) (c_A o) (length ih + length il) ml mu (nb + nb + k))%K /\
       net_price B (cell g' MU_QMAX) (cell g' MU_QMIN)
         (B * (cell g MU_QMAX - cell g MU_QMIN) + row_prices (c_nx o) (c_A o) (length ih + length il) ml mu (nb + nb + (ng + k)))%K).
Proof.
  intros N1 N2 LG H. pose proof (as_B _ _ _ _ _ _ _ _ _ _ _ _ _ _ _ _ S) as NB. unfold edge_mults in H.
  apply bind_ok in H as (gb & Hgb & H). apply bind_ok in H as (vm & Hvm & H). apply bind_ok in H as (vg & Hvg & H).
  apply bind_ok in H as (gen1 & H1 & H).
  apply idxcol_ok in Hgb as (_ & _ & ->). apply col_ok in Hvm as (_ & ->).
  apply edit_setcol in H1 as (LV & L1 & E1).
  assert (R1 : forall k g, nth_error gen0 k = Some g -> exists g1, nth_error gen1 k = Some g1 /\
    kept_but [VG] g g1 /\ exists b, nth_error bus' (bus_no g GEN_BUS) = Some b /\ cell g1 VG = cell b VM).
  { intros k g Hg. destruct (E1 k g Hg) as (g1 & A1 & A2 & A3). exists g1. split; auto. split.
    - split; auto. intros j Hj. rewrite A3. destruct (Nat.eqb_spec j VG); [exfalso; apply Hj; left; auto|auto].
    - assert (nth_error (map (fun r => bus_no r GEN_BUS) gen0) k = Some (bus_no g GEN_BUS)) as Hb by (rewrite nth_error_map, Hg; auto).
      pose proof (ListFacts.gather_nth _ _ _ _ _ Hvg Hb) as E. rewrite A3. cbn [Nat.eqb VG].
      destruct (nth_error_lt vg k) as [v Hv]; [rewrite LV; eapply nth_error_some_lt; eauto|]. rewrite Hv in E.
      rewrite (nth_error_nth _ _ _ Hv). symmetry in E. rewrite nth_error_map in E.
      destruct (nth_error bus' (bus_no g GEN_BUS)) as [b|] eqn:Eb; [|discriminate]. exists b. split; auto.
      cbn [option_map] in E. unfold cell. congruence. }
  destruct (_ || _) eqn:NE.
  - cbv zeta in H. cbn [bind] in H.
    apply update_mupq_ok in H as (Z1 & Z2 & M1 & M2 & L2 & R2); auto. cbn [fst snd] in *.
    assert (length ih + length il <= length net) as LN.
    { unfold slice in M2. rewrite firstn_length, skipn_length in M2. assert (length il <> 0) by (destruct il; [congruence|discriminate]). lia. }
    rewrite PipsF.map2_length in LN. split; [congruence|]. split; [tauto|].
    intros k g Hg. destruct (R1 k g Hg) as (g1 & Hg1 & (KL1 & KC1) & VB). destruct (R2 k g1 Hg1) as (g2 & Hg2 & (KL2 & KC2) & Q1 & Q2 & Q3 & Q4).
    exists g2. split; auto. split; [|split; [|split]].
    + split; [congruence|]. intros j Hj. cbn [In] in *. rewrite KC2, KC1 by (cbn [In]; tauto). auto.
    + destruct VB as (b & Hb & E). exists b. split; auto. rewrite KC2 by (cbn; intuition discriminate). auto.
    + intros C. contradiction.
    + intros _. assert (k < ng) as Hk by (rewrite <- LG; eapply nth_error_some_lt; eauto).
      rewrite Q1, Q2, Q3, Q4.
      assert (cell g1 MU_PMAX = cell g MU_PMAX) as -> by (apply KC1; cbn; intuition discriminate).
      assert (cell g1 MU_PMIN = cell g MU_PMIN) as -> by (apply KC1; cbn; intuition discriminate).
      assert (cell g1 MU_QMAX = cell g MU_QMAX) as -> by (apply KC1; cbn; intuition discriminate).
      assert (cell g1 MU_QMIN = cell g MU_QMIN) as -> by (apply KC1; cbn; intuition discriminate).
      pose proof (share_rows false k N1 N2 Hk ltac:(lia) ltac:(lia) NB) as SP.
      pose proof (share_rows true k N1 N2 Hk ltac:(lia) ltac:(lia) NB) as SQ.
      unfold var_of, pickc in SP, SQ. cbv beta iota in SP, SQ.
      split; apply parts_net; unfold pq_net; cbn [fst snd];
        match goal with |- (_ + ?r)%K = _ => assert ((r = - - r)%K) as -> by ring end; [rewrite <- SP|rewrite <- SQ]; ring.
  - assert (gen' = gen1) by congruence. subst gen'. apply orb_false_iff in NE as (Z1 & Z2).
    apply Nat.ltb_ge in Z1, Z2.
    assert (ih = []) as Eh by (destruct ih; [auto|cbn in Z1; lia]). assert (il = []) as El by (destruct il; [auto|cbn in Z2; lia]).
    split; auto. split; [tauto|].
    intros k g Hg. destruct (R1 k g Hg) as (g1 & Hg1 & (KL1 & KC1) & VB). exists g1. split; auto. split; [|split; [auto|split]].
    + split; auto. intros j Hj. apply KC1. intros [<-|[]]. apply Hj. left; auto.
    + intros _ _ c Hc. apply KC1. cbn [In] in *. intros [<-|[]]. unfold VG, MU_PMIN, MU_PMAX, MU_QMIN, MU_QMAX in Hc. intuition discriminate.
    + tauto.
Qed.
End Rows.
