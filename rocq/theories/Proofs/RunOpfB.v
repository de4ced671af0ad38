(** A whole DC optimal power flow run, in terms of the external tables. *)
From Coq Require Import Permutation.
From Verif Require Import Lib.ListFacts Model.RunOpf Spec.RunOpfSpec Spec.PipsRun Proofs.SparseFacts Proofs.FldFacts
  Proofs.OrdFacts Proofs.PfsolnA Proofs.TableEdit Proofs.Ext2intB Proofs.RunPfA Proofs.RunPfB Proofs.RunOpfA Proofs.OpfLinA
  Proofs.OpfLinB Proofs.DcOpfA Proofs.DcOpfC Proofs.DcOpfE Proofs.PipsB.
Local Open Scope nat_scope.

Section Widen.
Context {K : Type} {F : Fld K}.

(** ** columns added for results *)
Definition wide (w : nat) (r : list K) : list K := if length r <? w then r ++ repeat 0%K (w - length r) else r.

Lemma wide_nth w r c v : nth_error r c = Some v -> nth_error (wide w r) c = Some v.
Proof.
  intros H. unfold wide. destruct (_ <? _); auto. rewrite nth_error_app1; auto. eapply nth_error_some_lt; eauto.
Qed.
Lemma wide_nth_lt w r c : c < length r -> nth_error (wide w r) c = nth_error r c.
Proof. intros H. destruct (nth_error_lt r c H) as [v Hv]. rewrite Hv. apply wide_nth; auto. Qed.
Lemma wide_cell w r c : cell (wide w r) c = cell r c.
Proof.
  unfold wide, cell. destruct (_ <? _); auto. destruct (Nat.lt_ge_cases c (length r)).
  - rewrite app_nth1; auto.
  - rewrite app_nth2 by auto. rewrite (nth_overflow r) by auto. apply nth_repeat.
Qed.
Lemma wide_length w r : length r <= length (wide w r).
Proof. unfold wide. destruct (_ <? _); auto. rewrite app_length. lia. Qed.
Lemma wide_len w r : length (wide w r) = Nat.max w (length r).
Proof. unfold wide. destruct (Nat.ltb_spec (length r) w); [rewrite app_length, repeat_length|]; lia. Qed.
Lemma widen_nth_error w t i : nth_error (widen_to w t) i = option_map (wide w) (nth_error t i).
Proof. unfold widen_to. apply nth_error_map. Qed.
Lemma widen_some w t i r : nth_error t i = Some r -> nth_error (widen_to w t) i = Some (wide w r).
Proof. intros H. rewrite widen_nth_error, H. reflexivity. Qed.
Lemma widen_inv w t i r : nth_error (widen_to w t) i = Some r -> exists r0, nth_error t i = Some r0 /\ r = wide w r0.
Proof.
  rewrite widen_nth_error. destruct (nth_error t i) as [r0|]; [|discriminate]. cbn. intros H. exists r0. split; congruence.
Qed.
Lemma widen_in w t r : In r (widen_to w t) -> exists r0, In r0 t /\ r = wide w r0.
Proof. intros H. apply in_map_iff in H as (r0 & <- & I). exists r0. auto. Qed.
Lemma widen_len w t : length (widen_to w t) = length t.
Proof. apply map_length. Qed.
Lemma widen_only w cols t : only_changes cols t (widen_to w t).
Proof.
  split; [apply widen_len|]. intros i r Hr. exists (wide w r). split; [apply widen_some; auto|].
  split; [apply wide_length|]. intros j _. apply wide_cell.
Qed.
Lemma wide_rect k w t : rect k t -> rect k (widen_to w t).
Proof.
  intros (n & L & Fn). exists (Nat.max w n). split; [lia|]. apply Forall_forall. intros r I.
  apply widen_in in I as (r0 & I & ->). rewrite Forall_forall in Fn. rewrite wide_len, (Fn _ I). reflexivity.
Qed.

Lemma bus_at_wide p z i : wf_case p -> bus_at (opf_columns p) z i <-> bus_at p z i.
Proof.
  intros W. destruct (wf_bus_rect _ W) as (w & Lw & Fw). rewrite Forall_forall in Fw. split.
  - intros (r & Hr & Hz). apply widen_inv in Hr as (r0 & Hr & ->). exists r0. split; auto.
    rewrite wide_nth_lt in Hz; auto. rewrite (Fw _ (nth_error_In _ _ Hr)). unfold BUS_I. lia.
  - intros (r & Hr & Hz). exists (wide (MU_VMIN + 1) r). split; [apply (widen_some (MU_VMIN + 1)); auto|]. apply wide_nth; auto.
Qed.
Lemma bus_service_wide p i : wf_case p -> bus_in_service (opf_columns p) i <-> bus_in_service p i.
Proof.
  intros W. destruct (wf_bus_rect _ W) as (w & Lw & Fw). rewrite Forall_forall in Fw. split.
  - intros (r & Hr & Hz). apply widen_inv in Hr as (r0 & Hr & ->). exists r0. split; auto.
    rewrite wide_nth_lt in Hz; auto. rewrite (Fw _ (nth_error_In _ _ Hr)). unfold BUS_TYPE. lia.
  - intros (r & Hr & Hz). exists (wide (MU_VMIN + 1) r). split; [apply (widen_some (MU_VMIN + 1)); auto|].
    rewrite wide_nth_lt; auto. rewrite (Fw _ (nth_error_In _ _ Hr)). unfold BUS_TYPE. lia.
Qed.
Lemma connected_wide p c w r : wf_case p -> c < length r ->
  connected (opf_columns p) c (wide w r) <-> connected p c r.
Proof.
  intros W L. unfold connected. rewrite wide_nth_lt by auto.
  split; intros (z & i & H1 & H2 & H3); exists z, i; (split; [auto|]).
  - rewrite <- bus_at_wide, <- bus_service_wide; auto.
  - rewrite bus_at_wide, bus_service_wide; auto.
Qed.
Lemma gen_service_wide p i : wf_case p -> gen_in_service (opf_columns p) i <-> gen_in_service p i.
Proof.
  intros W. destruct (wf_gen_rect _ W) as (w & Lw & Fw). rewrite Forall_forall in Fw. split.
  - intros (r & s & Hr & Hs & G & Cn). apply widen_inv in Hr as (r0 & Hr & ->).
    pose proof (Fw _ (nth_error_In _ _ Hr)) as L. rewrite connected_wide in Cn by (auto; unfold GEN_BUS; lia).
    rewrite wide_nth_lt in Hs by (unfold GEN_STATUS; lia). exists r0, s. auto.
  - intros (r & s & Hr & Hs & G & Cn). pose proof (Fw _ (nth_error_In _ _ Hr)) as L.
    exists (wide (MU_QMIN + 1) r), s. split; [apply (widen_some (MU_QMIN + 1)); auto|]. split; [apply wide_nth; auto|].
    split; auto. rewrite connected_wide by (auto; unfold GEN_BUS; lia). auto.
Qed.
Lemma br_service_wide p i : wf_case p -> branch_in_service (opf_columns p) i <-> branch_in_service p i.
Proof.
  intros W. destruct (wf_br_rect _ W) as (w & Lw & Fw). rewrite Forall_forall in Fw. split.
  - intros (r & Hr & Hs & C1 & C2). apply widen_inv in Hr as (r0 & Hr & ->).
    pose proof (Fw _ (nth_error_In _ _ Hr)) as L.
    rewrite connected_wide in C1 by (auto; unfold F_BUS; lia). rewrite connected_wide in C2 by (auto; unfold T_BUS; lia).
    rewrite wide_nth_lt in Hs by (unfold BR_STATUS; lia). exists r0. auto.
  - intros (r & Hr & Hs & C1 & C2). pose proof (Fw _ (nth_error_In _ _ Hr)) as L.
    exists (wide (MU_ANGMAX + 1) r). split; [apply (widen_some (MU_ANGMAX + 1)); auto|]. split; [apply wide_nth; auto|].
    rewrite !connected_wide by (auto; unfold F_BUS, T_BUS; lia). auto.
Qed.

Lemma names_wide p w c r z : wf_case p -> names_bus p c r z -> names_bus (opf_columns p) c (wide w r) z.
Proof.
  intros W (H & i & B). split; [apply wide_nth; auto|]. exists i. apply bus_at_wide; auto.
Qed.

Lemma wf_wide p : wf_case p -> wf_case (opf_columns p).
Proof.
  intros W. pose proof W as [H1 H2 H3 H4 H5 H6 H7 H8 H9 H10 H11 H12 H13 H14 H15].
  constructor; cbn [opf_columns with_tables p_bus p_gen p_branch p_gencost p_areas p_A p_N]; auto using wide_rect.
  - intros i r Hr. apply widen_inv in Hr as (r0 & Hr & ->). destruct (H5 _ _ Hr) as (z & Z0 & Hz). exists z. auto using wide_nth.
  - intros z i j. rewrite !bus_at_wide by auto. apply H6.
  - intros i r Hr. apply widen_inv in Hr as (r0 & Hr & ->). destruct (H7 _ _ Hr) as (z & Z0 & Hz). exists z. auto using wide_nth.
  - assert (exists i, bus_in_service p i) as (i & Hi). { destruct H8 as (i & r & A & B). exists i, r. auto. }
    apply bus_service_wide in Hi; auto. destruct Hi as (r & A & B). exists i, r. auto.
  - intros r I. apply widen_in in I as (r0 & I & ->). destruct (H9 _ I) as (z & Hz). exists z. apply names_wide; auto.
  - intros r I. apply widen_in in I as (r0 & I & ->). destruct (H10 _ I) as ((z & Hz) & (z' & Hz')).
    split; [exists z|exists z']; apply names_wide; auto.
  - intros r I. apply widen_in in I as (r0 & I & ->). destruct (H11 _ I); [left|right]; apply wide_nth; auto.
  - intros a r Ha I. destruct (H12 _ _ Ha I) as (z & Hz & i & B). exists z. split; auto. exists i. apply bus_at_wide; auto.
  - intros g Hg. rewrite widen_len. auto.
  - intros m Hm. rewrite !widen_len. auto.
  - intros m Hm. rewrite !widen_len. auto.
Qed.

Lemma reports_wide bc gc gz lc lz p r : wf_case p -> reports_in bc gc gz lc lz (opf_columns p) r -> reports_in bc gc gz lc lz p r.
Proof.
  intros W [A1 A2 A3 A4 A5 A6 A7 A8 A9 A10 A11 A12].
  cbn [opf_columns with_tables p_bus p_gen p_branch p_gencost p_areas p_A p_N] in *.
  constructor; auto.
  - eapply only_changes_trans; [apply widen_only|exact A1].
  - intros i b b' Hb Hb' N c. rewrite (A2 i _ _ (widen_some _ _ _ _ Hb) Hb'), wide_cell; auto. rewrite bus_service_wide; auto.
  - eapply only_changes_trans; [apply widen_only|exact A3].
  - intros i b b' Hb Hb' N c I. rewrite (A4 i _ _ (widen_some _ _ _ _ Hb) Hb'), wide_cell; auto. rewrite gen_service_wide; auto.
  - intros i b b' Hb Hb' N c. rewrite (A5 i _ _ (widen_some _ _ _ _ Hb) Hb'), wide_cell; auto. rewrite gen_service_wide; auto.
  - eapply only_changes_trans; [apply widen_only|exact A6].
  - intros i b b' Hb Hb' N c I. rewrite (A7 i _ _ (widen_some _ _ _ _ Hb) Hb'), wide_cell; auto. rewrite br_service_wide; auto.
  - intros i b b' Hb Hb' N c. rewrite (A8 i _ _ (widen_some _ _ _ _ Hb) Hb'), wide_cell; auto. rewrite br_service_wide; auto.
Qed.
End Widen.

Section Small.
Context {K : Type} {F : Fld K}.
Add Field KF : (@f_ok K F).

(** every vector has a largest absolute value *)
Lemma norm_exists (v : list K) : exists n, is_norm v n.
Proof.
  induction v as [|a v (n & H)]; [exists 0%K; left; auto|].
  destruct H as [(-> & ->)|((b & Ib & ->) & H)].
  - exists (fabs a). right. split; [exists a; split; [left|]; auto|]. intros c [<-|[]]. apply le_refl.
  - destruct (lt_le_dec (fabs a) (fabs b)) as [L|L].
    + exists (fabs b). right. split; [exists b; split; [right|]; auto|]. intros c [<-|I]; auto. apply lt_le. auto.
    + exists (fabs a). right. split; [exists a; split; [left|]; auto|]. intros c [<-|I]; [apply le_refl|].
      exact (le_trans _ _ _ (H c I) L).
Qed.

Lemma lt_mul_l (a b c : K) : lt 0%K c -> lt a b -> lt (c * a)%K (c * b)%K.
Proof.
  intros Hc H. apply lt_sub. apply lt_sub in H. assert ((c * b - c * a = c * (b - a))%K) as -> by ring. apply mul_pos; auto.
Qed.
Lemma excess_scale (t B d d' : K) : lt 0%K B -> excess_to t d -> d' = (B * d)%K -> excess_to (B * t)%K d'.
Proof. intros HB H ->. unfold excess_to in *. apply lt_mul_l; auto. Qed.
Lemma equal_scale (t B d d' : K) : lt 0%K B -> equal_to t d -> (d' = - (B * d))%K -> equal_to (B * t)%K d'.
Proof.
  intros HB H ->. unfold equal_to in *. change (lt (fabs d) t) with (fltb (fabs d) t = true) in H.
  apply fabs_lt in H as (H1 & H2).
  change (fltb (fabs (- (B * d))%K) (B * t)%K = true). apply fabs_lt.
  pose proof (lt_mul_l _ _ _ HB H1) as G1. pose proof (lt_mul_l _ _ _ HB H2) as G2.
  split.
  - change (lt (- (B * t))%K (- (B * d))%K). apply (proj1 (opp_lt (B * d)%K (B * t)%K)). exact G2.
  - change (lt (- (B * d))%K (B * t)%K). apply opp_lt in G1.
    assert ((- (B * - t) = B * t)%K) as E by ring. rewrite E in G1. exact G1.
Qed.

Lemma lsum_pair {X Y} (f : X -> K) (g : Y -> K) l l' : length l = length l' ->
  (forall k a b, nth_error l k = Some a -> nth_error l' k = Some b -> f a = g b) -> lsum f l = lsum g l'.
Proof.
  revert l'. induction l as [|a l IH]; intros [|b l'] L H; try discriminate; [reflexivity|].
  simpl. rewrite (H 0 a b eq_refl eq_refl). f_equal. apply IH; [injection L; auto|].
  intros k x y Hx Hy. apply (H (S k)); auto.
Qed.
Lemma combine_seq {X} (l : list X) s k p : nth_error (combine (seq s (length l)) l) k = Some p ->
  nth_error l k = Some (snd p) /\ fst p = s + k.
Proof.
  revert s k. induction l as [|a l IH]; intros s [|k] H; try discriminate; simpl in *.
  - injection H as <-. cbn. split; auto. 
  - destruct (IH _ _ H) as (A & B). split; auto. lia.
Qed.

Lemma iang_nodup ign B bus gen branch gencost U (o : dcom (K := K)) :
  dc_setup ign B bus gen branch gencost U = Ok o -> NoDup (d_iang o).
Proof.
  unfold dc_setup. intros H. cbv zeta in H.
  apply bind_ok in H as (gc0 & H0 & H). apply bind_ok in H as (gc & Hgc & H).
  apply bind_ok in H as (ty & Hty & H). apply bind_ok in H as (gbus & Hgb & H). apply bind_ok in H as (_u1 & Hgg & H).
  apply bind_ok in H as (va & Hva & H). destruct (feqb B 0%K) eqn:EB; [discriminate|].
  apply bind_ok in H as (pmin & Hpmin & H). apply bind_ok in H as (pmax & Hpmax & H).
  apply bind_ok in H as ((((Bb & Bf) & Pbi) & Pfi) & HBdc & H).
  apply bind_ok in H as (negCg & HC & H). apply bind_ok in H as (Amis & HA & H).
  apply bind_ok in H as (pd & Hpd & H). apply bind_ok in H as (gs & Hgs & H).
  apply bind_ok in H as (rate & Hrate & H). apply bind_ok in H as (ra & Hra & H). apply bind_ok in H as (pfi & Hpfi & H).
  apply bind_ok in H as ((((Aang & lang) & uang) & iang) & Hang & H).
  apply bind_ok in H as (m & Hm & H).
  apply bind_ok in H as ((Ay & by_) & Hy & H). apply bind_ok in H as (Afl & Hfl & H).
  apply bind_ok in H as (_u2 & G1 & H). apply bind_ok in H as (_u3 & G2 & H).
  apply bind_ok in H as (A1 & HA1 & H). apply bind_ok in H as (A2 & HA2 & H). apply bind_ok in H as (A3 & HA3 & H).
  apply bind_ok in H as (A4 & HA4 & H). apply bind_ok in H as (A5 & HA5 & H). injection H as <-. cbn [d_iang].
  apply (makeAang_rows _ _ _ _ _ _ _ Hang).
Qed.
End Small.

(** ** multipliers of angle limits *)
Section AngMults.
Context {K : Type} {F : Fld K}.
Lemma ang_mults_gen (iang : list nat) (i1 : nat) (ND : NoDup iang) ok ml mu br br' :
  ang_mults ok iang i1 ml mu br = Ok br' ->
  length br' = length br /\
  forall l r, nth_error br l = Some r -> exists r', nth_error br' l = Some r' /\
    kept_but [MU_ANGMIN; MU_ANGMAX] r r' /\
    (ok = false \/ ~ In l iang -> cell r' MU_ANGMIN = cell r MU_ANGMIN /\ cell r' MU_ANGMAX = cell r MU_ANGMAX) /\
    (ok = true -> forall p, nth_error iang p = Some l ->
       cell r' MU_ANGMIN = degrees (nth (i1 + p) ml 0%K) /\
       cell r' MU_ANGMAX = degrees (nth (i1 + p) mu 0%K)).
Proof.
  unfold ang_mults. destruct (ok && _) eqn:E.
  - intros H. cbv zeta in H. apply bind_ok in H as (b1 & H1 & H2). apply andb_true_iff in E as (-> & _).
    apply edit_set_rows in H1 as (L1 & E1); [|auto]. apply edit_set_rows in H2 as (L2 & E2); [|auto].
    pose proof (edit_trans _ _ _ _ _ E1 E2) as (LR & ER). split; auto. rewrite !map_length in *.
    intros l r Hr. destruct (ER l r Hr) as (r' & A1 & A2 & A3). exists r'. split; auto. split; [|split].
    + split; auto. intros j Hj. rewrite A3. unfold over. cbn [In] in *.
      repeat (match goal with |- context [j =? ?c] => destruct (Nat.eqb_spec j c); [exfalso; subst; tauto|] end). reflexivity.
    + intros [C|C]; [discriminate|]. rewrite !A3. unfold over. cbn [Nat.eqb MU_ANGMIN MU_ANGMAX].
      destruct (posn l iang) as [p|] eqn:P; [|split; reflexivity]. exfalso. apply posn_some in P. apply C. eapply nth_error_In; eauto.
    + intros _ p Hp. pose proof (nth_error_some_lt _ _ _ Hp). rewrite !A3. unfold over. cbn [Nat.eqb MU_ANGMIN MU_ANGMAX].
      rewrite (posn_nth _ _ _ ND Hp). cbn [option_map]. rewrite !(nth_map_lt _ _ _ _ 0%K) by lia. rewrite !nth_slice by lia. split; reflexivity.
  - intros H. assert (br' = br) by congruence. subst br'. split; auto. intros l r Hr. exists r. split; auto.
    split; [split; auto|]. split; [auto|]. intros -> p Hp. exfalso. pose proof (nth_error_some_lt _ _ _ Hp).
    cbn [andb] in E. apply Nat.ltb_ge in E. lia.
Qed.
End AngMults.

(** ** the tables after the solver *)
Section Internal.
Context {K : Type} {F : Fld K}.
Add Field KF2 : (@f_ok K F).
Variables (ign : bool) (B : K) (bus gen branch gencost : list (list K)) (U : user (K := K)).
Notation nb := (length bus).
Notation ng := (length gen).
Variables (o : dcom (K := K)) (Bb : smat K) (Pbi : list K).
Hypothesis S : setup_spec ign B bus gen branch gencost U o Bb Pbi.
Hypothesis ND : NoDup (d_iang o).

Lemma ang_row p l r : nth_error (d_iang o) p = Some l -> nth_error branch l = Some r ->
  row_says (d_nx o) (d_A o) (d_l o) (d_u o) (nb + d_nl2 o + d_nl2 o + p) (ang_bound ENeg (cell r ANGMIN))
    (ang_bound EPos (cell r ANGMAX)) (fun x => angle_diff r (angles nb x)).
Proof.
  intros Hp Hl. rewrite (ss_nl2 _ _ _ _ _ _ _ _ _ _ S).
  destruct (desc_nth _ _ _ _ _ (nb + length (d_il o) + length (d_il o) + p)
    (ang_bound ENeg (cell r ANGMIN), ang_bound EPos (cell r ANGMAX), fun x => angle_diff r (angles nb x))
    (ss_desc _ _ _ _ _ _ _ _ _ _ S)) as (H1 & H2 & H3 & H4).
  { rewrite nth_error_app2 by (unfold mis_rows; rewrite map_length, seq_length; lia).
    unfold mis_rows at 1. rewrite map_length, seq_length.
    rewrite nth_error_app2 by (unfold pf_rows; rewrite map_length; lia). unfold pf_rows at 1. rewrite map_length.
    rewrite nth_error_app2 by (unfold pt_rows; rewrite map_length; lia). unfold pt_rows at 1. rewrite map_length.
    match goal with |- nth_error _ ?k = _ => replace k with p by lia end.
    rewrite nth_error_app1 by (unfold ang_rows; rewrite map_length; eapply nth_error_some_lt; eauto).
    unfold ang_rows. rewrite nth_error_map, Hp. cbn [option_map]. rewrite (nth_error_nth _ _ _ Hl). reflexivity. }
  split; auto. exists 0%K. rewrite H2, H3. unfold rlo, rup. cbn [fst snd].
  split; [|split].
  - destruct (ang_bound ENeg _) as [a| |]; auto. apply (f_equal EFin). ring.
  - destruct (ang_bound EPos _) as [a| |]; auto. apply (f_equal EFin). ring.
  - intros x Lx. rewrite H4 by auto. cbn [snd]. ring.
Qed.

Lemma ang_mults_ok ok ml mu br br' :
  ang_mults ok (d_iang o) (nb + d_nl2 o + d_nl2 o) ml mu br = Ok br' ->
  length br' = length br /\
  forall l r, nth_error br l = Some r -> exists r', nth_error br' l = Some r' /\
    kept_but [MU_ANGMIN; MU_ANGMAX] r r' /\
    (ok = false \/ ~ In l (d_iang o) -> cell r' MU_ANGMIN = cell r MU_ANGMIN /\ cell r' MU_ANGMAX = cell r MU_ANGMAX) /\
    (ok = true -> forall p, nth_error (d_iang o) p = Some l ->
       cell r' MU_ANGMIN = degrees (nth (nb + d_nl2 o + d_nl2 o + p) ml 0%K) /\
       cell r' MU_ANGMAX = degrees (nth (nb + d_nl2 o + d_nl2 o + p) mu 0%K)).
Proof. apply ang_mults_gen. exact ND. Qed.
End Internal.
