(** Shapes of what the callbacks of the AC optimal power flow return. *)
From Verif Require Import Lib.ListFacts Model.AcOpf Spec.AcOptSpec Spec.PipsRun Proofs.LinAlgFacts Proofs.SparseFacts
  Proofs.BlockFacts Proofs.MatFacts Proofs.FldFacts Proofs.OrdFacts Proofs.NetworkA Proofs.NetworkC Proofs.NetworkD Proofs.YbusA
  Proofs.PipsF Proofs.OpfLinB Proofs.AcCostB Proofs.AcCostC Proofs.AcConA Proofs.AcConB Proofs.TableEdit.
Local Open Scope nat_scope.

Section Sizes.
Context {L : Type} {R : Rng L}.
Definition sz (M : smat L) (r c : nat) : Prop := wf M /\ nrows M = r /\ ncols M = c.
Lemma sz_addm A B M r c : sz A r c -> wf B -> addm A B = Ok M -> sz M r c.
Proof.
  intros (W & N & C) WB H. split; [eapply wf_addm; [exact W|exact WB|exact H]|].
  unfold addm in H. destruct (_ && _) in H; [|discriminate]. injection H as <-. auto.
Qed.
Lemma sz_mulm A B M r n c k : sz A r n -> sz B k c -> mulm A B = Ok M -> sz M r c.
Proof.
  intros (W & N & C) (WB & NB & CB) H. split; [eapply wf_mulm; [exact W|exact WB|exact H]|].
  unfold mulm in H. destruct (_ =? _) in H; [|discriminate]. injection H as <-. auto.
Qed.
Lemma sz_diag v M : diagm v = Ok M -> sz M (length v) (length v).
Proof.
  intros H. assert (0 < length v) as P by (destruct v; [discriminate|simpl; lia]).
  destruct (ismat_diag v _ eq_refl P) as (D & H' & W & N & C & _). rewrite H in H'. injection H' as <-. split; auto.
Qed.
Lemma sz_sparse v a b r c M : sparse v a b r c = Ok M -> sz M r c.
Proof.
  intros H. split; [eapply sparse_wf; eauto|]. apply sparse_ok in H as (_ & _ & _ & _ & ->). auto.
Qed.
Lemma sz_hstack A B M r c r' c' : sz A r c -> sz B r' c' -> hstackm A B = Ok M -> sz M r (c + c').
Proof.
  intros (W & N & C) (WB & NB & CB) H. split; [eapply wf_hstackm; [exact W|exact WB|exact H]|].
  apply hstackm_ok in H as (_ & -> & ->). split; congruence.
Qed.
Lemma sz_vstack A B M r c r' c' : sz A r c -> sz B r' c' -> vstackm A B = Ok M -> sz M (r + r') c.
Proof.
  intros (W & N & C) (WB & NB & CB) H. split; [eapply wf_vstackm; [exact W|exact WB|exact H]|].
  apply vstackm_ok in H as (_ & -> & ->). split; congruence.
Qed.
Lemma sz_transp A r c : sz A r c -> sz (transp A) c r.
Proof. intros (W & N & C). split; [apply wf_transp; auto|]. cbn. auto. Qed.
End Sizes.
Lemma sz_map {L L'} {R : Rng L} {R' : Rng L'} (f : L -> L') (A : smat L) r c : sz A r c -> sz (mapm f A) r c.
Proof.
  intros (W & N & C). split; [|cbn; auto]. unfold wf in *. cbn. apply Forall_map. eapply Forall_impl; [|exact W]. cbn. tauto.
Qed.

Section AcOptD.
Context {K : Type} {F : Fld K}.
Add Field KF : (@f_ok K F).
Variables (cis : K -> cpx K) (cabs : cpx K -> K).

Lemma sz_widen (A : smat K) r c n : sz A r c -> c <= n -> sz (widen n A) r n.
Proof.
  intros (W & N & C) H. split; [|cbn; auto]. unfold wf in *. cbn. eapply Forall_impl; [|exact W]. cbn. lia.
Qed.
Lemma vnorm_len V Vn : vnorm cabs V = Ok Vn -> length Vn = length V.
Proof. unfold vnorm. intros H. apply cvdiv_ok in H as (L & _ & ->). rewrite map_length in L. rewrite map2_length, map_length. lia. Qed.

Lemma dSbus_sz n Y V m a : sz Y n n -> length V = n -> dSbus_dV cabs Y V = Ok (m, a) -> sz m n n /\ sz a n n.
Proof.
  intros SY LV H. unfold dSbus_dV in H.
  apply bind_ok in H as (Ib & HI & H). apply bind_ok in H as (dV & HV & H). apply bind_ok in H as (dI & HD & H).
  apply bind_ok in H as (Vn & HN & H). apply bind_ok in H as (dN & HdN & H). apply bind_ok in H as (a1 & Ha & H).
  apply bind_ok in H as (b & Hb & H). apply bind_ok in H as (c & Hc & H). apply bind_ok in H as (dm & Hm & H).
  apply bind_ok in H as (d & Hd & H). apply bind_ok in H as (e & He & H). apply bind_ok in H as (da & Hda & H). injection H as <- <-.
  apply mulv_ok in HI as (_ & LI & _). apply sz_diag in HV. apply sz_diag in HD. apply vnorm_len in HN. apply sz_diag in HdN.
  rewrite LI in HD. rewrite HN in HdN. rewrite LV in *. pose proof (proj1 (proj2 SY)) as NY. rewrite NY in *.
  pose proof (sz_mulm _ _ _ _ _ _ _ SY HdN Ha) as Sa.
  pose proof (sz_mulm _ _ _ _ _ _ _ HV (sz_map conj _ _ _ Sa) Hb) as Sb.
  pose proof (sz_mulm _ _ _ _ _ _ _ (sz_map conj _ _ _ HD) HdN Hc) as Sc.
  split; [exact (sz_addm _ _ _ _ _ Sb (proj1 Sc) Hm)|].
  pose proof (sz_mulm _ _ _ _ _ _ _ SY HV Hd) as Sd.
  unfold subm in He. pose proof (sz_addm _ _ _ _ _ HD (proj1 (sz_map copp _ _ _ Sd)) He) as Se.
  exact (sz_mulm _ _ _ _ _ _ _ (sz_map (cmul jj) _ _ _ HV) (sz_map conj _ _ _ Se) Hda).
Qed.

Lemma dSend_sz f nl nb Yf V Vn a m S : sz Yf nl nb -> length V = nb -> length Vn = nb -> length f = nl ->
  dSend_dV f Yf V Vn = Ok (a, m, S) -> sz a nl nb /\ sz m nl nb /\ length S = nl.
Proof.
  intros SY LV LN LF H. unfold dSend_dV in H. cbv zeta in H. rewrite LF, LV in H.
  apply bind_ok in H as (If & HI & H). apply bind_ok in H as (Vf & HVf & H). apply bind_ok in H as (Vnf & HVnf & H).
  apply bind_ok in H as (dVf & HdVf & H). apply bind_ok in H as (dIf & HdIf & H). apply bind_ok in H as (dV & HdV & H).
  apply bind_ok in H as (dVn & HdVn & H). apply bind_ok in H as (SV & HSV & H). apply bind_ok in H as (SVn & HSVn & H).
  apply bind_ok in H as (a1 & Ha & H). apply bind_ok in H as (b & Hb & H). apply bind_ok in H as (c & Hc & H).
  apply bind_ok in H as (d & Hd & H). apply bind_ok in H as (e & He & H). apply bind_ok in H as (g & Hg & H).
  apply bind_ok in H as (h & Hh & H). apply bind_ok in H as (dm & Hdm & H). apply bind_ok in H as (Sf & HS & H). injection H as <- <- <-.
  apply mulv_ok in HI as (_ & LI & _). pose proof (gather_length _ _ _ HVf) as LVf.
  apply sz_diag in HdVf. apply sz_diag in HdIf. apply sz_diag in HdV. apply sz_diag in HdVn. apply sz_sparse in HSV. apply sz_sparse in HSVn.
  rewrite LVf, LF in HdVf. rewrite LI, (proj1 (proj2 SY)) in HdIf. rewrite LV in HdV. rewrite LN in HdVn.
  pose proof (sz_mulm _ _ _ _ _ _ _ (sz_map conj _ _ _ HdIf) HSV Ha) as Sa. pose proof (sz_mulm _ _ _ _ _ _ _ SY HdV Hb) as Sb.
  pose proof (sz_mulm _ _ _ _ _ _ _ HdVf (sz_map conj _ _ _ Sb) Hc) as Sc.
  unfold subm in Hd. pose proof (sz_addm _ _ _ _ _ Sa (proj1 (sz_map copp _ _ _ Sc)) Hd) as Sd.
  pose proof (sz_mulm _ _ _ _ _ _ _ SY HdVn He) as Se. pose proof (sz_mulm _ _ _ _ _ _ _ HdVf (sz_map conj _ _ _ Se) Hg) as Sg.
  pose proof (sz_mulm _ _ _ _ _ _ _ (sz_map conj _ _ _ HdIf) HSVn Hh) as Sh.
  split; [exact (sz_map (cmul jj) _ _ _ Sd)|]. split; [exact (sz_addm _ _ _ _ _ Sg (proj1 Sh) Hdm)|].
  apply ewise_ok in HS as (LE & ->). rewrite map2_length. lia.
Qed.
Lemma dIend_sz nl nb Yf V Vn a m S : sz Yf nl nb -> length V = nb -> length Vn = nb ->
  dIend_dV Yf V Vn = Ok (a, m, S) -> sz a nl nb /\ sz m nl nb /\ length S = nl.
Proof.
  intros SY LV LN H. unfold dIend_dV in H.
  apply bind_ok in H as (dV & HdV & H). apply bind_ok in H as (dVn & HdVn & H). apply bind_ok in H as (a1 & Ha & H).
  apply bind_ok in H as (b & Hb & H). apply bind_ok in H as (If & HI & H). injection H as <- <- <-.
  apply sz_diag in HdV. apply sz_diag in HdVn. rewrite LV in HdV. rewrite LN in HdVn.
  split; [exact (sz_mulm _ _ _ _ _ _ _ (sz_map (cmul jj) _ _ _ SY) HdV Ha)|].
  split; [exact (sz_mulm _ _ _ _ _ _ _ SY HdVn Hb)|].
  apply mulv_ok in HI as (_ & -> & _). apply SY.
Qed.
Lemma dAend_sz nl nb (dS : smat (cpx K)) S M : sz dS nl nb -> length S = nl -> dAend dS S = Ok M -> sz M nl nb.
Proof.
  intros SS LS H. unfold dAend in H.
  apply bind_ok in H as (dP & HP & H). apply bind_ok in H as (dQ & HQ & H). apply bind_ok in H as (a & Ha & H).
  apply bind_ok in H as (b & Hb & H). apply sz_diag in HP. apply sz_diag in HQ. rewrite map_length, LS in HP, HQ.
  pose proof (sz_mulm _ _ _ _ _ _ _ HP (sz_map re _ _ _ SS) Ha) as Sa. pose proof (sz_mulm _ _ _ _ _ _ _ HQ (sz_map im _ _ _ SS) Hb) as Sb.
  exact (sz_addm _ _ _ _ _ Sa (proj1 Sb) H).
Qed.
Lemma dAbr_sz nl nb (fa fm ta tm : smat (cpx K)) Sf St a b c d : sz fa nl nb -> sz fm nl nb -> sz ta nl nb -> sz tm nl nb ->
  length Sf = nl -> length St = nl -> dAbr_dV fa fm ta tm Sf St = Ok (a, b, c, d) ->
  sz a nl nb /\ sz b nl nb /\ sz c nl nb /\ sz d nl nb.
Proof.
  intros S1 S2 S3 S4 L1 L2 H. unfold dAbr_dV in H.
  apply bind_ok in H as (a1 & Ha & H). apply bind_ok in H as (b1 & Hb & H). apply bind_ok in H as (c1 & Hc & H).
  apply bind_ok in H as (d1 & Hd & H). injection H as <- <- <- <-.
  split; [|split; [|split]]; eapply dAend_sz; [| |exact Ha| | |exact Hc| | |exact Hb| | |exact Hd]; auto.
Qed.

(** ** the derivatives of the constraints *)
Variables (D : acdata (K := K)) (lim : flow_lim) (Y Yf Yt : smat (cpx K)) (il : list nat).
Notation nb := (length (a_bus D)).
Notation ng := (length (a_gen D)).
Notation nl := (length il).
Lemma con_derivs_sz n V dh dg : sz Y nb nb -> sz Yf nl nb -> sz Yt nl nb -> length V = nb -> nl <> 0 ->
  nb + nb + ng + ng <= n -> con_derivs cabs D lim Y Yf Yt il n V = Ok (dh, dg) ->
  exists H G, dh = Some H /\ dg = Some G /\ sz H n (nl + nl) /\ sz G n (nb + nb).
Proof.
  intros SY SYf SYt LV NL LX H. unfold con_derivs in H.
  apply bind_ok in H as ((dVm & dVa) & HS & H). apply (dSbus_sz nb) in HS as (Sm & Sa); auto.
  apply bind_ok in H as (Cg & HC & H). apply sz_sparse in HC. cbv zeta in H.
  assert (SB : sz (SM nb ng [] : smat K) nb ng) by (split; [constructor|cbn; auto]).
  apply bind_ok in H as (p1 & H1 & H). apply bind_ok in H as (p2 & H2 & H). apply bind_ok in H as (p & H3 & H).
  apply bind_ok in H as (q1 & H4 & H). apply bind_ok in H as (q2 & H5 & H). apply bind_ok in H as (q & H6 & H).
  apply bind_ok in H as (pq & H7 & H).
  pose proof (sz_hstack _ _ _ _ _ _ _ (sz_map re _ _ _ Sa) (sz_map re _ _ _ Sm) H1) as S1.
  pose proof (sz_hstack _ _ _ _ _ _ _ S1 HC H2) as S2. pose proof (sz_hstack _ _ _ _ _ _ _ S2 SB H3) as S3.
  pose proof (sz_hstack _ _ _ _ _ _ _ (sz_map im _ _ _ Sa) (sz_map im _ _ _ Sm) H4) as S4.
  pose proof (sz_hstack _ _ _ _ _ _ _ S4 SB H5) as S5. pose proof (sz_hstack _ _ _ _ _ _ _ S5 HC H6) as S6.
  pose proof (sz_vstack _ _ _ _ _ _ _ S3 S6 H7) as S7.
  destruct (Nat.eqb_spec nl 0); [contradiction|].
  apply bind_ok in H as ((((((fa & fm) & ta) & tm) & Ff) & Ft) & HD & H).
  apply bind_ok in H as ((((da & dm) & ea) & em) & HA & H).
  apply bind_ok in H as (hf & H8 & H). apply bind_ok in H as (ht & H9 & H). apply bind_ok in H as (hh & H10 & H). injection H as <- <-.
  assert (SD : sz fa nl nb /\ sz fm nl nb /\ sz ta nl nb /\ sz tm nl nb /\ length Ff = nl /\ length Ft = nl).
  { assert (LB : length (brows D il) = nl) by (unfold brows; apply map_length).
    assert (QS : dSbr_dV cabs (brows D il) Yf Yt V = Ok (fa, fm, ta, tm, Ff, Ft) ->
      sz fa nl nb /\ sz fm nl nb /\ sz ta nl nb /\ sz tm nl nb /\ length Ff = nl /\ length Ft = nl).
    { intros HD'. unfold dSbr_dV in HD'. apply bind_ok in HD' as (f & Hf & HD'). apply bind_ok in HD' as (t & Ht & HD').
      apply bind_ok in HD' as (Vn & HN & HD'). apply bind_ok in HD' as (((u1 & u2) & u3) & E1 & HD').
      apply bind_ok in HD' as (((w1 & w2) & w3) & E2 & HD'). injection HD' as -> -> -> -> -> ->.
      apply vnorm_len in HN. apply idxcol_ok in Hf as (_ & _ & ->). apply idxcol_ok in Ht as (_ & _ & ->).
      apply (dSend_sz _ nl nb) in E1 as (A1 & A2 & A3); auto; [|congruence|rewrite map_length; auto].
      apply (dSend_sz _ nl nb) in E2 as (B1 & B2 & B3); auto; [|congruence|rewrite map_length; auto]. auto 10. }
    destruct lim; [exact (QS HD)|exact (QS HD)|].
    unfold dIbr_dV in HD. apply bind_ok in HD as (Vn & HN & HD'). apply bind_ok in HD' as (((u1 & u2) & u3) & E1 & HD').
    apply bind_ok in HD' as (((w1 & w2) & w3) & E2 & HD'). injection HD' as -> -> -> -> -> ->.
    apply vnorm_len in HN.
    apply (dIend_sz nl nb) in E1 as (A1 & A2 & A3); auto; [|congruence].
    apply (dIend_sz nl nb) in E2 as (B1 & B2 & B3); auto; [|congruence]. auto 10. }
  destruct SD as (D1 & D2 & D3 & D4 & D5 & D6).
  assert (SA : sz da nl nb /\ sz dm nl nb /\ sz ea nl nb /\ sz em nl nb).
  { pose proof (sz_map (fun z => ofK (re z)) _ _ _ D1) as R1. pose proof (sz_map (fun z => ofK (re z)) _ _ _ D2) as R2.
    pose proof (sz_map (fun z => ofK (re z)) _ _ _ D3) as R3. pose proof (sz_map (fun z => ofK (re z)) _ _ _ D4) as R4.
    destruct lim; [eapply dAbr_sz; [exact D1|exact D2|exact D3|exact D4|exact D5|exact D6|exact HA]| |
      eapply dAbr_sz; [exact D1|exact D2|exact D3|exact D4|exact D5|exact D6|exact HA]].
    eapply dAbr_sz; [exact R1|exact R2|exact R3|exact R4| | |exact HA]; rewrite map_length; auto. }
  destruct SA as (A1 & A2 & A3 & A4).
  pose proof (sz_hstack _ _ _ _ _ _ _ A1 A2 H8) as S8. pose proof (sz_hstack _ _ _ _ _ _ _ A3 A4 H9) as S9.
  pose proof (sz_vstack _ _ _ _ _ _ _ S8 S9 H10) as S10.
  eexists. eexists. split; [reflexivity|]. split; [reflexivity|].
  split; apply sz_transp; (eapply sz_widen; [eassumption|lia]).
Qed.

(** success of the callback at one point shows that the tables fit *)
Lemma consfcn_tables x r : opf_consfcn cis cabs D lim Y Yf Yt il x = Ok r ->
  a_base D <> 0%K /\ wide QD (a_bus D) /\ wide GEN_STATUS (a_gen D).
Proof.
  intros H. unfold opf_consfcn in H. cbv zeta in H.
  apply bind_ok in H as (g1 & H1 & H). apply bind_ok in H as (g2 & H2 & H). apply bind_ok in H as (Sb & HS & _).
  apply makeSbus_ok in HS as (NB & WB & WG & _). split; auto. split; auto.
  apply edit_setcol in H1 as (_ & E1). apply edit_setcol in H2 as (_ & E2). destruct (edit_trans _ _ _ _ _ E1 E2) as (_ & E).
  unfold wide in *. rewrite Forall_forall in *. intros g Hg. apply In_nth_error in Hg as (k & Hk).
  destruct (E k g Hk) as (g' & A1 & A2 & _). rewrite <- A2. apply WG. eapply nth_error_In; eauto.
Qed.
Lemma costfcn_length x f df : opf_costfcn D x = Ok (f, df) -> length df = length x.
Proof.
  intros H. unfold opf_costfcn in H. cbv zeta in H.
  apply bind_ok in H as (m & _ & H). apply bind_ok in H as (rows & _ & H). apply bind_ok in H as (f0 & _ & H).
  apply bind_ok in H as (cc & _ & H). apply bind_ok in H as (f1 & _ & H). apply bind_ok in H as (gt & _ & H).
  apply bind_ok in H as (f2 & _ & H). apply bind_ok in H as (v & _ & H). apply bind_ok in H as (d & _ & H).
  apply bind_ok in H as (df0 & _ & H). apply bind_ok in H as (df1 & H1 & H). apply bind_ok in H as (df2 & H2 & H).
  apply bind_ok in H as (df3 & H3 & H). apply bind_ok in H as (df4 & H4 & H). injection H as _ <-.
  apply scatter_checked_ok in H1 as (_ & _ & ->). apply scatter_checked_ok in H2 as (_ & _ & ->).
  apply ewise_ok in H3 as (L3 & ->).
  assert (L : length (map2 radd (scatter (scatter (repeat 0%K (length x)) (seq (nb + nb) ng) (slice 0 ng df0))
     (seq (nb + nb + ng) ng) (slice ng (ng + ng) df0)) (if a_ny D =? 0 then repeat 0%K (length x) else map (at_ cc 0) (seq 0 (length x)))) = length x).
  { rewrite map2_length, !scatter_length, repeat_length. destruct (_ =? 0); rewrite ?repeat_length, ?map_length, ?seq_length; lia. }
  destruct gt as [t|].
  - apply bind_ok in H4 as (u & _ & H4). apply ewise_ok in H4 as (L4 & ->). rewrite map2_length. lia.
  - injection H4 as <-. exact L.
Qed.
End AcOptD.
