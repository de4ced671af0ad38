(** The structure of the Hessian covers the second derivatives of the constraints. *)
From Coq Require Import Lia.
From Verif Require Import Lib.ListFacts Model.IpoptOpf Proofs.SparseFacts Proofs.FldFacts Proofs.NetworkA Proofs.NetworkD Proofs.BlockFacts Proofs.OrdFacts Proofs.IpoptA Proofs.IpoptB Proofs.IpoptC Proofs.IpoptD.
Local Open Scope nat_scope.

Section Hessian.
Context {K : Type} {F : Fld K}.
Add Field KF : (@f_ok K F).
Variables (cis : K -> cpx K) (cabs : cpx K -> K).

Lemma at_addm (A B M : smat K) i j : addm A B = Ok M -> at_ M i j = (at_ A i j + at_ B i j)%K.
Proof. unfold addm. destruct (_ && _); [|discriminate]. intros E. injection E as <-. unfold at_. cbn [ents]. apply lsum_app. Qed.
Lemma at_scaled (A : smat K) c i j : at_ (mapm (fun a => a * c)%K A) i j = (at_ A i j * c)%K.
Proof.
  unfold at_, mapm. cbn [ents]. rewrite lsum_map. cbn [erow ecol ev]. induction (ents A) as [|e l IH]; cbn; [ring|]. rewrite IH. destruct (_ && _); ring.
Qed.
Lemma at_tril (M : smat K) i j : j <= i -> at_ (tril M) i j = at_ M i j.
Proof.
  intros L. unfold at_, tril. cbn [ents]. induction (ents M) as [|e l IH]; cbn; auto. destruct (Nat.leb_spec (ecol e) (erow e)) as [Q|Q]; cbn; rewrite IH; auto.
  destruct (Nat.eqb_spec (erow e) i), (Nat.eqb_spec (ecol e) j); cbn; try lia; ring.
Qed.
Lemma at_none (M : smat K) i j : (forall e, In e (ents M) -> ~ (erow e = i /\ ecol e = j)) -> at_ M i j = 0%K.
Proof.
  intros H. unfold at_. rewrite (lsum_ext _ (fun _ => 0%K) (ents M)); [apply lsum_0|]. intros e He. specialize (H e He). destruct (Nat.eqb_spec (erow e) i), (Nat.eqb_spec (ecol e) j); cbn; auto. tauto.
Qed.

Lemma block_cov {L} {R : Rng L} nb (a b c d M : smat L) (B N : smat K) : block4 a b c d = Ok M -> block4 B B B B = Ok N ->
  nrows a = nb -> ncols a = nb -> ncols c = nb -> nrows B = nb -> ncols B = nb -> cov a B -> cov b B -> cov c B -> cov d B -> cov M N.
Proof.
  unfold block4. intros E1 E2 N1 N2 N3 N4 N5 A1 A2 A3 A4. step E1. step E1. step E2. step E2. pose proof (hst_dims _ _ _ E) as (D1 & _). pose proof (hst_dims _ _ _ E3) as (D2 & _).
  eapply cov_vstack; [exact E1|exact E2|lia| |]; eapply cov_hstack; try eassumption; lia.
Qed.

Variables (nb : nat) (branch : list (list K)) (il : list nat).
Variables f t : list nat.
Hypothesis Ef : idxcol ValueError F_BUS branch = Ok f.
Hypothesis Et : idxcol ValueError T_BUS branch = Ok t.
Variables (Cb Cl2 bb : smat K).
Hypothesis EN : net_structure nb branch il = Ok (Cb, Cl2).
Hypothesis EB : block4 Cb Cb Cb Cb = Ok bb.

Lemma ends_below l j : touches f t l j -> j < nb.
Proof.
  unfold net_structure in EN. rewrite Ef, Et in EN. cbn [bind] in EN. pose proof EN as H. step H. step H. clear H. apply sparse_ok in E as (_ & _ & _ & B1 & _). apply sparse_ok in E0 as (_ & _ & _ & B2 & _).
  rewrite Forall_forall in B1, B2. intros [Q|Q]; [apply B1|apply B2]; eapply nth_error_In, Q.
Qed.
Lemma joined_cov {L} (M : smat L) : shape M nb nb (joined f t nb) -> cov M Cb.
Proof.
  destruct (net_ok _ _ _ _ _ _ _ Ef Et EN) as (_ & _ & _ & _ & _ & _ & IB & _). intros S. eapply cov_shape; [exact S|]. intros i j (A & B). apply IB; auto.
Qed.
Lemma bb_ok : pos bb /\ (forall e, In e (ents bb) -> erow e < nb + nb /\ ecol e < nb + nb).
Proof.
  destruct (net_ok _ _ _ _ _ _ _ Ef Et EN) as (PB & _ & B1 & B2 & _). destruct (net_wf _ _ _ _ _ EN) as (WB & _). unfold block4 in EB. pose proof EB as H. step H. step H.
  pose proof (hst_dims _ _ _ E) as D1. pose proof (hst_dims _ _ _ E0) as D2. pose proof (vst_dims _ _ _ H) as D3. split.
  - eapply pos_vstack; [exact H| |]; eapply pos_hstack; eauto.
  - assert (W : wf bb) by (eapply wf_vstackm; [| |exact H]; eapply wf_hstackm; eauto). unfold wf in W. rewrite Forall_forall in W. intros e He. specialize (W e He). lia.
Qed.

Variable D : acdata (K := K).
Hypothesis DB : a_branch D = branch.
Hypothesis Dn : length (a_bus D) = nb.
Variables (lim : flow_lim) (B0 : K) (Ybus Yf Yt Yfl Ytl : smat (cpx K)).
Hypothesis EY : makeYbus cis B0 (a_bus D) branch = Ok (Ybus, Yf, Yt).
Hypothesis EYf : rowsel Yf il = Ok Yfl.
Hypothesis EYt : rowsel Yt il = Ok Ytl.

Lemma cost_pos q x d2f : cost_hess D q x None = Ok d2f -> shape d2f (length x) (length x) (fun i j => i = j /\ nb + nb <= i).
Proof.
  unfold cost_hess. intros H. rewrite Dn in H. do 5 step H. injection H as <-. eapply sh_weak; [eapply sh_sparse, E3|]. intros i j (k & A1 & A2). split; [congruence|].
  apply nth_error_In in A1. apply in_app_or in A1 as [A1|A1]; apply in_seq in A1; lia.
Qed.

Lemma hess_parts x lam mu cm H : opf_hessfcn cis cabs D lim Ybus Yfl Ytl il x lam mu cm = Ok H -> has_nz (g_N (a_cp D)) = false ->
  exists d2f G M, cost_hess D [] x None = Ok d2f /\ cov G bb /\ cov M bb /\ nrows H = length x /\ ncols H = length x /\
    forall i j, at_ H i j = (at_ d2f i j * cm + at_ G i j + at_ M i j)%K.
Proof.
  intros H0 NZ. unfold opf_hessfcn in H0. rewrite NZ, DB, Dn in H0. step H0. clear E x0. step H0. rename x0 into V, E into EV. step H0. rename x0 into qc, E into Eqc. cbn [bind] in H0. step H0. rename x0 into d2f, E into Ed. cbn zeta in H0.
  assert (Ed' : cost_hess D [] x None = Ok d2f).
  { unfold cost_hess in *. step Ed. rewrite E. cbn [bind]. step Ed. rewrite E0. cbn [bind]. step Ed. destruct qc as [|r qc]; [cbn in E1; injection E1 as <-; exact Ed|]. cbn in E1. destruct r as [|u [|w r]]; discriminate. }
  step H0. destruct x0 as (((paa, pav), pva), pvv). rename E into EP. step H0. destruct x0 as (((qaa, qav), qva), qvv). rename E into EQ.
  step H0. rename x0 into GP, E into EGP. step H0. rename x0 into GQ, E into EGQ. step H0. rename x0 into G, E into EG.
  step H0. destruct x0 as (f4, t4). rename E into E4. destruct f4 as (((faa, fav), fva), fvv). destruct t4 as (((taa, tav), tva), tvv).
  step H0. rename x0 into HF, E into EHF. step H0. rename x0 into HT, E into EHT. step H0. rename x0 into Hm, E into EHm. step H0. rename x0 into s1, E into Es1.
  pose proof ends_below as TB.
  destruct (ybus_pos cis f t nb _ _ _ _ _ _ EY Ef Et Dn) as (SY & SF & ST).
  destruct (d2Sbus_pos cabs f t nb TB _ _ _ _ EP SY) as (P1 & P2 & P3 & P4). destruct (d2Sbus_pos cabs f t nb TB _ _ _ _ EQ SY) as (Q1 & Q2 & Q3 & Q4).
  assert (LV : length V = nb) by (unfold d2Sbus_dV2 in EP; step EP; destruct (mulv_len _ _ _ E) as (_ & L2); destruct SY as (_ & Y2 & _); lia).
  pose proof (sh_rowsel _ _ _ _ _ _ EYf SF) as SFl. pose proof (sh_rowsel _ _ _ _ _ _ EYt ST) as STl.
  assert (S8 : fourK (fun M => shape M nb nb (joined f t nb)) (faa, fav, fva, fvv) /\ fourK (fun M => shape M nb nb (joined f t nb)) (taa, tav, tva, tvv)).
  { assert (SI : forall fa fm ta tm Ff Ft, dIbr_dV cabs Yfl Ytl V = Ok (fa, fm, ta, tm, Ff, Ft) ->
      shape fa (length il) nb (at_end f t il) /\ shape fm (length il) nb (at_end f t il) /\ shape ta (length il) nb (at_end f t il) /\ shape tm (length il) nb (at_end f t il) /\ length Ff = length il /\ length Ft = length il).
    { intros fa fm ta tm Ff Ft EI. unfold dIbr_dV in EI. step EI. rename x0 into Vn, E into En. step EI. destruct x0 as ((a1, a2), a3). step EI. destruct x0 as ((b1, b2), b3). injection EI as -> -> -> -> -> ->.
      destruct (dIend_pos f t nb il _ _ _ _ _ _ E SFl (vnorm_len _ _ _ En)) as (? & ? & ?). destruct (dIend_pos f t nb il _ _ _ _ _ _ E0 STl (vnorm_len _ _ _ En)) as (? & ? & ?). auto 10. }
    assert (SS : forall br ff tt, gather branch il = Ok br -> idxcol OutOfModel F_BUS br = Ok ff -> idxcol OutOfModel T_BUS br = Ok tt ->
      (forall k j, nth_error ff k = Some j -> at_end f t il k j) /\ (forall k j, nth_error tt k = Some j -> at_end f t il k j) /\ length ff = length il /\ length tt = length il).
    { intros br ff tt Ebr Eff Ett. split; [|split; [|split]].
      - intros k j Hk. destruct (ends_at branch il _ _ _ _ Ebr Eff Ef k j Hk) as (l0 & A1 & A2). exists l0. split; auto. left. exact A2.
      - intros k j Hk. destruct (ends_at branch il _ _ _ _ Ebr Ett Et k j Hk) as (l0 & A1 & A2). exists l0. split; auto. right. exact A2.
      - destruct (idxcol_ok _ _ _ _ Eff) as (_ & _ & ->). rewrite map_length. apply (gather_length _ _ _ Ebr).
      - destruct (idxcol_ok _ _ _ _ Ett) as (_ & _ & ->). rewrite map_length. apply (gather_length _ _ _ Ebr). }
    assert (SC : forall c (data : list (cpx K)) (M : smat (cpx K)), (forall k j, nth_error c k = Some j -> at_end f t il k j) -> sparse data (seq 0 (length il)) c (length il) nb = Ok M -> shape M (length il) nb (at_end f t il)).
    { intros c data M HC EM. eapply sh_weak; [eapply sh_sparse, EM|]. intros i j (k & A1 & A2). apply HC. assert (i = k); [|congruence].
      assert (k < length il) by (rewrite <- (seq_length (length il) 0); apply nth_error_Some; rewrite A1; discriminate). rewrite (nth_error_nth' _ 0) in A1 by (rewrite seq_length; lia). rewrite seq_nth in A1 by lia. injection A1. lia. }
    assert (SD : forall br fa fm ta tm Ff Ft, gather branch il = Ok br -> dSbr_dV cabs br Yfl Ytl V = Ok (fa, fm, ta, tm, Ff, Ft) ->
      shape fa (length il) nb (at_end f t il) /\ shape fm (length il) nb (at_end f t il) /\ shape ta (length il) nb (at_end f t il) /\ shape tm (length il) nb (at_end f t il) /\ length Ff = length il /\ length Ft = length il).
    { intros br fa fm ta tm Ff Ft Ebr EI. unfold dSbr_dV in EI. step EI. step EI. destruct (SS _ _ _ Ebr E E0) as (HF1 & HT1 & _). step EI. rename x2 into Vn, E1 into En. step EI. destruct x2 as ((a1, a2), a3). step EI. destruct x2 as ((b1, b2), b3). injection EI as -> -> -> -> -> ->.
      destruct (dSend_pos f t nb il _ _ _ _ _ _ _ E1 SFl (vnorm_len _ _ _ En) HF1) as (? & ? & ?). destruct (dSend_pos f t nb il _ _ _ _ _ _ _ E2 STl (vnorm_len _ _ _ En) HT1) as (? & ? & ?). auto 10. }
    destruct lim.
    - do 5 step E4. destruct (SS _ _ _ E E0 E1) as (HF1 & HT1 & _). pose proof (SC _ _ _ HF1 E2) as C1. pose proof (SC _ _ _ HT1 E3) as C2. step E4. destruct x5 as (((((fa, fm), ta), tm), Ff), Ft). destruct (SD _ _ _ _ _ _ _ E E5) as (S1 & S2 & S3 & S4 & L1 & L2).
      step E4. step E4. injection E4 as -> ->. split; eapply d2AS_pos; eauto.
    - do 5 step E4. destruct (SS _ _ _ E E0 E1) as (HF1 & HT1 & _). pose proof (SC _ _ _ HF1 E2) as C1. pose proof (SC _ _ _ HT1 E3) as C2. step E4. destruct x5 as (((((fa, fm), ta), tm), Ff), Ft). destruct (SD _ _ _ _ _ _ _ E E5) as (S1 & S2 & S3 & S4 & L1 & L2).
      step E4. step E4. injection E4 as -> ->. split; [eapply d2AS_pos; [exact TB|exact E6|apply sh_mapm, S1|apply sh_mapm, S2|rewrite map_length; exact L1|exact C1|exact SFl|exact LV]|eapply d2AS_pos; [exact TB|exact E7|apply sh_mapm, S3|apply sh_mapm, S4|rewrite map_length; exact L2|exact C2|exact STl|exact LV]].
    - step E4. destruct x0 as (((((fa, fm), ta), tm), Ff), Ft). destruct (SI _ _ _ _ _ _ E) as (S1 & S2 & S3 & S4 & L1 & L2). step E4. step E4. injection E4 as -> ->. split; eapply d2AI_pos; eauto. }
  destruct S8 as ((F1 & F2 & F3 & F4) & (T1 & T2 & T3 & T4)).
  destruct (net_ok _ _ _ _ _ _ _ Ef Et EN) as (_ & _ & B1 & B2 & _).
  exists d2f, G, Hm. split; [exact Ed'|].
  assert (CG : cov G bb).
  { unfold addm in EG. destruct (_ && _) in EG; [|discriminate]. injection EG as <-. intros e He. cbn [ents] in He. apply in_app_or in He as [He|He]; revert e He.
    - apply cov_map. eapply block_cov; [exact EGP|exact EB|apply P1|apply P1|apply P3|exact B1|exact B2|apply joined_cov, P1|apply joined_cov, P2|apply joined_cov, P3|apply joined_cov, P4].
    - apply cov_map. eapply block_cov; [exact EGQ|exact EB|apply Q1|apply Q1|apply Q3|exact B1|exact B2|apply joined_cov, Q1|apply joined_cov, Q2|apply joined_cov, Q3|apply joined_cov, Q4]. }
  assert (CM : cov Hm bb).
  { unfold addm in EHm. destruct (_ && _) in EHm; [|discriminate]. injection EHm as <-. intros e He. cbn [ents] in He. apply in_app_or in He as [He|He]; revert e He.
    - eapply block_cov; [exact EHF|exact EB|apply F1|apply F1|apply F3|exact B1|exact B2|apply joined_cov, F1|apply joined_cov, F2|apply joined_cov, F3|apply joined_cov, F4].
    - eapply block_cov; [exact EHT|exact EB|apply T1|apply T1|apply T3|exact B1|exact B2|apply joined_cov, T1|apply joined_cov, T2|apply joined_cov, T3|apply joined_cov, T4]. }
  split; [exact CG|split; [exact CM|]].
  assert (DH : nrows H = length x /\ ncols H = length x).
  { destruct (cost_pos _ _ _ Ed) as (R1 & R2 & _). unfold addm in H0, Es1. destruct (_ && _) in H0; [|discriminate]. destruct (_ && _) in Es1; [|discriminate]. injection Es1 as <-. injection H0 as <-. cbn [nrows ncols mapm]. auto. }
  split; [apply DH|split; [apply DH|]]. intros i j. rewrite (at_addm _ _ _ _ _ H0), (at_addm _ _ _ _ _ Es1), at_scaled. reflexivity.
Qed.
End Hessian.
