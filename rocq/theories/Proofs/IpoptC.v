(** The structure of the Jacobian covers the derivatives. *)
From Coq Require Import Lia.
From Verif Require Import Lib.ListFacts Model.IpoptOpf Proofs.SparseFacts Proofs.FldFacts Proofs.NetworkA Proofs.NetworkD Proofs.BlockFacts Proofs.OrdFacts Proofs.IpoptA Proofs.IpoptB.
Local Open Scope nat_scope.

Section Cover.
Context {K : Type} {F : Fld K}.
Add Field KF : (@f_ok K F).
Variables (cis : K -> cpx K) (cabs : cpx K -> K).

Lemma wf_addm' (A B M : smat K) : wf A -> wf B -> addm A B = Ok M -> wf M.
Proof.
  unfold addm. intros WA WB. destruct (_ && _) eqn:E; [|discriminate]. apply andb_prop in E as (E1 & E2). apply Nat.eqb_eq in E1, E2. intros H. injection H as <-.
  unfold wf in *. cbn. apply Forall_app. split; auto. rewrite E1, E2. exact WB.
Qed.
Lemma wf_none r c : wf (SM r c [] : smat K).
Proof. constructor. Qed.

Lemma at_split (A B M : smat K) i j : vstackm A B = Ok M -> Forall (fun e => erow e < nrows A) (ents A) ->
  at_ M i j = if i <? nrows A then at_ A i j else at_ B (i - nrows A) j.
Proof.
  unfold vstackm. destruct (_ =? _); [|discriminate]. intros E W. injection E as <-. unfold at_. cbn [ents]. rewrite lsum_app, lsum_map. cbn [erow ecol ev].
  destruct (Nat.ltb_spec i (nrows A)) as [Q|Q].
  - rewrite (lsum_ext _ (fun _ => 0%K) (ents B)).
    + rewrite lsum_0. ring.
    + intros e _. destruct (Nat.eqb_spec (nrows A + erow e) i); [lia|reflexivity].
  - rewrite (lsum_ext _ (fun _ => 0%K) (ents A)).
    + rewrite lsum_0. replace (0 + _)%K with (lsum (fun e => if (nrows A + erow e =? i) && (ecol e =? j) then ev e else 0%K) (ents B)) by ring. apply lsum_ext. intros e _.
      destruct (Nat.eqb_spec (nrows A + erow e) i), (Nat.eqb_spec (erow e) (i - nrows A)); try lia; reflexivity.
    + intros e He. rewrite Forall_forall in W. specialize (W e He). destruct (Nat.eqb_spec (erow e) i); [lia|reflexivity].
Qed.

Lemma cov_left {L L'} {R' : Rng L'} (A : smat L) (B C M : smat L') : cov A B -> hstackm B C = Ok M -> cov A M.
Proof.
  unfold hstackm. destruct (_ =? _); [|discriminate]. intros H E e He. injection E as <-. destruct (H e He) as (e' & I & Q). exists e'. split; [apply in_or_app; left; exact I|exact Q].
Qed.
Lemma cov_refl {L} (A : smat L) : cov A A.
Proof. intros e He. eauto. Qed.

Variables (nb : nat) (gen branch : list (list K)) (il : list nat) (nx : nat).
Variables f t gbus : list nat.
Hypothesis Ef : idxcol ValueError F_BUS branch = Ok f.
Hypothesis Et : idxcol ValueError T_BUS branch = Ok t.
Hypothesis Eg : idxcol ValueError GEN_BUS gen = Ok gbus.

Lemma net_wf Cb Cl2 : net_structure nb branch il = Ok (Cb, Cl2) -> wf Cb /\ wf Cl2.
Proof.
  intros H. unfold net_structure in H. do 8 step H. injection H as <- <-.
  assert (W : wf x3) by (eapply wf_addm'; [| |exact E3]; eapply sparse_wf; eassumption).
  split; [|eapply wf_rowsel; eauto]. eapply wf_addm'; [|apply wf_eyem|exact E5]. eapply wf_mulm; [apply wf_transp, W|exact W|exact E4].
Qed.

Lemma ends_at (br : list (list K)) j c c' : gather branch il = Ok br -> idxcol OutOfModel j br = Ok c' -> idxcol ValueError j branch = Ok c ->
  forall k b, nth_error c' k = Some b -> exists l, nth_error il k = Some l /\ nth_error c l = Some b.
Proof.
  intros EG E' E k b H. apply idxcol_ok in E' as (_ & _ & ->). apply idxcol_ok in E as (_ & _ & ->). rewrite nth_error_map in H. destruct (nth_error br k) as [r|] eqn:Er; [|discriminate]. injection H as <-.
  assert (Lk : k < length il). { rewrite <- (gather_length _ _ _ EG). apply nth_error_Some. congruence. }
  destruct (nth_error il k) as [l|] eqn:El; [|apply nth_error_None in El; lia]. exists l. split; auto. rewrite nth_error_map, <- (gather_nth _ _ _ _ _ EG El), Er. reflexivity.
Qed.

Lemma setcol_keeps j k (vals : list K) a a' : setcol j vals a = Ok a' -> k <> j -> map (fun r => bus_no r k) a' = map (fun r => bus_no r k) a.
Proof.
  intros H N. apply setcol_ok in H as (L & W & ->). revert vals L. induction W as [|r a Hr W IH]; intros [|v vals] L; cbn in *; try discriminate; auto. f_equal; [|apply IH; lia].
  unfold bus_no, cell. rewrite nth_upd_other by auto. reflexivity.
Qed.

Lemma in_vstack {L} {R : Rng L} (A B M : smat L) e : vstackm A B = Ok M -> In e (ents M) <-> In e (ents A) \/ exists e', In e' (ents B) /\ e = Ent (nrows A + erow e') (ecol e') (ev e').
Proof.
  unfold vstackm. destruct (_ =? _); [|discriminate]. intros E. injection E as <-. cbn [ents]. rewrite in_app_iff, in_map_iff. split; (intros [H|(e' & H1 & H2)]; [left; exact H|right; exists e'; auto]).
Qed.
Lemma in_tt {L} (M : smat L) e : In e (ents (transp (transp M))) -> In e (ents M).
Proof. cbn. rewrite map_map. intros H. apply in_map_iff in H as ([i j v] & <- & H). exact H. Qed.

Variable D : acdata (K := K).
Hypothesis DG : a_gen D = gen.
Hypothesis DB : a_branch D = branch.
Hypothesis Dn : length (a_bus D) = nb.
Variables (lim : flow_lim) (B0 : K) (Ybus Yf Yt Yfl Ytl : smat (cpx K)).
Hypothesis EY : makeYbus cis B0 (a_bus D) branch = Ok (Ybus, Yf, Yt).
Hypothesis EYf : rowsel Yf il = Ok Yfl.
Hypothesis EYt : rowsel Yt il = Ok Ytl.

Lemma covers x J Js : nx = length x -> jac_structure nb gen branch il nx None = Ok Js -> jac_g cis cabs D lim Ybus Yfl Ytl il None x = Ok J ->
  cov J Js /\ pos Js /\ Forall (fun e => erow e < nrows Js) (ents Js) /\ nrows J = nrows Js /\ ncols J = ncols Js /\ nrows Js = nb + nb + length il + length il /\ ncols Js = nx.
Proof.
  intros Nx HS HJ.
  unfold jac_structure in HS. step HS. destruct x0 as (Cb, Cl2). destruct (net_ok _ _ _ _ _ _ _ Ef Et E) as (PB & PL & B1 & B2 & L1 & L2 & IB & IL). destruct (net_wf _ _ E) as (WB & WL).
  step HS. rewrite Eg in E0. injection E0 as <-. step HS. pose proof (sparse_wf _ _ _ _ _ _ E0) as WG. pose proof (pos_sparse _ _ _ _ _ _ E0) as PG. destruct (sh_sparse _ _ _ _ _ _ E0) as (G1 & G2 & _). cbn zeta in HS.
  rename x0 into Cg.
  step HS. rename x0 into bb, E1 into Ebb. step HS. rename x0 into p2, E1 into Ep2. step HS. rename x0 into p, E1 into Ep. step HS. rename x0 into q2, E1 into Eq2. step HS. rename x0 into q, E1 into Eq.
  step HS. rename x0 into l1, E1 into El1. step HS. rename x0 into l, E1 into El. step HS. rename x0 into v1, E1 into Ev1. step HS. rename x0 into v2, E1 into Ev2. step HS. rename x0 into v3, E1 into Ev3. injection HS as <-.
  unfold jac_g in HJ. step HJ. destruct x0 as (((h, g), dh), dg). destruct dh as [dh|]; [|discriminate]. destruct dg as [dg|]; [|discriminate]. step HJ. injection HJ as <-. rename x0 into J, E2 into EJ.
  unfold opf_consfcn in E1. rewrite DG, DB, Dn in E1.
  step E1. rename x0 into gen1, E2 into Eg1. step E1. rename x0 into gen2, E2 into Eg2. step E1. clear E2. rename x0 into u1. step E1. rename x0 into V, E2 into EV. step E1. clear E2. rename x0 into u2. cbn zeta in E1.
  step E1. rename x0 into br, E2 into Ebr. step E1. rename x0 into ff, E2 into Eff. step E1. rename x0 into tt, E2 into Ett. step E1. clear E2. rename x0 into u3. step E1. clear E2. rename x0 into u4. step E1. clear E2. rename x0 into u5.
  step E1. destruct x0 as (dVm, dVa). rename E2 into EdV. step E1. rename E2 into Egb, x0 into gb. step E1. rename E2 into Eng, x0 into nCg.
  step E1. rename x0 into jp1, E2 into Ejp1. step E1. rename x0 into jp2, E2 into Ejp2. step E1. rename x0 into jp, E2 into Ejp.
  step E1. rename x0 into jq1, E2 into Ejq1. step E1. rename x0 into jq2, E2 into Ejq2. step E1. rename x0 into jq, E2 into Ejq. step E1. rename x0 into pq, E2 into Epq. cbn zeta in E1.
  destruct (Nat.eqb_spec (length il) 0) as [Z|Z]; [discriminate|].
  step E1. destruct x0 as (((((fa, fm), ta), tm), Ff), Ft). rename E2 into EdF. step E1. destruct x0 as (((da, dm), ea), em). rename E2 into EdA.
  step E1. rename x0 into hf, E2 into Ehf. step E1. rename x0 into ht, E2 into Eht. step E1. rename x0 into hh, E2 into Ehh. injection E1 as _ _ <- <-.
  (* shapes *)
  destruct (ybus_pos cis f t nb _ _ _ _ _ _ EY Ef Et Dn) as (SY & SF & ST).
  destruct (dSbus_pos cabs f t nb _ _ _ _ EdV SY) as (Sm & Sa).
  pose proof (sh_rowsel _ _ _ _ _ _ EYf SF) as SFl. pose proof (sh_rowsel _ _ _ _ _ _ EYt ST) as STl.
  assert (HF : forall k j, nth_error ff k = Some j -> at_end f t il k j).
  { intros k j Hk. destruct (ends_at _ _ _ _ Ebr Eff Ef k j Hk) as (l0 & A1 & A2). exists l0. split; auto. left. exact A2. }
  assert (HT : forall k j, nth_error tt k = Some j -> at_end f t il k j).
  { intros k j Hk. destruct (ends_at _ _ _ _ Ebr Ett Et k j Hk) as (l0 & A1 & A2). exists l0. split; auto. right. exact A2. }
  assert (S4 : shape fa (length il) nb (at_end f t il) /\ shape fm (length il) nb (at_end f t il) /\ shape ta (length il) nb (at_end f t il) /\ shape tm (length il) nb (at_end f t il) /\ length Ff = length il /\ length Ft = length il).
  { assert (SI : dIbr_dV cabs Yfl Ytl V = Ok (fa, fm, ta, tm, Ff, Ft) \/ dSbr_dV cabs br Yfl Ytl V = Ok (fa, fm, ta, tm, Ff, Ft)) by (destruct lim; auto).
    clear EdF. destruct SI as [EI|EI].
    - unfold dIbr_dV in EI. step EI. rename x0 into Vn, E1 into En. step EI. destruct x0 as ((a1, a2), a3). step EI. destruct x0 as ((b1, b2), b3). injection EI as -> -> -> -> -> ->.
      destruct (dIend_pos f t nb il _ _ _ _ _ _ E1 SFl (vnorm_len _ _ _ En)) as (? & ? & ?). destruct (dIend_pos f t nb il _ _ _ _ _ _ E2 STl (vnorm_len _ _ _ En)) as (? & ? & ?). auto 10.
    - unfold dSbr_dV in EI. rewrite Eff, Ett in EI. cbn [bind] in EI. step EI. rename x0 into Vn, E1 into En. step EI. destruct x0 as ((a1, a2), a3). step EI. destruct x0 as ((b1, b2), b3). injection EI as -> -> -> -> -> ->.
      destruct (dSend_pos f t nb il _ _ _ _ _ _ _ E1 SFl (vnorm_len _ _ _ En) HF) as (? & ? & ?). destruct (dSend_pos f t nb il _ _ _ _ _ _ _ E2 STl (vnorm_len _ _ _ En) HT) as (? & ? & ?). auto 10. }
  clear EdF. destruct S4 as (Sfa & Sfm & Sta & Stm & Lf & Lt).
  assert (S5 : shape da (length il) nb (at_end f t il) /\ shape dm (length il) nb (at_end f t il) /\ shape ea (length il) nb (at_end f t il) /\ shape em (length il) nb (at_end f t il)).
  { destruct lim.
    - eapply dAbr_pos; eauto.
    - eapply dAbr_pos; [exact EdA|apply sh_mapm, Sfa|apply sh_mapm, Sfm|apply sh_mapm, Sta|apply sh_mapm, Stm|rewrite map_length; auto|rewrite map_length; auto].
    - eapply dAbr_pos; eauto. }
  clear EdA. destruct S5 as (Sda & Sdm & Sea & Sem).
  assert (Q2 : gb = gbus).
  { apply idxcol_ok in Egb as (_ & _ & ->). pose proof Eg as Eg0. apply idxcol_ok in Eg0 as (_ & _ & ->). rewrite (setcol_keeps _ GEN_BUS _ _ _ Eg2), (setcol_keeps _ GEN_BUS _ _ _ Eg1) by discriminate. reflexivity. }
  subst gb.
  (* blocks *)
  assert (CB : forall (M : smat K), shape M nb nb (fun i j => i < nb /\ linked f t i j) -> cov M Cb) by (intros M S; eapply cov_shape; [exact S|intros i j (A1 & A2); apply IB; auto]).
  assert (CL : forall (M : smat K), shape M (length il) nb (at_end f t il) -> cov M Cl2) by (intros M S; eapply cov_shape; [exact S|intros i j (l0 & A1 & A2); eapply IL; eauto]).
  assert (CG : cov nCg Cg).
  { eapply cov_shape; [eapply sh_sparse, Eng|]. intros i j (k & A1 & A2). unfold sparse in E0. destruct (negb _); [discriminate|]. destruct (_ && _); [|discriminate]. injection E0 as <-. cbn [ents].
    apply (in_zip3 _ _ _ k); auto. rewrite repeat_length. rewrite <- (seq_length (length gen) 0). apply nth_error_Some. rewrite A2. discriminate. }
  pose proof (sh_mapm re _ _ _ _ Sa) as Sra. pose proof (sh_mapm re _ _ _ _ Sm) as Srm. pose proof (sh_mapm im _ _ _ _ Sa) as Sia. pose proof (sh_mapm im _ _ _ _ Sm) as Sim.
  pose proof (CB _ Sra) as C1. pose proof (CB _ Srm) as C2. pose proof (CB _ Sia) as C3. pose proof (CB _ Sim) as C4.
  destruct (sh_sparse _ _ _ _ _ _ Eng) as (N1 & N2 & _). destruct Sra as (D1 & D2 & _), Srm as (D3 & D4 & _), Sia as (D5 & D6 & _), Sim as (D7 & D8 & _).
  pose proof (hst_dims _ _ _ Ebb) as Hbb. pose proof (hst_dims _ _ _ Ep2) as Hp2. pose proof (hst_dims _ _ _ Ep) as Hp. pose proof (hst_dims _ _ _ Eq2) as Hq2. pose proof (hst_dims _ _ _ Eq) as Hq. pose proof (hst_dims _ _ _ El1) as Hl1. pose proof (hst_dims _ _ _ El) as Hl.
  pose proof (vst_dims _ _ _ Ev1) as Hv1. pose proof (vst_dims _ _ _ Ev2) as Hv2. pose proof (vst_dims _ _ _ Ev3) as Hv3.
  pose proof (hst_dims _ _ _ Ejp1) as Hjp1. pose proof (hst_dims _ _ _ Ejp2) as Hjp2. pose proof (hst_dims _ _ _ Ejp) as Hjp. pose proof (hst_dims _ _ _ Ejq1) as Hjq1. pose proof (hst_dims _ _ _ Ejq2) as Hjq2. pose proof (hst_dims _ _ _ Ejq) as Hjq.
  pose proof (vst_dims _ _ _ Epq) as Hpq. pose proof (hst_dims _ _ _ Ehf) as Hhf. pose proof (hst_dims _ _ _ Eht) as Hht. pose proof (vst_dims _ _ _ Ehh) as Hhh. pose proof (vst_dims _ _ _ EJ) as HJ.
  pose proof Sda as (K1 & K2 & _). pose proof Sdm as (K3 & K4 & _). pose proof Sea as (K5 & K6 & _). pose proof Sem as (K7 & K8 & _).
  cbn [nrows ncols] in Hp, Hq2, Hl, Hjp, Hjq2. unfold realm, imagm in *.
  assert (DJ : nrows J = nb + nb + (length il + length il) /\ ncols J = nx) by (cbn [nrows ncols transp widen] in HJ; lia).
  assert (Cp : cov jp p).
  { eapply cov_hstack; [exact Ejp|exact Ep|lia| |apply cov_nil]. eapply cov_hstack; [exact Ejp2|exact Ep2|lia| |exact CG]. eapply cov_hstack; [exact Ejp1|exact Ebb|lia|exact C1|exact C2]. }
  assert (Cq : cov jq q).
  { eapply cov_hstack; [exact Ejq|exact Eq|lia| |exact CG]. eapply cov_hstack; [exact Ejq2|exact Eq2|lia| |apply cov_nil]. eapply cov_hstack; [exact Ejq1|exact Ebb|lia|exact C3|exact C4]. }
  assert (Cf' : cov hf l).
  { eapply cov_left; [|exact El]. eapply cov_hstack; [exact Ehf|exact El1|lia|apply CL, Sda|apply CL, Sdm]. }
  assert (Ct' : cov ht l).
  { eapply cov_left; [|exact El]. eapply cov_hstack; [exact Eht|exact El1|lia|apply CL, Sea|apply CL, Sem]. }
  assert (Cv1 : cov pq v1) by (eapply cov_vstack; [exact Epq|exact Ev1|lia|exact Cp|exact Cq]).
  split; [|split; [|split; [|split; [|split; [|split]]]]]; try (cbn [widen nrows ncols]; lia).
  - intros e He. cbn [ents widen]. apply (in_vstack _ _ _ _ EJ) in He as [He|(e1 & H1 & ->)].
    + apply in_tt in He. cbn [ents widen] in He. destruct (Cv1 e He) as (e' & A1 & A2). exists e'. split; auto. apply (in_vstack _ _ _ _ Ev3). left. apply (in_vstack _ _ _ _ Ev2). left. exact A1.
    + apply in_tt in H1. cbn [ents widen] in H1. cbn [nrows transp widen ncols erow ecol]. apply (in_vstack _ _ _ _ Ehh) in H1 as [H1|(e2 & H1 & ->)].
      * destruct (Cf' _ H1) as (e' & A1 & A2 & A3). eexists. split; [apply (in_vstack _ _ _ _ Ev3); left; apply (in_vstack _ _ _ _ Ev2); right; exists e'; split; [exact A1|reflexivity]|]. cbn [erow ecol]. split; [lia|auto].
      * destruct (Ct' _ H1) as (e' & A1 & A2 & A3). eexists. split; [apply (in_vstack _ _ _ _ Ev3); right; exists e'; split; [exact A1|reflexivity]|]. cbn [erow ecol]. split; [lia|auto].
  - assert (PP : pos v3).
    { assert (Pl : pos l) by (eapply pos_hstack; [exact El| |apply pos_nil]; eapply pos_hstack; [exact El1|exact PL|exact PL]).
      assert (Pb : pos bb) by (eapply pos_hstack; [exact Ebb|exact PB|exact PB]).
      eapply pos_vstack; [exact Ev3| |exact Pl]. eapply pos_vstack; [exact Ev2| |exact Pl]. eapply pos_vstack; [exact Ev1| |].
      - eapply pos_hstack; [exact Ep| |apply pos_nil]. eapply pos_hstack; [exact Ep2|exact Pb|exact PG].
      - eapply pos_hstack; [exact Eq| |exact PG]. eapply pos_hstack; [exact Eq2|exact Pb|apply pos_nil]. }
    exact PP.
  - assert (PP : wf v3).
    { assert (Pl : wf l) by (eapply wf_hstackm; [|apply wf_none|exact El]; eapply wf_hstackm; [exact WL|exact WL|exact El1]).
      assert (Pb : wf bb) by (eapply wf_hstackm; [exact WB|exact WB|exact Ebb]).
      eapply wf_vstackm; [|exact Pl|exact Ev3]. eapply wf_vstackm; [|exact Pl|exact Ev2]. eapply wf_vstackm; [| |exact Ev1].
      - eapply wf_hstackm; [|apply wf_none|exact Ep]. eapply wf_hstackm; [exact Pb|exact WG|exact Ep2].
      - eapply wf_hstackm; [|exact WG|exact Eq]. eapply wf_hstackm; [exact Pb|apply wf_none|exact Eq2]. }
    unfold wf in PP. eapply Forall_impl; [|exact PP]. intros e (A1 & _). exact A1.
Qed.
End Cover.
