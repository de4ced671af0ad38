(** C23-C25, C48: derivatives of injections, branch flows and currents. *)
From Coq Require Import Reals Lra.
From Verif Require Import Lib.ListFacts Spec.AcDeriv Spec.NetSpec Model.Derivs Proofs.LinAlgFacts
  Proofs.SparseFacts Proofs.FldFacts Proofs.NetworkA Proofs.NetworkC Proofs.YbusA Proofs.MatFacts Proofs.DerivA
  Proofs.DerivR Proofs.DerivS.
Local Open Scope nat_scope.
Add Ring CRR : (@r_ok CR _).

Lemma shaped_ismat {K} {R : Rng K} (M : smat K) nr nc : shaped M nr nc -> ismat M nr nc (at_ M).
Proof. intros (<- & <- & H). repeat split; auto. Qed.
Lemma ismat_shaped {K} {R : Rng K} (M : smat K) nr nc f : ismat M nr nc f -> shaped M nr nc.
Proof. intros (W & <- & <- & _). repeat split; auto. Qed.

Lemma partial_ext c k f g s d : (forall s', f s' = g s') -> partial c k f s d -> partial c k g s d.
Proof. intros E. apply cd_ext. intros; apply E. Qed.
Lemma partial_eq c k f s d d' : partial c k f s d -> d = d' -> partial c k f s d'.
Proof. intros H <-; auto. Qed.
Lemma partial2_ext n c k c' m f g s d :
  (forall s', f s' = g s') -> partial2 n c k c' m f s d -> partial2 n c k c' m g s d.
Proof.
  intros E (h & H1 & H2). exists h; split; auto. intros s' O. eapply partial_ext; eauto.
Qed.
Lemma partial2_eq n c k c' m f s d d' : partial2 n c k c' m f s d -> d = d' -> partial2 n c k c' m f s d'.
Proof. intros H <-; auto. Qed.
Lemma partial_unique c k f s d d' : partial c k f s d -> partial c k f s d' -> d = d'.
Proof.
  intros [A B] [C D]. apply cpx_eq; eapply uniqueness_limite; eassumption.
Qed.

(** [power] as a row of the general form *)
Definition pick (f : nat -> nat) (l m : nat) : CR := delta (f l) m 1%K.
Lemma power_prow n (Y : smat CR) f l s : ncols Y = n -> f l < n ->
  power Y (f l) l s = prow n (pick f) (at_ Y) l s.
Proof.
  intros <- H. unfold power, prow, pick. rewrite lin_pick by auto. reflexivity.
Qed.
Lemma dprow_pick n (Y : smat CR) f l co k s : f l < n ->
  dprow n (pick f) (at_ Y) l co k s
  = (delta (f l) k (dv co k s) * conj (lin n (at_ Y) (vv (volt s)) l)
     + vv (volt s) (f l) * conj (at_ Y l k * dv co k s))%K.
Proof.
  intros H. unfold dprow, pick. rewrite lin_pick by auto. unfold delta.
  destruct (f l =? k); ring.
Qed.

(** ** C23: dSbus_dV *)
Theorem C23_bus_injections (Y : smat CR) (n : nat) (s : state) :
  0 < n -> shaped Y n n -> ok n s ->
  exists dVm dVa, dSbus_dV cabsR Y (volt s) = Ok (dVm, dVa) /\ shaped dVm n n /\ shaped dVa n n /\
    forall i k, i < n -> k < n ->
      partial Mag k (power Y i i) s (at_ dVm i k) /\ partial Ang k (power Y i i) s (at_ dVa i k).
Proof.
  intros P SY OK. pose proof (shaped_ismat Y n n SY) as HY.
  destruct (dSbus_entries cabsR n Y (at_ Y) (volt s) P HY (ok_len n s OK) (nz_volt n s OK))
    as (dm & da & E & Hm & Ha).
  exists dm, da. split; auto. split; [eapply ismat_shaped; eauto|].
  split; [eapply ismat_shaped; eauto|]. intros i k Hi Hk. destruct OK as (A & B & OK').
  destruct SY as (_ & SC & _).
  split; (eapply partial_ext;
    [intros s'; symmetry; apply (power_prow n Y (fun l => l) i s' SC Hi)|]);
    (eapply partial_eq; [apply (partial_prow n s A B (pick (fun l => l)) (at_ Y) i _ k Hk)|]);
    rewrite dprow_pick by auto.
  - destruct Hm as (_ & _ & _ & Hm). rewrite Hm by auto. cbn [dv].
    rewrite (vn_uv n) by (repeat split; auto). unfold delta. destruct (i =? k); ring.
  - destruct Ha as (_ & _ & _ & Ha). rewrite Ha by auto. cbn [dv].
    rewrite conj_sub, !conj_mul, conj_jj. unfold delta. rewrite conj_if.
    destruct (Nat.eqb_spec i k) as [<-|]; ring.
Qed.

(** ** C24: dSbr_dV, dIbr_dV, dAbr_dV *)
Section C24.
Variables (n : nat) (s : state).
Hypothesis P : 0 < n.
Hypothesis OK : ok n s.

(** what it means for a pair of matrices to hold the derivatives of [nl] quantities *)
Definition first_derivs (nl : nat) (q : nat -> state -> CR) (dVa dVm : smat CR) : Prop :=
  shaped dVa nl n /\ shaped dVm nl n /\
  forall l k, l < nl -> k < n ->
    partial Ang k (q l) s (at_ dVa l k) /\ partial Mag k (q l) s (at_ dVm l k).
Definition values (nl : nat) (q : nat -> state -> CR) (S : list CR) : Prop :=
  length S = nl /\ forall l, l < nl -> nth l S 0%K = q l s.

Lemma end_flow nl (f : list nat) (Y : smat CR) :
  0 < nl -> shaped Y nl n -> length f = nl -> Forall (fun i => i < n) f ->
  exists da dm S,
    dSend_dV f Y (volt s) (map (fun z => cdiv z (ofK (cabsR z))) (volt s)) = Ok (da, dm, S) /\
    first_derivs nl (fun l => power Y (nth l f 0) l) da dm /\
    values nl (fun l => power Y (nth l f 0) l) S.
Proof.
  intros Pl SY Lf Bf. pose proof (shaped_ismat Y nl n SY) as HY.
  destruct (dSend_entries cabsR nl n f Y (at_ Y) (volt s) P Pl HY (ok_len n s OK) Lf Bf)
    as (da & dm & S & E & Ha & Hm & LS & HS).
  destruct SY as (_ & SC & _).
  assert (Bl : forall l, l < nl -> nth l f 0 < n).
  { intros l Hl. rewrite Forall_forall in Bf. apply Bf, nth_In. lia. }
  exists da, dm, S. split; auto. split; [split; [eapply ismat_shaped; eauto|]; split;
    [eapply ismat_shaped; eauto|]|].
  - intros l k Hl Hk. destruct OK as (A & B & OK').
    split; (eapply partial_ext;
      [intros s'; symmetry; apply (power_prow n Y (fun l => nth l f 0) l s' SC (Bl l Hl))|]);
      (eapply partial_eq; [apply (partial_prow n s A B (pick (fun l => nth l f 0)) (at_ Y) l _ k Hk)|]);
      rewrite dprow_pick by (apply Bl; auto).
    + destruct Ha as (_ & _ & _ & Ha). rewrite Ha by auto. unfold fr. cbn [dv].
      rewrite !conj_mul, conj_jj. unfold delta.
      destruct (nth l f 0 =? k); ring.
    + destruct Hm as (_ & _ & _ & Hm). rewrite Hm by auto. unfold fr. cbn [dv].
      rewrite (vn_uv n) by (repeat split; auto). ring.
  - split; auto. intros l Hl. rewrite (power_prow n Y (fun l => nth l f 0) l s SC (Bl l Hl)).
    unfold prow, pick. rewrite lin_pick by (apply Bl; auto). apply HS; auto.
Qed.

Theorem C24_flows (branch : list (list R)) (Yf Yt : smat CR) :
  0 < length branch -> wide T_BUS branch ->
  buses_ok n F_BUS branch -> buses_ok n T_BUS branch ->
  shaped Yf (length branch) n -> shaped Yt (length branch) n ->
  exists fa fm ta tm Sf St,
    dSbr_dV cabsR branch Yf Yt (volt s) = Ok (fa, fm, ta, tm, Sf, St) /\
    let flow Y j l := power Y (bus_no (nth l branch []) j) l in
    first_derivs (length branch) (flow Yf F_BUS) fa fm /\ values (length branch) (flow Yf F_BUS) Sf /\
    first_derivs (length branch) (flow Yt T_BUS) ta tm /\ values (length branch) (flow Yt T_BUS) St.
Proof.
  intros Pl W HF HT SF ST. unfold dSbr_dV, wide, buses_ok in *.
  rewrite !idxcol_def; cbn [bind].
  2-5: first [eapply Forall_impl; [|exact HF]; simpl; tauto
             |eapply Forall_impl; [|exact HT]; simpl; tauto
             |eapply Forall_impl; [|exact W]; unfold T_BUS, F_BUS; simpl; intros; lia].
  rewrite (vnorm_def cabsR (volt s) (nz_volt n s OK)). cbn [bind].
  assert (N : forall j l, l < length branch -> nth l (map (fun r => bus_no r j) branch) 0
            = bus_no (nth l branch []) j).
  { intros j l Hl. apply (nth_map_lt (fun r => bus_no r j)); auto. }
  destruct (end_flow (length branch) (map (fun r => bus_no r F_BUS) branch) Yf)
    as (fa & fm & Sf & Ef & [D1 [D2 D3]] & [V1 V2]); auto.
  { apply map_length. }
  { apply Forall_map. eapply Forall_impl; [|exact HF]. simpl; tauto. }
  rewrite Ef. cbn [bind].
  destruct (end_flow (length branch) (map (fun r => bus_no r T_BUS) branch) Yt)
    as (ta & tm & St & Et & [D4 [D5 D6]] & [V3 V4]); auto.
  { apply map_length. }
  { apply Forall_map. eapply Forall_impl; [|exact HT]. simpl; tauto. }
  rewrite Et. cbn [bind].
  do 6 eexists. split; [reflexivity|]. cbv zeta.
  split; [|split; [|split]]; unfold first_derivs, values.
  - split; auto. split; auto. intros l k Hl Hk. rewrite <- N by auto. apply D3; auto.
  - split; auto. intros l Hl. rewrite <- N by auto. apply V2; auto.
  - split; auto. split; auto. intros l k Hl Hk. rewrite <- N by auto. apply D6; auto.
  - split; auto. intros l Hl. rewrite <- N by auto. apply V4; auto.
Qed.

Theorem C24_currents nl (Yf Yt : smat CR) : 0 < nl -> shaped Yf nl n -> shaped Yt nl n ->
  exists fa fm ta tm If It,
    dIbr_dV cabsR Yf Yt (volt s) = Ok (fa, fm, ta, tm, If, It) /\
    first_derivs nl (current Yf) fa fm /\ values nl (current Yf) If /\
    first_derivs nl (current Yt) ta tm /\ values nl (current Yt) It.
Proof.
  intros Pl SF ST. unfold dIbr_dV. rewrite (vnorm_def cabsR (volt s) (nz_volt n s OK)). cbn [bind].
  assert (X : forall Y, shaped Y nl n -> exists da dm I,
    dIend_dV Y (volt s) (map (fun z => cdiv z (ofK (cabsR z))) (volt s)) = Ok (da, dm, I) /\
    first_derivs nl (current Y) da dm /\ values nl (current Y) I).
  { intros Y SY. pose proof (shaped_ismat Y nl n SY) as HY.
    destruct (dIend_entries cabsR nl n Y (at_ Y) (volt s) P HY (ok_len n s OK))
      as (da & dm & I & E & Ha & Hm & LI & HI).
    destruct SY as (_ & SC & _).
    assert (EC : forall l s', current Y l s' = lin n (at_ Y) (vv (volt s')) l).
    { intros l s'. unfold current. rewrite SC. reflexivity. }
    exists da, dm, I. split; auto. split; [split; [eapply ismat_shaped; eauto|]; split;
      [eapply ismat_shaped; eauto|]|].
    - intros l k Hl Hk. destruct OK as (A & B & OK').
      split; (eapply partial_ext; [intros s'; symmetry; apply EC|]);
        (eapply partial_eq; [apply (partial_lin n s A B _ k (at_ Y) l Hk)|]).
      + destruct Ha as (_ & _ & _ & Ha). rewrite Ha by auto. cbn [dv]. ring.
      + destruct Hm as (_ & _ & _ & Hm). rewrite Hm by auto. cbn [dv].
        rewrite (vn_uv n) by (repeat split; auto). ring.
    - split; auto. intros l Hl. rewrite EC. apply HI; auto. }
  destruct (X Yf SF) as (fa & fm & If & Ef & Df & Vf). rewrite Ef. cbn [bind].
  destruct (X Yt ST) as (ta & tm & It & Et & Dt & Vt). rewrite Et. cbn [bind].
  do 6 eexists. split; [reflexivity|]. auto.
Qed.

(** squared magnitudes of any quantities whose first derivatives are given *)
Definition sq_derivs (nl : nat) (q : nat -> state -> CR) (dVa dVm : smat R) : Prop :=
  shaped dVa nl n /\ shaped dVm nl n /\
  forall l k, l < nl -> k < n ->
    partialR Ang k (fun s' => nrm2 (q l s')) s (at_ dVa l k) /\
    partialR Mag k (fun s' => nrm2 (q l s')) s (at_ dVm l k).

Theorem C24_squared nl qf qt fa fm ta tm Sf St : 0 < nl ->
  first_derivs nl qf fa fm -> values nl qf Sf ->
  first_derivs nl qt ta tm -> values nl qt St ->
  exists Afa Afm Ata Atm, dAbr_dV fa fm ta tm Sf St = Ok (Afa, Afm, Ata, Atm) /\
    sq_derivs nl qf Afa Afm /\ sq_derivs nl qt Ata Atm.
Proof.
  intros Pl (F1 & F2 & F3) (L1 & F4) (T1 & T2 & T3) (L2 & T4). unfold dAbr_dV.
  assert (X : forall q S d co, shaped d nl n -> length S = nl ->
     (forall l, l < nl -> nth l S 0%K = q l s) ->
     (forall l k, l < nl -> k < n -> partial co k (q l) s (at_ d l k)) ->
     exists M, dAend d S = Ok M /\ shaped M nl n /\
       forall l k, l < nl -> k < n -> partialR co k (fun s' => nrm2 (q l s')) s (at_ M l k)).
  { intros q S d co Sd LS HS Hd.
    destruct (dAend_entries nl n d (at_ d) S Pl (shaped_ismat _ _ _ Sd) LS) as (M & E & HM).
    exists M. split; auto. split; [eapply ismat_shaped; eauto|].
    intros l k Hl Hk. destruct HM as (_ & _ & _ & HM). rewrite HM by auto.
    unfold partialR. eapply dl_eq; [apply nrm2_cd; apply (Hd l k Hl Hk)|]. cbv beta.
    rewrite coord_same. unfold vv. rewrite HS by auto. cbn. ring. }
  destruct (X qf Sf fa Ang) as (a & Ea & Sa & Ha); auto. { intros; apply F3; auto. }
  destruct (X qt St ta Ang) as (b & Eb & Sb & Hb); auto. { intros; apply T3; auto. }
  destruct (X qf Sf fm Mag) as (c & Ec & Sc & Hc); auto. { intros; apply F3; auto. }
  destruct (X qt St tm Mag) as (d & Ed & Sd & Hd); auto. { intros; apply T3; auto. }
  rewrite Ea. cbn [bind]. rewrite Eb. cbn [bind]. rewrite Ec. cbn [bind]. rewrite Ed. cbn [bind].
  do 4 eexists. split; [reflexivity|]. repeat split; try apply Sa; try apply Sb; try apply Sc;
    try apply Sd; auto.
Qed.

(** ** C25: second derivatives *)
Definition second_derivs (f : state -> CR) (Haa Hav Hva Hvv : smat CR) : Prop :=
  shaped Haa n n /\ shaped Hav n n /\ shaped Hva n n /\ shaped Hvv n n /\
  forall k m, k < n -> m < n ->
    partial2 n Ang k Ang m f s (at_ Haa k m) /\ partial2 n Ang k Mag m f s (at_ Hav k m) /\
    partial2 n Mag k Ang m f s (at_ Hva k m) /\ partial2 n Mag k Mag m f s (at_ Hvv k m).

Lemma weighted_ext lam nl f g s' : (forall l, l < nl -> f l s' = g l s') ->
  weighted lam nl f s' = weighted lam nl g s'.
Proof.
  intros H. apply lsum_ext. intros l Hl. apply in_seq in Hl. rewrite H; auto. lia.
Qed.

(** the entries of the branch Hessian are those of the general quadratic form *)
Lemma quad_derivs nl c y lam Haa Hav Hva Hvv (V := volt s) (vi := vi cabsR (volt s)) :
  ismat Haa n n (fun k m => eB nl c y V lam k m + eB nl c y V lam m k
                  - eD nl n c y V lam k m - eG nl n c y V lam k m)%K ->
  ismat Hav n n (fun k m => jj * vi m * (eB nl c y V lam m k - eB nl c y V lam k m
                  - eD nl n c y V lam m k + eG nl n c y V lam m k))%K ->
  ismat Hva n n (fun k m => jj * vi k * (eB nl c y V lam k m - eB nl c y V lam m k
                  - eD nl n c y V lam k m + eG nl n c y V lam k m))%K ->
  ismat Hvv n n (fun k m => vi k * (eB nl c y V lam k m + eB nl c y V lam m k) * vi m)%K ->
  second_derivs (weighted lam nl (prow n c y)) Haa Hav Hva Hvv.
Proof.
  intros H1 H2 H3 H4. split; [eapply ismat_shaped; eauto|]. split; [eapply ismat_shaped; eauto|].
  split; [eapply ismat_shaped; eauto|]. split; [eapply ismat_shaped; eauto|].
  destruct H1 as (_ & _ & _ & H1). destruct H2 as (_ & _ & _ & H2).
  destruct H3 as (_ & _ & _ & H3). destruct H4 as (_ & _ & _ & H4).
  intros k m Hk Hm. rewrite H1, H2, H3, H4 by auto.
  split; [|split; [|split]]; (eapply partial2_eq; [apply (quad_second nl n c y lam s); auto|]).
  - apply (quad_AA nl n c y lam s); auto.
  - apply (quad_AM nl n c y lam s OK); auto.
  - apply (quad_MA nl n c y lam s OK); auto.
  - apply (quad_MM nl n c y lam s OK); auto.
Qed.

Lemma second_ext f g Haa Hav Hva Hvv : (forall s', f s' = g s') ->
  second_derivs f Haa Hav Hva Hvv -> second_derivs g Haa Hav Hva Hvv.
Proof.
  intros E (A & B & C & D & H). do 4 (split; auto). intros k m Hk Hm.
  destruct (H k m Hk Hm) as (H1 & H2 & H3 & H4).
  split; [|split; [|split]]; eapply partial2_ext; eauto.
Qed.

Theorem C25_branch_flows nl (f : nat -> nat) (C Y : smat CR) (lam : list CR) :
  0 < nl -> shaped C nl n -> shaped Y nl n -> length lam = nl ->
  (forall l, l < nl -> f l < n) ->
  (forall l m, l < nl -> m < n -> at_ C l m = (if f l =? m then 1 else 0)%K) ->
  exists Haa Hav Hva Hvv, d2Sbr_dV2 cabsR C Y (volt s) lam = Ok (Haa, Hav, Hva, Hvv) /\
    second_derivs (weighted lam nl (fun l => power Y (f l) l)) Haa Hav Hva Hvv.
Proof.
  intros Pl SC SY LL Bf HC.
  assert (HC' : ismat C nl n (pick f)).
  { eapply ismat_eq; [apply shaped_ismat; exact SC|]. intros l m Hl Hm. apply HC; auto. }
  destruct (d2Sbr_entries cabsR nl n C Y (pick f) (at_ Y) (volt s) lam P Pl HC'
    (shaped_ismat _ _ _ SY) (ok_len n s OK) (nz_volt n s OK) LL)
    as (Haa & Hav & Hva & Hvv & E & H1 & H2 & H3 & H4).
  exists Haa, Hav, Hva, Hvv. split; auto.
  eapply second_ext; [|eapply quad_derivs; [exact H1|exact H2|exact H3|exact H4]].
  intros s'. apply weighted_ext. intros l Hl. symmetry. apply power_prow; auto. apply SY.
Qed.

Lemma eA_pick y lam k m : m < n -> eA n (pick (fun l => l)) y lam k m = (conj (y m k) * vv lam m)%K.
Proof.
  intros Hm. unfold eA, pick, delta.
  rewrite (lsum_ext _ (fun l => if m =? l then conj (y l k) * vv lam l else 0)%K).
  - apply (lsum_seq_single' (fun l => conj (y l k) * vv lam l)%K); auto.
  - intros l _. rewrite (Nat.eqb_sym m l). destruct (l =? m); ring.
Qed.

Theorem C25_bus_injections (Y : smat CR) (lam : list CR) : shaped Y n n -> length lam = n ->
  exists Gaa Gav Gva Gvv, d2Sbus_dV2 cabsR Y (volt s) lam = Ok (Gaa, Gav, Gva, Gvv) /\
    second_derivs (weighted lam n (fun i => power Y i i)) Gaa Gav Gva Gvv.
Proof.
  intros SY LL.
  destruct (d2Sbus_entries cabsR n Y (at_ Y) (volt s) P (shaped_ismat _ _ _ SY) (ok_len n s OK)
    (nz_volt n s OK) lam LL) as (Gaa & Gav & Gva & Gvv & E & H1 & H2 & H3 & H4).
  exists Gaa, Gav, Gva, Gvv. split; auto.
  set (y := at_ Y) in *. set (c := pick (fun l => l)). set (V := volt s) in *.
  assert (EC : forall k m, k < n -> m < n -> eC y V lam k m = eB n c y V lam m k).
  { intros k m Hk Hm. unfold eC, eB, c. rewrite eA_pick by auto. rewrite conj_mul. ring. }
  assert (EE : forall k m, k < n -> m < n -> eE n y V lam k m = (eB n c y V lam k m - eD n n c y V lam k m)%K).
  { intros k m Hk Hm. unfold eE, eB, eD, c. rewrite eA_pick by auto. unfold delta.
    destruct (k =? m).
    - rewrite (lsum_ext (fun i => eA n (pick (fun l => l)) y lam k i * vv V i)%K
        (fun i => conj (y i k) * vv V i * vv lam i)%K).
      + ring.
      + intros i Hi. apply in_seq in Hi. rewrite eA_pick by lia. ring.
    - ring. }
  assert (EF : forall k m, k < n -> m < n -> eF n y V lam k m = (eB n c y V lam m k - eG n n c y V lam k m)%K).
  { intros k m Hk Hm. unfold eF. rewrite EC by auto. f_equal. unfold eG, delta.
    destruct (Nat.eqb_spec k m) as [<-|]; auto. unfold lin. rewrite conj_lsum.
    rewrite <- lsum_scal, <- lsum_scal_r. apply lsum_ext. intros i Hi.
    unfold c. rewrite eA_pick by auto. rewrite conj_mul. ring. }
  eapply second_ext.
  2: eapply (quad_derivs n c y lam).
  - intros s'. apply weighted_ext. intros l Hl. symmetry.
    apply (power_prow n Y (fun l => l) l s'); auto. apply SY.
  - eapply ismat_eq; [exact H1|]. intros k m Hk Hm; cbv beta. rewrite EE, EF by auto. fold V. ring.
  - eapply ismat_eq; [exact H2|]. intros k m Hk Hm; cbv beta. rewrite EE, EF by auto. fold V. ring.
  - eapply ismat_eq; [exact H3|]. intros k m Hk Hm; cbv beta. rewrite EE, EF by auto. fold V. ring.
  - eapply ismat_eq; [exact H4|]. intros k m Hk Hm; cbv beta. rewrite !EC by auto. fold V. ring.
Qed.

Theorem C25_branch_currents nl (Y : smat CR) (lam : list CR) :
  0 < nl -> shaped Y nl n -> length lam = nl ->
  exists Haa Hav Hva Hvv, d2Ibr_dV2 cabsR Y (volt s) lam = Ok (Haa, Hav, Hva, Hvv) /\
    second_derivs (weighted lam nl (current Y)) Haa Hav Hva Hvv.
Proof.
  intros Pl SY LL.
  destruct (d2Ibr_entries cabsR nl n Y (at_ Y) (volt s) lam P Pl (shaped_ismat _ _ _ SY)
    (ok_len n s OK) (nz_volt n s OK) LL)
    as (Haa & Hav & Hva & Hvv & E & H1 & H2 & H3 & H4).
  exists Haa, Hav, Hva, Hvv. split; auto.
  apply (second_ext (weighted lam nl (fun l s' => lin n (at_ Y) (vv (volt s')) l))).
  { intros s'. apply weighted_ext. intros l Hl. unfold current. destruct SY as (_ & -> & _). reflexivity. }
  split; [eapply ismat_shaped; eauto|]. split; [eapply ismat_shaped; eauto|].
  split; [eapply ismat_shaped; eauto|]. split; [eapply ismat_shaped; eauto|].
  destruct H1 as (_ & _ & _ & H1). destruct H2 as (_ & _ & _ & H2).
  destruct H3 as (_ & _ & _ & H3). destruct H4 as (_ & _ & _ & H4).
  intros k m Hk Hm. rewrite H1, H2, H3, H4 by auto.
  split; [|split; [|split]]; (eapply partial2_eq; [apply (lin_second nl n (at_ Y) lam s OK); auto|]);
    unfold delta; destruct (k =? m); auto; unfold ddv; rewrite <- ?(vi_uv n s OK k Hk); ring.
Qed.

(** ** C48: squared magnitudes *)
Definition second_derivsR (f : state -> R) (Haa Hav Hva Hvv : smat R) : Prop :=
  shaped Haa n n /\ shaped Hav n n /\ shaped Hva n n /\ shaped Hvv n n /\
  forall k m, k < n -> m < n ->
    partial2R n Ang k Ang m f s (at_ Haa k m) /\ partial2R n Ang k Mag m f s (at_ Hav k m) /\
    partial2R n Mag k Ang m f s (at_ Hva k m) /\ partial2R n Mag k Mag m f s (at_ Hvv k m).

Lemma partial2R_ext c k c' m f g d :
  (forall s', f s' = g s') -> partial2R n c k c' m f s d -> partial2R n c k c' m g s d.
Proof.
  intros E (h & H1 & H2). exists h; split; auto. intros s' O. unfold partialR.
  eapply dl_ext; [|apply (H1 s' O)]. intros; apply E.
Qed.
Lemma partial2R_eq c k c' m f d d' :
  partial2R n c k c' m f s d -> d = d' -> partial2R n c k c' m f s d'.
Proof. intros H <-; auto. Qed.

Lemma nth_map_ofK (lam : list R) l : nth l (map ofK lam) (@r0 CR _) = ofK (nth l lam 0%R).
Proof. apply (map_nth ofK lam 0%R l). Qed.

Theorem C48_squared_flows nl (f : nat -> nat) (C Y : smat CR) (lam : list R) dVa dVm Sbr :
  0 < nl -> shaped C nl n -> shaped Y nl n -> length lam = nl ->
  (forall l, l < nl -> f l < n) ->
  (forall l m, l < nl -> m < n -> at_ C l m = (if f l =? m then 1 else 0)%K) ->
  first_derivs nl (fun l => power Y (f l) l) dVa dVm -> values nl (fun l => power Y (f l) l) Sbr ->
  exists Haa Hav Hva Hvv,
    d2ASbr_dV2 cabsR dVa dVm Sbr C Y (volt s) (map ofK lam) = Ok (Haa, Hav, Hva, Hvv) /\
    second_derivsR (weightedR lam nl (fun l s' => nrm2 (power Y (f l) l s'))) Haa Hav Hva Hvv.
Proof.
  intros Pl SC SY LL Bf HC (D1 & D2 & D3) (LS & HS). unfold d2ASbr_dV2.
  assert (HC' : ismat C nl n (pick f)).
  { eapply ismat_eq; [apply shaped_ismat; exact SC|]. intros l m Hl Hm. apply HC; auto. }
  assert (LL' : length (map ofK lam) = nl) by (rewrite map_length; auto).
  assert (LcS : length (map conj Sbr) = nl) by (rewrite map_length; auto).
  destruct (ismat_diag (map ofK lam) nl LL' Pl) as (dl & Edl & Hdl). rewrite Edl. cbn [bind].
  destruct (ismat_diag (map conj Sbr) nl LcS Pl) as (dS & EdS & HdS). rewrite EdS. cbn [bind].
  destruct (ismat_mulv dS nl nl _ (map ofK lam) HdS LL') as (sl & Esl & Lsl & Hsl).
  rewrite Esl. cbn [bind].
  set (y := at_ Y) in *. set (c := pick f) in *.
  assert (Q : forall l s', l < nl -> power Y (f l) l s' = prow n c y l s').
  { intros l s' Hl. apply power_prow; auto. apply SY. }
  assert (Vsl : forall l, l < nl -> nth l sl 0%K = (nth l (map ofK lam) 0 * conj (prow n c y l s))%K).
  { intros l Hl. rewrite Hsl by auto.
    rewrite (lsum_ext _ (fun k => if l =? k then nth l (map ofK lam) 0 * conj (prow n c y l s) else 0)%K).
    - apply (lsum_seq_single' (fun _ => nth l (map ofK lam) 0 * conj (prow n c y l s))%K); auto.
    - intros k _. destruct (Nat.eqb_spec l k) as [<-|]; [|ring].
      rewrite nth_conj, HS, Q by auto. ring. }
  destruct (d2Sbr_entries cabsR nl n C Y c y (volt s) sl P Pl HC'
    (shaped_ismat _ _ _ SY) (ok_len n s OK) (nz_volt n s OK) Lsl)
    as (Saa & Sav & Sva & Svv & E & H1 & H2 & H3 & H4).
  rewrite E. cbn [bind].
  assert (Ia : ismat dVa nl n (fun l k => dprow n c y l Ang k s)).
  { eapply ismat_eq; [apply shaped_ismat; exact D1|]. intros l k Hl Hk. cbv beta.
    destruct OK as (A & B & _). destruct (D3 l k Hl Hk) as [D _].
    eapply partial_unique; [exact D|]. eapply partial_ext; [intros; symmetry; apply Q; auto|].
    apply (partial_prow n s A B); auto. }
  assert (Im : ismat dVm nl n (fun l k => dprow n c y l Mag k s)).
  { eapply ismat_eq; [apply shaped_ismat; exact D2|]. intros l k Hl Hk. cbv beta.
    destruct OK as (A & B & _). destruct (D3 l k Hl Hk) as [_ D].
    eapply partial_unique; [exact D|]. eapply partial_ext; [intros; symmetry; apply Q; auto|].
    apply (partial_prow n s A B); auto. }
  destruct (sq_entries nl n Saa dVa dVa dl _ _ _ (map ofK lam) Pl LL' H1 Ia Ia Hdl)
    as (Haa & Eaa & Xaa). rewrite Eaa. cbn [bind].
  destruct (sq_entries nl n Sva dVm dVa dl _ _ _ (map ofK lam) Pl LL' H3 Im Ia Hdl)
    as (Hva & Eva & Xva). rewrite Eva. cbn [bind].
  destruct (sq_entries nl n Sav dVa dVm dl _ _ _ (map ofK lam) Pl LL' H2 Ia Im Hdl)
    as (Hav & Eav & Xav). rewrite Eav. cbn [bind].
  destruct (sq_entries nl n Svv dVm dVm dl _ _ _ (map ofK lam) Pl LL' H4 Im Im Hdl)
    as (Hvv & Evv & Xvv). rewrite Evv. cbn [bind].
  exists Haa, Hav, Hva, Hvv. split; [reflexivity|].
  split; [eapply ismat_shaped; eauto|]. split; [eapply ismat_shaped; eauto|].
  split; [eapply ismat_shaped; eauto|]. split; [eapply ismat_shaped; eauto|].
  destruct Xaa as (_ & _ & _ & Xaa). destruct Xav as (_ & _ & _ & Xav).
  destruct Xva as (_ & _ & _ & Xva). destruct Xvv as (_ & _ & _ & Xvv).
  intros k m Hk Hm. rewrite Xaa, Xav, Xva, Xvv by auto.
  assert (T : forall co k co' m h, k < n -> m < n -> h = dsum nl n c y sl s co k co' m ->
    partial2R n co k co' m (weightedR lam nl (fun l s' => nrm2 (power Y (f l) l s'))) s
      (fofZ 2 * re (h + lsum (fun l => dprow n c y l co k s * vv (map ofK lam) l
                                       * conj (dprow n c y l co' m s)) (seq 0 nl)))%K).
  { clear - OK Q Vsl. intros co k co' m h Hk Hm ->.
    apply (partial2R_ext _ _ _ _ (weightedR lam nl (fun l s' => nrm2 (prow n c y l s')))).
    { intros s'. apply lsum_ext. intros l Hl. apply in_seq in Hl. rewrite Q by lia. reflexivity. }
    eapply partial2R_eq.
    { apply (sq_second nl n lam (prow n c y) co co' k m s (fun l => dprow n c y l co k)
        (fun l => dprow n c y l co' m s) (fun l => ddprow n c y l co k co' m s)).
      - intros l s' (A & B & _). apply partial_prow; auto.
      - intros l. destruct OK as (A & B & _). apply partial_prow; auto.
      - intros l. destruct OK as (A & B & _). apply partial_dprow; auto. }
    cbn [fofZ R_fld]. unfold dsum. rewrite <- lsum_add.
    apply (f_equal (fun z : CR => (2 * re z)%R)). apply lsum_ext. intros l Hl.
    apply in_seq in Hl. rewrite Vsl by lia. unfold vv. ring. }
  split; [|split; [|split]]; apply T; auto; symmetry.
  - apply quad_AA; auto.
  - apply quad_AM; auto.
  - apply quad_MA; auto.
  - apply quad_MM; auto.
Qed.

(** the same call with real parts of the flows and of their derivatives: squared active flows *)
Definition rpart (z : CR) : CR := ofK (re z).
Lemma partial_rpart c k (f : state -> CR) s' d : partial c k f s' d -> partial c k (fun t => rpart (f t)) s' (rpart d).
Proof. intros [A _]. split; [exact A|]. apply derivable_pt_lim_const. Qed.
Lemma rpart_mul a (b : CR) : rpart (ofK a * b)%K = (ofK a * rpart b)%K.
Proof. destruct b as (b1, b2). apply cpx_eq; cbn; ring. Qed.
Theorem C48_squared_active nl (f : nat -> nat) (C Y : smat CR) (lam : list R) dVa dVm Sbr :
  0 < nl -> shaped C nl n -> shaped Y nl n -> length lam = nl ->
  (forall l, l < nl -> f l < n) ->
  (forall l m, l < nl -> m < n -> at_ C l m = (if f l =? m then 1 else 0)%K) ->
  first_derivs nl (fun l => power Y (f l) l) dVa dVm -> values nl (fun l => power Y (f l) l) Sbr ->
  exists Haa Hav Hva Hvv,
    d2ASbr_dV2 cabsR (mapm rpart dVa) (mapm rpart dVm) (map rpart Sbr) C Y (volt s) (map ofK lam) = Ok (Haa, Hav, Hva, Hvv) /\
    second_derivsR (weightedR lam nl (fun l s' => re (power Y (f l) l s') * re (power Y (f l) l s'))%R) Haa Hav Hva Hvv.
Proof.
  intros Pl SC SY LL Bf HC (D1 & D2 & D3) (LS & HS). unfold d2ASbr_dV2.
  assert (HC' : ismat C nl n (pick f)).
  { eapply ismat_eq; [apply shaped_ismat; exact SC|]. intros l m Hl Hm. apply HC; auto. }
  assert (LL' : length (map ofK lam) = nl) by (rewrite map_length; auto).
  assert (LcS : length (map conj (map rpart Sbr)) = nl) by (rewrite !map_length; auto).
  destruct (ismat_diag (map ofK lam) nl LL' Pl) as (dl & Edl & Hdl). rewrite Edl. cbn [bind].
  destruct (ismat_diag (map conj (map rpart Sbr)) nl LcS Pl) as (dS & EdS & HdS). rewrite EdS. cbn [bind].
  destruct (ismat_mulv dS nl nl _ (map ofK lam) HdS LL') as (sl & Esl & Lsl & Hsl).
  rewrite Esl. cbn [bind].
  set (y := at_ Y) in *. set (c := pick f) in *.
  assert (Q : forall l s', l < nl -> power Y (f l) l s' = prow n c y l s').
  { intros l s' Hl. apply power_prow; auto. apply SY. }
  assert (CJ : forall z, conj (rpart z) = rpart z) by (intros z; apply cpx_eq; cbn; ring).
  assert (Vsl : forall l, l < nl -> nth l sl 0%K = (nth l (map ofK lam) 0 * rpart (prow n c y l s))%K).
  { intros l Hl. rewrite Hsl by auto.
    rewrite (lsum_ext _ (fun k => if l =? k then nth l (map ofK lam) 0 * rpart (prow n c y l s) else 0)%K).
    - apply (lsum_seq_single' (fun _ => nth l (map ofK lam) 0 * rpart (prow n c y l s))%K); auto.
    - intros k _. destruct (Nat.eqb_spec l k) as [<-|]; [|ring].
      rewrite nth_conj. rewrite (nth_map_lt _ _ _ _ 0%K) by lia. rewrite HS, Q, CJ by auto. ring. }
  destruct (d2Sbr_entries cabsR nl n C Y c y (volt s) sl P Pl HC'
    (shaped_ismat _ _ _ SY) (ok_len n s OK) (nz_volt n s OK) Lsl)
    as (Saa & Sav & Sva & Svv & E & H1 & H2 & H3 & H4).
  rewrite E. cbn [bind].
  assert (RP : forall M g, ismat M nl n g -> ismat (mapm rpart M) nl n (fun l k => rpart (g l k))).
  { intros M g HM. apply (ismat_mapm rpart); auto. intros (a1, a2) (b1, b2). apply cpx_eq; cbn; ring. }
  assert (Ia : ismat (mapm rpart dVa) nl n (fun l k => rpart (dprow n c y l Ang k s))).
  { apply RP. eapply ismat_eq; [apply shaped_ismat; exact D1|]. intros l k Hl Hk. cbv beta.
    destruct OK as (A & B & _). destruct (D3 l k Hl Hk) as [D _].
    eapply partial_unique; [exact D|]. eapply partial_ext; [intros; symmetry; apply Q; auto|].
    apply (partial_prow n s A B); auto. }
  assert (Im : ismat (mapm rpart dVm) nl n (fun l k => rpart (dprow n c y l Mag k s))).
  { apply RP. eapply ismat_eq; [apply shaped_ismat; exact D2|]. intros l k Hl Hk. cbv beta.
    destruct OK as (A & B & _). destruct (D3 l k Hl Hk) as [_ D].
    eapply partial_unique; [exact D|]. eapply partial_ext; [intros; symmetry; apply Q; auto|].
    apply (partial_prow n s A B); auto. }
  destruct (sq_entries nl n Saa _ _ dl _ _ _ (map ofK lam) Pl LL' H1 Ia Ia Hdl)
    as (Haa & Eaa & Xaa). rewrite Eaa. cbn [bind].
  destruct (sq_entries nl n Sva _ _ dl _ _ _ (map ofK lam) Pl LL' H3 Im Ia Hdl)
    as (Hva & Eva & Xva). rewrite Eva. cbn [bind].
  destruct (sq_entries nl n Sav _ _ dl _ _ _ (map ofK lam) Pl LL' H2 Ia Im Hdl)
    as (Hav & Eav & Xav). rewrite Eav. cbn [bind].
  destruct (sq_entries nl n Svv _ _ dl _ _ _ (map ofK lam) Pl LL' H4 Im Im Hdl)
    as (Hvv & Evv & Xvv). rewrite Evv. cbn [bind].
  exists Haa, Hav, Hva, Hvv. split; [reflexivity|].
  split; [eapply ismat_shaped; eauto|]. split; [eapply ismat_shaped; eauto|].
  split; [eapply ismat_shaped; eauto|]. split; [eapply ismat_shaped; eauto|].
  destruct Xaa as (_ & _ & _ & Xaa). destruct Xav as (_ & _ & _ & Xav).
  destruct Xva as (_ & _ & _ & Xva). destruct Xvv as (_ & _ & _ & Xvv).
  intros k m Hk Hm. rewrite Xaa, Xav, Xva, Xvv by auto.
  assert (T : forall co k co' m h, k < n -> m < n -> h = dsum nl n c y sl s co k co' m ->
    partial2R n co k co' m (weightedR lam nl (fun l s' => re (power Y (f l) l s') * re (power Y (f l) l s'))%R) s
      (fofZ 2 * re (h + lsum (fun l => rpart (dprow n c y l co k s) * vv (map ofK lam) l
                                       * conj (rpart (dprow n c y l co' m s))) (seq 0 nl)))%K).
  { clear - OK Q Vsl CJ. intros co k co' m h Hk Hm ->.
    apply (partial2R_ext _ _ _ _ (weightedR lam nl (fun l s' => nrm2 (rpart (prow n c y l s'))))).
    { intros s'. apply lsum_ext. intros l Hl. apply in_seq in Hl. rewrite Q by lia. unfold rpart, nrm2, ofK. cbn. ring. }
    eapply partial2R_eq.
    { apply (sq_second nl n lam (fun l s' => rpart (prow n c y l s')) co co' k m s (fun l s' => rpart (dprow n c y l co k s'))
        (fun l => rpart (dprow n c y l co' m s)) (fun l => rpart (ddprow n c y l co k co' m s))).
      - intros l s' (A & B & _). apply partial_rpart, partial_prow; auto.
      - intros l. destruct OK as (A & B & _). apply partial_rpart, partial_prow; auto.
      - intros l. destruct OK as (A & B & _). apply partial_rpart. apply partial_dprow; auto. }
    cbn [fofZ R_fld].
    assert (RE : re (dsum nl n c y sl s co k co' m)
       = re (lsum (fun l => nth l (map ofK lam) 0 * (rpart (prow n c y l s) * rpart (ddprow n c y l co k co' m s)))%K (seq 0 nl))).
    { unfold dsum. rewrite !re_lsum. apply lsum_ext. intros l Hl. apply in_seq in Hl. rewrite Vsl by lia.
      rewrite nth_map_ofK. unfold rpart, ofK. cbn. ring. }
    apply (f_equal (Rmult 2)).
    change (re (lsum (fun l => nth l (map ofK lam) 0 * (conj (rpart (prow n c y l s)) * rpart (ddprow n c y l co k co' m s)
       + conj (rpart (dprow n c y l co' m s)) * rpart (dprow n c y l co k s)))%K (seq 0 nl))
     = (re (dsum nl n c y sl s co k co' m) + re (lsum (fun l => rpart (dprow n c y l co k s) * vv (map ofK lam) l
                                       * conj (rpart (dprow n c y l co' m s)))%K (seq 0 nl)))%R).
    rewrite RE, !re_lsum. change Rplus with (@radd R _). rewrite <- lsum_add. apply lsum_ext. intros l Hl.
    rewrite !CJ. unfold vv. set (a := nth l (map ofK lam) 0%K). 
    set (p := rpart _). set (q := rpart _). set (r := rpart _). set (u := rpart _).
    transitivity (re (a * (p * q) + u * a * r)%K); [f_equal; ring|reflexivity]. }
  split; [|split; [|split]]; apply T; auto; symmetry.
  - apply quad_AA; auto.
  - apply quad_AM; auto.
  - apply quad_MA; auto.
  - apply quad_MM; auto.
Qed.

Theorem C48_squared_currents nl (Y : smat CR) (lam : list R) dVa dVm Ibr :
  0 < nl -> shaped Y nl n -> length lam = nl ->
  first_derivs nl (current Y) dVa dVm -> values nl (current Y) Ibr ->
  exists Haa Hav Hva Hvv,
    d2AIbr_dV2 cabsR dVa dVm Ibr Y (volt s) (map ofK lam) = Ok (Haa, Hav, Hva, Hvv) /\
    second_derivsR (weightedR lam nl (fun l s' => nrm2 (current Y l s'))) Haa Hav Hva Hvv.
Proof.
  intros Pl SY LL (D1 & D2 & D3) (LS & HS). unfold d2AIbr_dV2.
  assert (LL' : length (map ofK lam) = nl) by (rewrite map_length; auto).
  assert (LcS : length (map conj Ibr) = nl) by (rewrite map_length; auto).
  destruct (ismat_diag (map ofK lam) nl LL' Pl) as (dl & Edl & Hdl). rewrite Edl. cbn [bind].
  destruct (ismat_diag (map conj Ibr) nl LcS Pl) as (dS & EdS & HdS). rewrite EdS. cbn [bind].
  destruct (ismat_mulv dS nl nl _ (map ofK lam) HdS LL') as (sl & Esl & Lsl & Hsl).
  rewrite Esl. cbn [bind].
  set (y := at_ Y) in *. set (q := fun l s' => lin n y (vv (volt s')) l).
  assert (Q : forall l s', current Y l s' = q l s').
  { intros l s'. unfold current, q. destruct SY as (_ & -> & _). reflexivity. }
  assert (Vsl : forall l, l < nl -> nth l sl 0%K = (nth l (map ofK lam) 0 * conj (q l s))%K).
  { intros l Hl. rewrite Hsl by auto.
    rewrite (lsum_ext _ (fun k => if l =? k then nth l (map ofK lam) 0 * conj (q l s) else 0)%K).
    - apply (lsum_seq_single' (fun _ => nth l (map ofK lam) 0 * conj (q l s))%K); auto.
    - intros k _. destruct (Nat.eqb_spec l k) as [<-|]; [|ring].
      rewrite nth_conj, HS, Q by auto. ring. }
  destruct (d2Ibr_entries cabsR nl n Y y (volt s) sl P Pl
    (shaped_ismat _ _ _ SY) (ok_len n s OK) (nz_volt n s OK) Lsl)
    as (Saa & Sav & Sva & Svv & E & H1 & H2 & H3 & H4).
  rewrite E. cbn [bind].
  assert (Ia : ismat dVa nl n (fun l k => y l k * dv Ang k s)%K).
  { eapply ismat_eq; [apply shaped_ismat; exact D1|]. intros l k Hl Hk. cbv beta.
    destruct OK as (A & B & _). destruct (D3 l k Hl Hk) as [D _].
    eapply partial_unique; [exact D|]. eapply partial_ext; [intros; symmetry; apply Q; auto|].
    apply (partial_lin n s A B); auto. }
  assert (Im : ismat dVm nl n (fun l k => y l k * dv Mag k s)%K).
  { eapply ismat_eq; [apply shaped_ismat; exact D2|]. intros l k Hl Hk. cbv beta.
    destruct OK as (A & B & _). destruct (D3 l k Hl Hk) as [_ D].
    eapply partial_unique; [exact D|]. eapply partial_ext; [intros; symmetry; apply Q; auto|].
    apply (partial_lin n s A B); auto. }
  destruct (sq_entries nl n Saa dVa dVa dl _ _ _ (map ofK lam) Pl LL' H1 Ia Ia Hdl)
    as (Haa & Eaa & Xaa). rewrite Eaa. cbn [bind].
  destruct (sq_entries nl n Sva dVm dVa dl _ _ _ (map ofK lam) Pl LL' H3 Im Ia Hdl)
    as (Hva & Eva & Xva). rewrite Eva. cbn [bind].
  destruct (sq_entries nl n Sav dVa dVm dl _ _ _ (map ofK lam) Pl LL' H2 Ia Im Hdl)
    as (Hav & Eav & Xav). rewrite Eav. cbn [bind].
  destruct (sq_entries nl n Svv dVm dVm dl _ _ _ (map ofK lam) Pl LL' H4 Im Im Hdl)
    as (Hvv & Evv & Xvv). rewrite Evv. cbn [bind].
  exists Haa, Hav, Hva, Hvv. split; [reflexivity|].
  split; [eapply ismat_shaped; eauto|]. split; [eapply ismat_shaped; eauto|].
  split; [eapply ismat_shaped; eauto|]. split; [eapply ismat_shaped; eauto|].
  destruct Xaa as (_ & _ & _ & Xaa). destruct Xav as (_ & _ & _ & Xav).
  destruct Xva as (_ & _ & _ & Xva). destruct Xvv as (_ & _ & _ & Xvv).
  intros k m Hk Hm. rewrite Xaa, Xav, Xva, Xvv by auto.
  assert (T : forall co k co' m h, k < n -> m < n ->
    h = delta k m (eI nl y sl k * ddv co co' k s)%K ->
    partial2R n co k co' m (weightedR lam nl (fun l s' => nrm2 (current Y l s'))) s
      (fofZ 2 * re (h + lsum (fun l => y l k * dv co k s * vv (map ofK lam) l
                                       * conj (y l m * dv co' m s)) (seq 0 nl)))%K).
  { clear - OK Q Vsl. intros co k co' m h Hk Hm ->.
    apply (partial2R_ext _ _ _ _ (weightedR lam nl (fun l s' => nrm2 (q l s')))).
    { intros s'. apply lsum_ext. intros l Hl. rewrite Q. reflexivity. }
    eapply partial2R_eq.
    { apply (sq_second nl n lam q co co' k m s (fun l s' => y l k * dv co k s')%K
        (fun l => y l m * dv co' m s)%K (fun l => y l k * delta k m (ddv co co' k s))%K).
      - intros l s' (A & B & _). apply partial_lin; auto.
      - intros l. destruct OK as (A & B & _). apply partial_lin; auto.
      - intros l. destruct OK as (A & B & _). apply (partial_lin2 n s A B co k co' m y l); auto. }
    cbn [fofZ R_fld].
    apply (f_equal (fun z : CR => (2 * re z)%R)).
    assert (Z : delta k m (eI nl y sl k * ddv co co' k s)%K
       = lsum (fun l => y l k * nth l sl 0 * delta k m (ddv co co' k s))%K (seq 0 nl)).
    { unfold delta. destruct (k =? m).
      - unfold eI. rewrite <- lsum_scal_r. apply lsum_ext. intros; unfold vv; ring.
      - symmetry. apply lsum_zero. intros; ring. }
    rewrite Z, <- lsum_add. apply lsum_ext. intros l Hl.
    apply in_seq in Hl. rewrite Vsl by lia. unfold vv. ring. }
  split; [|split; [|split]]; apply T; auto; unfold delta; destruct (Nat.eqb_spec k m) as [<-|]; auto;
    unfold ddv; rewrite <- ?(vi_uv n s OK k Hk); ring.
Qed.
End C24.

(** ** Examples *)
Definition exs : state := St [1; 2]%R [0; PI / 3]%R.
Definition exy : smat CR :=
  SM 2 2 [Ent 0 0 (Cx 1 (-3))%R; Ent 0 1 (Cx (-1) 3)%R; Ent 1 0 (Cx (-1) 3)%R; Ent 1 1 (Cx 1 (-3))%R].
Lemma exs_ok : ok 2 exs.
Proof. repeat split; auto. repeat constructor; lra. Qed.
Lemma exy_shaped : shaped exy 2 2.
Proof. repeat split; auto. repeat constructor; simpl; lia. Qed.

(** moving the angle of bus 1 changes the injection at bus 0 *)
Example C23_example : exists dVm dVa, dSbus_dV cabsR exy (volt exs) = Ok (dVm, dVa) /\
  partial Ang 1 (power exy 0 0) exs (at_ dVa 0 1) /\ re (at_ dVa 0 1) <> 0%R.
Proof.
  destruct (dSbus_entries cabsR 2 exy (at_ exy) (volt exs) ltac:(lia) (shaped_ismat _ _ _ exy_shaped)
    (ok_len 2 exs exs_ok) (nz_volt 2 exs exs_ok)) as (dm & da & E & _ & (_ & _ & _ & H)).
  destruct (C23_bus_injections exy 2 exs ltac:(lia) exy_shaped exs_ok) as (dm' & da' & E' & _ & _ & D).
  rewrite E in E'. injection E' as <- <-.
  exists dm, da. split; [exact E|]. split; [apply D; lia|].
  rewrite H by lia. unfold vv, delta. cbn -[cos sin sqrt PI].
  rewrite cos_0, sin_0, cos_PI3, sin_PI3.
  assert (S : (0 < sqrt 3)%R) by (apply sqrt_lt_R0; lra).
  assert (T : (sqrt 3 * sqrt 3 = 3)%R) by (apply sqrt_sqrt; lra). nra.
Qed.

Example C24_example : exists fa fm ta tm If It,
  dIbr_dV cabsR exy exy (volt exs) = Ok (fa, fm, ta, tm, If, It) /\
  first_derivs 2 exs 2 (current exy) fa fm.
Proof.
  destruct (C24_currents 2 exs ltac:(lia) exs_ok 2 exy exy ltac:(lia) exy_shaped exy_shaped)
    as (fa & fm & ta & tm & If & It & E & D & _).
  exists fa, fm, ta, tm, If, It. auto.
Qed.

Example C25_example : exists Gaa Gav Gva Gvv,
  d2Sbus_dV2 cabsR exy (volt exs) [Cx 1 0; Cx 0 (-1)]%R = Ok (Gaa, Gav, Gva, Gvv) /\
  second_derivs 2 exs (weighted [Cx 1 0; Cx 0 (-1)]%R 2 (fun i => power exy i i)) Gaa Gav Gva Gvv.
Proof. apply (C25_bus_injections 2 exs ltac:(lia) exs_ok exy); auto using exy_shaped. Qed.

(** the model run on exact rationals: voltages 3+4j and 1, absolute values 5 and 1 *)
Definition cabs_q (z : cpx Qc) : Qc := if qc_eqb (re z) (zc 3) then zc 5 else zc 1.
Definition ex_dSbus := dSbus_dV cabs_q
  (SM 2 2 [Ent 0 0 (Cx (zc 1) (zc 0)); Ent 0 1 (Cx (zc 0) (zc 1)); Ent 1 1 (Cx (zc 2) (zc 0))])
  [Cx (zc 3) (zc 4); Cx (zc 1) (zc 0)].
Example C23_runs :
  match ex_dSbus with
  | Ok (m, a) => ceqb (at_ m 0 0) (Cx (qc 54 5) (qc (-3) 5)) && ceqb (at_ a 0 1) (Cx (zc (-3)) (zc (-4)))
  | Err _ => false
  end = true.
Proof. vm_compute. reflexivity. Qed.

Print Assumptions C23_bus_injections.
Print Assumptions C24_flows.
Print Assumptions C24_currents.
Print Assumptions C24_squared.
Print Assumptions C25_bus_injections.
Print Assumptions C25_branch_flows.
Print Assumptions C25_branch_currents.
Print Assumptions C48_squared_flows.
Print Assumptions C48_squared_active.
Print Assumptions C48_squared_currents.
