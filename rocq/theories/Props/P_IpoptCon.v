(** Property C126: the constraints handed to IPOPT. *)
From Coq Require Import Reals Lra Lia.
From Verif Require Import Lib.ListFacts Lib.QcFacts Model.IpoptOpf Spec.PipsSpec Spec.AcConSpec Spec.AcDeriv Proofs.SparseFacts Proofs.FldFacts Proofs.NetworkA Proofs.OrdFacts Proofs.PipsH Proofs.AcCostR Proofs.AcConA Proofs.AcConB Proofs.AcConR Proofs.IpoptA Proofs.IpoptB Proofs.IpoptC
  Props.P_Ybus Props.P_OpfFcn Props.P_OpfCon Props.P_OpfHess Props.P_Ipopt.
Local Open Scope nat_scope.

Section Bounds.
Context {K : Type} {F : Fld K}.
(** l <= a <= u, where None is infinite *)
Definition between (l u : option K) (a : K) : Prop :=
  match l with None => True | Some b => le b a end /\ match u with None => True | Some b => le a b end.
Definition all_between (ls us : list (option K)) (v : list K) : Prop :=
  length ls = length v /\ length us = length v /\ forall k l u a, nth_error ls k = Some l -> nth_error us k = Some u -> nth_error v k = Some a -> between l u a.

Lemma between_app ls us v ls' us' v' : length ls = length v -> length us = length v ->
  all_between (ls ++ ls') (us ++ us') (v ++ v') <-> all_between ls us v /\ all_between ls' us' v'.
Proof.
  intros L1 L2. unfold all_between. rewrite !app_length. split.
  - intros (A & B & H). split; (split; [lia|split; [lia|]]); intros k l u a Hl Hu Ha.
    + apply (H k); rewrite nth_error_app1; auto; apply nth_error_Some; congruence.
    + apply (H (length v + k)); rewrite nth_error_app2 by lia; [rewrite L1|rewrite L2|]; replace (length v + k - length v) with k by lia; auto.
  - intros ((_ & _ & H1) & (A & B & H2)). split; [lia|split; [lia|]]. intros k l u a Hl Hu Ha. destruct (Nat.lt_ge_cases k (length v)) as [Q|Q].
    + rewrite nth_error_app1 in Hl, Hu, Ha by lia. eauto.
    + rewrite nth_error_app2 in Hl, Hu, Ha by lia. rewrite L1 in Hl. rewrite L2 in Hu. eauto.
Qed.
Lemma between_same l u v n : length v = n -> all_between (repeat l n) (repeat u n) v <-> forall a, In a v -> between l u a.
Proof.
  intros L. unfold all_between. rewrite !repeat_length. split.
  - intros (_ & _ & H) a Ha. apply In_nth_error in Ha as (k & Hk). assert (k < n) by (rewrite <- L; apply nth_error_Some; congruence). apply (H k); auto; apply nth_error_repeat; auto.
  - intros H. split; [auto|split; [auto|]]. intros k l' u' a Hl Hu Ha. apply nth_error_In in Hl, Hu, Ha. apply repeat_spec in Hl, Hu. subst. auto.
Qed.

(** the linear constraints, of which there may be none *)
Definition nlin (A : option (smat K)) : nat := match A with Some A => nrows A | None => 0 end.
Definition lin (A : option (smat K)) (x : list K) (r : nat) : K := match A with Some A => mulrow A x r | None => 0%K end.

(** the values lie between the bounds exactly at the points that satisfy the power balance, the limits on flows and the
    linear constraints *)
Theorem C126_feasible cis cabs (D : acdata (K := K)) lim Y Yf Yt il A l u x c :
  con_shape D Y Yf Yt il ->
  let nb := length (a_bus D) in let ng := length (a_gen D) in let nl := length il in
  nb + nb + ng + ng <= length x -> length l = nlin A -> length u = nlin A ->
  eval_g cis cabs D lim Y Yf Yt il A x = Ok c ->
  all_between (con_lower nb nl l) (con_upper nb nl u) c <->
  (forall i, i < nb -> p_balance cis (a_base D) (a_bus D) (a_gen D) Y i x = 0%K /\ q_balance cis (a_base D) (a_bus D) (a_gen D) Y i x = 0%K) /\
  (forall k, k < nl -> le (overflow cis lim (a_base D) nb (brow D il k) F_BUS Yf k x) 0%K /\ le (overflow cis lim (a_base D) nb (brow D il k) T_BUS Yt k x) 0%K) /\
  (forall r, r < nlin A -> between (nth r l None) (nth r u None) (lin A x r)).
Proof.
  intros S nb ng nl LX Ll Lu EG. unfold eval_g in EG. step EG. destruct x0 as (((h, g), dh), dg).
  assert (c = g ++ h ++ map (lin A x) (seq 0 (nlin A))) as ->.
  { destruct A as [A|]; [|cbn; rewrite app_nil_r; congruence]. step EG. injection EG as <-. unfold mulv in E0. destruct (_ =? _) in E0; [|discriminate]. injection E0 as <-. reflexivity. }
  destruct (C60_values _ _ _ _ _ _ _ _ _ _ _ _ _ S LX E) as (Hh & Hg).
  assert (Lg : length g = 2 * nb) by (rewrite Hg, app_length, !map_length, seq_length; unfold nb; lia).
  assert (Lh : length h = 2 * nl) by (rewrite Hh, app_length, !map_length, seq_length; unfold nl; lia).
  unfold con_lower, con_upper. rewrite between_app by (rewrite repeat_length; lia). rewrite between_app by (rewrite repeat_length; lia). rewrite !between_same by lia.
  assert (Z : forall a : K, between (Some 0%K) (Some 0%K) a <-> a = 0%K).
  { intros a. unfold between. split; [intros (A1 & A2)|intros ->; split; apply le_refl]. apply le_antisym; auto. }
  split.
  - intros (G & Hn & Hl). split; [|split].
    + intros i Hi. split; apply Z, G; rewrite Hg; apply in_or_app; [left|right]; apply in_map_iff; exists i; (split; [reflexivity|apply in_seq; unfold nb in Hi; lia]).
    + intros k Hk. split; apply Hn; rewrite Hh; apply in_or_app; [left|right]; apply in_map_iff; exists k; (split; [reflexivity|apply in_seq; unfold nl in Hk; lia]).
    + intros r Hr. destruct Hl as (_ & _ & Hl). apply (Hl r); [apply nth_error_nth'; lia|apply nth_error_nth'; lia|]. rewrite nth_error_map, (nth_error_nth' _ 0) by (rewrite seq_length; lia). rewrite seq_nth by lia. reflexivity.
  - intros (G & Hn & Hl). split; [|split].
    + intros a Ha. apply Z. rewrite Hg in Ha. apply in_app_or in Ha as [Ha|Ha]; apply in_map_iff in Ha as (i & <- & Hi); apply in_seq in Hi; apply G; unfold nb; lia.
    + intros a Ha. split; [exact I|]. rewrite Hh in Ha. apply in_app_or in Ha as [Ha|Ha]; apply in_map_iff in Ha as (i & <- & Hi); apply in_seq in Hi; apply Hn; unfold nl; lia.
    + split; [rewrite map_length, seq_length; auto|split; [rewrite map_length, seq_length; auto|]]. intros k l' u' a H1 H2 H3. rewrite nth_error_map in H3.
      destruct (nth_error (seq 0 (nlin A)) k) as [r|] eqn:Er; [|discriminate]. injection H3 as <-. assert (Hk : k < nlin A) by (rewrite <- (seq_length (nlin A) 0); apply nth_error_Some; congruence).
      rewrite (nth_error_nth' _ 0) in Er by (rewrite seq_length; lia). rewrite seq_nth in Er by lia. injection Er as <-. cbn. specialize (Hl k Hk). rewrite (nth_error_nth _ _ _ H1), (nth_error_nth _ _ _ H2) in Hl. exact Hl.
Qed.
End Bounds.

(** over the reals the rows of the Jacobian are the gradients of these constraints, in the same order *)
Theorem C126_gradients (D : acdata (K := R)) lim Y Yf Yt il A x :
  con_shape D Y Yf Yt il ->
  let nb := length (a_bus D) in let ng := length (a_gen D) in let nl := length il in
  nb + nb + ng + ng <= length x -> 0 < nb -> 0 < nl ->
  (forall k, k < nb -> (0 < nth (nb + k) x 0)%R) ->
  Forall (fun g => in_service g = true) (a_gen D) ->
  (forall M, A = Some M -> ncols M = length x) ->
  exists J c, jac_g cisR cabsR D lim Y Yf Yt il A x = Ok J /\ eval_g cisR cabsR D lim Y Yf Yt il A x = Ok c /\
    length c = nrows J /\ nrows J = nb + nb + (nl + nl) + nlin A /\ ncols J = length x /\
    (forall i j, i < nb -> j < length x ->
      vpartial (p_balance cisR (a_base D) (a_bus D) (a_gen D) Y i) x j (at_ J i j) /\
      vpartial (q_balance cisR (a_base D) (a_bus D) (a_gen D) Y i) x j (at_ J (nb + i) j)) /\
    (forall l j, l < nl -> j < length x ->
      vpartial (overflow cisR lim (a_base D) nb (brow D il l) F_BUS Yf l) x j (at_ J (nb + nb + l) j) /\
      vpartial (overflow cisR lim (a_base D) nb (brow D il l) T_BUS Yt l) x j (at_ J (nb + nb + nl + l) j)) /\
    (forall M r j, A = Some M -> at_ J (nb + nb + (nl + nl) + r) j = at_ M r j).
Proof.
  intros S nb ng nl LX PN PL POS ON HA.
  destruct (C60_derivatives D lim Y Yf Yt il x S LX PN POS ON) as (h & g & dh & dg & E & (G1 & G2 & G3) & HG & _ & HH). destruct HH as (M & -> & (M1 & M2 & M3) & HH); [exact PL|].
  destruct (C60_values _ _ _ _ _ _ _ _ _ _ _ _ _ S LX E) as (Hh & Hg).
  assert (Lg : length g = nb + nb) by (rewrite Hg, app_length, !map_length, seq_length; unfold nb; lia).
  assert (Lh : length h = nl + nl) by (rewrite Hh, app_length, !map_length, seq_length; unfold nl; lia).
  assert (TV : exists T, vstackm (transp dg) (transp M) = Ok T).
  { unfold vstackm. cbn [ncols transp]. rewrite G1, M1, Nat.eqb_refl. eauto. }
  destruct TV as (T & ET). destruct (vst_dims _ _ _ ET) as (T1 & T2 & T3). cbn [nrows ncols transp] in T1, T2, T3. fold nb in G2. fold nl in M2.
  assert (R1 : Forall (fun e => erow e < nrows (transp dg)) (ents (transp dg))).
  { cbn [nrows ents transp]. apply Forall_forall. intros e He. apply in_map_iff in He as (e' & <- & He). cbn. rewrite Forall_forall in G3. specialize (G3 e' He). fold nb in G3. lia. }
  assert (AT : forall i j, at_ T i j = if i <? nb + nb then at_ dg j i else at_ M j (i - (nb + nb))).
  { intros i j. etransitivity; [exact (at_split _ _ _ i j ET R1)|]. cbn [nrows transp]. rewrite G2. destruct (i <? nb + nb); [exact (at_transp dg j i)|exact (at_transp M j (i - (nb + nb)))]. }
  assert (R2 : Forall (fun e => erow e < nrows T) (ents T)).
  { apply Forall_forall. intros e He. apply (in_vstack _ _ _ _ ET) in He as [He|(e' & He & ->)].
    - rewrite Forall_forall in R1. specialize (R1 e He). cbn [nrows transp] in R1. lia.
    - cbn [ents transp] in He. apply in_map_iff in He as (e1 & <- & He). rewrite Forall_forall in M3. specialize (M3 e1 He). fold nl in M3. cbn [erow nrows transp]. lia. }
  assert (EJ : exists J, jac_g cisR cabsR D lim Y Yf Yt il A x = Ok J /\ nrows J = nrows T + nlin A /\ ncols J = length x /\
    (forall i j, i < nrows T -> at_ J i j = at_ T i j) /\ forall N r j, A = Some N -> at_ J (nrows T + r) j = at_ N r j).
  { unfold jac_g. rewrite E. cbn [bind]. rewrite ET. cbn [bind]. destruct A as [N|].
    - specialize (HA N eq_refl). assert (EV : exists J, vstackm T N = Ok J) by (unfold vstackm; rewrite T1, G1, HA, Nat.eqb_refl; eauto). destruct EV as (J & EV). exists J. destruct (vst_dims _ _ _ EV) as (J1 & J2 & J3).
      split; [exact EV|split; [exact J3|split; [congruence|split]]].
      + intros i j Hi. etransitivity; [exact (at_split _ _ _ i j EV R2)|]. destruct (Nat.ltb_spec i (nrows T)); [reflexivity|lia].
      + intros N' r j EN. injection EN as <-. etransitivity; [exact (at_split _ _ _ (nrows T + r) j EV R2)|]. destruct (Nat.ltb_spec (nrows T + r) (nrows T)); [lia|]. replace (nrows T + r - nrows T) with r by lia. reflexivity.
    - exists T. split; [reflexivity|split; [cbn; lia|split; [congruence|split; [auto|discriminate]]]]. }
  destruct EJ as (J & EJ & J1 & J2 & J3 & J4).
  assert (EC : exists c, eval_g cisR cabsR D lim Y Yf Yt il A x = Ok c /\ length c = length g + length h + nlin A).
  { unfold eval_g. rewrite E. cbn [bind]. destruct A as [N|]; [|eexists; split; [reflexivity|rewrite app_length; cbn; lia]].
    unfold mulv. rewrite (HA N eq_refl), Nat.eqb_refl. cbn [bind]. eexists. split; [reflexivity|]. rewrite !app_length, map_length, seq_length. cbn. lia. }
  destruct EC as (c & EC & LC). exists J, c. split; [exact EJ|split; [exact EC|]]. split; [lia|split; [lia|split; [exact J2|]]]. split; [|split].
  - intros i j Hi Hj. rewrite !J3 by lia. rewrite !AT. destruct (Nat.ltb_spec i (nb + nb)); [|lia]. destruct (Nat.ltb_spec (nb + i) (nb + nb)); [|lia]. apply HG; auto.
  - intros l j Hl Hj. rewrite !J3 by lia. rewrite !AT. destruct (Nat.ltb_spec (nb + nb + l) (nb + nb)); [lia|]. destruct (Nat.ltb_spec (nb + nb + nl + l) (nb + nb)); [lia|].
    replace (nb + nb + l - (nb + nb)) with l by lia. replace (nb + nb + nl + l - (nb + nb)) with (nl + l) by lia. apply HH; auto.
  - intros N r j EN. replace (nb + nb + (nl + nl) + r) with (nrows T + r) by lia. apply J4, EN.
Qed.

(** the case of C60, with a limit on the output *)
Example C126_example :
  match eval_g cis_q (fun _ => zc 1) cD LimS cY cYf cYt [0] (Some (SM 1 6 [Ent 0 4 (zc 5)])) cX with Ok c => map this c | _ => [] end =
    [Qmake (-13) 5; Qmake 33 10; Qmake 17 10; Qmake (-7) 5; Qmake 184 25; Qmake 244 25; Qmake 3 1] /\
  length (con_lower (K := Qc) 2 1 [None]) = 7 /\ nth 4 (con_lower (K := Qc) 2 1 [None]) (Some (zc 0)) = None /\ nth 4 (con_upper (K := Qc) 2 1 [Some (zc 9)]) None = Some (zc 0).
Proof. vm_compute. auto. Qed.
Example C126_example_bounds : ~ all_between (con_lower (K := Qc) 0 1 []) (con_upper 0 1 []) [zc (-1); zc 1] /\ all_between (con_lower (K := Qc) 0 1 []) (con_upper 0 1 []) [zc (-1); zc 0].
Proof.
  split.
  - intros (_ & _ & H). destruct (H 1 None (Some (zc 0)) (zc 1) eq_refl eq_refl eq_refl) as (_ & Q). vm_compute in Q. discriminate.
  - split; [reflexivity|split; [reflexivity|]]. intros [|[|[|k]]] l u a Hl Hu Ha; try discriminate; injection Hl as <-; injection Hu as <-; injection Ha as <-; (split; [exact I|vm_compute; reflexivity]).
Qed.
Example C126_example_gradients lim : exists J c, jac_g cisR cabsR cD lim cY cYf cYt [0] (Some (SM 1 6 [Ent 0 4 5%R])) cR = Ok J /\
  eval_g cisR cabsR cD lim cY cYf cYt [0] (Some (SM 1 6 [Ent 0 4 5%R])) cR = Ok c /\ length c = 7 /\ nrows J = 7.
Proof.
  destruct (C126_gradients cD lim cY cYf cYt [0] (Some (SM 1 6 [Ent 0 4 5%R])) cR) as (J & c & A & B & C & D & _).
  - apply c_shape.
  - cbn. lia.
  - cbn. lia.
  - cbn. lia.
  - intros [|[|k]] Hk; cbn; try lra. cbn in Hk. lia.
  - constructor; [|constructor]. unfold in_service, pos_status, cell. cbn. apply ltb_r. cbn. lra.
  - intros M Q. injection Q as <-. reflexivity.
  - exists J, c. split; [exact A|split; [exact B|]]. cbn in D. lia.
Qed.
Print Assumptions C126_feasible.
Print Assumptions C126_gradients.
