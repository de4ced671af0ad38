(** Property C125: the structure of the Jacobian for IPOPT. *)
From Coq Require Import Lia.
From Verif Require Import Lib.ListFacts Lib.QcFacts Model.IpoptOpf Proofs.SparseFacts Proofs.FldFacts Proofs.NetworkA Proofs.OrdFacts Proofs.IpoptA Proofs.IpoptB Proofs.IpoptC Proofs.IpoptD Proofs.IpoptE
  Props.P_Ybus Props.P_OpfFcn Props.P_OpfCon Props.P_OpfHess.
Local Open Scope nat_scope.

Section Jacobian.
Context {K : Type} {F : Fld K}.
Add Field KF : (@f_ok K F).

Lemma stored_in (M : smat K) i j : In (i, j) (stored M) <-> i < nrows M /\ j < ncols M /\ at_ M i j <> 0%K.
Proof.
  unfold stored. rewrite filter_In, in_prod_iff, !in_seq. cbn [fst snd]. rewrite Bool.negb_true_iff. split.
  - intros (H & E). repeat split; try lia. intros Q. apply feqb_ok in Q. congruence.
  - intros (H1 & H2 & H3). split; [lia|]. destruct (feqb (at_ M i j) 0%K) eqn:E; auto. apply feqb_ok in E. contradiction.
Qed.

(** whenever both are computed, every derivative that is not zero has its place in the structure, and IPOPT is handed
    the derivatives in the order of these places *)
Theorem C125_jacobian_partial cis cabs (D : acdata (K := K)) lim il A x Ybus Yf Yt Yfl Ytl Js J :
  makeYbus cis (a_base D) (a_bus D) (a_branch D) = Ok (Ybus, Yf, Yt) -> rowsel Yf il = Ok Yfl -> rowsel Yt il = Ok Ytl ->
  jac_structure (length (a_bus D)) (a_gen D) (a_branch D) il (length x) A = Ok Js ->
  jac_g cis cabs D lim Ybus Yfl Ytl il A x = Ok J ->
  nrows J = nrows Js /\ ncols J = ncols Js /\
  (forall i j, i < nrows J -> j < ncols J -> at_ J i j <> 0%K -> In (i, j) (stored Js)) /\
  exists vals, eval_jac_g cis cabs D lim Ybus Yfl Ytl il A Js x = Ok vals /\ length vals = length (stored Js) /\
    forall k i j, nth_error (stored Js) k = Some (i, j) -> nth_error vals k = Some (at_ J i j).
Proof.
  intros EY EF ET ES EJ.
  assert (Q : nrows J = nrows Js /\ ncols J = ncols Js /\ (forall i j, at_ J i j <> 0%K -> at_ Js i j <> 0%K)).
  { assert (ES0 : exists Ts, jac_structure (length (a_bus D)) (a_gen D) (a_branch D) il (length x) None = Ok Ts /\ match A with None => Js = Ts | Some A => vstackm Ts A = Ok Js end).
    { unfold jac_structure in *. step ES. destruct x0 as (Cb, Cl2). rewrite E. cbn [bind]. do 12 (step ES; match goal with H : _ = Ok _ |- _ => rewrite H; cbn [bind]; clear H end). eexists. split; [reflexivity|]. destruct A; [exact ES|congruence]. }
    destruct ES0 as (Ts & ES0 & ESA).
    assert (EJ0 : exists T, jac_g cis cabs D lim Ybus Yfl Ytl il None x = Ok T /\ match A with None => J = T | Some A => vstackm T A = Ok J end).
    { unfold jac_g in *. step EJ. rewrite E. cbn [bind]. destruct x0 as (((h, g), [dh|]), [dg|]); try discriminate. step EJ. rewrite E0. cbn [bind]. eexists. split; [reflexivity|]. destruct A; [exact EJ|congruence]. }
    destruct EJ0 as (T & EJ0 & EJA).
    assert (I : exists f t gb, idxcol ValueError F_BUS (a_branch D) = Ok f /\ idxcol ValueError T_BUS (a_branch D) = Ok t /\ idxcol ValueError GEN_BUS (a_gen D) = Ok gb).
    { unfold jac_structure, net_structure in ES. step ES. destruct x0 as (Cb, Cl2). step E. step E. step ES. do 3 eexists. split; [eassumption|split; eassumption]. }
    destruct I as (f & t & gb & Ef & Et & Eg).
    destruct (covers cis cabs _ _ _ il (length x) f t gb Ef Et Eg D eq_refl eq_refl eq_refl lim _ _ _ _ _ _ EY EF ET x T Ts eq_refl ES0 EJ0) as (CV & PS & RS & R1 & R2 & _ & _).
    destruct A as [A|]; [|subst; split; [auto|split; [auto|]]; intros i j; apply cov_at; auto].
    destruct (vst_dims _ _ _ ESA) as (V1 & V2 & V3), (vst_dims _ _ _ EJA) as (W1 & W2 & W3).
    split; [lia|split; [lia|]]. intros i j.
    assert (RT : Forall (fun e => erow e < nrows T) (ents T)).
    { apply Forall_forall. intros e He. destruct (CV e He) as (e' & I' & <- & _). rewrite R1. rewrite Forall_forall in RS. apply RS, I'. }
    rewrite (at_split _ _ _ _ _ ESA RS), (at_split _ _ _ _ _ EJA RT), R1. destruct (i <? nrows Ts); auto. apply cov_at; auto. }
  destruct Q as (Q1 & Q2 & Q3). split; [auto|split; [auto|split]].
  - intros i j Hi Hj H. apply stored_in. rewrite <- Q1, <- Q2. auto.
  - unfold eval_jac_g. rewrite EJ. cbn [bind]. eexists. split; [reflexivity|]. split; [apply map_length|]. intros k i j H. rewrite nth_error_map, H. reflexivity.
Qed.

(** without limited branches the derivatives of the flow limits are None and have no transpose *)
Theorem C125_unlimited_refuted cis cabs (D : acdata (K := K)) lim Ybus Yf Yt A Js x r :
  opf_consfcn cis cabs D lim Ybus Yf Yt [] x = Ok r -> eval_jac_g cis cabs D lim Ybus Yf Yt [] A Js x = Err AttributeError.
Proof.
  intros H. unfold eval_jac_g, jac_g. rewrite H. cbn [bind]. destruct r as (((h, g), dh), dg). assert (dh = None) as ->; [|reflexivity].
  unfold opf_consfcn in H. cbn [length] in H. rewrite Nat.eqb_refl in H. cbn [bind] in H. do 11 step H. destruct x10 as (a, b). repeat step H. congruence.
Qed.

(** without user costs, and if each generator whose cost is curved at the point has a curved cost at the start: every second
    derivative on or below the diagonal that is not zero has its place, and IPOPT is handed them in the order of the places *)
Theorem C125_hessian_partial cis cabs (D : acdata (K := K)) lim il Ybus Yf Yt Yfl Ytl q x0 s0 Hs x lagrange cm vals :
  let nb := length (a_bus D) in
  makeYbus cis (a_base D) (a_bus D) (a_branch D) = Ok (Ybus, Yf, Yt) -> rowsel Yf il = Ok Yfl -> rowsel Yt il = Ok Ytl ->
  has_nz (g_N (a_cp D)) = false -> length x0 = length x ->
  cost_hess D q x0 None = Ok s0 -> hess_structure nb (a_branch D) il (length x) s0 = Ok Hs ->
  (forall d2f i, cost_hess D [] x None = Ok d2f -> at_ d2f i i <> 0%K -> at_ s0 i i <> 0%K) ->
  eval_h cis cabs D lim Ybus Yfl Ytl il Hs x lagrange cm = Ok vals ->
  exists mu H, gather lagrange (seq (nb + nb) (length il + length il)) = Ok mu /\
    opf_hessfcn cis cabs D lim Ybus Yfl Ytl il x (slice 0 (nb + nb) lagrange) mu cm = Ok H /\
    (forall i j, j <= i < length x -> at_ H i j <> 0%K -> In (i, j) (stored Hs)) /\
    length vals = length (stored Hs) /\
    forall k i j, nth_error (stored Hs) k = Some (i, j) -> nth_error vals k = Some (at_ H i j).
Proof.
  intros nb EY EF ET NZ LX ES EH CU EV. unfold eval_h in EV. step EV. rename x1 into mu, E into Em. step EV. rename x1 into H, E into Eo. injection EV as <-. exists mu, H. split; [exact Em|split; [exact Eo|]].
  unfold hess_structure in EH. step EH. destruct x1 as (Cb, Cl2). rename E into EN. step EH. rename x1 into b, E into Eb. step EH. rename x1 into M, E into EM. injection EH as <-.
  assert (I : exists f t, idxcol ValueError F_BUS (a_branch D) = Ok f /\ idxcol ValueError T_BUS (a_branch D) = Ok t).
  { unfold net_structure in EN. step EN. step EN. eauto. }
  destruct I as (f & t & Ef & Et).
  destruct (hess_parts cis cabs nb (a_branch D) il f t Ef Et Cb Cl2 b EN Eb D eq_refl eq_refl lim _ _ _ _ _ _ EY EF ET x _ _ _ _ Eo NZ) as (d2f & G & N & Ed & CG & CN & R1 & R2 & HV).
  pose proof (cost_pos nb D eq_refl _ _ _ ES) as (T1 & T2 & T3). pose proof (cost_pos nb D eq_refl _ _ _ Ed) as (_ & _ & U3).
  destruct (bb_ok nb (a_branch D) il f t Ef Et Cb Cl2 b EN Eb) as (PB & WB).
  assert (DM : nrows M = length x /\ ncols M = length x) by (unfold addm in EM; destruct (_ && _) in EM; [|discriminate]; injection EM as <-; cbn [nrows ncols]; split; congruence).
  assert (ZO : forall (A : smat K) i j, cov A b -> nb + nb <= i -> at_ A i j = 0%K).
  { intros A i j CA L. apply at_none. intros e He (Q & _). destruct (CA e He) as (e' & I' & Q' & _). destruct (WB e' I'). lia. }
  split; [|split].
  - intros i j Hij HN. apply stored_in. cbn [nrows ncols tril]. split; [lia|split; [lia|]]. rewrite at_tril by lia. rewrite (at_addm _ _ _ _ _ EM). rewrite HV in HN. change (at_ (corner (length x) b) i j) with (at_ b i j).
    destruct (Nat.lt_ge_cases i (nb + nb)) as [L|L].
    + rewrite (at_none s0) by (intros e He (Q1 & Q2); destruct (T3 e He); lia). rewrite (at_none d2f) in HN by (intros e He (Q1 & Q2); destruct (U3 e He); lia).
      assert (Q : at_ G i j <> 0%K \/ at_ N i j <> 0%K).
      { destruct (feqb (at_ G i j) 0%K) eqn:Q; [|left; intros Q'; apply feqb_ok in Q'; congruence]. apply feqb_ok in Q. right. intros Q'. apply HN. rewrite Q, Q'. ring. }
      intros Z. assert (ZB : at_ b i j = 0%K) by (rewrite <- Z; ring). destruct Q as [Q|Q]; [apply (cov_at G b i j PB CG Q ZB)|apply (cov_at N b i j PB CN Q ZB)].
    + rewrite (ZO G), (ZO N) in HN by auto. rewrite (ZO b) by (auto using cov_refl).
      assert (HD : at_ d2f i j <> 0%K) by (intros Q; apply HN; rewrite Q; ring).
      assert (i = j) as <-. { apply at_entry in HD as (e & I' & <- & <-). apply (U3 e I'). }
      intros Z. apply (CU d2f i Ed HD). rewrite <- Z. ring.
  - apply map_length.
  - intros k i j Hk. rewrite nth_error_map, Hk. cbn [option_map fst snd]. f_equal. apply at_tril. apply nth_error_In in Hk. apply stored_in in Hk as (_ & _ & Hk). apply at_entry in Hk as (e & I' & <- & <-).
    cbn [ents tril] in I'. apply filter_In in I' as (_ & Q). apply Nat.leb_le in Q. exact Q.
Qed.
End Jacobian.

(** three buses in a row, a generator at the first, the first of two branches limited *)
Definition pD : acdata (K := Qc) :=
  let t := map (map zc) in
  AcData (zc 100) (t [[0; 3; 0; 0; 0; 0]; [1; 1; 50; 20; 0; 0]; [2; 1; 30; 10; 0; 0]]%Z) (t [[0; 0; 0; 0; 0; 1; 100; 1]]%Z)
    (t [[0; 1; 0; 1; 0; 80; 0; 0; 0; 0; 1]; [1; 2; 0; 1; 0; 0; 0; 0; 0; 0; 1]]%Z) [] 0 (GCostP (SM 0 8 []) (SM 0 0 []) [] [] [] [] []).
Definition pX : list Qc := [zc 0; zc 1; zc 0; zc 1; zc 1; zc 1; qc 6 10; qc 3 10].
Example C125_example :
  match makeYbus cis_q (a_base pD) (a_bus pD) (a_branch pD) with
  | Ok (Y, Yf, Yt) =>
      match rowsel Yf [0], rowsel Yt [0], jac_structure 3 (a_gen pD) (a_branch pD) [0] 8 None with
      | Ok Yfl, Ok Ytl, Ok Js =>
          match jac_g cis_q (fun _ => zc 1) pD LimS Y Yfl Ytl [0] None pX with
          | Ok J => (nrows J, ncols J, length (stored J), length (stored Js), existsb (fun p => (fst p =? 0) && (snd p =? 2)) (stored Js))
          | _ => (0, 0, 0, 0, true)
          end
      | _, _, _ => (0, 0, 0, 0, true)
      end
  | _ => (0, 0, 0, 0, true)
  end = (8, 8, 38, 38, false).
Proof. vm_compute. reflexivity. Qed.
(** a column of an additional constraint *)
Example C125_example_linear :
  match jac_structure 3 (a_gen pD) (a_branch pD) [0] 8 (Some (SM 1 8 [Ent 0 6 (zc 5)])) with Ok Js => (nrows Js, last (stored Js) (0, 0)) | _ => (0, (0, 0)) end = (9, (8, 6)).
Proof. vm_compute. reflexivity. Qed.
Example C125_example_unlimited :
  match makeYbus cis_q (a_base pD) (a_bus pD) (a_branch pD) with
  | Ok (Y, Yf, Yt) => eval_jac_g cis_q (fun _ => zc 1) pD LimS Y (SM 0 3 []) (SM 0 3 []) [] None (SM 6 8 []) pX
  | _ => Ok []
  end = Err AttributeError.
Proof. vm_compute. reflexivity. Qed.

(** the same network with a quadratic cost *)
Definition hpD : acdata (K := Qc) :=
  AcData (a_base pD) (a_bus pD) (a_gen pD) (a_branch pD) [map zc [2; 0; 0; 3; 1; 10; 7]%Z] 0 (a_cp pD).
Example C125_example_hessian :
  match makeYbus cis_q (a_base hpD) (a_bus hpD) (a_branch hpD), cost_hess hpD [] (repeat (zc 0) 8) None with
  | Ok (Y, Yf, Yt), Ok s0 =>
      match rowsel Yf [0], rowsel Yt [0], hess_structure 3 (a_branch hpD) [0] 8 s0 with
      | Ok Yfl, Ok Ytl, Ok Hs =>
          match eval_h cis_q (fun _ => zc 1) hpD LimS Y Yfl Ytl [0] Hs pX (map zc [1; 2; 3; 4; 5; 6; 7; 8]%Z) (zc 1) with
          | Ok vals => (length (stored Hs), length vals, last (stored Hs) (0, 0), this (last vals (zc 0)))
          | _ => (0, 0, (0, 0), Qmake 0 1)
          end
      | _, _, _ => (0, 0, (0, 0), Qmake 0 1)
      end
  | _, _ => (0, 0, (0, 0), Qmake 0 1)
  end = (18, 18, (6, 6), Qmake 20000 1).
Proof. vm_compute. reflexivity. Qed.

(** the structure of the Hessian is taken at the start: for a cost p^3 of a generator between -100 and 100 MW it has no
    place for the second derivative, which is not zero elsewhere and is not handed over *)
Definition uD : acdata (K := Qc) :=
  let t := map (map zc) in
  AcData (a_base cD) (a_bus cD) (a_gen cD) (a_branch cD) (t [[2; 0; 0; 4; 1; 0; 0; 0]]%Z) 0 (GCostP (SM 0 6 []) (SM 0 0 []) [] [] [] [] []).
Definition uX0 : list Qc := [zc 0; zc 0; zc 1; zc 1; zc 0; zc 0].
Theorem C125_hessian_refuted : exists d2f Hs H vals,
  cost_hess uD [] uX0 None = Ok d2f /\ hess_structure 2 (a_branch uD) [0] 6 d2f = Ok Hs /\
  opf_hessfcn cis_q (fun _ => zc 1) uD LimS cY cYf cYt [0] cX [zc 1; zc 0; zc 0; zc 2] [zc 1; zc 0] (zc 1) = Ok H /\
  eval_h cis_q (fun _ => zc 1) uD LimS cY cYf cYt [0] Hs cX [zc 1; zc 0; zc 0; zc 2; zc 1; zc 0] (zc 1) = Ok vals /\
  at_ (tril H) 4 4 <> zc 0 /\ ~ In (4, 4) (stored Hs).
Proof.
  do 4 eexists. split; [vm_compute; reflexivity|]. split; [vm_compute; reflexivity|]. split; [vm_compute; reflexivity|]. split; [vm_compute; reflexivity|]. split.
  - intros E. apply (f_equal this) in E. vm_compute in E. discriminate.
  - vm_compute. intros H. repeat (destruct H as [H|H]; [discriminate|]). exact H.
Qed.
Print Assumptions C125_jacobian_partial.
Print Assumptions C125_unlimited_refuted.
Print Assumptions C125_hessian_refuted.
Print Assumptions C125_hessian_partial.
