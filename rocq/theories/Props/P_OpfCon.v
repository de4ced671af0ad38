(** The constraint callback of the AC optimal power flow.  C60: values and first derivatives. *)
From Coq Require Import Reals Lra.
From Verif Require Import Lib.ListFacts Lib.QcFacts Model.OpfFcn Spec.AcConSpec Spec.AcDeriv Proofs.NetworkE Proofs.AcCostR Proofs.AcConA Proofs.AcConB Proofs.AcConR
  Props.P_Ybus Props.P_OpfFcn.
Local Open Scope nat_scope.

(** ** C60 *)
(** whenever the callback returns, over any field: the squared flows at the from ends and at the to
    ends over their limits, and the balances of active and of reactive power *)
Theorem C60_values {K} {F : Fld K} cis cabs (D : acdata (K := K)) lim Y Yf Yt il x h g dh dg :
  con_shape D Y Yf Yt il ->
  let nb := length (a_bus D) in let ng := length (a_gen D) in
  nb + nb + ng + ng <= length x ->
  opf_consfcn cis cabs D lim Y Yf Yt il x = Ok (h, g, dh, dg) ->
  h = map (fun l => overflow cis lim (a_base D) nb (brow D il l) F_BUS Yf l x) (seq 0 (length il)) ++
      map (fun l => overflow cis lim (a_base D) nb (brow D il l) T_BUS Yt l x) (seq 0 (length il)) /\
  g = map (fun i => p_balance cis (a_base D) (a_bus D) (a_gen D) Y i x) (seq 0 nb) ++
      map (fun i => q_balance cis (a_base D) (a_bus D) (a_gen D) Y i x) (seq 0 nb).
Proof. intros S nb ng L E. exact (consfcn_values _ _ _ _ _ _ _ _ _ _ _ _ _ S L E). Qed.

(** over the reals it does return, and column i of its second and fourth results is the gradient of
    constraint i *)
Theorem C60_derivatives (D : acdata (K := R)) lim Y Yf Yt il x :
  con_shape D Y Yf Yt il ->
  let nb := length (a_bus D) in let ng := length (a_gen D) in let nl := length il in
  nb + nb + ng + ng <= length x -> 0 < nb ->
  (forall k, k < nb -> (0 < nth (nb + k) x 0)%R) ->
  Forall (fun g => in_service g = true) (a_gen D) ->
  exists h g dh dg, opf_consfcn cisR cabsR D lim Y Yf Yt il x = Ok (h, g, dh, Some dg) /\
    AcDeriv.shaped dg (length x) (nb + nb) /\
    (forall i j, i < nb -> j < length x ->
      vpartial (p_balance cisR (a_base D) (a_bus D) (a_gen D) Y i) x j (at_ dg j i) /\
      vpartial (q_balance cisR (a_base D) (a_bus D) (a_gen D) Y i) x j (at_ dg j (nb + i))) /\
    (nl = 0 -> dh = None) /\
    (0 < nl -> exists M, dh = Some M /\ AcDeriv.shaped M (length x) (nl + nl) /\
      forall l j, l < nl -> j < length x ->
        vpartial (overflow cisR lim (a_base D) nb (brow D il l) F_BUS Yf l) x j (at_ M j l) /\
        vpartial (overflow cisR lim (a_base D) nb (brow D il l) T_BUS Yt l) x j (at_ M j (nl + l))).
Proof.
  intros S nb ng nl LX PN POS ON. destruct (con_derivs_ok D lim Y Yf Yt il x S LX PN POS ON) as (dh & dg & E & H).
  eexists _, _, dh, dg. rewrite consfcn_head by auto. rewrite E. cbn [bind]. split; [reflexivity|exact H].
Qed.

(** ** examples *)
(** two buses with a generator at the first and a load at the second, one branch rated 80 MVA *)
Definition cbus : list (list Z) := [[0; 3; 0; 0]; [1; 1; 50; 20]]%Z.
Definition cgen : list (list Z) := [[0; 0; 0; 0; 0; 1; 100; 1]]%Z.
Definition cbranch : list (list Z) := [[0; 1; 0; 0; 0; 80]]%Z.
Definition cD {K} {F : Fld K} : acdata (K := K) :=
  let t := map (map fofZ) in
  AcData (fofZ 100) (t cbus) (t cgen) (t cbranch) [] 0 (GCostP (SM 0 6 []) (SM 0 0 []) [] [] [] [] []).
(** admittance 1 - 3j of the branch, charging 2j at the second bus *)
Definition cY {K} {F : Fld K} : smat (cpx K) := let c a b := Cx (fofZ a) (fofZ b) in
  SM 2 2 [Ent 0 0 (c 1 (-3)); Ent 0 1 (c (-1) 3); Ent 1 0 (c (-1) 3); Ent 1 1 (c 1 (-1))]%Z.
Definition cYf {K} {F : Fld K} : smat (cpx K) := let c a b := Cx (fofZ a) (fofZ b) in
  SM 1 2 [Ent 0 0 (c 1 (-3)); Ent 0 1 (c (-1) 3)]%Z.
Definition cYt {K} {F : Fld K} : smat (cpx K) := let c a b := Cx (fofZ a) (fofZ b) in
  SM 1 2 [Ent 0 0 (c (-1) 3); Ent 0 1 (c 1 (-1))]%Z.
Lemma c_shape {K} {F : Fld K} : con_shape (K := K) cD cY cYf cYt [0].
Proof.
  split.
  - apply fofZ_nz. lia.
  - repeat constructor.
  - repeat constructor.
  - constructor; [|constructor]. unfold bus_no. cbn -[Z.to_nat]. rewrite ftrunc_ofZ. split; [lia|cbn; lia].
  - split; [reflexivity|split; [reflexivity|]]. repeat constructor; cbn; lia.
  - split; [reflexivity|split; [reflexivity|]]. repeat constructor; cbn; lia.
  - split; [reflexivity|split; [reflexivity|]]. repeat constructor; cbn; lia.
  - repeat constructor.
  - repeat constructor.
  - constructor; [|constructor]. unfold bus_no. cbn -[Z.to_nat]. rewrite ftrunc_ofZ. split; [lia|cbn; lia].
  - constructor; [|constructor]. unfold bus_no. cbn -[Z.to_nat]. rewrite ftrunc_ofZ. split; [lia|cbn; lia].
  - constructor; [|constructor]. cbn. apply fofZ_nz. lia.
Qed.
(** voltages 1 and 3/5 + 4/5j, generator output 60 MW and 30 MVAr *)
Definition cX : list Qc := [zc 0; zc 1; zc 1; zc 1; qc 6 10; qc 3 10].
Example C60_example_run :
  match opf_consfcn cis_q (fun _ => zc 1) cD LimS cY cYf cYt [0] cX with
  | Ok (h, g, Some dh, Some dg) =>
      (map this h, map this g, map (fun j => this (at_ dh j 0)) (seq 0 6), map (fun j => this (at_ dg j 0)) (seq 0 6))
  | _ => ([], [], [], [])
  end = ([Qmake 184 25; Qmake 244 25], [Qmake (-13) 5; Qmake 33 10; Qmake 17 10; Qmake (-7) 5],
         [Qmake (-16) 1; Qmake 16 1; Qmake 24 1; Qmake 8 1; Qmake 0 1; Qmake 0 1],
         [Qmake 1 1; Qmake (-1) 1; Qmake (-1) 1; Qmake (-3) 1; Qmake (-1) 1; Qmake 0 1]).
Proof. vm_compute. reflexivity. Qed.
Example C60_example_values : opf_consfcn cis_q (fun _ => zc 1) cD LimP cY cYf cYt [0] cX <> Err OutOfModel /\
  con_shape (K := Qc) cD cY cYf cYt [0] /\ this (p_balance cis_q (zc 100) (a_bus cD) (a_gen cD) cY 1 cX) = Qmake 33 10.
Proof. split; [|split; [apply c_shape|vm_compute; reflexivity]]. vm_compute. discriminate. Qed.
(** every way of limiting flows, at a real point *)
Definition cR : list R := [0; 1; 1; 2; 3; 4]%R.
Example C60_example_derivatives lim : exists h g dh dg,
  opf_consfcn cisR cabsR cD lim cY cYf cYt [0] cR = Ok (h, g, Some dh, Some dg) /\
  forall j, j < 6 -> vpartial (p_balance cisR 100%R (a_bus cD) (a_gen cD) cY 1) cR j (at_ dg j 1) /\
                     vpartial (overflow cisR lim 100%R 2 (brow cD [0] 0) T_BUS cYt 0) cR j (at_ dh j 1).
Proof.
  destruct (C60_derivatives cD lim cY cYf cYt [0] cR) as (h & g & dh & dg & E & _ & G & _ & H).
  - apply c_shape.
  - cbn. lia.
  - cbn. lia.
  - intros [|[|k]] Hk; cbn; try lra. cbn in Hk. lia.
  - constructor; [|constructor]. unfold in_service, pos_status, cell. cbn. apply ltb_r. cbn. lra.
  - destruct H as (M & -> & _ & H); [cbn; lia|]. exists h, g, M, dg. split; [exact E|]. intros j Hj.
    split; [apply (G 1 j); cbn; lia|apply (H 0 j); cbn; lia].
Qed.

Print Assumptions C60_values.
Print Assumptions C60_derivatives.
