(** The cost callback of the AC optimal power flow.  C34: value and gradient; C63: the cases in
    which the callback does not return the cost. *)
From Coq Require Import Reals Lra.
From Verif Require Import Lib.ListFacts Lib.QcFacts Model.OpfFcn Spec.AcOpfSpec Proofs.LinAlgFacts Proofs.SparseFacts
  Proofs.FldFacts Proofs.OrdFacts Proofs.MatFacts Proofs.NetworkA Proofs.NetworkE Proofs.OpfLinA Proofs.AcCostA Proofs.AcCostB
  Proofs.AcCostC Proofs.AcCostR Props.P_DcOpf.
Local Open Scope nat_scope.

(** the cost that belongs to the data of the callback *)
Definition cost_of {K} {F : Fld K} (D : acdata (K := K)) (x : list K) : K :=
  let cp := a_cp D in
  ac_cost (a_base D) (length (a_bus D)) (length (a_gen D)) (a_ny D) (a_gencost D)
    (g_N cp) (g_H cp) (g_Cw cp) (g_dd cp) (g_rh cp) (g_kk cp) (g_mm cp) x.
(** a polynomial cost in a row other than the first *)
Definition later_poly {K} {F : Fld K} (D : acdata (K := K)) : Prop :=
  exists i, 0 < i < length (a_gencost D) /\ cost_is 2 (nth i (a_gencost D) []) = true.
(** the user cost matrix has an entry that is not zero, or no rows *)
Definition N_used {K} {F : Fld K} (N : smat K) : Prop :=
  nrows N = 0 \/ exists i j, i < nrows N /\ j < ncols N /\ at_ N i j <> 0%K.

Section Value.
Context {K : Type} {F : Fld K}.
Add Field KF : (@f_ok K F).
Variables (D : acdata (K := K)) (x : list K).

Lemma later_iff : later_poly D <-> later D = true.
Proof.
  unfold later, later_poly, row_. rewrite existsb_exists. split.
  - intros (i & Hi & E). exists i. rewrite E. split; [apply in_seq; lia|]. rewrite (proj2 (Nat.eqb_neq _ _)) by lia. auto.
  - intros (i & Hi & E). apply andb_prop in E. destruct E as (E & Z). apply negb_true_iff, Nat.eqb_neq in Z.
    apply in_seq in Hi. exists i. split; [lia|auto].
Qed.
Lemma used_nz : N_used (g_N (a_cp D)) -> has_nz (g_N (a_cp D)) = true \/ nrows (g_N (a_cp D)) = 0.
Proof.
  intros [Z|(i & j & Hi & Hj & Q)]; auto. left. unfold has_nz. apply existsb_exists. exists i.
  split; [apply in_seq; lia|]. apply existsb_exists. exists j. split; [apply in_seq; lia|].
  apply negb_true_iff. destruct (feqb _ _) eqn:E; auto. apply feqb_ok in E. contradiction.
Qed.

(** ** C34 *)
(** the value: cost variables, polynomial costs of all outputs in MW and MVAr, and user costs *)
Theorem C34_value : cost_shape D x -> later_poly D -> N_used (g_N (a_cp D)) ->
  exists df, opf_costfcn D x = Ok (cost_of D x, df) /\ length df = length x.
Proof.
  intros CS LT NU. destruct (costfcn_ok D x CS) as (df & E & L & _). exists df. split; auto. rewrite E.
  rewrite (proj1 later_iff LT). f_equal. f_equal. unfold cost_of, ac_cost. cbv zeta.
  set (y := lsum (fun j => nth _ x 0%K) _).
  rewrite (lsum_ext (pterm D x 0) (fun i => if cost_is 2 (nth i (a_gencost D) []) then
     horner (coeffs (nth i (a_gencost D) [])) (a_base D * ac_output (length (a_bus D)) x i) else 0)%K).
  2:{ intros i _. unfold pterm, row_. rewrite pder_0. reflexivity. }
  destruct (used_nz NU) as [->|Z]; [ring|].
  destruct (has_nz _); [ring|]. rewrite Z. unfold qform. cbn [seq lsum]. ring.
Qed.

(** ** C63 *)
(** what is returned in all cases with a polynomial cost row *)
Theorem C63_value_partial : cost_shape D x ->
  exists df, opf_costfcn D x = Ok
    ((if existsb (fun i => cost_is 2 (nth i (a_gencost D) []) && negb (i =? 0)) (seq 0 (length (a_gencost D)))
      then lsum (fun i => let r := nth i (a_gencost D) [] in
        if cost_is 2 r then horner (coeffs r) (a_base D * ac_output (length (a_bus D)) x i) else 0) (seq 0 (length (a_gencost D)))
      else 0)
     + lsum (fun j => nth (length (a_bus D) + length (a_bus D) + length (a_gen D) + length (a_gen D) + j) x 0) (seq 0 (a_ny D))
     + (if has_nz (g_N (a_cp D)) then let cp := a_cp D in qform (nrows (g_N cp)) (g_H cp) (g_Cw cp)
          (zone_w (g_N cp) (g_dd cp) (g_rh cp) (g_kk cp) (g_mm cp) x) else 0), df)%K.
Proof.
  intros CS. destruct (costfcn_ok D x CS) as (df & E & _). exists df. rewrite E.
  rewrite (lsum_ext (pterm D x 0) (fun i => let r := nth i (a_gencost D) [] in if cost_is 2 r then
     horner (coeffs r) (a_base D * ac_output (length (a_bus D)) x i) else 0)%K).
  - reflexivity.
  - intros i _. unfold pterm, row_. rewrite pder_0. reflexivity.
Qed.
(** without any polynomial cost the callback raises *)
Theorem C63_piecewise_partial :
  length (a_bus D) + length (a_bus D) + length (a_gen D) + length (a_gen D) + a_ny D <= length x ->
  Forall (fun r => MODEL < length r) (a_gencost D) ->
  (forall r, In r (a_gencost D) -> cost_is 2 r = false) ->
  (let cp := a_cp D in zone_data (length x) (g_N cp) (g_H cp) (g_Cw cp) (g_dd cp) (g_rh cp) (g_kk cp) (g_mm cp)) ->
  opf_costfcn D x = Err TypeError.
Proof.
  intros LX MD NP ZD. unfold opf_costfcn. cbv zeta in *. rewrite (col_def _ _ MD). cbn [bind]. rewrite map_map.
  set (ipol := find _).
  assert (ipol = []) as ->.
  { unfold ipol. rewrite (find_filter _ []). 
    assert (forall l : list nat, (forall i, In i l -> i < length (a_gencost D)) ->
      filter (fun i => is_poly (nth MODEL (nth i (a_gencost D) []) 0%K)) l = []) as A.
    { induction l as [|a l IH]; intros H; cbn [filter]; auto. 
      change (is_poly (nth MODEL (nth a (a_gencost D) []) 0%K)) with (cost_is 2 (nth a (a_gencost D) [])).
      rewrite NP by (apply nth_In, H; left; auto). apply IH. intros i I. apply H. right. auto. }
    apply A. intros i I. apply in_seq in I. lia. }
  cbn [gather existsb bind mapM].
  set (i1y := _ + length (a_gen D)).
  rewrite (sparse_def (repeat (1%K : K) (a_ny D)) (repeat 0 (a_ny D)) (seq i1y (a_ny D)) 1 (length x));
    rewrite ?repeat_length, ?seq_length; auto.
  2:{ apply Forall_forall. intros i I. apply repeat_spec in I. lia. }
  2:{ apply Forall_forall. intros i I. apply in_seq in I. unfold i1y in I. lia. }
  cbn [bind]. set (f1 := if a_ny D =? 0 then _ else _). assert (exists v, f1 = Ok v) as (v & ->).
  { unfold f1. destruct (a_ny D =? 0); eauto. }
  cbn [bind]. destruct (has_nz (g_N (a_cp D))).
  - destruct (general_ok D x ZD) as (t & E & G). rewrite E. cbn [bind].
    pose proof ZD as (_ & SH & _). destruct SH as (A1 & A2 & A3).
    assert (WH : ismat (g_H (a_cp D)) (nrows (g_N (a_cp D))) (nrows (g_N (a_cp D))) (at_ (g_H (a_cp D)))).
    { split; auto. unfold wf. rewrite A1, A2. auto. }
    assert (Lw : length (gt_w t) = nrows (g_N (a_cp D))).
    { destruct G as [GW _ _ _ _ _]. rewrite GW. unfold zone_w. rewrite map_length, seq_length. auto. }
    destruct (ismat_mulv _ _ _ _ (gt_w t) (ismat_transp _ _ _ _ WH) Lw) as (wH & -> & _). cbn [bind]. reflexivity.
  - cbn [bind]. reflexivity.
Qed.
End Value.

(** the gradient: for every variable, the derivative of the cost.  A user cost row of the linear kind
    has no derivative at the two edges of its dead zone. *)
Theorem C34_gradient (D : acdata (K := R)) x :
  cost_shape D x -> sym_mat (g_H (a_cp D)) ->
  (let cp := a_cp D in off_edges (fun d => d = 1%R) (g_N cp) (g_dd cp) (g_rh cp) (g_kk cp) x) ->
  exists f df, opf_costfcn D x = Ok (f, df) /\ length df = length x /\
    forall j, j < length x -> vpartial (cost_of D) x j (nth j df 0%R).
Proof.
  intros CS SH OE. destruct (costfcn_ok D x CS) as (df & E & L & G). eexists _, df. split; [exact E|]. split; auto.
  intros j Hj. specialize (G j Hj). cbn [r0 fld_rng R_fld R_rng] in G. rewrite G. destruct CS as [LX LG _ _ _ ZD]. cbv zeta in OE. apply edge_free_iff in OE.
  exact (d_cost D (length x) ZD SH LX LG x j eq_refl Hj OE).
Qed.

(** ** examples *)
(** two buses, two generators with quadratic costs, a cost variable, and a linear user cost of 3 per
    unit outside 1/2 .. 3/2 on the first active output *)
Definition xD : acdata (K := Qc) :=
  AcData (zc 100) ex_bus [xg 0 0 100; xg 1 0 60] ex_branch [zs [2; 0; 0; 3; 1; 10; 7]%Z; zs [2; 0; 0; 2; 4; 0; 0]%Z] 1
    (GCostP (SM 1 9 [Ent 0 4 (zc 1)]) (SM 1 1 [Ent 0 0 (zc 2)]) [zc 3] [zc 1] [zc 1] [Q2Qc (Qmake 1 2)] [zc 1]).
Definition xX : list Qc := [zc 0; zc 0; zc 1; zc 1; zc 2; zc 1; zc 0; zc 0; zc 5].
Example C34_example_run :
  match opf_costfcn xD xX with Ok (f, df) => (this f, map this df) | Err _ => (Qmake 0 1, []) end
  = (Qmake 169655 4, map (fun z => Qmake z 1) [0; 0; 0; 0; 41004; 400; 0; 0; 1]%Z).
Proof. vm_compute. reflexivity. Qed.
Lemma xD_shape : cost_shape xD xX.
Proof.
  split.
  - cbn. lia.
  - cbn. lia.
  - repeat constructor; cbn; unfold MODEL; lia.
  - intros r [<-|[<-|[]]] _; [exists 3|exists 2]; (split; [lia|split; [vm_compute; reflexivity|cbn; unfold COST; lia]]).
  - eexists. split; [left; reflexivity|vm_compute; reflexivity].
  - split; [|split; [|do 5 (split; [reflexivity|])]].
    + split; [reflexivity|split; [reflexivity|]]. constructor; [cbn; lia|constructor].
    + split; [reflexivity|split; [reflexivity|]]. constructor; [cbn; lia|constructor].
    + constructor; [vm_compute; reflexivity|constructor].
Qed.
Example C34_example_hypotheses : cost_shape xD xX /\ later_poly xD /\ N_used (g_N (a_cp xD)) /\ sym_mat (g_H (a_cp xD)) /\
  this (cost_of xD xX) = Qmake 169655 4.
Proof.
  split; [exact xD_shape|]. split; [exists 1; split; [cbn; lia|vm_compute; reflexivity]|].
  split; [right; exists 0, 4; cbn; do 2 (split; [lia|])|].
  - intros H. apply (f_equal this) in H. vm_compute in H. discriminate.
  - split; [|vm_compute; reflexivity]. intros [|i] [|j]; cbn; auto; unfold at_; cbn; rewrite ?andb_false_r; auto.
Qed.
(** the same point over the reals *)
Definition rowR (l : list Z) : list R := map IZR l.
Definition rD : acdata (K := R) :=
  AcData 100%R [[]; []] [[]; []] [] [rowR [2; 0; 0; 3; 1; 10; 7]%Z; rowR [2; 0; 0; 2; 4; 0; 0]%Z] 1
    (GCostP (SM 1 9 [Ent 0 4 1%R]) (SM 1 1 [Ent 0 0 2%R]) [3%R] [1%R] [1%R] [(1 / 2)%R] [1%R]).
Definition rX : list R := rowR [0; 0; 1; 1; 2; 1; 0; 0; 5]%Z.
Example C34_example_gradient : exists f df, opf_costfcn rD rX = Ok (f, df) /\ length df = 9 /\
  forall j, j < 9 -> vpartial (cost_of rD) rX j (nth j df 0%R).
Proof.
  apply (C34_gradient rD rX).
  - split.
    + cbn. lia.
    + cbn. lia.
    + repeat constructor; cbn; unfold MODEL; lia.
    + intros r [<-|[<-|[]]] _; [exists 3|exists 2]; (split; [lia|split; [reflexivity|cbn; unfold COST; lia]]).
    + eexists. split; [left; reflexivity|]. apply feqb_ok. reflexivity.
    + split; [|split; [|do 5 (split; [reflexivity|])]].
      * split; [reflexivity|split; [reflexivity|]]. constructor; [cbn; lia|constructor].
      * split; [reflexivity|split; [reflexivity|]]. constructor; [cbn; lia|constructor].
      * constructor; [|constructor]. unfold le. apply ltb_r'. cbn. lra.
  - intros [|i] [|j]; cbn; auto; unfold at_; cbn; rewrite ?andb_false_r; auto.
  - cbv zeta. intros i Hi _ _. cbn in Hi. assert (i = 0) as -> by lia.
    unfold zone_r, row_val. cbn. unfold at_. cbn. split; lra.
Qed.

(** only the first generator has a polynomial cost: the value lacks it, the gradient does not *)
Definition xD1 : acdata (K := Qc) :=
  AcData (zc 100) ex_bus [xg 0 0 100] ex_branch [zs [2; 0; 0; 3; 1; 10; 7]%Z] 0
    (GCostP (SM 0 6 []) (SM 0 0 []) [] [] [] [] []).
Definition xX1 : list Qc := [zc 0; zc 0; zc 1; zc 1; zc 2; zc 0].
Theorem C63_value_refuted : exists (D : acdata (K := Qc)) x f df,
  cost_shape D x /\ N_used (g_N (a_cp D)) /\ opf_costfcn D x = Ok (f, df) /\ f <> cost_of D x.
Proof.
  destruct (opf_costfcn xD1 xX1) as [(f, df)|] eqn:E; [|vm_compute in E; discriminate].
  exists xD1, xX1, f, df. split; [|split; [|split]]; auto.
  - split.
    + cbn. lia.
    + cbn. lia.
    + repeat constructor; cbn; unfold MODEL; lia.
    + intros r [<-|[]] _. exists 3. split; [lia|split; [vm_compute; reflexivity|cbn; unfold COST; lia]].
    + eexists. split; [left; reflexivity|vm_compute; reflexivity].
    + split; [|split; [|do 5 (split; [reflexivity|])]]; [| |constructor].
      * split; [reflexivity|split; [reflexivity|constructor]].
      * split; [reflexivity|split; [reflexivity|constructor]].
  - left. reflexivity.
  - intros H. apply (f_equal this) in H. unfold xD1, xX1 in E. vm_compute in E. injection E as <- <-. vm_compute in H. discriminate.
Qed.
Example C63_example_run :
  match opf_costfcn xD1 xX1 with Ok (f, df) => (this f, map this df) | Err _ => (Qmake 1 1, []) end
  = (Qmake 0 1, map (fun z => Qmake z 1) [0; 0; 0; 0; 41000; 0]%Z) /\ this (cost_of xD1 xX1) = Qmake 42007 1.
Proof. vm_compute. auto. Qed.
(** a piecewise linear cost only *)
Example C63_example_piecewise :
  opf_costfcn (AcData (zc 100) ex_bus [xg 0 0 100] ex_branch [zs [1; 0; 0; 2; 0; 0; 10; 7]%Z] 0
    (GCostP (SM 0 6 []) (SM 0 0 []) [] [] [] [] [])) xX1 = Err TypeError.
Proof. vm_compute. reflexivity. Qed.

Print Assumptions C34_value.
Print Assumptions C34_gradient.
Print Assumptions C63_value_partial.
Print Assumptions C63_value_refuted.
Print Assumptions C63_piecewise_partial.
