(** makeYbus: rows of the three matrices. *)
From Verif Require Import Lib.ListFacts Lib.Sparse Proofs.LinAlgFacts Proofs.SparseFacts
  Proofs.FldFacts Model.AcNet Spec.AcSpec Proofs.NetworkA Proofs.NetworkB Proofs.NetworkE.
Local Open Scope nat_scope.

(** ** lists of branch ends with values in any ring *)
Section GEnds.
Context {K : Type} {F : Fld K} {L : Type} {RL : Rng L}.
Add Ring LR : (@r_ok L _).
Variables (rows : list (list K)) (d e : list K -> L).
Let n := length rows.
Definition gends : list (entry L) :=
  zip3 (seq 0 n ++ seq 0 n)
    (map (fun r => bus_no r F_BUS) rows ++ map (fun r => bus_no r T_BUS) rows)
    (map d rows ++ map e rows).

Lemma lsum_gends (g : entry L -> L) :
  lsum g gends
  = lsum (fun l => let r := nth l rows [] in
       g (Ent l (bus_no r F_BUS) (d r)) + g (Ent l (bus_no r T_BUS) (e r)))%K (seq 0 n).
Proof.
  unfold gends. rewrite zip3_app by (rewrite ?map_length, ?seq_length; auto).
  rewrite lsum_app, lsum_add.
  f_equal; rewrite (lsum_zip3 _ _ _ _ n) by (rewrite ?map_length, ?seq_length; auto);
    apply lsum_ext; intros l Hl; apply in_seq in Hl; rewrite seq_nth by lia;
    rewrite !(nth_map_lt _ rows l _ []) by (unfold n in *; lia); reflexivity.
Qed.

Lemma mulrow_gends nr nc x l : l < n ->
  mulrow (SM nr nc gends) x l
  = (let r := nth l rows [] in
     d r * nth (bus_no r F_BUS) x 0 + e r * nth (bus_no r T_BUS) x 0)%K.
Proof.
  intros H. unfold mulrow; simpl ents. rewrite lsum_gends.
  pose (g := fun k => let r := nth k rows [] in
       (d r * nth (bus_no r F_BUS) x 0 + e r * nth (bus_no r T_BUS) x 0)%K).
  rewrite (lsum_ext _ (fun k => if l =? k then g k else 0%K)).
  - apply (lsum_seq_single' g); auto.
  - intros k _. unfold g. cbn [erow ecol ev]. rewrite Nat.eqb_sym. destruct (l =? k); cbv zeta; ring.
Qed.

(** one end only: a connection matrix with unit entries, transposed, times a matrix *)
Lemma mulrow_conn (j : nat) nr nc m nl (M : smat L) x i :
  nl = length rows ->
  mulrow (SM nr nc (mulm_ents
     (ents (transp (SM nl m (zip3 (seq 0 nl) (map (fun r => bus_no r j) rows)
                       (repeat 1%K nl))))) (ents M))) x i
  = lsum (fun l => if bus_no (nth l rows []) j =? i then mulrow M x l else 0%K) (seq 0 n).
Proof.
  intros ->. rewrite (mulrow_mulm _ _ _ _ (nrows M)). cbn [transp ents]. rewrite lsum_map.
  cbn [ents]. rewrite (lsum_zip3 _ _ _ _ n) by (rewrite ?map_length, ?seq_length, ?repeat_length; auto).
  apply lsum_ext. intros l Hl. apply in_seq in Hl. cbn [erow ecol ev].
  rewrite seq_nth by (unfold n in *; lia). rewrite (nth_map_lt _ rows l _ []) by (unfold n in *; lia).
  rewrite nth_repeat_lt by (unfold n in *; lia). simpl plus.
  destruct (_ =? i); [|reflexivity]. unfold mulrow. cbn [ents]. ring.
Qed.
End GEnds.

Section Ybus.
Context {K : Type} {F : Fld K}.
Variable cis : K -> cpx K.
Add Ring KR : (@r_ok K _).
Add Field KF : (@f_ok K _).

Lemma cpx_field' :
  field_theory (@r0 (cpx K) _) r1 radd rmul rsub ropp cdiv cinv eq.
Proof. exact cpx_field. Qed.
Add Field CF : cpx_field'.

Lemma cvdiv_ok (u v w : list (cpx K)) : cvdiv u v = Ok w ->
  length u = length v /\ Forall (fun b => b <> 0%K) v /\ w = map2 cdiv u v.
Proof.
  unfold cvdiv. destruct (Nat.eqb_spec (length u) (length v)); simpl negb; [|discriminate]. cbv iota.
  destruct (existsb _ v) eqn:E; [discriminate|]. intros H; injection H as <-. repeat split; auto.
  apply Forall_forall. intros b Hb ->.
  assert (existsb (fun b : cpx K => feqb (nrm2 b) 0%K) v = true); [|congruence].
  apply existsb_exists. exists 0%K. split; auto. apply feqb_ok. unfold nrm2; simpl. ring.
Qed.

Lemma cvdiv_def (u v : list (cpx K)) : length u = length v -> Forall (fun b => b <> 0%K) v ->
  cvdiv u v = Ok (map2 cdiv u v).
Proof.
  intros H N. unfold cvdiv. rewrite H, Nat.eqb_refl. simpl negb. cbv iota.
  destruct (existsb _ v) eqn:E; auto. exfalso. apply existsb_exists in E as (b & Hb & E).
  apply feqb_ok in E. rewrite Forall_forall in N. exact (nrm2_nz b (N _ Hb) E).
Qed.

(** branch admittances *)
Definition zser (r : list K) : cpx K := Cx (cell r BR_R) (cell r BR_X).
Definition ys (r : list K) : cpx K := cdiv (ofK (cell r BR_STATUS)) (zser r).
Definition yc (r : list K) : cpx K := jK (cell r BR_STATUS * cell r BR_B / fofZ 2)%K.
Definition ytt (r : list K) : cpx K := (ys r + yc r)%K.
Definition yff (r : list K) : cpx K := cdiv (ytt r) (turns cis r * conj (turns cis r))%K.
Definition yft (r : list K) : cpx K := cdiv (- ys r)%K (conj (turns cis r)).
Definition ytf (r : list K) : cpx K := cdiv (- ys r)%K (turns cis r).

Record ybus_spec (baseMVA : K) (bus branch : list (list K)) (Ybus Yf Yt : smat (cpx K)) : Prop := {
  ys_wide : wide BR_STATUS branch;
  ys_from : buses_ok (length bus) F_BUS branch;
  ys_to : buses_ok (length bus) T_BUS branch;
  ys_z : Forall (fun r => zser r <> 0%K) branch;
  ys_turns : Forall (fun r => turns cis r <> 0%K) branch;
  ys_base : bus <> [] -> baseMVA <> 0%K;
  ys_Ybus : wf Ybus /\ nrows Ybus = length bus /\ ncols Ybus = length bus;
  ys_Yf : wf Yf /\ nrows Yf = length branch /\ ncols Yf = length bus;
  ys_Yt : wf Yt /\ nrows Yt = length branch /\ ncols Yt = length bus;
  ys_If : forall V l r, nth_error branch l = Some r ->
    mulrow Yf V l = (yff r * nth (bus_no r F_BUS) V 0 + yft r * nth (bus_no r T_BUS) V 0)%K;
  ys_It : forall V l r, nth_error branch l = Some r ->
    mulrow Yt V l = (ytf r * nth (bus_no r F_BUS) V 0 + ytt r * nth (bus_no r T_BUS) V 0)%K;
  ys_inj : forall V i, i < length bus ->
    mulrow Ybus V i
    = (lsum (fun l => (if bus_no (nth l branch []) F_BUS =? i then mulrow Yf V l else 0)
                    + (if bus_no (nth l branch []) T_BUS =? i then mulrow Yt V l else 0))
         (seq 0 (length branch))
       + shunt baseMVA (nth i bus []) * nth i V 0)%K }.

Lemma map2_map' {A B C D E} (f : B -> D -> E) (g : A -> B) (h : A -> D) (l : list A) (_ : C) :
  map2 f (map g l) (map h l) = map (fun x => f (g x) (h x)) l.
Proof. unfold map2. induction l; simpl; congruence. Qed.

Lemma map2_repeat {A B C D} (f : B -> C -> D) (g : A -> B) c (l : list A) :
  map2 f (map g l) (repeat c (length l)) = map (fun x => f (g x) c) l.
Proof. unfold map2. induction l; simpl; congruence. Qed.

Lemma makeYbus_ok baseMVA bus branch Ybus Yf Yt :
  makeYbus cis baseMVA bus branch = Ok (Ybus, Yf, Yt) ->
  ybus_spec baseMVA bus branch Ybus Yf Yt.
Proof.
  unfold makeYbus. intros H.
  apply bind_ok in H as (bi & _ & H). apply bind_ok in H as (stat & Hst & H).
  apply bind_ok in H as (r & Hr & H). apply bind_ok in H as (x & Hx & H).
  apply bind_ok in H as (Ys & HYs & H). apply bind_ok in H as (b & Hb & H). cbv zeta in H.
  apply bind_ok in H as (taps & Htap & H). apply bind_ok in H as (sh & Hsh & H).
  apply bind_ok in H as (Yff & HYff & H). apply bind_ok in H as (Yft & HYft & H).
  apply bind_ok in H as (Ytf & HYtf & H). apply bind_ok in H as (gs & Hgs & H).
  apply bind_ok in H as (bs & Hbs & H). apply bind_ok in H as (Ysh & HYsh & H).
  apply bind_ok in H as (f & Hf & H). apply bind_ok in H as (t & Ht & H).
  apply bind_ok in H as (Cf & HCf & H). apply bind_ok in H as (Ct & HCt & H).
  apply bind_ok in H as (Yf' & HYf & H). apply bind_ok in H as (Yt' & HYt & H).
  apply bind_ok in H as (A & HA & H). apply bind_ok in H as (B & HB & H).
  apply bind_ok in H as (Sm & HS & H). apply bind_ok in H as (AB & HAB & H).
  apply bind_ok in H as (Yb & HYb & H). injection H as -> -> ->.
  apply col_ok in Hst as [Wst ->]. apply col_ok in Hr as [_ ->]. apply col_ok in Hx as [_ ->].
  apply col_ok in Hb as [_ ->]. apply col_ok in Htap as [_ ->]. apply col_ok in Hsh as [_ ->].
  apply col_ok in Hgs as [_ ->]. apply col_ok in Hbs as [_ ->].
  rewrite !map_map, !map2_map in *.
  apply cvdiv_ok in HYs as (_ & NZ & ->). rewrite map2_map in *.
  change (fun x : list K => cdiv (ofK (nth BR_STATUS x 0%K)) (Cx (nth BR_R x 0%K) (nth BR_X x 0%K)))
    with ys in *.
  rewrite !map2_map in *.
  apply cvdiv_ok in HYff as (_ & NZt & ->). apply cvdiv_ok in HYft as (_ & _ & ->).
  apply cvdiv_ok in HYtf as (_ & NZt' & ->). rewrite !map_map, !map2_map in *.
  apply cvdiv_ok in HYsh as (_ & NZb & ->). rewrite map2_repeat in *.
  apply idxcol_ok in Hf as (_ & Pf & ->). apply idxcol_ok in Ht as (_ & Pt & ->).
  pose proof (sparse_wf _ _ _ _ _ _ HCf) as WCf. pose proof (sparse_wf _ _ _ _ _ _ HCt) as WCt.
  pose proof (sparse_wf _ _ _ _ _ _ HYf) as WYf. pose proof (sparse_wf _ _ _ _ _ _ HYt) as WYt.
  pose proof (sparse_wf _ _ _ _ _ _ HS) as WS.
  assert (wf A) as WA by (eapply wf_mulm; [apply wf_transp, WCf|exact WYf|exact HA]).
  assert (wf B) as WB by (eapply wf_mulm; [apply wf_transp, WCt|exact WYt|exact HB]).
  apply mulm_ok in HA as [_ EA]. apply mulm_ok in HB as [_ EB].
  apply sparse_ok in HCf as (_ & _ & _ & Rf & ECf). apply sparse_ok in HCt as (_ & _ & _ & Rt & ECt).
  apply sparse_ok in HYf as (_ & _ & _ & _ & EYf). apply sparse_ok in HYt as (_ & _ & _ & _ & EYt).
  apply sparse_ok in HS as (_ & _ & _ & _ & ES).
  unfold addm in HAB, HYb.
  destruct (_ && _) eqn:E1 in HAB; [|discriminate]. injection HAB as <-.
  destruct (_ && _) eqn:E2 in HYb; [|discriminate]. injection HYb as <-.
  assert (Yf = SM (length branch) (length bus) (gends branch yff yft)) as EYf' by (rewrite EYf; reflexivity).
  assert (Yt = SM (length branch) (length bus) (gends branch ytf ytt)) as EYt' by (rewrite EYt; reflexivity).
  rewrite Forall_map in *.
  assert (nrows A = length bus /\ ncols A = length bus) as [NA1 NA2]
    by (rewrite EA, ECf, EYf'; auto).
  constructor; auto.
  - unfold buses_ok. rewrite Forall_forall in *. intros q Hq; auto.
  - unfold buses_ok. rewrite Forall_forall in *. intros q Hq; auto.
  - intros NE E. destruct bus as [|b0 bus']; [congruence|]. simpl repeat in NZb. inversion NZb as [|? ? N0 _].
    apply N0. rewrite E. reflexivity.
  - split; [|simpl; auto].
    unfold wf in *. simpl. rewrite NA1, NA2 in *. rewrite !Forall_app. repeat split; auto.
    + rewrite EB, ECt, EYt' in WB |- *. exact WB.
    + rewrite ES in WS |- *. exact WS.
  - rewrite EYf' in *. auto.
  - rewrite EYt' in *. auto.
  - intros V l q Hq. rewrite EYf', mulrow_gends by (eapply nth_error_some_lt; eauto).
    rewrite (nth_error_nth _ _ _ Hq). reflexivity.
  - intros V l q Hq. rewrite EYt', mulrow_gends by (eapply nth_error_some_lt; eauto).
    rewrite (nth_error_nth _ _ _ Hq). reflexivity.
  - intros V i Hi. cbn [nrows ncols ents]. rewrite !mulrow_addm.
    rewrite EA, EB. cbn [ents nrows ncols]. rewrite ECf, ECt.
    change (repeat (ofK 1%K) (length branch)) with (repeat (1%K : cpx K) (length branch)).
    rewrite !(mulrow_conn branch) by reflexivity. rewrite <- lsum_add. f_equal.
    rewrite ES. unfold mulrow. cbn [ents].
    rewrite (lsum_zip3 _ _ _ _ (length bus)) by (rewrite ?map_length, ?seq_length; auto).
    pose (g := fun k => (shunt baseMVA (nth k bus []) * nth k V 0)%K).
    rewrite (lsum_ext _ (fun k => if i =? k then g k else 0%K)).
    + apply (lsum_seq_single' g); auto.
    + intros k Hk. apply in_seq in Hk. cbn [erow ecol ev]. rewrite !seq_nth by lia. simpl plus.
      rewrite Nat.eqb_sym. destruct (i =? k); auto. unfold g. f_equal.
      rewrite (nth_map_lt _ bus k _ []) by lia. unfold shunt, cdiv, ofK, cell.
      assert (baseMVA <> 0%K) as NB.
      { destruct bus; [simpl in Hi; lia|]. simpl repeat in NZb. inversion NZb as [|? ? N0 _].
        intros E. apply N0. rewrite E. reflexivity. }
      apply cpx_eq; cbn [re im]; unfold nrm2; cbn [re im]; field; auto.
Qed.
End Ybus.
