(** Facts about pfsoln: the whole update. *)
From Coq Require Import Permutation.
From Verif Require Import Lib.ListFacts Model.AcPf Spec.PfSpec Proofs.LinAlgFacts Proofs.SparseFacts
  Proofs.FldFacts Proofs.NetworkA Proofs.NetworkB Proofs.NetworkC Proofs.NetworkD Proofs.NetworkE
  Proofs.YbusA Proofs.MatFacts Proofs.AcPfA Proofs.AcPfB Proofs.PfsolnA Proofs.PfsolnB.
Local Open Scope nat_scope.

Section PfsolnC.
Context {K : Type} {F : Fld K}.
Add Field KF : (@f_ok K F).
Add Ring CR : (@r_ok (cpx K) _).

Lemma list_as_map {A} (l : list A) d : l = map (fun i => nth i l d) (seq 0 (length l)).
Proof.
  apply nth_error_ext. intros i. rewrite nth_error_map.
  destruct (Nat.lt_ge_cases i (length l)) as [L|L].
  - rewrite (nth_error_nth' (seq 0 (length l)) 0) by (rewrite seq_length; auto).
    rewrite seq_nth by auto. simpl. apply nth_error_nth'; auto.
  - rewrite (proj2 (nth_error_None l i) L).
    rewrite (proj2 (nth_error_None (seq 0 (length l)) i)) by (rewrite seq_length; auto). auto.
Qed.

Lemma gather_map {A} (l : list A) idx v d : gather l idx = Ok v ->
  Forall (fun i => i < length l) idx /\ v = map (fun i => nth i l d) idx.
Proof. intros H. rewrite (list_as_map l d) in H at 1. apply gather_map_seq in H. auto. Qed.

Lemma mulv_fits nr nc Y (V I : list (cpx K)) : fits nr nc Y -> mulv Y V = Ok I ->
  length V = nc /\ I = map (bus_current Y V) (seq 0 nr).
Proof.
  intros (R & C & W) H. assert (wf Y) as WF by (unfold wf; rewrite R, C; exact W).
  pose proof (mulv_ok _ _ _ H) as (L & _). rewrite mulv_def in H by auto. injection H as <-.
  split; [congruence|]. rewrite R. apply map_ext. intros i. apply mulrow_at; auto.
Qed.

Lemma gen_total_rows q q' (gen gen' : list (list K)) i : length gen' = length gen ->
  (forall k g, nth_error gen k = Some g -> exists g', nth_error gen' k = Some g' /\
     conn g' = conn g /\ (in_service g = true -> q' g' = q g)) ->
  gen_total q' gen' i = gen_total q gen i.
Proof.
  intros L H. unfold gen_total. rewrite (lsum_nth _ gen' []), (lsum_nth _ gen []), L.
  apply lsum_ext. intros k Hk. apply in_seq in Hk.
  destruct (nth_error_lt gen k) as (g & Hg); [lia|]. destruct (H _ _ Hg) as (g' & Hg' & C & E).
  rewrite (nth_error_nth _ _ _ Hg), (nth_error_nth _ _ _ Hg').
  apply (f_equal fst) in C as C1. apply (f_equal snd) in C as C2. cbn [conn fst snd] in C1, C2.
  rewrite C1, C2. destruct (in_service g); cbn [andb]; auto. destruct (_ =? _); auto.
Qed.

Lemma gens_at_count gen i :
  at_bus (gbs gen) (repeat 1%K (length (gbs gen))) i = fofZ (Z.of_nat (gens_at gen i)) :> K.
Proof.
  transitivity (gen_total (fun _ => 1%K) gen i : K).
  - rewrite gen_total_at. f_equal. unfold gbs. rewrite map_length, <- map_const. reflexivity.
  - unfold gen_total, gens_at. induction gen as [|g gen IH].
    + cbn. symmetry. apply fofZ_0.
    + cbn [lsum filter]. rewrite IH. destruct (in_service g && _).
      * cbn [length]. rewrite Nat2Z.inj_succ, <- Z.add_1_l, fofZ_add, fofZ_1. reflexivity.
      * ring.
Qed.

Lemma onl_pos (gen : list (list K)) k g : nth_error gen k = Some g -> in_service g = true ->
  exists p, nth_error (onl gen) p = Some k /\ nth_error (gon gen) p = Some g.
Proof.
  intros H S. assert (In k (onl gen)) as I.
  { apply in_find. rewrite nth_error_map, H. simpl. congruence. }
  apply In_nth_error in I as (p & Hp). exists p. split; auto.
  destruct (nth_error_find _ _ _ _ Hp) as (a & Ha & _ & Hf). unfold gon. congruence.
Qed.

Lemma onl_off (gen : list (list K)) k g : nth_error gen k = Some g ->
  In k (onl gen) <-> in_service g = true.
Proof.
  intros H. unfold onl. rewrite in_find, nth_error_map, H. simpl. split; congruence.
Qed.

(** ** the generator table *)
Section Gens.
Variables (baseMVA : K) (Y : smat (cpx K)) (V : list (cpx K)) (bus gen : list (list K)).
Let need := required_q baseMVA Y V bus.

(** what each in-service generator is given: [q] by position among the in-service ones *)
Definition qspec (q : list K) : Prop :=
  length q = length (gbs gen) /\
  ((gens_on gen <= 1 /\ q = map need (gbs gen)) \/
   (1 < gens_on gen /\ forall p, p < length (gbs gen) ->
      let b := nth p (gbs gen) 0 in let g := nth p (gon gen) [] in
      let lo := gen_total (fun g => cell g QMIN) gen b in
      let hi := gen_total (fun g => cell g QMAX) gen b in
      fofZ (Z.of_nat (gens_at gen b)) <> 0%K /\ (hi - lo + EPS <> 0)%K /\
      nth p q 0%K = if feqb lo hi then (need b / fofZ (Z.of_nat (gens_at gen b)))%K
        else (cell g QMIN + (need b - lo) / (hi - lo + EPS) * (cell g QMAX - cell g QMIN))%K)).

Definition gen_upd (q : list K) (gen3 : list (list K)) : Prop :=
  length gen3 = length gen /\
  forall k g, nth_error gen k = Some g -> QG < length g /\
    (in_service g = false -> nth_error gen3 k = Some (upd g QG 0%K)) /\
    (forall p, nth_error (onl gen) p = Some k -> nth_error gen3 k = Some (upd g QG (nth p q 0%K))).

Lemma gen_upd_conn q gen3 : gen_upd q gen3 -> map conn gen3 = map conn gen.
Proof.
  intros (L & H). apply nth_error_ext. intros k. rewrite !nth_error_map.
  destruct (nth_error gen k) as [g|] eqn:E.
  - destruct (H _ _ E) as (_ & A & B).
    assert (exists v, nth_error gen3 k = Some (upd g QG v)) as (v & Hv).
    { destruct (in_service g) eqn:S; [|eauto]. destruct (onl_pos _ _ _ E S) as (p & Hp & _). eauto. }
    rewrite Hv. cbn [option_map]. rewrite conn_upd; auto; unfold QG, GEN_STATUS, GEN_BUS; lia.
  - apply nth_error_None in E. rewrite <- L in E. rewrite (proj2 (nth_error_None gen3 k) E). auto.
Qed.

Lemma gens_step gen1 gen2 gen3 :
  let on := onl gen in let gb := gbs gen in
  setcol QG (repeat 0%K (length gen)) gen = Ok gen1 ->
  set_rows gen1 on QG (map need gb) = Ok gen2 ->
  (if length on <=? 1 then Ok gen2
   else qmin <- col QMIN (gon gen) ;;
        qmax <- col QMAX (gon gen) ;;
        q <- share_q (length bus) gb qmin qmax (map need gb) ;;
        set_rows gen2 on QG q) = Ok gen3 ->
  exists q, qspec q /\ gen_upd q gen3.
Proof.
  intros on gb H1 H2 H3. apply setcol_ok in H1 as (_ & W & E1).
  assert (NoDup on) as ND by apply find_NoDup.
  assert (length on = length (gon gen)) as LON.
  { pose proof (gather_length _ _ _ (gather_find in_service gen)) as G. unfold on, onl, gon. auto. }
  assert (length gb = length (gon gen)) as LGB by (unfold gb, gbs; apply map_length).
  assert (forall k g, nth_error gen k = Some g -> nth_error gen1 k = Some (upd g QG 0%K)) as N1.
  { intros k g Hk. assert (k < length gen) as Lk by (eapply nth_error_some_lt; eauto).
    rewrite E1. unfold map2. rewrite nth_error_map.
    rewrite (nth_error_nth' _ (0%K, [])) by (rewrite combine_length, repeat_length; lia).
    rewrite combine_nth by (rewrite repeat_length; auto).
    rewrite nth_repeat_lt by auto. rewrite (nth_error_nth _ _ _ Hk). reflexivity. }
  assert (length gen1 = length gen) as L1
    by (rewrite E1; unfold map2; rewrite map_length, combine_length, repeat_length; lia).
  destruct (set_rows_ok _ _ _ _ _ ND H2) as (_ & L2 & O2 & A2).
  assert (forall t q, length t = length gen ->
    (forall k, ~ In k on -> nth_error t k = nth_error gen1 k) ->
    (forall p k, nth_error on p = Some k -> exists r, nth_error gen1 k = Some r /\
       nth_error t k = Some (upd r QG (nth p q 0%K))) -> gen_upd q t) as GU.
  { intros t q LT O A. split; auto. intros k g Hk. rewrite Forall_forall in W.
    split; [apply W; eapply nth_error_In; eauto|]. split.
    - intros S. rewrite O; [apply N1; auto|]. intros C. apply (onl_off _ _ _ Hk) in C. congruence.
    - intros p Hp. destruct (A _ _ Hp) as (r & Hr & Ht). rewrite (N1 _ _ Hk) in Hr.
      injection Hr as <-. rewrite upd_upd in Ht. exact Ht. }
  destruct (Nat.leb_spec (length on) 1) as [LE|GT].
  - injection H3 as <-. exists (map need gb). split.
    + split; [apply map_length|]. left. split; auto. unfold gens_on. fold (gon gen). lia.
    + apply GU; auto. { congruence. } intros p k Hp. destruct (A2 _ _ Hp) as (r & Hr & _ & Ht). eauto.
  - apply bind_ok in H3 as (qmin & Hqn & H3). apply bind_ok in H3 as (qmax & Hqx & H3).
    apply bind_ok in H3 as (q & Hq & H3). exists q.
    apply col_ok in Hqn as (_ & ->). apply col_ok in Hqx as (_ & ->).
    apply share_q_ok in Hq. cbv zeta in Hq. destruct Hq as (Lq & _ & _ & Hq).
    destruct (set_rows_ok _ _ _ _ _ ND H3) as (_ & L3 & O3 & A3). split.
    + split; auto. right. split. { unfold gens_on. fold (gon gen). lia. }
      intros p Hp b g lo hi. destruct (Hq p Hp) as (_ & C & D & E).
      assert (lo = at_bus gb (map (fun r => nth QMIN r 0%K) (gon gen)) b) as Elo by apply gen_total_at.
      assert (hi = at_bus gb (map (fun r => nth QMAX r 0%K) (gon gen)) b) as Ehi by apply gen_total_at.
      subst gb. rewrite gens_at_count in C. rewrite gens_at_count in E. fold b in C, D, E.
      rewrite <- Elo, <- Ehi in D, E. split; auto. split; auto.
      rewrite E. destruct (feqb lo hi); [reflexivity|].
      rewrite !(nth_map_lt _ _ _ _ []) by lia. reflexivity.
    + apply GU; [congruence| |].
      * intros k N. rewrite O3, O2 by auto. auto.
      * intros p k Hp. destruct (A2 _ _ Hp) as (r & Hr & _ & Ht).
        destruct (A3 _ _ Hp) as (r' & Hr' & _ & Ht'). rewrite Ht in Hr'. injection Hr' as <-.
        rewrite upd_upd in Ht'. eauto.
Qed.

Lemma gens_total_q q gen3 i : qspec q -> gen_upd q gen3 -> has_gen gen i ->
  let lo := gen_total (fun g => cell g QMIN) gen i in
  let hi := gen_total (fun g => cell g QMAX) gen i in
  gen_total (fun g => cell g QG) gen3 i
  = if (gens_on gen <=? 1) || feqb lo hi then need i
    else (need i - (need i - lo) * EPS / (hi - lo + EPS))%K.
Proof.
  intros (Lq & QS) GU HG lo hi.
  pose proof (gen_upd_conn _ _ GU) as EC. destruct GU as (L3 & GU).
  assert (exists p, p < length (gbs gen) /\ nth p (gbs gen) 0 = i) as (p0 & Lp0 & Ep0).
  { destruct HG as (g & Ig & S & B). apply In_nth_error in Ig as (k & Hk).
    destruct (onl_pos _ _ _ Hk S) as (p & _ & Hp). exists p.
    assert (p < length (gon gen)) as Lp by (eapply nth_error_some_lt; eauto).
    unfold gbs. rewrite map_length. split; auto. rewrite (nth_map_lt _ _ _ _ []) by auto.
    rewrite (nth_error_nth _ _ _ Hp). auto. }
  assert (gen_total (fun g => cell g QG) gen3 i = at_bus (gbs gen) q i) as ->.
  { rewrite gen_total_at. assert (gbs gen3 = gbs gen) as EG by (rewrite !gon_conn, EC; auto).
    rewrite EG. apply at_bus_ext. intros p Hp _.
    assert (length (gon gen3) = length (gbs gen)) as L by (rewrite <- EG; unfold gbs; rewrite map_length; auto).
    rewrite (nth_map_lt _ _ _ _ []) by lia.
    assert (length (onl gen) = length (gbs gen)) as LO.
    { pose proof (gather_length _ _ _ (gather_find in_service gen)) as G. unfold onl, gbs, gon.
      rewrite map_length. auto. }
    destruct (nth_error_lt (onl gen) p) as (k & Hk); [lia|].
    assert (nth_error (onl gen3) p = Some k) as Hk3 by (rewrite onl_conn, EC, <- onl_conn; auto).
    destruct (nth_error_find _ _ _ _ Hk3) as (a & Ha & _ & Hf). fold (gon gen3) in Hf.
    rewrite (nth_error_nth _ _ _ Hf).
    destruct (nth_error_find _ _ _ _ Hk) as (g & Hg & _ & _).
    destruct (GU _ _ Hg) as (W & _ & U). rewrite (U _ Hk) in Ha. injection Ha as <-.
    unfold cell. apply nth_upd_same. auto. }
  destruct QS as [(ON & ->)|(ON & QS)].
  - destruct (Nat.leb_spec (gens_on gen) 1); [|lia]. cbn [orb].
    unfold gens_on in ON. fold (gon gen) in ON.
    assert (length (gbs gen) = length (gon gen)) as LG by (unfold gbs; apply map_length).
    destruct (gbs gen) as [|b [|b' l]]; simpl in LG, Lp0; [lia| |lia].
    assert (p0 = 0) as -> by lia. simpl in Ep0. subst b. unfold at_bus. simpl.
    rewrite Nat.eqb_refl. ring.
  - destruct (Nat.leb_spec (gens_on gen) 1); [lia|]. cbn [orb].
    destruct (QS p0 Lp0) as (C & D & _). cbv zeta in C, D. rewrite Ep0 in C, D. fold lo hi in D.
    destruct (feqb lo hi) eqn:E.
    + rewrite (at_bus_ext _ _ (repeat (need i / fofZ (Z.of_nat (gens_at gen i)))%K (length (gbs gen)))).
      * rewrite at_bus_const, gens_at_count. field. auto.
      * intros p Hp Eb. destruct (QS p Hp) as (_ & _ & Q). cbv zeta in Q. rewrite Eb in Q.
        fold lo hi in Q. rewrite E in Q. rewrite Q. rewrite nth_repeat_lt by auto. reflexivity.
    + set (rho := ((need i - lo) / (hi - lo + EPS))%K).
      assert (at_bus (gbs gen) q i = (lo + rho * (hi - lo))%K) as ->.
      * unfold lo at 1. unfold hi at 1. unfold lo at 1. rewrite !gen_total_at. unfold at_bus.
        rewrite <- lsum_sub, <- lsum_scal, <- lsum_add. apply lsum_ext. intros p Hp.
        apply in_seq in Hp. destruct (Nat.eqb_spec (nth p (gbs gen) 0) i) as [Eb|]; [|ring].
        destruct (QS p) as (_ & _ & Q); [lia|]. cbv zeta in Q. rewrite Eb in Q. fold lo hi in Q.
        rewrite E in Q. rewrite Q. fold rho.
        assert (length (gbs gen) = length (gon gen)) as LG by (unfold gbs; apply map_length).
        rewrite !(nth_map_lt _ _ _ _ []) by lia. reflexivity.
      * unfold rho. field. auto.
Qed.
End Gens.

(** ** the branch table *)
Lemma end_flow_ok nl n baseMVA Y V ends br S : fits nl n Y ->
  end_flow baseMVA Y V ends br = Ok S -> length ends = length br /\ length S = length br \/ length ends <> length br.
Proof. intros. destruct (Nat.eq_dec (length ends) (length br)) as [E|E]; auto. left. split; auto.
  unfold end_flow in H0. apply bind_ok in H0 as (v & Hv & H0). apply bind_ok in H0 as (I & _ & H0).
  apply bind_ok in H0 as (i & Hi & H0). injection H0 as <-. unfold map2.
  rewrite map_length, combine_length, (gather_length _ _ _ Hv), (gather_length _ _ _ Hi). lia.
Qed.

Lemma end_flow_nth nl n baseMVA Y V ends br S p e l : fits nl n Y ->
  end_flow baseMVA Y V ends br = Ok S -> nth_error ends p = Some e -> nth_error br p = Some l ->
  nth p S 0%K = branch_power baseMVA Y V e l.
Proof.
  intros FT H He Hl. unfold end_flow in H. apply bind_ok in H as (v & Hv & H).
  apply bind_ok in H as (I & HI & H). apply bind_ok in H as (i & Hi & H). injection H as <-.
  destruct (mulv_fits _ _ _ _ _ FT HI) as (_ & ->).
  apply gather_map_seq in Hi as (_ & ->). apply (gather_map _ _ _ 0%K) in Hv as (_ & ->).
  assert (p < length ends) as L1 by (eapply nth_error_some_lt; eauto).
  assert (p < length br) as L2 by (eapply nth_error_some_lt; eauto).
  rewrite (nth_map2_d _ _ _ _ 0%K 0%K) by (rewrite map_length; auto).
  rewrite !(nth_map_lt _ _ _ _ 0) by auto.
  rewrite (nth_error_nth _ _ _ He), (nth_error_nth _ _ _ Hl). reflexivity.
Qed.

Lemma nth_re (l : list (cpx K)) p : nth p (map re l) 0%K = re (nth p l 0%K).
Proof. exact (map_nth re l 0%K p). Qed.
Lemma nth_im (l : list (cpx K)) p : nth p (map im l) 0%K = im (nth p l 0%K).
Proof. exact (map_nth im l 0%K p). Qed.

Definition upd4 (r : list K) (a b c d : K) : list K := upd (upd (upd (upd r PF a) QF b) PT c) QT d.

Lemma upd4_cells r a b c d : QT < length r ->
  cell (upd4 r a b c d) PF = a /\ cell (upd4 r a b c d) QF = b /\
  cell (upd4 r a b c d) PT = c /\ cell (upd4 r a b c d) QT = d /\
  length (upd4 r a b c d) = length r /\
  forall j, j <> PF -> j <> QF -> j <> PT -> j <> QT -> cell (upd4 r a b c d) j = cell r j.
Proof.
  intros W. unfold upd4.
  assert (PF < length r /\ QF < length r /\ PT < length r) as (W1 & W2 & W3)
    by (unfold PF, QF, PT, QT in *; lia).
  assert (PF <> QF /\ PF <> PT /\ PF <> QT /\ QF <> PT /\ QF <> QT /\ PT <> QT) as (N1 & N2 & N3 & N4 & N5 & N6)
    by (unfold PF, QF, PT, QT in *; lia).
  split. { rewrite !upd_cell_other by auto. apply nth_upd_same; auto. }
  split. { rewrite !upd_cell_other by auto. apply nth_upd_same; rewrite upd_length; auto. }
  split. { rewrite !upd_cell_other by auto. apply nth_upd_same; rewrite !upd_length; auto. }
  split. { apply nth_upd_same; rewrite !upd_length; auto. }
  split. { rewrite !upd_length; auto. }
  intros j A B C D. rewrite !upd_cell_other; auto.
Qed.

Lemma set4 (t t1 t2 t3 t4 : list (list K)) rows a b c d : NoDup rows ->
  set_rows t rows PF a = Ok t1 -> set_rows t1 rows QF b = Ok t2 ->
  set_rows t2 rows PT c = Ok t3 -> set_rows t3 rows QT d = Ok t4 ->
  length t4 = length t /\
  (forall k, ~ In k rows -> nth_error t4 k = nth_error t k) /\
  (forall p k, nth_error rows p = Some k -> exists r, nth_error t k = Some r /\ QT < length r /\
     nth_error t4 k = Some (upd4 r (nth p a 0%K) (nth p b 0%K) (nth p c 0%K) (nth p d 0%K))).
Proof.
  intros ND H1 H2 H3 H4.
  destruct (set_rows_ok _ _ _ _ _ ND H1) as (_ & L1 & O1 & A1).
  destruct (set_rows_ok _ _ _ _ _ ND H2) as (_ & L2 & O2 & A2).
  destruct (set_rows_ok _ _ _ _ _ ND H3) as (_ & L3 & O3 & A3).
  destruct (set_rows_ok _ _ _ _ _ ND H4) as (_ & L4 & O4 & A4).
  split; [congruence|]. split. { intros k N. rewrite O4, O3, O2, O1; auto. }
  intros p k Hp. destruct (A1 _ _ Hp) as (r & Hr & _ & E1). destruct (A2 _ _ Hp) as (r2 & Hr2 & _ & E2).
  destruct (A3 _ _ Hp) as (r3 & Hr3 & _ & E3). destruct (A4 _ _ Hp) as (r4 & Hr4 & W & E4).
  exists r. split; auto.
  assert (r2 = upd r PF (nth p a 0%K)) by congruence. assert (r3 = upd r2 QF (nth p b 0%K)) by congruence.
  assert (r4 = upd r3 PT (nth p c 0%K)) by congruence. subst r2 r3 r4.
  rewrite !upd_length in W. auto.
Qed.

(** ** all of pfsoln *)
Lemma pfsoln_ok cabs cang baseMVA bus gen branch Y Yf Yt V ref bus' gen' branch' :
  pfsoln cabs cang baseMVA bus gen branch Y Yf Yt V ref = Ok (bus', gen', branch') ->
  square (length bus) Y -> fits (length branch) (length bus) Yf ->
  fits (length branch) (length bus) Yt -> NoDup ref ->
  length V = length bus /\ length bus' = length bus /\
  (forall i b, nth_error bus i = Some b -> VA < length b /\ VM < length b /\
     nth_error bus' i = Some (upd (upd b VM (cabs (nth i V 0%K))) VA
                                  (cang (nth i V 0%K) * fofZ 180 / fpi)%K)) /\
  wide GEN_STATUS gen /\ length gen' = length gen /\
  (exists q gen3, qspec baseMVA Y V bus gen q /\ gen_upd gen q gen3 /\
    map conn gen' = map conn gen3 /\
    (forall k row, nth_error gen3 k = Some row -> exists row', nth_error gen' k = Some row' /\
     (row' = row \/ exists r v, In r ref /\ first_at gen3 r k /\ PG < length row /\ row' = upd row PG v)) /\
    (forall r, In r ref -> gen_total (fun x => cell x PG) gen' r = required_p baseMVA Y V bus r) /\
    (forall i, ~ In i ref ->
       gen_total (fun x => cell x PG) gen' i = gen_total (fun x => cell x PG) gen3 i)) /\
  length branch' = length branch /\
  (forall l r, nth_error branch l = Some r -> QT < length r /\
     nth_error branch' l = Some
       (if feqb (cell r BR_STATUS) 0%K then upd4 r 0%K 0%K 0%K 0%K
        else let sf := branch_power baseMVA Yf V (bus_no r F_BUS) l in
             let st := branch_power baseMVA Yt V (bus_no r T_BUS) l in
             upd4 r (re sf) (im sf) (re st) (im st))).
Proof.
  intros H SQ FF FT ND. unfold pfsoln in H.
  apply bind_ok in H as (bus1 & HB1 & H). apply setcol_ok in HB1 as (LV & WM & EB1).
  apply bind_ok in H as (bus2 & HB2 & H). apply setcol_ok in HB2 as (LV' & WA & EB2).
  rewrite map_length in LV, LV'.
  apply bind_ok in H as (st & Hst & H). apply col_ok in Hst as (WG & ->).
  rewrite map_map in H. change (fun x : list K => pos_status (nth GEN_STATUS x 0%K)) with (@in_service K F) in H.
  cbv zeta in H. apply bind_ok in H as (go & Hgo & H). rewrite gather_find in Hgo. injection Hgo as <-.
  apply bind_ok in H as (gb & Hgb & H). apply idxcol_ok in Hgb as (_ & _ & ->).
  fold (gon gen) in H. fold (gbs gen) in H. fold (onl gen) in H.
  apply bind_ok in H as (vg & Hvg & H). apply bind_ok in H as (I & HI & H).
  apply bind_ok in H as (ig & Hig & H).
  destruct (mulv_square _ _ _ _ SQ HI) as (_ & EI). subst I.
  apply (gather_map _ _ _ 0%K) in Hvg as (_ & ->). apply gather_map_seq in Hig as (RB & ->).
  rewrite map2_map in H. change (map (fun x => cmul (nth x V 0%K) (conj (bus_current Y V x))) (gbs gen))
    with (map (bus_power Y V) (gbs gen)) in H.
  apply bind_ok in H as (gen1 & H1 & H). apply bind_ok in H as (bg & Hbg & H).
  apply bind_ok in H as (qd & Hqd & H). apply (gather_map _ _ _ []) in Hbg as (_ & ->).
  apply col_ok in Hqd as (_ & ->). rewrite map_map, map2_map in H.
  (* the bus table *)
  assert (length bus2 = length bus) as LB.
  { rewrite EB2, EB1. unfold map2. rewrite map_length, combine_length, map_length, map_length, combine_length, map_length. lia. }
  assert (forall i b, nth_error bus i = Some b -> nth_error bus2 i =
     Some (upd (upd b VM (cabs (nth i V 0%K))) VA (cang (nth i V 0%K) * fofZ 180 / fpi)%K)) as NB.
  { intros i b Hb. assert (i < length bus) as Li by (eapply nth_error_some_lt; eauto).
    rewrite (nth_error_nth' _ []) by lia. f_equal. rewrite EB2, nth_setcol by (rewrite ?map_length; lia).
    rewrite EB1, nth_setcol by (rewrite ?map_length; lia). rewrite (nth_error_nth _ _ _ Hb).
    rewrite !(nth_map_lt _ _ _ _ 0%K) by lia. reflexivity. }
  assert (forall b j, b < length bus -> j <> VM -> j <> VA -> cell (nth b bus2 []) j = cell (nth b bus []) j) as CB.
  { intros b j Lb N1 N2. destruct (nth_error_lt bus b Lb) as (r & Hr).
    rewrite (nth_error_nth _ _ _ (NB _ _ Hr)), (nth_error_nth _ _ _ Hr). rewrite !upd_cell_other; auto. }
  assert (map (fun x => im (bus_power Y V x) * baseMVA + nth QD (nth x bus2 []) 0)%K (gbs gen)
    = map (required_q baseMVA Y V bus) (gbs gen)) as EQ.
  { apply map_ext_in. intros x Hx. rewrite Forall_forall in RB. unfold required_q. f_equal.
    apply CB; [auto|unfold QD, VM; lia|unfold QD, VA; lia]. }
  rewrite EQ in H.
  apply bind_ok in H as (gen2 & H2 & H). apply bind_ok in H as (gen3 & H3 & H).
  destruct (gens_step _ _ _ _ _ _ _ _ H1 H2 H3) as (q & QS & GU).
  apply bind_ok in H as (gen4 & H4 & H).
  pose proof (gen_upd_conn _ _ _ GU) as EC.
  apply slack_fold in H4 as (C4 & L4 & R4 & P4 & O4); auto.
  2: { rewrite !onl_conn, EC; auto. } 2: { rewrite !gon_conn, EC; auto. }
  (* the branch table *)
  apply bind_ok in H as (bst & Hb & H). apply col_ok in Hb as (WB & ->). rewrite !map_map in H.
  set (pout := fun r : list K => feqb (nth BR_STATUS r 0%K) 0%K) in *.
  set (pin := fun r : list K => negb (feqb (nth BR_STATUS r 0%K) 0%K)) in *.
  apply bind_ok in H as (bon & Hbon & H). rewrite gather_find in Hbon. injection Hbon as <-.
  apply bind_ok in H as (f & Hf & H). apply idxcol_ok in Hf as (_ & _ & ->).
  apply bind_ok in H as (t & Ht & H). apply idxcol_ok in Ht as (_ & _ & ->).
  apply bind_ok in H as (Sf & HSf & H). apply bind_ok in H as (St & HSt & H).
  set (br := find (map pin branch)) in *. set (out := find (map pout branch)) in *.
  apply bind_ok in H as (b1 & S1 & H). apply bind_ok in H as (b2 & S2 & H).
  apply bind_ok in H as (b3 & S3 & H). apply bind_ok in H as (b4 & S4 & H).
  apply bind_ok in H as (b5 & S5 & H). apply bind_ok in H as (b6 & S6 & H).
  apply bind_ok in H as (b7 & S7 & H). apply bind_ok in H as (b8 & S8 & H).
  injection H as <- <- <-.
  destruct (set4 _ _ _ _ _ _ _ _ _ _ (find_NoDup _) S1 S2 S3 S4) as (LB4 & OB4 & AB4).
  destruct (set4 _ _ _ _ _ _ _ _ _ _ (find_NoDup _) S5 S6 S7 S8) as (LB8 & OB8 & AB8).
  split; auto. split; auto. split.
  { intros i b Hi. rewrite Forall_forall in WM, WA. split; [|split; [apply WM; eapply nth_error_In; eauto|auto]].
    assert (In (nth i bus1 []) bus1) as I1.
    { apply nth_In. apply nth_error_some_lt in Hi. rewrite EB1. unfold map2.
      rewrite map_length, combine_length, map_length. lia. }
    apply WA in I1. assert (i < length bus) as Li by (eapply nth_error_some_lt; eauto).
    rewrite EB1, nth_setcol, upd_length in I1 by (rewrite ?map_length; lia).
    rewrite (nth_error_nth _ _ _ Hi) in I1. auto. }
  split; auto. split. { destruct GU as (LG & _). congruence. }
  split.
  { exists q, gen3. split; auto. split; auto. split; auto. split; auto. split; auto.
    intros r I. rewrite P4 by auto. unfold pneed, required_p. f_equal.
    destruct (Nat.lt_ge_cases r (length bus)) as [Lr|Lr].
    - apply CB; [auto|unfold PD, VM; lia|unfold PD, VA; lia].
    - rewrite !nth_overflow by lia. auto. }
  split; [congruence|].
  intros l r Hl.
  assert (In l br <-> pin r = true) as IB by (unfold br; rewrite in_find, nth_error_map, Hl; simpl; split; congruence).
  assert (In l out <-> pout r = true) as IO by (unfold out; rewrite in_find, nth_error_map, Hl; simpl; split; congruence).
  change (feqb (cell r BR_STATUS) 0%K) with (pout r).
  destruct (pout r) eqn:E.
  - assert (In l out) as I by tauto. apply In_nth_error in I as (p & Hp).
    assert (~ In l br) as NB' by (rewrite IB; unfold pin; unfold pout in E; rewrite E; discriminate).
    destruct (AB8 _ _ Hp) as (r' & Hr' & W & E8). rewrite OB4, Hl in Hr' by auto. injection Hr' as <-.
    split; auto. rewrite E8. rewrite nth_repeat_lt; auto. eapply nth_error_some_lt; eauto.
  - assert (~ In l out) as NO by (rewrite IO; discriminate).
    assert (In l br) as I by (apply IB; unfold pin; unfold pout in E; rewrite E; auto).
    apply In_nth_error in I as (p & Hp). destruct (AB4 _ _ Hp) as (r' & Hr' & W & E4).
    rewrite Hl in Hr'. injection Hr' as <-. split; auto. rewrite OB8 by auto. rewrite E4.
    destruct (nth_error_find _ _ _ _ Hp) as (a & Ha & _ & Hfl). rewrite Hl in Ha. injection Ha as <-.
    rewrite !nth_re, !nth_im.
    rewrite (end_flow_nth _ _ _ _ _ _ _ _ p (bus_no r F_BUS) l FF HSf);
      [|rewrite nth_error_map, Hfl; reflexivity|exact Hp].
    rewrite (end_flow_nth _ _ _ _ _ _ _ _ p (bus_no r T_BUS) l FT HSt);
      [|rewrite nth_error_map, Hfl; reflexivity|exact Hp].
    reflexivity.
Qed.
End PfsolnC.
