(** The constraints of the DC optimal power flow, block by block. *)
From Verif Require Import Lib.ListFacts Model.DcOpf Spec.DcSpec Proofs.LinAlgFacts Proofs.SparseFacts
  Proofs.BlockFacts Proofs.FldFacts Proofs.OrdFacts Proofs.NetworkA Proofs.NetworkB Proofs.NetworkE Proofs.PipsF
  Proofs.OpfLinA Proofs.OpfLinB.
Local Open Scope nat_scope.

Section DcOpfA.
Context {K : Type} {F : Fld K}.
Add Field KF : (@f_ok K F).

(** ** constraint systems row by row *)
Definition row : Type := (ext K * ext K * (list K -> K))%type.
Definition rlo (r : row) : ext K := fst (fst r).
Definition rup (r : row) : ext K := snd (fst r).
Definition desc (nx : nat) (M : smat K) (l u : list (ext K)) (Rs : list row) : Prop :=
  wf M /\ nrows M = length Rs /\ ncols M = nx /\ l = map rlo Rs /\ u = map rup Rs /\
  forall x, length x = nx -> rowsv M x = map (fun r => snd r x) Rs.

Lemma desc_vstack nx A B M l u l' u' Rs Rs' : desc nx A l u Rs -> desc nx B l' u' Rs' ->
  vstackm A B = Ok M -> desc nx M (l ++ l') (u ++ u') (Rs ++ Rs').
Proof.
  intros (WA & NA & CA & -> & -> & VA) (WB & NB & CB & -> & -> & VB) H.
  pose proof (vstackm_ok _ _ _ H) as (_ & NM & CM).
  split; [exact (wf_vstackm _ _ _ WA WB H)|]. split; [rewrite app_length; lia|]. split; [lia|].
  do 2 (split; [rewrite map_app; reflexivity|]).
  intros x Lx. rewrite (rowsv_vstackm _ _ _ _ WA H), map_app, VA, VB by auto. reflexivity.
Qed.

Lemma desc_all (Q : ext K -> ext K -> K -> Prop) nx M l u Rs x : desc nx M l u Rs -> length x = nx ->
  ((forall k, k < nrows M -> Q (lower l k) (upper u k) (row_val M x k)) <->
   Forall (fun r => Q (rlo r) (rup r) (snd r x)) Rs).
Proof.
  intros (W & N & C & -> & -> & V) Lx. specialize (V x Lx).
  assert (forall k r, nth_error Rs k = Some r ->
    lower (map rlo Rs) k = rlo r /\ upper (map rup Rs) k = rup r /\ row_val M x k = snd r x) as HR.
  { intros k r Hr. pose proof (nth_error_some_lt _ _ _ Hr) as Lk.
    assert (forall (b : list (ext K)) d i, bound d b i = nth i b d) as BN by (intros [|? ?] d [|i]; auto).
    unfold lower, upper. rewrite !BN. split; [|split].
    - apply nth_error_nth. rewrite nth_error_map, Hr. reflexivity.
    - apply nth_error_nth. rewrite nth_error_map, Hr. reflexivity.
    - rewrite row_val_mulrow by auto. rewrite <- nth_rowsv by lia. rewrite V.
      rewrite (nth_map_lt _ Rs k _ r) by auto. rewrite (nth_error_nth _ _ _ Hr). reflexivity. }
  rewrite Forall_forall. split.
  - intros H r Hr. apply In_nth_error in Hr as (k & Hk). destruct (HR k r Hk) as (A1 & A2 & A3).
    rewrite <- A1, <- A2, <- A3. apply H. rewrite N. eapply nth_error_some_lt; eauto.
  - intros H k Hk. rewrite N in Hk. destruct (nth_error_lt _ _ Hk) as (r & Hr).
    destruct (HR k r Hr) as (-> & -> & ->). apply H. eapply nth_error_In; eauto.
Qed.

Lemma bound_nth d (b : list (ext K)) i : bound d b i = nth i b d.
Proof. destruct b; auto. destruct i; auto. Qed.

Lemma def_bounds_map d n (b : list (ext K)) : length (def_bounds d n b) = n ->
  def_bounds d n b = map (bound d b) (seq 0 n).
Proof.
  intros L. apply nth_error_ext. intros k. rewrite nth_error_map.
  destruct (Nat.lt_ge_cases k n) as [Hk|Hk].
  - rewrite seq_nth_error by auto. cbn [option_map]. rewrite bound_nth. destruct (nth_error_lt (def_bounds d n b) k) as (e & He); [lia|].
    rewrite He. f_equal. cbn [Nat.add]. destruct b as [|c b]; cbn [def_bounds] in *.
    + rewrite nth_error_repeat in He by auto. injection He as <-. destruct k; auto.
    + symmetry. apply nth_error_nth. exact He.
  - rewrite !(proj2 (nth_error_None _ _)); auto; rewrite ?seq_length; lia.
Qed.

(** ** placing a block *)
Lemma rowsv_place nx f (A : smat K) x y : wf A -> (forall j, j < ncols A -> nth (f j) x 0%K = nth j y 0%K) ->
  rowsv (place nx f A) x = rowsv A y.
Proof.
  intros W H. unfold rowsv, place. cbn [nrows]. apply map_ext. intros i. unfold mulrow. cbn [ents].
  rewrite lsum_map. apply lsum_ext. intros e He. cbn [erow ecol ev]. destruct (erow e =? i); auto.
  rewrite H; auto. unfold wf in W. rewrite Forall_forall in W. apply W; auto.
Qed.
Lemma wf_place nx f (A : smat K) : wf A -> (forall j, j < ncols A -> f j < nx) -> wf (place nx f A).
Proof.
  intros W H. unfold wf, place in *. cbn [nrows ncols ents]. apply Forall_map. eapply Forall_impl; [|exact W].
  intros e (H1 & H2). cbn [erow ecol]. split; auto.
Qed.

Lemma nth_firstn_lt {A} n (l : list A) i d : i < n -> nth i (firstn n l) d = nth i l d.
Proof.
  revert n i. induction l as [|a l IH]; intros [|n] [|i] H; simpl; auto; try lia. apply IH. lia.
Qed.
Lemma nth_skipn_d {A} n (l : list A) i d : nth i (skipn n l) d = nth (n + i) l d.
Proof. revert l. induction n as [|n IH]; intros l; auto. destruct l; simpl; [destruct i; auto|auto]. Qed.

(** ** the blocks *)
Section Blocks.
Variables (B : K) (bus gen branch : list (list K)) (Bb Bf : smat K) (Pbi Pfi : list K) (nx : nat).
Notation nb := (length bus).
Notation ng := (length gen).
Hypothesis HB : bdc_spec bus branch Bb Bf Pbi Pfi.
Hypothesis NX : nb + ng <= nx.

Lemma flow_split r (Va : list K) : cell r BR_X <> 0%K ->
  dc_flow r Va = (susc r * dth r Va + susc r * deg2rad (cell r SHIFT))%K.
Proof. intros H. apply dc_flow_susc. auto. Qed.

Lemma bbus_row Va i : i < nb -> mulrow Bb Va i = (net_out (flow_at Va) branch i - nth i Pbi 0)%K.
Proof.
  intros Hi. rewrite (bs_inj _ _ _ _ _ _ HB), (bs_Pbi _ _ _ _ _ _ HB).
  rewrite (nth_map_lt _ _ _ _ 0) by (rewrite seq_length; auto). rewrite seq_nth by auto. cbn [Nat.add].
  unfold net_out. rewrite <- lsum_sub. apply lsum_ext. intros r Hr. unfold flow_at.
  pose proof (bs_x _ _ _ _ _ _ HB) as BX. rewrite Forall_forall in BX. rewrite flow_split by auto.
  unfold inc. destruct (_ =? i); destruct (_ =? i); ring.
Qed.

Lemma bf_row Va p r : nth_error branch p = Some r -> mulrow Bf Va p = (dc_flow r Va - nth p Pfi 0)%K.
Proof.
  intros Hr. rewrite (bs_flow _ _ _ _ _ _ HB _ _ _ Hr), (bs_Pfi _ _ _ _ _ _ HB).
  rewrite (nth_map_lt _ _ _ _ []) by (eapply nth_error_some_lt; eauto). rewrite (nth_error_nth _ _ _ Hr).
  pose proof (bs_x _ _ _ _ _ _ HB) as BX. rewrite Forall_forall in BX.
  rewrite flow_split by (apply BX; eapply nth_error_In; eauto). ring.
Qed.

Lemma cg_row negCg x i : sparse (repeat (ropp 1%K) ng) (map (fun g => bus_no g GEN_BUS) gen) (seq 0 ng) nb ng = Ok negCg ->
  mulrow negCg (skipn nb x) i = (- injected gen nb x i)%K.
Proof.
  intros H. apply sparse_ok in H as (L1 & L2 & _ & _ & ->). unfold mulrow. cbn [ents].
  rewrite (lsum_zip3 _ _ _ _ ng) by (rewrite ?map_length, ?seq_length, ?repeat_length; auto).
  unfold injected. rewrite (lsum_combine _ _ _ 0 []) by apply seq_length. rewrite seq_length.
  rewrite <- lsum_opp. apply lsum_ext. intros k Hk. apply in_seq in Hk. cbn [erow ecol ev fst snd].
  rewrite (nth_map_lt _ gen k _ []) by lia. rewrite seq_nth by lia. rewrite nth_repeat_lt by lia.
  cbn [Nat.add]. unfold output. rewrite nth_skipn_d. destruct (_ =? i); ring.
Qed.

Definition mis_b (i : nat) : K :=
  (- (cell (nth i bus []) PD + cell (nth i bus []) Idx.GS) / B - nth i Pbi 0)%K.
Definition mis_rows : list row :=
  map (fun i => (EFin (mis_b i), EFin (mis_b i),
                 fun x => (net_out (flow_at (angles nb x)) branch i - nth i Pbi 0 - injected gen nb x i)%K)) (seq 0 nb).

Lemma mis_desc negCg Amis bmis :
  sparse (repeat (ropp 1%K) ng) (map (fun g => bus_no g GEN_BUS) gen) (seq 0 ng) nb ng = Ok negCg ->
  hstackm Bb negCg = Ok Amis ->
  bmis = map2 rsub (map2 (fun p g => - (p + g) / B)%K (map (fun r => nth PD r 0%K) bus) (map (fun r => nth Idx.GS r 0%K) bus)) Pbi ->
  desc nx (place nx (fun j => j) Amis) (map EFin bmis) (map EFin bmis) mis_rows.
Proof.
  intros HC HA Eb. pose proof (sparse_wf _ _ _ _ _ _ HC) as WC.
  pose proof (sparse_ok _ _ _ _ _ _ HC) as (_ & _ & _ & _ & EC).
  destruct (bs_Bbus _ _ _ _ _ _ HB) as (WB & NB & CB).
  pose proof (hstackm_ok _ _ _ HA) as (_ & NA & CA). pose proof (wf_hstackm _ _ _ WB WC HA) as WA.
  assert (ncols negCg = ng) as NC by (rewrite EC; auto).
  assert (map EFin bmis = map rlo mis_rows) as EB.
  { rewrite Eb. unfold mis_rows. rewrite map_map. cbn [rlo fst]. apply nth_error_ext. intros k.
    rewrite !nth_error_map. rewrite map2_map.
    destruct (Nat.lt_ge_cases k nb) as [Hk|Hk].
    - rewrite seq_nth_error by auto. cbn [option_map Nat.add]. f_equal. unfold rlo. cbn [fst].
      rewrite (nth_error_nth' _ 0%K).
      2:{ rewrite map2_length, map_length, (bs_Pbi _ _ _ _ _ _ HB), map_length, seq_length. lia. }
      cbn [option_map]. f_equal. f_equal. rewrite (nth_map2_d _ _ _ _ 0%K 0%K).
      2:{ rewrite map_length; auto. } 2:{ rewrite (bs_Pbi _ _ _ _ _ _ HB), map_length, seq_length. auto. }
      rewrite (nth_map_lt _ bus k _ []) by auto. reflexivity.
    - rewrite !(proj2 (nth_error_None _ _)); auto; rewrite ?seq_length; auto.
      rewrite map2_length, map_length. lia. }
  split; [apply wf_place; auto; intros j Hj; lia|]. split; [unfold mis_rows; rewrite map_length, seq_length; cbn; lia|].
  split; [auto|]. split; [auto|]. split; [rewrite EB; unfold mis_rows; rewrite !map_map; reflexivity|].
  intros x Lx. rewrite (rowsv_place nx _ Amis x (firstn nb x ++ skipn nb x)).
  2: auto. 2:{ intros j Hj. rewrite firstn_skipn. reflexivity. }
  assert (length (firstn nb x) = ncols Bb) as LF by (rewrite firstn_length; lia).
  rewrite (rowsv_hstackm _ _ _ _ _ WB LF HA).
  unfold mis_rows, rowsv. rewrite map_map. cbn [snd].
  rewrite (map_ext_in (fun r => _) (fun i => (mulrow Bb (firstn nb x) i + mulrow negCg (skipn nb x) i)%K) (seq 0 nb)).
  - rewrite NB. replace (nrows negCg) with nb by (rewrite EC; auto). apply map2_map.
  - intros i Hi. apply in_seq in Hi. rewrite bbus_row, (cg_row negCg) by (auto; lia). unfold angles. ring.
Qed.

Section Flow.
Variables (il : list nat) (Afl : smat K) (ra pfi : list K).
Hypothesis HF : rowsel Bf il = Ok Afl.
Hypothesis HR : gather (map (fun r => nth RATE_A r 0%K) branch) il = Ok ra.
Hypothesis HP : gather Pfi il = Ok pfi.
Definition pf_rows : list row :=
  map (fun p => (ENeg, EFin (cell (nth p branch []) RATE_A / B - nth p Pfi 0)%K,
                 fun x => (dc_flow (nth p branch []) (angles nb x) - nth p Pfi 0)%K)) il.
Definition pt_rows : list row :=
  map (fun p => (ENeg, EFin (cell (nth p branch []) RATE_A / B + nth p Pfi 0)%K,
                 fun x => (- (dc_flow (nth p branch []) (angles nb x) - nth p Pfi 0))%K)) il.

Lemma il_lt : Forall (fun p => p < length branch) il.
Proof.
  pose proof (rowsel_ok _ _ _ HF) as (H & _). destruct (bs_Bf _ _ _ _ _ _ HB) as (_ & NB & _).
  rewrite NB in H. exact H.
Qed.
Lemma ra_pfi (f : K -> K -> K) : map2 f (map (fun a => a / B)%K ra) pfi
  = map (fun p => f (cell (nth p branch []) RATE_A / B)%K (nth p Pfi 0%K)) il.
Proof.
  pose proof il_lt as IL. assert (ra = map (fun p => cell (nth p branch []) RATE_A) il) as ->.
  { clear -HR IL. revert ra HR. induction IL as [|p l Hp _ IH]; intros ra H; simpl in H.
    - injection H as <-. auto.
    - apply bind_ok in H as (a & Ha & H). apply bind_ok in H as (t & Ht & H). injection H as <-.
      simpl. f_equal; [|apply IH; auto]. apply get_ok in Ha. rewrite nth_error_map in Ha.
      destruct (nth_error branch p) as [r|] eqn:E; [|discriminate]. injection Ha as <-.
      rewrite (nth_error_nth _ _ _ E). reflexivity. }
  assert (pfi = map (fun p => nth p Pfi 0%K) il) as ->.
  { clear -HP. revert pfi HP. induction il as [|p l IH]; intros t H; simpl in H.
    - injection H as <-. auto.
    - apply bind_ok in H as (a & Ha & H). apply bind_ok in H as (t' & Ht & H). injection H as <-.
      simpl. f_equal; [|apply IH; auto]. apply get_ok in Ha. symmetry. apply nth_error_nth; auto. }
  rewrite map_map. apply map2_map.
Qed.

Lemma fl_val x p : length x = nx -> In p il -> mulrow Bf (firstn nb x) p = (dc_flow (nth p branch []) (angles nb x) - nth p Pfi 0)%K.
Proof.
  intros Lx Hp. pose proof il_lt as IL. rewrite Forall_forall in IL. destruct (nth_error_lt _ _ (IL p Hp)) as (r & Hr).
  rewrite (bf_row _ _ _ Hr), (nth_error_nth _ _ _ Hr). reflexivity.
Qed.

Lemma pf_desc : desc nx (place nx (fun j => j) Afl) (repeat ENeg (length il))
  (map EFin (map2 rsub (map (fun a => a / B)%K ra) pfi)) pf_rows.
Proof.
  destruct (bs_Bf _ _ _ _ _ _ HB) as (WB & NB & CB). pose proof (rowsel_ok _ _ _ HF) as (_ & NA & CA).
  pose proof (wf_rowsel _ _ _ WB HF) as WA.
  split; [apply wf_place; auto; intros; lia|]. split; [cbn; unfold pf_rows; rewrite map_length; auto|]. split; [auto|].
  unfold pf_rows. rewrite !map_map. cbn [rlo rup fst snd]. unfold rlo, rup. cbn [fst snd].
  split; [rewrite map_const; auto|]. split; [rewrite ra_pfi, map_map; reflexivity|].
  intros x Lx. rewrite map_map. cbn [snd]. rewrite (rowsv_place nx _ Afl x (firstn nb x)); auto.
  - rewrite (rowsv_rowsel _ _ _ _ HF). apply map_ext_in. intros p Hp. apply fl_val; auto.
  - intros j Hj. rewrite nth_firstn_lt; auto. lia.
Qed.
Lemma pt_desc : desc nx (place nx (fun j => j) (mapm ropp Afl)) (repeat ENeg (length il))
  (map EFin (map2 radd (map (fun a => a / B)%K ra) pfi)) pt_rows.
Proof.
  destruct (bs_Bf _ _ _ _ _ _ HB) as (WB & NB & CB). pose proof (rowsel_ok _ _ _ HF) as (_ & NA & CA).
  pose proof (wf_opp _ (wf_rowsel _ _ _ WB HF)) as WA.
  split; [apply wf_place; auto; cbn; intros; lia|]. split; [cbn; unfold pt_rows; rewrite map_length; auto|]. split; [auto|].
  unfold pt_rows. rewrite !map_map. unfold rlo, rup. cbn [fst snd].
  split; [rewrite map_const; auto|]. split; [rewrite ra_pfi, map_map; reflexivity|].
  intros x Lx. rewrite map_map. cbn [snd]. rewrite (rowsv_place nx _ (mapm ropp Afl) x (firstn nb x)); auto.
  - rewrite rowsv_opp, (rowsv_rowsel _ _ _ _ HF), map_map. apply map_ext_in. intros p Hp. rewrite fl_val; auto.
  - cbn. intros j Hj. rewrite nth_firstn_lt; auto. lia.
Qed.
End Flow.

Definition ang_rows (iang : list nat) : list row :=
  map (fun p => (ang_bound ENeg (cell (nth p branch []) ANGMIN), ang_bound EPos (cell (nth p branch []) ANGMAX),
                 fun x => angle_diff (nth p branch []) (angles nb x))) iang.
Lemma ang_desc ign A l u iang : makeAang ign branch nb = Ok (A, l, u, iang) ->
  desc nx (place nx (fun j => j) A) l u (ang_rows iang).
Proof.
  intros H. destruct (makeAang_rows _ _ _ _ _ _ _ H) as (W & N1 & N2 & L1 & L2 & HI & ND & ROW).
  assert (forall k p, nth_error iang k = Some p -> exists r, nth_error branch p = Some r) as HR.
  { intros k p Hp. apply nth_error_In in Hp. apply HI in Hp as (_ & r & Hr & _). eauto. }
  unfold ang_rows. split; [apply wf_place; auto; intros; lia|]. split; [cbn; rewrite map_length; auto|]. split; [auto|].
  rewrite !map_map. unfold rlo, rup. cbn [fst snd].
  split; [|split].
  - apply nth_error_ext. intros k. rewrite nth_error_map. destruct (nth_error iang k) as [p|] eqn:E; cbn [option_map].
    + destruct (HR k p E) as (r & Hr). destruct (ROW k p r E Hr) as (_ & R1 & _).
      pose proof (nth_error_some_lt _ _ _ E). rewrite (nth_error_nth' _ ENeg) by lia. rewrite R1, (nth_error_nth _ _ _ Hr). reflexivity.
    + apply nth_error_None in E. apply nth_error_None. lia.
  - apply nth_error_ext. intros k. rewrite nth_error_map. destruct (nth_error iang k) as [p|] eqn:E; cbn [option_map].
    + destruct (HR k p E) as (r & Hr). destruct (ROW k p r E Hr) as (_ & _ & R1).
      pose proof (nth_error_some_lt _ _ _ E). rewrite (nth_error_nth' _ EPos) by lia. rewrite R1, (nth_error_nth _ _ _ Hr). reflexivity.
    + apply nth_error_None in E. apply nth_error_None. lia.
  - intros x Lx. rewrite (rowsv_place nx _ A x (firstn nb x)); auto.
    2:{ intros j Hj. rewrite nth_firstn_lt; auto. lia. }
    rewrite map_map. cbn [snd]. apply nth_error_ext. intros k. rewrite nth_error_map. destruct (nth_error iang k) as [p|] eqn:E; cbn [option_map].
    + destruct (HR k p E) as (r & Hr). destruct (ROW k p r E Hr) as (R1 & _).
      pose proof (nth_error_some_lt _ _ _ E). rewrite (nth_error_nth' _ 0%K) by (rewrite rowsv_length; lia).
      rewrite nth_rowsv by lia. rewrite <- row_val_mulrow by auto. rewrite R1, (nth_error_nth _ _ _ Hr). reflexivity.
    + apply nth_error_None in E. apply nth_error_None. rewrite rowsv_length. lia.
Qed.

Definition y_rows (gc : list (list K)) : list row :=
  flat_map (fun ji => map (fun s => (ENeg, EFin (seg_b B s),
      fun x => (seg_m B s * output nb x (snd ji) + - (1) * nth (nb + ng + fst ji) x 0)%K)) (segs gc (snd ji)))
    (ypairs gc).
Lemma map_flat_map {A C D} (f : C -> D) (g : A -> list C) l : map f (flat_map g l) = flat_map (fun a => map f (g a)) l.
Proof. induction l; simpl; auto. rewrite map_app, IHl. reflexivity. Qed.
Lemma flat_map_ext_in {A C} (f g : A -> list C) l : (forall a, In a l -> f a = g a) -> flat_map f l = flat_map g l.
Proof. induction l as [|a l IH]; intros H; simpl; auto. rewrite H by (left; auto).
  rewrite IH by (intros; apply H; right; auto). reflexivity. Qed.
Lemma y_desc gc Ay by_ : length gc = ng -> makeAy B ng gc 1 0 (1 + ng) = Ok (Ay, by_) ->
  nb + ng + length (pwl_rows gc) <= nx ->
  desc nx (place nx (fun j => nb + j) Ay) (repeat ENeg (length by_)) (map EFin by_) (y_rows gc).
Proof.
  intros LG H Hn. destruct (makeAy_rows B ng gc 1 0 (1 + ng) Ay by_ ltac:(lia) H) as (W & L & C & EB & EV & EN & EZ).
  assert (by_ = map (fun r : row => match rup r with EFin b => b | _ => 0%K end) (y_rows gc)) as Eb.
  { rewrite EB. unfold y_rows. rewrite map_flat_map. apply flat_map_ext_in. intros ji _. unfold seg_rhs. rewrite map_map. reflexivity. }
  assert (map EFin by_ = map rup (y_rows gc)) as EU.
  { rewrite Eb, map_map. apply map_ext_in. intros r Hr. unfold y_rows in Hr. apply in_flat_map in Hr as (ji & _ & Hr).
    apply in_map_iff in Hr as (s & <- & _). reflexivity. }
  assert (length by_ = length (y_rows gc)) as LB by (rewrite Eb, map_length; auto).
  split; [apply wf_place; auto; intros j Hj; lia|]. split; [cbn; lia|]. split; [auto|]. split; [|split; auto].
  - rewrite LB, <- map_const. apply map_ext_in. intros r Hr. unfold y_rows in Hr. apply in_flat_map in Hr as (ji & _ & Hr).
    apply in_map_iff in Hr as (s & <- & _). reflexivity.
  - intros x Lx. rewrite (rowsv_place nx _ Ay x (skipn nb x)); auto.
    2:{ intros j Hj. rewrite nth_skipn_d. reflexivity. }
    rewrite EV. unfold y_rows. rewrite map_flat_map. apply flat_map_ext_in. intros (j, i) Hji. unfold seg_lhs. rewrite map_map.
    cbn [fst snd]. apply map_ext. intros s. rewrite !nth_skipn_d. unfold output.
    apply in_ypairs in Hji. apply nth_error_In in Hji. unfold pwl_rows in Hji. apply filter_In in Hji as (Hi & _).
    apply in_seq in Hi. unfold sidx. destruct (Nat.ltb_spec ng i); [lia|].
    replace (1 + i - 1) with i by lia. replace (nb + (1 + ng + j - 1)) with (nb + ng + j) by lia. reflexivity.
Qed.
End Blocks.
End DcOpfA.
