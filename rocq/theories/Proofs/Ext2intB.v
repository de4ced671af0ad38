(** The forward conversion on a well-formed case. *)
From Coq Require Import Permutation Sorted Lia.
From Verif Require Import Lib.Num Lib.ListFacts Model.Idx Model.Ext2int Spec.CaseSpec
  Proofs.Ext2intA.

Section Cells.
Context {Ty : Type} {CC : Cell Ty}.
Local Notation num := Ty.
Local Notation row := (list Ty).
Local Notation table := (list (list Ty)).
Local Notation umat := (umat_of Ty).
Local Notation tabs := (tabs_of Ty).
Local Notation order := (order_of Ty).
Local Notation ppc := (ppc_of Ty).

Lemma mapM_forall2 {A B} (f : A -> result B) (P : A -> B -> Prop) l :
  (forall x, In x l -> exists y, f x = Ok y /\ P x y) ->
  exists l', mapM f l = Ok l' /\ length l' = length l /\
    forall i x, nth_error l i = Some x -> exists y, nth_error l' i = Some y /\ P x y.
Proof.
  intros H. destruct (mapM_exists f l) as [l' Hl'].
  { intros x Hx. destruct (H x Hx) as (y & Hy & _); eauto. }
  exists l'; split; auto. split; [eapply mapM_length; eauto|].
  intros i x Hi. destruct (mapM_nth _ _ _ _ _ Hl' Hi) as (y & Hy & Hn).
  destruct (H x (nth_error_In _ _ Hi)) as (y' & Hy' & HP). rewrite Hy in Hy'. injection Hy' as <-.
  eauto.
Qed.

Lemma find_lists (mask : list bool) (P : nat -> Prop) :
  (forall i, nth_error mask i = Some true <-> P i) ->
  lists_exactly (find mask) P /\ increasing (find mask).
Proof.
  intros H. split; [split|].
  - apply find_NoDup.
  - intros i. rewrite in_find. apply H.
  - apply SS_lt_nth, find_sorted.
Qed.

Lemma find_off (mask : list bool) (P : nat -> Prop) n : length mask = n ->
  (forall i, nth_error mask i = Some true <-> P i) ->
  lists_exactly (find (map negb mask)) (fun i => i < n /\ ~ P i).
Proof.
  intros L H. split; [apply find_NoDup|]. intros i. rewrite in_find, nth_error_map.
  rewrite <- H. split.
  - intros E. destruct (nth_error mask i) as [[|]|] eqn:Em; try discriminate.
    split; [|discriminate]. rewrite <- L. eapply nth_error_some_lt; eauto.
  - intros [Hi N]. destruct (nth_error_lt mask i) as [b Hb]; [lia|]. rewrite Hb.
    destruct b; [congruence|reflexivity].
Qed.

Section Forward.
Variable argsort : list Z -> list nat.
Hypothesis Has : argsort_spec argsort.
Variable p : ppc.
Hypothesis W : wf_case p.

Lemma nums_ok : exists xs nums,
  col BUS_I (p_bus p) = Ok xs /\ mapM to_int xs = Ok nums /\
  length nums = length (p_bus p) /\
  (forall i z, nth_error nums i = Some z <-> bus_at p z i) /\
  NoDup nums /\ Forall (fun z => 0 <= z)%Z nums.
Proof.
  destruct (mapM_forall2 (fun r => get r BUS_I) 
             (fun r x => nth_error r BUS_I = Some x /\ exists z, (0 <= z)%Z /\ x = ofZ z)
             (p_bus p)) as (xs & Hxs & Hl & Hn).
  { intros r Hr. apply In_nth_error in Hr as [i Hi].
    destruct (wf_bus_num _ W _ _ Hi) as (z & Hz & Hc). exists (ofZ z). split; eauto.
    apply get_ok; auto. }
  destruct (mapM_forall2 to_int (fun x z => (0 <= z)%Z /\ x = ofZ z) xs)
    as (nums & Hnums & Hl2 & Hn2).
  { intros x Hx. apply In_nth_error in Hx as [i Hi].
    destruct (nth_error_lt (p_bus p) i) as [r Hr].
    { rewrite <- Hl. eapply nth_error_some_lt; eauto. }
    destruct (Hn _ _ Hr) as (x' & Hx' & Hc & z & Hz & ->).
    rewrite Hi in Hx'; injection Hx' as ->.
    exists z. rewrite to_int_ofZ; auto. }
  assert (Hat : forall i z, nth_error nums i = Some z <-> bus_at p z i).
  { intros i z. split; intros H.
    - destruct (nth_error_lt (p_bus p) i) as [r Hr].
      { rewrite <- Hl, <- Hl2. eapply nth_error_some_lt; eauto. }
      destruct (Hn _ _ Hr) as (x & Hx & Hc & _).
      destruct (Hn2 _ _ Hx) as (z' & Hz' & _ & ->).
      exists r; split; auto. congruence.
    - destruct H as (r & Hr & Hc).
      destruct (Hn _ _ Hr) as (x & Hx & Hc' & _).
      destruct (Hn2 _ _ Hx) as (z' & Hz' & _ & ->).
      assert (z = z') by (apply ofZ_inj; congruence). congruence. }
  exists xs, nums. repeat split; auto; try apply Hat; try congruence.
  - apply NoDup_nth_error. intros i j Hi E.
    destruct (nth_error_lt nums i Hi) as [z Hz]. rewrite Hz in E. symmetry in E.
    apply (wf_bus_distinct _ W z); apply Hat; auto.
  - apply Forall_forall. intros z Hz. apply In_nth_error in Hz as [i Hi].
    destruct (nth_error_lt xs i) as [x Hx].
    { rewrite <- Hl2. eapply nth_error_some_lt; eauto. }
    destruct (Hn2 _ _ Hx) as (z' & Hz' & Hpos & _). congruence.
Qed.

Lemma types_ok : exists bt,
  col BUS_TYPE (p_bus p) = Ok bt /\
  find (map (fun t => negb (valid_type t)) bt) = [] /\
  length (bus_mask bt) = length (p_bus p) /\
  (forall i, nth_error (bus_mask bt) i = Some true <-> bus_in_service p i).
Proof.
  destruct (mapM_forall2 (fun r => get r BUS_TYPE)
             (fun r x => nth_error r BUS_TYPE = Some x
                         /\ exists t, (1 <= t <= 4)%Z /\ x = ofZ t)
             (p_bus p)) as (bt & Hbt & Hl & Hn).
  { intros r Hr. apply In_nth_error in Hr as [i Hi].
    destruct (wf_bus_type _ W _ _ Hi) as (z & Hz & Hc). exists (ofZ z). split; eauto.
    apply get_ok; auto. }
  exists bt. split; [exact Hbt|].
  assert (Hinv : forall i x, nth_error bt i = Some x -> exists r t,
            nth_error (p_bus p) i = Some r /\ nth_error r BUS_TYPE = Some x
            /\ (1 <= t <= 4)%Z /\ x = ofZ t).
  { intros i x Hx. destruct (nth_error_lt (p_bus p) i) as [r Hr].
    { rewrite <- Hl. eapply nth_error_some_lt; eauto. }
    destruct (Hn _ _ Hr) as (x' & Hx' & Hc & t & Ht & E). assert (x' = x) by congruence.
    exists r, t. split; [auto|split; [congruence|split; [auto|congruence]]]. }
  split; [|split].
  - destruct (find _) as [|i l] eqn:E; auto. exfalso.
    assert (Hi : In i (find (map (fun t => negb (valid_type t)) bt))) by (rewrite E; left; auto).
    apply in_find, nth_error_map_iff in Hi as (x & Hx & Hv).
    destruct (Hinv _ _ Hx) as (r & t & _ & _ & Ht & ->).
    unfold valid_type in Hv. rewrite !num_eqb_ofZ in Hv.
    destruct (Z.eqb_spec t 1), (Z.eqb_spec t 2), (Z.eqb_spec t 3), (Z.eqb_spec t 4);
      simpl in Hv; try discriminate; lia.
  - unfold bus_mask. rewrite map_length; auto.
  - intros i. unfold bus_mask. rewrite nth_error_map_iff. split.
    + intros (x & Hx & Hb). destruct (Hinv _ _ Hx) as (r & t & Hr & Hc & Ht & ->).
      exists r; split; auto. rewrite num_eqb_ofZ in Hb. rewrite Hc. intros C.
      assert (t = 4%Z) by (apply ofZ_inj; congruence). subst; discriminate.
    + intros (r & Hr & Hc). destruct (Hn _ _ Hr) as (x & Hx & Hc' & t & Ht & ->).
      exists (ofZ t); split; auto. rewrite num_eqb_ofZ.
      destruct (Z.eqb_spec t 4); auto. subst; congruence.
Qed.

Section Masks.
Variables (nums : list Z) (bs : list bool).
Hypothesis Hlen : length nums = length (p_bus p).
Hypothesis Hat : forall i z, nth_error nums i = Some z <-> bus_at p z i.
Hypothesis Hnd : NoDup nums.
Hypothesis Hpos : Forall (fun z => 0 <= z)%Z nums.
Hypothesis Hbl : length bs = length (p_bus p).
Hypothesis Hbs : forall i, nth_error bs i = Some true <-> bus_in_service p i.

Lemma bus_on_ok c r z : names_bus p c r z ->
  exists b, bus_on_at bs nums z = Ok b /\ (b = true <-> connected p c r).
Proof.
  intros (Hc & i & Hi). pose proof (proj2 (Hat i z) Hi) as Hn.
  unfold bus_on_at. rewrite (n2i_at _ _ _ Hnd Hpos Hn). cbn [bind].
  destruct (nth_error_lt bs i) as [b Hb].
  { rewrite Hbl, <- Hlen. eapply nth_error_some_lt; eauto. }
  exists b. split; [apply get_ok; auto|]. split.
  - intros ->. exists z, i. split; auto. split; auto. apply Hbs; auto.
  - intros (z' & i' & Hc' & Hi' & Hs).
    assert (z' = z) by (apply ofZ_inj; congruence). subst z'.
    assert (i' = i) by (eapply (wf_bus_distinct _ W); eauto). subst i'.
    apply Hbs in Hs. congruence.
Qed.

Lemma gen_on_ok r : In r (p_gen p) -> exists b, gen_on bs nums r = Ok b /\
  (b = true <-> exists s, nth_error r GEN_STATUS = Some s /\ num_gt0 s = true
                          /\ connected p GEN_BUS r).
Proof.
  intros Hr. destruct (wf_gen_bus _ W _ Hr) as (z & Hz).
  destruct (bus_on_ok _ _ _ Hz) as (b & Hb & Hiff).
  destruct (wf_gen_rect _ W) as (w & Hw & Hf). rewrite Forall_forall in Hf.
  pose proof (Hf _ Hr) as Hlr.
  destruct (nth_error_lt r GEN_STATUS) as [s Hs].
  { unfold GEN_STATUS; lia. }
  destruct Hz as (Hc & _). unfold gen_on, get. rewrite Hs, Hc; cbn [of_option bind].
  rewrite to_int_ofZ; cbn [bind]. rewrite Hb; cbn [bind].
  eexists; split; [reflexivity|]. rewrite Bool.andb_true_iff, Hiff. split.
  - intros [H1 H2]; eauto.
  - intros (s' & Hs' & H1 & H2). split; auto. congruence.
Qed.

Lemma br_on_ok r : In r (p_branch p) -> exists b, br_on bs nums r = Ok b /\
  (b = true <-> nth_error r BR_STATUS = Some (ofZ 1) /\ connected p F_BUS r
                /\ connected p T_BUS r).
Proof.
  intros Hr. destruct (wf_br_bus _ W _ Hr) as ((zf & Hf) & (zt & Ht)).
  destruct (bus_on_ok _ _ _ Hf) as (bf & Hbf & Hif).
  destruct (bus_on_ok _ _ _ Ht) as (bt & Hbt & Hit).
  destruct Hf as (Hcf & _), Ht as (Hct & _).
  destruct (wf_br_status _ W _ Hr) as [Hs|Hs]; unfold br_on, get; rewrite Hs, Hcf, Hct;
    cbn [of_option bind]; rewrite !to_int_ofZ; cbn [bind]; rewrite Hbf, Hbt; cbn [bind];
    (eexists; split; [reflexivity|]).
  - simpl. split; [discriminate|]. intros (C & _).
    assert (0 = 1)%Z by (apply ofZ_inj; congruence). discriminate.
  - simpl. rewrite Bool.andb_true_iff, Hif, Hit. tauto.
Qed.

Lemma area_on_ok a r : p_areas p = Some a -> In r a -> exists b, area_on bs nums r = Ok b /\
  (b = true <-> connected p PRICE_REF_BUS r).
Proof.
  intros Ha Hr. destruct (wf_area_bus _ W _ _ Ha Hr) as (z & Hz).
  destruct (bus_on_ok _ _ _ Hz) as (b & Hb & Hiff). destruct Hz as (Hc & _).
  exists b; split; auto. unfold area_on, get. rewrite Hc; cbn [of_option bind].
  rewrite to_int_ofZ; cbn [bind]. auto.
Qed.
End Masks.

(** everything int2ext and the other users of the order record need *)
Record conv (q : ppc) (o : order) (i2eZ : list Z) (sb gon ge sg sl sa : list nat) : Prop := {
  cv_order : p_order q = Some o;
  cv_state : o_state o = StateI;
  cv_form : internal_form p q sb sg sl sa;
  cv_ext : o_ext o = Some {| x_bus := p_bus p; x_gen := p_gen p; x_branch := p_branch p;
              x_gencost := p_gencost p; x_areas := drop_empty_areas (p_areas p);
              x_A := p_A p; x_N := p_N p |};
  cv_i2e : o_i2e o = map ofZ i2eZ;
  cv_i2eZ : forall k z, nth_error i2eZ k = Some z <-> stands_for p sb k z;
  cv_sb : o_bus_on o = sb;
  cv_gon : o_gen_on o = gon /\ lists_exactly gon (gen_in_service p) /\ increasing gon;
  cv_ge : o_gen_e2i o = ge /\ Permutation ge (seq 0 (length gon));
  cv_gi : o_gen_i2e o = argsort (map Z.of_nat ge);
  cv_sg : gather gon ge = Ok sg;
  cv_sl : o_br_on o = sl;
  cv_sa : p_areas q <> None -> o_areas_on o = sa;
  cv_gc : p_gencost q = None <-> p_gencost p = None;
  cv_A : p_A q = None <-> p_A p = None;
  cv_N : p_N q = None <-> p_N p = None;
  cv_goff : lists_exactly (o_gen_off o) (fun i => i < length (p_gen p) /\ ~ gen_in_service p i);
  cv_loff : lists_exactly (o_br_off o) (fun i => i < length (p_branch p) /\ ~ branch_in_service p i) }.

Lemma opt_map_ex {A B} (f : A -> result B) o :
  (forall a, o = Some a -> exists b, f a = Ok b) ->
  exists o', opt_map f o = Ok o' /\ (o' = None <-> o = None)
     /\ forall a, o = Some a -> exists b, f a = Ok b /\ o' = Some b.
Proof.
  intros H. destruct o as [a|]; simpl.
  - destruct (H a eq_refl) as [b Hb]. rewrite Hb; simpl. eexists; split; [reflexivity|].
    split; [split; discriminate|]. intros a' E; injection E as <-; eauto.
  - eexists; split; [reflexivity|]. split; [tauto|]. discriminate.
Qed.

Lemma stands_inj sb i2eZ : (forall k z, nth_error i2eZ k = Some z <-> stands_for p sb k z) ->
  NoDup sb -> NoDup i2eZ.
Proof.
  intros H Hn. apply NoDup_nth_error. intros i j Hi E.
  destruct (nth_error_lt _ _ Hi) as [z Hz]. rewrite Hz in E. symmetry in E.
  apply H in Hz as (a & Ha & Hba). apply H in E as (b & Hb & Hbb).
  assert (a = b) by (eapply (wf_bus_distinct _ W); eauto). subst.
  eapply NoDup_nth_error_eq; eauto.
Qed.

Lemma gather_firstn {A} (v : list A) b n :
  b + n <= length v -> gather v (seq b n) = Ok (firstn n (skipn b v)).
Proof.
  intros H. destruct (gather_ok v (seq b n)) as [w Hw].
  { intros i Hi; apply in_seq in Hi; lia. }
  rewrite Hw; f_equal. apply nth_error_ext; intros i.
  pose proof (gather_length _ _ _ Hw) as Hl. rewrite seq_length in Hl.
  destruct (Nat.lt_ge_cases i n) as [Hi|Hi].
  - rewrite (gather_nth _ _ _ i (b + i) Hw) by (apply seq_nth_error; auto).
    assert (Hi2 : i < length (firstn n (skipn b v))).
    { rewrite firstn_length, skipn_length. lia. }
    rewrite <- (nth_error_app1 (firstn n (skipn b v)) (skipn n (skipn b v))) by auto.
    rewrite firstn_skipn. 
    rewrite <- (firstn_skipn b v) at 1.
    rewrite nth_error_app2; rewrite firstn_length; [|lia]. f_equal. lia.
  - transitivity (@None A); [|symmetry]; apply nth_error_None; auto.
    + lia.
    + rewrite firstn_length, skipn_length. lia.
Qed.

Lemma gather_firstn_idx {A} (v : list A) n idx :
  (forall i, In i idx -> i < n) -> n <= length v ->
  exists w, gather (firstn n v) idx = Ok w /\ length w = length idx /\
    forall k i, nth_error idx k = Some i -> nth_error w k = nth_error v i.
Proof.
  intros Hi Hn. destruct (gather_ok (firstn n v) idx) as [w Hw].
  { intros i H. rewrite firstn_length. apply Hi in H. lia. }
  exists w. split; auto. split; [eapply gather_length; eauto|].
  intros k i Hk. rewrite (gather_nth _ _ _ _ _ Hw Hk).
  pose proof (Hi _ (nth_error_In _ _ Hk)).
  rewrite <- (firstn_skipn n v) at 2. rewrite nth_error_app1; auto.
  rewrite firstn_length; lia.
Qed.

Lemma e2i_multi_ex {A} (o : order) (x : tabs) ords : forall b (v : list A),
  (forall k, In k ords -> exists idx, e2i_idx o k = Ok idx
       /\ forall i, In i idx -> i < ext_len x k) ->
  b + fold_right (fun k n => ext_len x k + n) 0 ords <= length v ->
  exists w, e2i_multi o x ords b v = Ok w.
Proof.
  induction ords as [|k ks IH]; intros b v Hk Hl; simpl in *; eauto.
  rewrite gather_firstn by lia. cbn [bind].
  destruct (Hk k (or_introl eq_refl)) as (idx & Hidx & Hr).
  unfold e2i_single. rewrite Hidx; cbn [bind].
  destruct (gather_firstn_idx (skipn b v) (ext_len x k) idx) as (w & Hw & _); auto.
  { rewrite skipn_length; lia. }
  rewrite Hw; cbn [bind].
  destruct (IH (b + ext_len x k) v) as (w' & Hw'); auto; [lia|].
  rewrite Hw'; simpl; eauto.
Qed.

Theorem ext2int_conv :
  exists q o i2eZ sb gon ge sg sl sa,
    ext2int_body argsort p = Ok q /\ conv q o i2eZ sb gon ge sg sl sa.
Proof.
  destruct nums_ok as (xs & nums & Hxs & Hnums & Hlen & Hat & Hnd & Hpos).
  destruct types_ok as (bt & Hbt & Hinvalid & Hbl & Hbs).
  unfold ext2int_body. rewrite Hbt; cbn [bind]. rewrite Hinvalid; cbn [length Nat.leb guard bind].
  assert (Hic : int_col BUS_I (p_bus p) = Ok nums) by (unfold int_col; rewrite Hxs; auto).
  rewrite Hic; cbn [bind].
  destruct (wf_some_bus _ W) as (i0 & r0 & Hi0 & Ht0).
  assert (Hnb : length (p_bus p) =? 0 = false).
  { apply Nat.eqb_neq. apply nth_error_some_lt in Hi0; lia. }
  rewrite Hnb; cbn [negb guard bind].
  assert (Hall : forallb (fun n => (0 <=? n)%Z) nums = true).
  { apply forallb_forall. intros z Hz. rewrite Forall_forall in Hpos.
    apply Z.leb_le; auto. }
  rewrite Hall; cbn [guard bind].
  set (bs := bus_mask bt) in *.
  destruct (mapM_forall2 (gen_on bs nums) _ _ (gen_on_ok _ _ Hlen Hat Hnd Hpos Hbl Hbs))
    as (gs & Hgs & Hgl & Hgn).
  rewrite Hgs; cbn [bind].
  destruct (mapM_forall2 (br_on bs nums) _ _ (br_on_ok _ _ Hlen Hat Hnd Hpos Hbl Hbs))
    as (brs & Hbrs & Hbrl & Hbrn).
  rewrite Hbrs; cbn [bind].
  assert (Hars : exists ars,
    match drop_empty_areas (p_areas p) with
    | None => Ok [] | Some a => mapM (area_on bs nums) a end = Ok ars /\
    forall a, drop_empty_areas (p_areas p) = Some a ->
      length ars = length a /\
      forall i r, nth_error a i = Some r -> exists b, nth_error ars i = Some b /\
        (b = true <-> connected p PRICE_REF_BUS r)).
  { destruct (drop_empty_areas (p_areas p)) as [a|] eqn:E.
    - assert (Ha : p_areas p = Some a).
      { unfold drop_empty_areas in E. destruct (p_areas p) as [[|]|]; congruence. }
      destruct (mapM_forall2 (area_on bs nums) _ a
        (fun r => area_on_ok _ _ Hlen Hat Hnd Hpos Hbl Hbs a r Ha)) as (ars & H1 & H2 & H3).
      exists ars. split; auto. intros a' E'; injection E' as <-. auto.
    - exists []. split; auto. discriminate. }
  destruct Hars as (ars & Hars & Harn). rewrite Hars; cbn [bind].
  (* the kept positions *)
  destruct (find_lists bs _ Hbs) as (HSB & HSBi).
  assert (HG : forall i, nth_error gs i = Some true <-> gen_in_service p i).
  { intros i. split.
    - intros Hi. destruct (nth_error_lt (p_gen p) i) as [r Hr].
      { rewrite <- Hgl. eapply nth_error_some_lt; eauto. }
      destruct (Hgn _ _ Hr) as (b & Hb & Hiff).
      assert (b = true) by congruence. apply Hiff in H as (s & Hs & H1 & H2).
      exists r, s. auto.
    - intros (r & s & Hr & Hs & H1 & H2). destruct (Hgn _ _ Hr) as (b & Hb & Hiff).
      rewrite Hb. f_equal. apply Hiff. eauto. }
  destruct (find_lists gs _ HG) as (HSG & HSGi).
  assert (HL : forall i, nth_error brs i = Some true <-> branch_in_service p i).
  { intros i. split.
    - intros Hi. destruct (nth_error_lt (p_branch p) i) as [r Hr].
      { rewrite <- Hbrl. eapply nth_error_some_lt; eauto. }
      destruct (Hbrn _ _ Hr) as (b & Hb & Hiff).
      assert (b = true) by congruence. apply Hiff in H. exists r. tauto.
    - intros (r & Hr & H). destruct (Hbrn _ _ Hr) as (b & Hb & Hiff).
      rewrite Hb. f_equal. apply Hiff. auto. }
  destruct (find_lists brs _ HL) as (HSL & HSLi).
  pose proof (find_off gs _ _ Hgl HG) as HGoff. pose proof (find_off brs _ _ Hbrl HL) as HLoff.
  set (sb := find bs) in *. set (gon := find gs) in *. set (sl := find brs) in *.
  set (sa := find ars) in *.
  assert (Rsb : forall i, In i sb -> i < length (p_bus p)).
  { intros i Hi. rewrite <- Hbl. apply find_lt; auto. }
  assert (Rgon : forall i, In i gon -> i < length (p_gen p)).
  { intros i Hi. rewrite <- Hgl. apply find_lt; auto. }
  assert (Rsl : forall i, In i sl -> i < length (p_branch p)).
  { intros i Hi. rewrite <- Hbrl. apply find_lt; auto. }
  destruct (gather_ok (p_bus p) sb Rsb) as (bus1 & Hbus1). rewrite Hbus1; cbn [bind].
  destruct (gather_ok (p_gen p) gon Rgon) as (gen1 & Hgen1). rewrite Hgen1; cbn [bind].
  destruct (gather_ok (p_branch p) sl Rsl) as (br1 & Hbr1). rewrite Hbr1; cbn [bind].
  destruct (opt_map_ex (fun a => gather a sa) (drop_empty_areas (p_areas p)))
    as (areas1 & Ha1 & Ha1n & Ha1s).
  { intros a Ha. apply gather_ok. intros i Hi. destruct (Harn _ Ha) as [<- _].
    apply find_lt; auto. }
  rewrite Ha1; cbn [bind].
  (* i2e *)
  assert (Hbus1n : forall k i, nth_error sb k = Some i ->
                     nth_error bus1 k = nth_error (p_bus p) i)
    by (intros; eapply gather_nth; eauto).
  assert (Hbus1l : length bus1 = length sb) by (eapply gather_length; eauto).
  assert (Hi2e : exists i2eZ, col BUS_I bus1 = Ok (map ofZ i2eZ) /\
            (forall k z, nth_error i2eZ k = Some z <-> stands_for p sb k z) /\
            length i2eZ = length sb).
  { destruct (gather_ok nums sb) as (i2eZ & Hz).
    { intros i Hi. rewrite Hlen; auto. }
    exists i2eZ. 
    assert (Hst : forall k z, nth_error i2eZ k = Some z <-> stands_for p sb k z).
    { intros k z. split.
      - intros H. destruct (nth_error_lt sb k) as [i Hi].
        { rewrite <- (gather_length _ _ _ Hz). eapply nth_error_some_lt; eauto. }
        exists i; split; auto. apply Hat. rewrite <- (gather_nth _ _ _ _ _ Hz Hi); auto.
      - intros (i & Hi & Hb). rewrite (gather_nth _ _ _ _ _ Hz Hi). apply Hat; auto. }
    split; [|split; [auto|eapply gather_length; eauto]].
    destruct (mapM_forall2 (fun r => get r BUS_I) (fun r x => nth_error r BUS_I = Some x) bus1)
      as (ys & Hys & Hyl & Hyn).
    { intros r Hr. apply In_nth_error in Hr as [k Hk].
      destruct (nth_error_lt sb k) as [i Hi].
      { rewrite <- Hbus1l. eapply nth_error_some_lt; eauto. }
      rewrite (Hbus1n _ _ Hi) in Hk.
      destruct (wf_bus_num _ W _ _ Hk) as (z & _ & Hc). exists (ofZ z). split; auto.
      apply get_ok; auto. }
    unfold col. rewrite Hys. f_equal. apply nth_error_ext; intros k.
    rewrite nth_error_map.
    destruct (nth_error bus1 k) as [r|] eqn:E.
    - destruct (Hyn _ _ E) as (x & Hx & Hc). rewrite Hx.
      destruct (nth_error_lt sb k) as [i Hi].
      { rewrite <- Hbus1l. eapply nth_error_some_lt; eauto. }
      rewrite (Hbus1n _ _ Hi) in E.
      destruct (wf_bus_num _ W _ _ E) as (z & _ & Hc').
      assert (nth_error i2eZ k = Some z) as ->.
      { apply Hst. exists i; split; auto. exists r; auto. }
      simpl. congruence.
    - apply nth_error_None in E.
      assert (nth_error ys k = None) as -> by (apply nth_error_None; lia).
      assert (nth_error i2eZ k = None) as ->; auto.
      apply nth_error_None. rewrite (gather_length _ _ _ Hz). lia. }
  destruct Hi2e as (i2eZ & Hcol & Hst & Hi2el). rewrite Hcol; cbn [bind].
  assert (HmapZ : mapM to_int (map ofZ i2eZ) = Ok i2eZ).
  { clear. induction i2eZ as [|z l IH]; auto. cbn [map mapM].
    rewrite to_int_ofZ; cbn [bind]. rewrite IH; auto. }
  rewrite HmapZ; cbn [bind].
  assert (Hne : length bus1 =? 0 = false).
  { apply Nat.eqb_neq. rewrite Hbus1l. destruct HSB as [_ HSB].
    assert (In i0 sb) as Hin by (apply HSB; exists r0; auto).
    destruct sb; simpl in *; [tauto|lia]. }
  rewrite Hne; cbn [negb guard bind].
  assert (Hi2nd : NoDup i2eZ).
  { eapply stands_inj; [apply Hst|]. apply HSB. }
  assert (Hi2pos : Forall (fun z => 0 <= z)%Z i2eZ).
  { apply Forall_forall. intros z Hz. apply In_nth_error in Hz as [k Hk].
    apply Hst in Hk as (i & _ & Hb). apply Hat in Hb. rewrite Forall_forall in Hpos.
    apply Hpos. eapply nth_error_In; eauto. }
  assert (Hstin : forall z i, bus_at p z i -> bus_in_service p i -> In z i2eZ).
  { intros z i Hb Hs. apply HSB in Hs. apply In_nth_error in Hs as [k Hk].
    eapply nth_error_In. apply Hst. exists i. eauto. }
  (* renumbering *)
  destruct (renum_ok i2eZ BUS_I bus1 Hi2nd Hi2pos) as (bus2 & Hbus2 & Hbus2l & Hbus2n).
  { intros r Hr. apply In_nth_error in Hr as [k Hk].
    destruct (nth_error_lt sb k) as [i Hi].
    { rewrite <- Hbus1l. eapply nth_error_some_lt; eauto. }
    rewrite (Hbus1n _ _ Hi) in Hk.
    destruct (wf_bus_num _ W _ _ Hk) as (z & _ & Hc). exists z; split; auto.
    eapply nth_error_In. apply Hst. exists i; split; eauto. exists r; auto. }
  rewrite Hbus2; cbn [bind].
  assert (Hgen1l : length gen1 = length gon) by (eapply gather_length; eauto).
  assert (Hgen1s : forall j r, nth_error gen1 j = Some r ->
     exists i, nth_error gon j = Some i /\ nth_error (p_gen p) i = Some r
       /\ exists z, nth_error r GEN_BUS = Some (ofZ z) /\ In z i2eZ).
  { intros j r Hj. destruct (nth_error_lt gon j) as [i Hi].
    { rewrite <- Hgen1l. eapply nth_error_some_lt; eauto. }
    rewrite (gather_nth _ _ _ _ _ Hgen1 Hi) in Hj. exists i; split; auto. split; auto.
    assert (gen_in_service p i) as (r' & s & Hr' & _ & _ & z & b & Hc & Hb & Hs).
    { apply HSG. eapply nth_error_In; eauto. }
    assert (r' = r) by congruence; subst r'. exists z. split; auto. eapply Hstin; eauto. }
  destruct (renum_ok i2eZ GEN_BUS gen1 Hi2nd Hi2pos) as (gen2 & Hgen2 & Hgen2l & Hgen2n).
  { intros r Hr. apply In_nth_error in Hr as [k Hk].
    destruct (Hgen1s _ _ Hk) as (_ & _ & _ & H); auto. }
  rewrite Hgen2; cbn [bind].
  assert (Hbr1l : length br1 = length sl) by (eapply gather_length; eauto).
  assert (Hbr1s : forall j r, nth_error br1 j = Some r ->
     exists i, nth_error sl j = Some i /\ nth_error (p_branch p) i = Some r
       /\ (exists z, nth_error r F_BUS = Some (ofZ z) /\ In z i2eZ)
       /\ (exists z, nth_error r T_BUS = Some (ofZ z) /\ In z i2eZ)).
  { intros j r Hj. destruct (nth_error_lt sl j) as [i Hi].
    { rewrite <- Hbr1l. eapply nth_error_some_lt; eauto. }
    rewrite (gather_nth _ _ _ _ _ Hbr1 Hi) in Hj. exists i; split; auto. split; auto.
    assert (branch_in_service p i)
      as (r' & Hr' & _ & (z & b & Hc & Hb & Hs) & (z2 & b2 & Hc2 & Hb2 & Hs2)).
    { apply HSL. eapply nth_error_In; eauto. }
    assert (r' = r) by congruence; subst r'. split.
    - exists z. split; auto. eapply Hstin; eauto.
    - exists z2. split; auto. eapply Hstin; eauto. }
  destruct (renum_ok i2eZ F_BUS br1 Hi2nd Hi2pos) as (br2 & Hbr2 & Hbr2l & Hbr2n).
  { intros r Hr. apply In_nth_error in Hr as [k Hk].
    destruct (Hbr1s _ _ Hk) as (_ & _ & _ & H & _); auto. }
  rewrite Hbr2; cbn [bind].
  assert (Hbr2s : forall j r', nth_error br2 j = Some r' -> exists r zf k,
      nth_error br1 j = Some r /\ nth_error r F_BUS = Some (ofZ zf)
      /\ nth_error i2eZ k = Some zf /\ r' = upd r F_BUS (ofN k)).
  { intros j r' Hj. destruct (nth_error_lt br1 j) as [r Hr].
    { rewrite <- Hbr2l. eapply nth_error_some_lt; eauto. }
    destruct (Hbr1s _ _ Hr) as (i & _ & _ & (z & Hz & Hin) & _).
    apply In_nth_error in Hin as [k Hk].
    exists r, z, k. repeat split; auto.
    rewrite (Hbr2n _ _ _ _ Hr Hz Hk) in Hj. congruence. }
  destruct (renum_ok i2eZ T_BUS br2 Hi2nd Hi2pos) as (br3 & Hbr3 & Hbr3l & Hbr3n).
  { intros r' Hr. apply In_nth_error in Hr as [j Hj].
    destruct (Hbr2s _ _ Hj) as (r & zf & k & Hr & Hzf & Hk & ->).
    destruct (Hbr1s _ _ Hr) as (_ & _ & _ & _ & z & Hz & Hin).
    exists z; split; auto. rewrite nth_error_upd_other; auto; discriminate. }
  rewrite Hbr3; cbn [bind].
  assert (Ha2 : exists areas2, opt_map (renum i2eZ PRICE_REF_BUS) areas1 = Ok areas2 /\
     (areas2 = None <-> areas1 = None) /\
     forall a1, areas1 = Some a1 -> exists a2, areas2 = Some a2 /\ length a2 = length a1 /\
       forall j r z k, nth_error a1 j = Some r -> nth_error r PRICE_REF_BUS = Some (ofZ z) ->
          nth_error i2eZ k = Some z -> nth_error a2 j = Some (upd r PRICE_REF_BUS (ofN k))).
  { destruct areas1 as [a1|] eqn:E1; simpl.
    - destruct (drop_empty_areas (p_areas p)) as [a|] eqn:E2; [|simpl in Ha1; discriminate].
      destruct (Ha1s _ eq_refl) as (a1' & Hg & Eq). injection Eq as <-.
      destruct (Harn _ eq_refl) as (Hal & Han).
      destruct (renum_ok i2eZ PRICE_REF_BUS a1 Hi2nd Hi2pos) as (a2 & H1 & H2 & H3).
      { intros r Hr. apply In_nth_error in Hr as [j Hj].
        destruct (nth_error_lt sa j) as [i Hi].
        { rewrite <- (gather_length _ _ _ Hg). eapply nth_error_some_lt; eauto. }
        rewrite (gather_nth _ _ _ _ _ Hg Hi) in Hj.
        destruct (Han _ _ Hj) as (b & Hb & Hiff).
        pose proof (proj1 (in_find _ _) (nth_error_In _ _ Hi)) as Ht.
        assert (b = true) as Hbt' by congruence.
        apply Hiff in Hbt' as (z & i' & Hc & Hb' & Hs). exists z; split; auto.
        eapply Hstin; eauto. }
      rewrite H1; simpl. eexists; split; [reflexivity|]. split; [split; discriminate|].
      intros a1' E; injection E as <-. exists a2; auto.
    - eexists; split; [reflexivity|]. split; [tauto|]. discriminate. }
  destruct Ha2 as (areas2 & Ha2 & Ha2n & Ha2s). rewrite Ha2; cbn [bind].
  (* sorting the generators *)
  assert (Hgen2s : forall j r', nth_error gen2 j = Some r' -> exists i r z k,
     nth_error gon j = Some i /\ nth_error (p_gen p) i = Some r /\
     nth_error r GEN_BUS = Some (ofZ z) /\ nth_error i2eZ k = Some z /\
     r' = upd r GEN_BUS (ofN k) /\ nth_error r' GEN_BUS = Some (ofN k)).
  { intros j r' Hj. destruct (nth_error_lt gen1 j) as [r Hr].
    { rewrite <- Hgen2l. eapply nth_error_some_lt; eauto. }
    destruct (Hgen1s _ _ Hr) as (i & Hi & Hri & z & Hz & Hin).
    apply In_nth_error in Hin as [k Hk].
    rewrite (Hgen2n _ _ _ _ Hr Hz Hk) in Hj. injection Hj as <-.
    exists i, r, z, k. repeat split; auto. apply nth_error_upd_same.
    eapply nth_error_some_lt; eauto. }
  assert (Hkeys : exists keys, int_col GEN_BUS gen2 = Ok keys /\ length keys = length gon /\
     forall j r' k, nth_error gen2 j = Some r' -> nth_error r' GEN_BUS = Some (ofN k) ->
                    nth_error keys j = Some (Z.of_nat k)).
  { destruct (mapM_forall2 (fun r => get r GEN_BUS) (fun r x => nth_error r GEN_BUS = Some x) gen2)
      as (ks & Hks & Hksl & Hksn).
    { intros r Hr. apply In_nth_error in Hr as [j Hj].
      destruct (Hgen2s _ _ Hj) as (i & r1 & z & k & _ & _ & _ & _ & _ & Hc).
      exists (ofN k). split; auto. apply get_ok; auto. }
    destruct (mapM_forall2 to_int (fun x z => to_int x = Ok z) ks)
      as (keys & Hkeys & Hkl & Hkn).
    { intros x Hx. apply In_nth_error in Hx as [j Hj].
      destruct (nth_error_lt gen2 j) as [r Hr].
      { rewrite <- Hksl. eapply nth_error_some_lt; eauto. }
      destruct (Hksn _ _ Hr) as (x' & Hx' & Hc). assert (x' = x) by congruence; subst x'.
      destruct (Hgen2s _ _ Hr) as (i & r1 & z & k & _ & _ & _ & _ & _ & Hc').
      assert (x = ofN k) by congruence. subst x. exists (Z.of_nat k).
      unfold ofN; rewrite to_int_ofZ; auto. }
    exists keys. split; [unfold int_col, col; rewrite Hks; auto|]. split; [lia|].
    intros j r k Hj Hc. destruct (Hksn _ _ Hj) as (x & Hx & Hc'). 
    assert (x = ofN k) by congruence. subst x.
    destruct (Hkn _ _ Hx) as (z & Hz & Hti). unfold ofN in Hti. rewrite to_int_ofZ in Hti.
    congruence. }
  destruct Hkeys as (keys & Hkeys & Hkl & Hkn). rewrite Hkeys; cbn [bind].
  destruct (Has keys) as (Hperm & Hsorted). rewrite Hkl in Hperm.
  set (ge := argsort keys) in *.
  destruct (gather_ok gen2 ge) as (gen3 & Hgen3).
  { intros i Hi. rewrite Hgen2l, Hgen1l. eapply perm_seq_lt; eauto. }
  rewrite Hgen3; cbn [bind].
  destruct (gather_ok gon ge) as (sg & Hsg).
  { intros i Hi. eapply perm_seq_lt; eauto. }
  set (ext := {| x_bus := p_bus p; x_gen := p_gen p |}).
  match goal with |- context [e2i_multi ?oo] => set (o := oo) end.
  assert (Hidxg : e2i_idx o OGen = Ok sg) by exact Hsg.
  assert (Rsg : forall i, In i sg -> i < length (p_gen p)).
  { intros i Hi. apply In_nth_error in Hi as [k Hk].
    destruct (nth_error_lt ge k) as [j Hj].
    { rewrite <- (gather_length _ _ _ Hsg). eapply nth_error_some_lt; eauto. }
    rewrite (gather_nth _ _ _ _ _ Hsg Hj) in Hk. apply Rgon. eapply nth_error_In; eauto. }
  assert (Hix : forall k, exists idx, e2i_idx o k = Ok idx /\ forall i, In i idx -> i < ext_len ext k).
  { intros [| |]; simpl; eauto. }
  destruct (opt_map_ex (fun g => e2i_multi o ext
      (if length g =? 2 * length (p_gen p) then [OGen; OGen] else [OGen]) 0 g) (p_gencost p))
    as (gc & Hgc & Hgcn & Hgcs).
  { intros g Hg. pose proof (wf_gencost _ W _ Hg) as Hl.
    apply e2i_multi_ex; [intros; apply Hix|].
    destruct (Nat.eqb_spec (length g) (2 * length (p_gen p))); simpl; lia. }
  rewrite Hgc; cbn [bind].
  assert (Humat : forall ords m, fold_right (fun k n => ext_len ext k + n) 0 ords <= u_cols m ->
      Forall (fun r => length r = u_cols m) (u_rows m) ->
      exists m', e2i_umat o ext ords m = Ok m').
  { intros ords m Hc Hr. unfold e2i_umat.
    destruct (Nat.ltb_spec (u_cols m) (fold_right (fun k n => ext_len ext k + n) 0 ords)); [lia|].
    destruct (u_sparse m); eauto.
    destruct (mapM_exists (e2i_multi o ext ords 0) (u_rows m)) as (rows & Hrows).
    { intros r Hin. rewrite Forall_forall in Hr. apply e2i_multi_ex; [intros; apply Hix|].
      rewrite (Hr _ Hin). auto. }
    rewrite Hrows; simpl; eauto. }
  set (dc := match p_A p with Some m => _ | None => _ end).
  set (uords := if dc then [OBus; OGen] else [OBus; OBus; OGen; OGen]).
  destruct (opt_map_ex (e2i_umat o ext uords) (p_A p)) as (A' & HA' & HAn & _).
  { intros m Hm. destruct (wf_A _ W _ Hm) as (H1 & H2). apply Humat; auto.
    subst uords dc. rewrite Hm.
    destruct (Nat.ltb_spec (u_cols m) (2 * length (p_bus p) + 2 * length (p_gen p))); simpl; lia. }
  rewrite HA'; cbn [bind].
  destruct (opt_map_ex (e2i_umat o ext uords) (p_N p)) as (N' & HN' & HNn & _).
  { intros m Hm. destruct (wf_N _ W _ Hm) as (H1 & H2 & H3). apply Humat; auto.
    subst uords dc. rewrite Hm. destruct (p_A p) as [ma|] eqn:EA.
    - rewrite (H3 _ eq_refl) in *. 
      destruct (Nat.ltb_spec (u_cols ma) (2 * length (p_bus p) + 2 * length (p_gen p))); simpl; lia.
    - destruct (Nat.ltb_spec (u_cols m) (2 * length (p_bus p) + 2 * length (p_gen p))); simpl; lia. }
  rewrite HN'; cbn [bind].
  eexists _, o, i2eZ, sb, gon, ge, sg, sl, sa. split; [reflexivity|].
  assert (Hsgnd : NoDup sg).
  { apply NoDup_nth_error. intros a b Ha E.
    rewrite (gather_length _ _ _ Hsg) in Ha. destruct (nth_error_lt ge a Ha) as [ja Hja].
    destruct (nth_error ge b) as [jb|] eqn:Hjb.
    - rewrite (gather_nth _ _ _ _ _ Hsg Hja), (gather_nth _ _ _ _ _ Hsg Hjb) in E.
      assert (ja = jb).
      { assert (ja < length gon).
        { apply (perm_seq_lt _ _ _ Hperm). eapply nth_error_In; eauto. }
        destruct (nth_error_lt gon ja) as [x Hx]; auto.
        eapply NoDup_nth_error_eq with (l := gon); [apply HSG| |]; [eauto|congruence]. }
      subst. eapply NoDup_nth_error_eq with (l := ge); eauto. eapply perm_seq_NoDup; eauto.
    - exfalso. apply nth_error_None in Hjb.
      assert (nth_error sg b = None) as EN.
      { apply nth_error_None. rewrite (gather_length _ _ _ Hsg); auto. }
      rewrite EN, (gather_nth _ _ _ _ _ Hsg Hja) in E.
      assert (ja < length gon).
      { apply (perm_seq_lt _ _ _ Hperm). eapply nth_error_In; eauto. }
      apply nth_error_None in E. lia. }
  assert (Hsgin : forall i, In i sg <-> In i gon).
  { intros i. split.
    - intros Hi. apply In_nth_error in Hi as [k Hk].
      destruct (nth_error_lt ge k) as [j Hj].
      { rewrite <- (gather_length _ _ _ Hsg). eapply nth_error_some_lt; eauto. }
      rewrite (gather_nth _ _ _ _ _ Hsg Hj) in Hk. eapply nth_error_In; eauto.
    - intros Hi. apply In_nth_error in Hi as [j Hj].
      assert (In j ge) as Hin.
      { apply (perm_seq_in _ _ _ Hperm). eapply nth_error_some_lt; eauto. }
      apply In_nth_error in Hin as [k Hk]. eapply nth_error_In.
      rewrite (gather_nth _ _ _ _ _ Hsg Hk). eauto. }
  constructor; try reflexivity; auto; cbn [p_gencost p_areas p_A p_N].
  { constructor; cbn [p_bus p_gen p_branch p_areas p_gencost]; auto.
    - split; auto. intros i. rewrite Hsgin. apply HSG.
    - lia.
    - intros k i r Hk Hr.
      destruct (wf_bus_num _ W _ _ Hr) as (z & _ & Hc).
      apply (Hbus2n k r z k); auto.
      + rewrite (Hbus1n _ _ Hk); auto.
      + apply Hst. exists i; split; auto. exists r; auto.
    - rewrite (gather_length _ _ _ Hgen3), (gather_length _ _ _ Hsg); auto.
    - intros k i r z b Hk Hr Hz Hs.
      destruct (nth_error_lt ge k) as [j Hj].
      { rewrite <- (gather_length _ _ _ Hsg). eapply nth_error_some_lt; eauto. }
      rewrite (gather_nth _ _ _ _ _ Hsg Hj) in Hk.
      rewrite (gather_nth _ _ _ _ _ Hgen3 Hj).
      apply (Hgen2n j r z b); auto.
      + rewrite (gather_nth _ _ _ _ _ Hgen1 Hk); auto.
      + apply Hst; auto.
    - intros k1 k2 r1 r2 b1 b2 Hk H1 H2 Hb1 Hb2.
      destruct (nth_error_lt ge k1) as [j1 Hj1].
      { rewrite <- (gather_length _ _ _ Hgen3). eapply nth_error_some_lt; eauto. }
      destruct (nth_error_lt ge k2) as [j2 Hj2].
      { rewrite <- (gather_length _ _ _ Hgen3). eapply nth_error_some_lt; eauto. }
      rewrite (gather_nth _ _ _ _ _ Hgen3 Hj1) in H1.
      rewrite (gather_nth _ _ _ _ _ Hgen3 Hj2) in H2.
      pose proof (Hsorted k1 k2 j1 j2 _ _ Hk Hj1 Hj2 (Hkn _ _ _ H1 Hb1) (Hkn _ _ _ H2 Hb2)).
      lia.
    - lia.
    - intros k i r zf zt bf bt' Hk Hr Hzf Hzt Hsf Hst'.
      assert (nth_error br1 k = Some r) as Hk1 by (rewrite (gather_nth _ _ _ _ _ Hbr1 Hk); auto).
      pose proof (Hbr2n _ _ _ _ Hk1 Hzf (proj2 (Hst _ _) Hsf)) as Hk2.
      apply (Hbr3n _ _ zt bt' Hk2); [|apply Hst; auto].
      rewrite nth_error_upd_other; auto; discriminate.
    - destruct (p_areas p) as [[|ar0 a]|] eqn:EA; simpl in *.
      + apply Ha2n, Ha1n; auto.
      + destruct (Harn _ eq_refl) as (Hal & Han).
        destruct (find_lists ars (fun i => exists r, nth_error (ar0 :: a) i = Some r
                                   /\ connected p PRICE_REF_BUS r)) as (F1 & F2).
        { intros i. split.
          - intros Hi. destruct (nth_error_lt (ar0 :: a) i) as [r Hr].
            { rewrite <- Hal. eapply nth_error_some_lt; eauto. }
            exists r; split; auto. destruct (Han _ _ Hr) as (b & Hb & Hiff). apply Hiff; congruence.
          - intros (r & Hr & Hc). destruct (Han _ _ Hr) as (b & Hb & Hiff).
            rewrite Hb; f_equal; apply Hiff; auto. }
        split; auto. split; auto.
        destruct (Ha1s _ eq_refl) as (a1 & Hg & E1).
        destruct (Ha2s _ E1) as (a2 & E2 & Hl2 & Hn2).
        exists a2. split; auto. split; [rewrite Hl2; eapply gather_length; eauto|].
        intros k i r z b Hk Hr Hz Hs. apply (Hn2 _ _ z); auto; [|apply Hst; auto].
        rewrite (gather_nth _ _ _ _ _ Hg Hk); auto.
      + apply Ha2n, Ha1n; auto.
    - destruct (p_gencost p) as [g|] eqn:EG; [|apply Hgcn; auto].
      destruct (Hgcs _ eq_refl) as (g' & Hg' & ->). exists g'. split; auto.
      pose proof (wf_gencost _ W _ EG) as Hl.
      assert (HE : forall ords b, e2i_multi o ext (OGen :: ords) b g =
         (blk <- gather g (seq b (length (p_gen p))) ;;
          blk' <- gather blk sg ;;
          rest <- e2i_multi o ext ords (b + length (p_gen p)) g ;; Ok (blk' ++ rest))).
      { intros. simpl. unfold e2i_single. rewrite Hidxg. reflexivity. }
      destruct (gather_firstn_idx g (length (p_gen p)) sg Rsg Hl) as (w & Hw & Hwl & Hwn).
      assert (Hhd : exists rest, g' = w ++ rest /\
        (length g = 2 * length (p_gen p) -> length rest = length sg /\
          forall k i, nth_error sg k = Some i ->
             nth_error rest k = nth_error g (length (p_gen p) + i)) /\
        (length g = length (p_gen p) -> rest = [])).
      { destruct (Nat.eqb_spec (length g) (2 * length (p_gen p))) as [E2|E2];
          rewrite HE in Hg'; rewrite gather_firstn in Hg' by lia; cbn [bind] in Hg';
          change (skipn 0 g) with g in Hg'; rewrite Hw in Hg'; cbn [bind] in Hg'.
        - rewrite HE in Hg'. rewrite gather_firstn in Hg' by (simpl; lia). cbn [bind] in Hg'.
          destruct (gather_firstn_idx (skipn (length (p_gen p)) g) (length (p_gen p)) sg Rsg)
            as (w2 & Hw2 & Hw2l & Hw2n).
          { rewrite skipn_length; lia. }
          simpl Nat.add in Hg'. rewrite Hw2 in Hg'. cbn [bind] in Hg'. simpl e2i_multi in Hg'.
          cbn [bind] in Hg'. rewrite skipn_all2 in Hg' by lia. injection Hg' as <-.
          eexists; split; [reflexivity|]. rewrite app_nil_r.
          split; [intros _; split; auto|intros E1; apply length_zero_iff_nil; rewrite Hw2l;
            apply length_zero_iff_nil; destruct sg as [|i9 sg9]; auto;
            exfalso; specialize (Rsg i9 (or_introl eq_refl)); lia].
          intros k i Hk. rewrite (Hw2n _ _ Hk).
          rewrite <- (firstn_skipn (length (p_gen p)) g) at 2.
          rewrite nth_error_app2; rewrite firstn_length; [|lia]. f_equal; lia.
        - simpl e2i_multi in Hg'. cbn [bind] in Hg'. injection Hg' as <-.
          eexists; split; [reflexivity|]. split; [intros C; lia|].
          intros E1. apply skipn_all2. lia. }
      destruct Hhd as (rest & -> & Hrest & Hone). split; [|split].
      + intros k i Hk. rewrite nth_error_app1; auto.
        rewrite Hwl. eapply nth_error_some_lt; eauto.
      + intros E2. destruct (Hrest E2) as (Hrl & Hrn). split.
        * rewrite app_length; lia.
        * intros k i Hk. rewrite nth_error_app2 by lia. rewrite <- (Hrn _ _ Hk). f_equal; lia.
      + intros E1. rewrite (Hone E1), app_nil_r. auto. }
  Unshelve. all: exact 0.
Qed.
End Forward.
End Cells.
