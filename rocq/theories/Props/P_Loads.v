(** Loads.  C35: totals and scaling; C66: dispatchable totals with the pinned sparse library. *)
From Verif Require Import Lib.ListFacts Lib.QcFacts Model.Loads Spec.LoadSpec
  Proofs.SparseFacts Proofs.FldFacts Proofs.NetworkA Proofs.NetworkC Proofs.NetworkD Proofs.OpfLinA Proofs.OpfLinB Proofs.LoadsA Proofs.LoadsB Props.P_Network.
Local Open Scope nat_scope.

Section Total.
Context {K : Type} {F : Fld K}.
Add Field KF : (@f_ok K F).
Variable bool_neg : bool.
Variables (bus gen : list (list K)) (za : zone_arg) (wt : option kind).
Notation nb := (length bus).

(** the zone of bus [i]: given, one for all, or its area *)
Definition zone_of (i : nat) : Z :=
  match za with
  | ZAll => 1%Z
  | ZList (z :: l) => nth i (z :: l) 0%Z
  | _ => ftrunc (cell (nth i bus []) BUS_AREA)
  end.
Definition zones_fit : Prop := match za with ZList (z :: l) => length (z :: l) = nb | _ => True end.
(** without generators, only fixed loads; otherwise both unless asked *)
Definition counts_fixed : bool :=
  (length gen =? 0) || match wt with None | Some KBoth | Some KFixed => true | _ => false end.
Definition counts_disp : bool :=
  negb (length gen =? 0) && match wt with None | Some KBoth | Some KDisp => true | _ => false end.

Lemma disp_sum_ext zone (q q' : nat -> K) :
  (forall k g, nth_error gen k = Some g -> disp_load g = true -> q k = q' k) ->
  disp_sum bus gen zone q = disp_sum bus gen zone q'.
Proof.
  intros H. unfold disp_sum. apply lsum_ext. intros k Hk. apply in_seq in Hk. destruct (nth_error_lt gen k) as (g & Hg); [lia|].
  cbv zeta. rewrite (nth_error_nth _ _ _ Hg). destruct (disp_load g) eqn:E; auto. rewrite (H k g Hg E). reflexivity.
Qed.
Lemma maxz_ok l m : maxz l = Ok m -> In m l /\ forall z, In z l -> (z <= m)%Z.
Proof.
  destruct l as [|z t]; [discriminate|]. cbn. intros H; injection H as <-.
  assert (G : forall t z, (In (fold_left Z.max t z) t \/ fold_left Z.max t z = z) /\ (z <= fold_left Z.max t z)%Z /\
     forall n, In n t -> (n <= fold_left Z.max t z)%Z).
  { clear. induction t as [|a t IH]; intros z; simpl; [split; auto; split; [lia|tauto]|].
    destruct (IH (Z.max z a)) as ([A|A] & B & C).
    - split; [auto|]. split; [lia|]. intros n [->|I]; auto. lia.
    - split; [|split; [lia|intros n [->|I]; auto; lia]]. rewrite A. destruct (Z.max_spec z a) as [(_ & ->)|(_ & ->)]; auto. }
  destruct (G t z) as (A & B & C). split; [destruct A as [A|A]; [right; auto|left; auto]|]. intros n [->|I]; auto.
Qed.

(** every zone total is the sum of the fixed loads and of the nominal demands of the in-service
    dispatchable loads of that zone, as far as asked for *)
Theorem C35_total Pd Qd : total_load bool_neg bus gen za wt = Ok (Pd, Qd) ->
  numbered bus -> placed bus gen -> zones_fit ->
  length Qd = length Pd /\
  (forall i, i < nb -> (zone_of i <= Z.of_nat (length Pd))%Z) /\
  (exists i, i < nb /\ zone_of i = Z.of_nat (length Pd)) /\
  forall k, k < length Pd ->
    let zone i := (zone_of i =? Z.of_nat (S k))%Z in
    nth k Pd 0%K = ((if counts_fixed then fixed_sum bus zone PD else 0)
                    + (if counts_disp then disp_sum bus gen zone (fun j => nominal_P (nth j gen [])) else 0))%K /\
    nth k Qd 0%K = ((if counts_fixed then fixed_sum bus zone QD else 0)
                    + (if counts_disp then disp_sum bus gen zone (fun j => nominal_Q (nth j gen [])) else 0))%K.
Proof.
  intros H ND PL FIT. unfold total_load in H.
  set (w := if length gen =? 0 then KFixed else match wt with None => KBoth | Some w => w end) in *.
  set (wf := match w with KBoth | KFixed => true | _ => false end) in *.
  set (wd := match w with KBoth | KDisp => true | _ => false end) in *. cbv zeta in H.
  assert (wf = counts_fixed) as EF by (unfold wf, w, counts_fixed; destruct (length gen =? 0); auto; destruct wt as [[]|]; auto).
  assert (wd = counts_disp) as ED by (unfold wd, w, counts_disp; destruct (length gen =? 0); auto; destruct wt as [[]|]; auto).
  rewrite EF, ED in H. clearbody wf wd w. clear EF ED wf wd.
  apply bind_ok in H as (lz & HZ & H). apply bind_ok in H as (nz & HM & H).
  apply bind_ok in H as (Pdf & HP & H). apply bind_ok in H as (Qdf & HQ & H). apply bind_ok in H as ((Pdd & Qdd) & HD & H).
  destruct (Z.ltb_spec nz 0) as [|NZ]; [discriminate|]. apply bind_ok in H as (r & Hr & H). injection H as <- <-.
  assert (length lz = nb /\ forall i, i < nb -> nth i lz 0%Z = zone_of i) as (LZ & EZ).
  { unfold zone_of, zones_fit in *. destruct za as [| |[|z l]].
    - apply bind_ok in HZ as (a & Ha & HZ). injection HZ as <-. apply col_ok in Ha as (_ & ->). rewrite !map_length. split; auto.
      intros i Hi. rewrite map_map, (nth_map_lt _ _ _ _ []) by auto. reflexivity.
    - injection HZ as <-. rewrite repeat_length. split; auto. intros i Hi. apply nth_repeat_lt. auto.
    - apply bind_ok in HZ as (a & Ha & HZ). injection HZ as <-. apply col_ok in Ha as (_ & ->). rewrite !map_length. split; auto.
      intros i Hi. rewrite map_map, (nth_map_lt _ _ _ _ []) by auto. reflexivity.
    - injection HZ as <-. auto. }
  pose proof (mapM_length _ _ _ Hr) as LR. rewrite seq_length in LR. rewrite !map_length, LR.
  destruct (maxz_ok _ _ HM) as (MI & ML). rewrite Z2Nat.id by lia.
  split; auto. split; [|split].
  - intros i Hi. rewrite <- EZ by auto. apply ML. apply nth_In. lia.
  - apply (In_nth _ _ 0%Z) in MI as (i & Hi & Hn). exists i. split; [lia|]. rewrite <- EZ by lia. auto.
  - intros k Hk zone.
    assert (nth_error (seq 1 (Z.to_nat nz)) k = Some (S k)) as Es.
    { rewrite (nth_error_nth' _ 0) by (rewrite seq_length; lia). rewrite seq_nth by lia. reflexivity. }
    destruct (mapM_nth _ _ _ _ _ Hr Es) as (y & Hy & Hk'). cbv zeta in Hy. cbn [fst snd] in Hy.
    rewrite !(nth_map_lt _ _ _ _ (0%K, 0%K)) by (rewrite LR; lia). rewrite (nth_error_nth _ _ _ Hk').
    apply bind_ok in Hy as (pf & H1 & Hy). apply bind_ok in Hy as (pd & H2 & Hy). apply bind_ok in Hy as (qf & H3 & Hy).
    apply bind_ok in Hy as (qd & H4 & Hy). injection Hy as <-. cbn [fst snd].
    unfold zone_at in *. apply (sum_at_ok _ _ 0%Z) in H1, H2, H3, H4. rewrite LZ in *.
    assert (Z : forall v : list K, lsum (fun i => if (nth i lz 0 =? Z.of_nat (S k))%Z then nth i v 0%K else 0%K) (seq 0 nb)
       = lsum (fun i => if zone i then nth i v 0%K else 0%K) (seq 0 nb)).
    { intros v. apply lsum_ext. intros i Hi. apply in_seq in Hi. rewrite EZ by lia. reflexivity. }
    rewrite Z in H1, H2, H3, H4.
    assert (FX : forall c v, (if counts_fixed then col c bus else Ok (repeat 0%K nb)) = Ok v ->
      lsum (fun i => if zone i then nth i v 0%K else 0%K) (seq 0 nb) = if counts_fixed then fixed_sum bus zone c else 0%K).
    { intros c v Hv. destruct counts_fixed.
      - apply col_ok in Hv as (_ & ->). apply lsum_ext. intros i Hi. apply in_seq in Hi.
        rewrite (nth_map_lt _ _ _ _ []) by lia. reflexivity.
      - injection Hv as <-. apply lsum_zero. intros i _. rewrite nth_repeat. destruct (zone i); auto. }
    rewrite (FX _ _ HP) in H1. rewrite (FX _ _ HQ) in H3.
    assert (pd = (if counts_disp then disp_sum bus gen zone (fun j => nominal_P (nth j gen [])) else 0%K) /\
            qd = (if counts_disp then disp_sum bus gen zone (fun j => nominal_Q (nth j gen [])) else 0%K)) as (-> & ->).
    { destruct counts_disp.
      - apply bind_ok in HD as (m & Hm & HD). apply load_mask_ok in Hm as ->. apply bind_ok in HD as (e2i & He & HD).
        apply bind_ok in HD as (Cld & HC & HD). apply bind_ok in HD as (pmin & Hp & HD). apply bind_ok in HD as (P & HPd & HD).
        apply bind_ok in HD as (rows & Hrows & HD). apply bind_ok in HD as (qmin & Hql & HD). apply bind_ok in HD as (qmax & Hqh & HD).
        apply bind_ok in HD as (Q & HS & HD). apply bind_ok in HD as (QQ & HQd & HD). injection HD as -> ->.
        destruct (neg_mul_ok bool_neg _ _ _ _ _ _ He HC HPd ND PL) as (_ & E1). destruct (neg_mul_ok bool_neg _ _ _ _ _ _ He HC HQd ND PL) as (_ & E2).
        rewrite E1 in H2. rewrite E2 in H4. subst pd qd. split; apply disp_sum_ext.
        + intros j g Hg _. apply col_ok in Hp as (_ & ->). pose proof (nth_error_some_lt _ _ _ Hg).
          rewrite (nth_map_lt _ _ _ _ []) by auto. reflexivity.
        + intros j g Hg Dg. rewrite (nth_error_nth _ _ _ Hg). unfold nominal_Q. f_equal.
          apply scatter_checked_ok in HS as (LS & LB & ->). apply (gather_all _ _ _ []) in Hrows as ->.
          apply col_ok in Hql as (_ & ->). apply col_ok in Hqh as (_ & ->).
          assert (In j (find (map disp_load gen))) as J by (apply find_mask; eauto).
          apply (In_nth _ _ 0) in J as (q & Hq & Eq). rewrite <- Eq.
          rewrite nth_scatter_at; auto; [|apply find_NoDup].
          unfold map2. rewrite (nth_map_lt _ _ _ _ (0%K, 0%K)) by (rewrite combine_length, !map_length; lia).
          rewrite combine_nth by (rewrite !map_length; auto). rewrite !map_map. rewrite !(nth_map_lt _ (find _) _ _ 0) by auto. rewrite Eq.
          rewrite (nth_error_nth _ _ _ Hg). cbn [fst snd]. fold (cell g QMIN) (cell g QMAX). destruct (feqb (cell g QMIN) 0%K) eqn:E.
          * apply feqb_ok in E. rewrite E. destruct (feqb _ _); ring.
          * destruct (feqb (cell g QMAX) 0%K); ring.
      - injection HD as <- <-. subst pd qd. split; apply lsum_zero; intros i _; rewrite nth_repeat; destruct (zone i); auto. }
    subst pf qf. split; reflexivity.
Qed.
End Total.

(** ** scaling *)
Section Scale.
Context {K : Type} {F : Fld K}.
Add Field KF2 : (@f_ok K F).
Variable bool_neg : bool.
Variables (load : list K) (bus gen : list (list K)) (lz : list K) (opt : lopt).
Notation nb := (length bus).

(** which loads are scaled: fixed ones only when no generators are given *)
Definition scales : kind := if length gen =? 0 then KFixed else match l_which opt with None => KBoth | Some w => w end.
(** the zones: as given, else the areas for several values, else one zone *)
Definition zones_are (zs : list K) : Prop :=
  if length lz =? 0
  then if length load =? 1 then nb = 1 /\ length zs = 1 else zs = map (fun r => cell r BUS_AREA) bus
  else zs = lz.
Definition in_zone (zs : list K) (k i : nat) : bool := feqb (nth i zs 0%K) (fofZ (Z.of_nat (S k))).

Lemma zone_scale_ok w want f d a : zone_scale w want f d = Ok a -> w <> KOther ->
  ((if is_disp w then f else f * a) + (if is_fixed w then d else d * a) = want)%K.
Proof.
  intros H N. unfold zone_scale in H. destruct w; try congruence; cbn [is_disp is_fixed].
  - destruct (feqb f 0%K) eqn:E; cbn [negb] in H.
    + destruct (feqb want d) eqn:E2; [|discriminate]. injection H as <-. apply feqb_ok in E, E2. subst. ring.
    + injection H as <-. apply feqb_false in E. field. auto.
  - destruct (feqb d 0%K) eqn:E; cbn [negb] in H.
    + destruct (feqb want f) eqn:E2; [|discriminate]. injection H as <-. apply feqb_ok in E, E2. subst. ring.
    + injection H as <-. apply feqb_false in E. field. auto.
  - destruct (feqb (f + d)%K 0%K) eqn:E; cbn [negb] in H.
    + destruct (feqb want (f + d)%K) eqn:E2; [|discriminate]. injection H as <-. apply feqb_ok in E, E2. subst. ring.
    + injection H as <-. apply feqb_false in E. field. auto.
Qed.

Theorem C35_scale bus' gen' : scale_load bool_neg load bus gen lz opt = Ok (bus', gen') ->
  numbered bus -> placed bus gen -> (lz <> [] -> length lz = nb) ->
  exists zs scale, zones_are zs /\ length scale = length load /\ (l_quantity opt = false -> scale = load) /\
    let factor i := zone_factor scale (nth i zs 0%K) in
    (* fixed loads *)
    length bus' = nb /\
    (forall i r, nth_error bus i = Some r -> exists r', nth_error bus' i = Some r' /\ length r' = length r /\
       forall j, cell r' j = (if negb (is_disp scales) && ((j =? PD) || l_pq opt && (j =? QD)) then cell r j * factor i else cell r j)%K) /\
    (* dispatchable loads *)
    length gen' = length gen /\
    (forall k g, nth_error gen k = Some g -> exists g', nth_error gen' k = Some g' /\ length g' = length g /\
       forall j, cell g' j = (if negb (is_fixed scales) && disp_load g &&
                                ((j =? PG) || (j =? PMIN) || l_pq opt && ((j =? QG) || (j =? QMIN) || (j =? QMAX)))
                              then cell g j * gen_factor bus factor g else cell g j)%K) /\
    (* target quantities are reached *)
    (l_quantity opt = true -> scales <> KOther -> forall k, k < length load ->
       (fixed_sum bus' (in_zone zs k) PD + disp_sum bus gen (in_zone zs k) (fun j => nominal_P (nth j gen' [])))%K = nth k load 0%K).
Proof.
  intros H ND PL FIT. unfold scale_load in H. fold scales in H. cbv zeta in H.
  apply bind_ok in H as (((is_ld & e2i) & Cld) & HC & H). cbv zeta in H. apply bind_ok in H as (zs & HZ & H).
  apply bind_ok in H as (u & _ & H). apply bind_ok in H as (scale & HS & H). apply bind_ok in H as (bus1 & HB & H).
  apply bind_ok in H as (gen1 & HG & H). injection H as -> ->.
  assert (EL : length gen <> 0 -> is_ld = map disp_load gen /\ make_e2i bus = Ok e2i /\ make_Cld bus gen (map disp_load gen) e2i = Ok Cld).
  { intros NG. destruct (Nat.eqb_spec (length gen) 0); [contradiction|]. apply bind_ok in HC as (m & Hm & HC). apply load_mask_ok in Hm as ->.
    apply bind_ok in HC as (e & He & HC). apply bind_ok in HC as (C & HCl & HC). injection HC as <- <- <-. auto. }
  assert (ZA : zones_are zs /\ length zs = nb).
  { unfold scale_zones in HZ. unfold zones_are. destruct (Nat.eqb_spec (length lz) 0) as [L0|L0].
    - destruct (Nat.eqb_spec (length load) 1).
      + apply bind_ok in HZ as (pd & Hp & HZ). apply bind_ok in HZ as (qd & Hq & HZ). apply bind_ok in HZ as (m & Hm & HZ).
        apply col_ok in Hp as (_ & ->). apply col_ok in Hq as (_ & ->). destruct bus as [|r [|r' t]]; try discriminate.
        cbn [length]. assert (length zs = 1) as L1; [|auto].
        destruct (length gen =? 0); [injection HZ as <-; auto|].
        apply bind_ok in HZ as (rows & _ & HZ). apply bind_ok in HZ as (gb & _ & HZ). apply bind_ok in HZ as (ii & _ & HZ).
        apply scatter_checked_ok in HZ as (_ & _ & ->). rewrite scatter_length. reflexivity.
      + apply col_ok in HZ as (_ & ->). rewrite map_length. auto.
    - injection HZ as <-. split; auto. apply FIT. intros ->. apply L0. reflexivity. }
  destruct ZA as (ZA & LZ). exists zs, scale. split; auto.
  assert (LS : length scale = length load).
  { destruct (l_quantity opt); [|injection HS as <-; auto]. apply bind_ok in HS as (Pdd & _ & HS). apply mapM_length in HS.
    rewrite HS, combine_length, seq_length. lia. }
  split; auto. split; [intros E; rewrite E in HS; injection HS as <-; auto|]. cbv zeta.
  assert (MB : mult bus bus' (fun i j => if negb (is_disp scales) && ((j =? PD) || l_pq opt && (j =? QD)) then zone_factor scale (nth i zs 0) else 1)%K).
  { destruct (is_disp scales); cbn [negb andb]; [injection HB as <-; apply mult_refl|].
    eapply mult_ext; [|apply (bus_loop zs (if l_pq opt then [PD; QD] else [PD]) scale bus bus' LZ); [|exact HB]].
    - intros i j _. cbv beta. destruct (l_pq opt); unfold mem; cbn [existsb andb]; rewrite ?orb_false_r; reflexivity.
    - destruct (l_pq opt); repeat constructor; cbn; intuition discriminate. }
  assert (MG : mult gen gen' (fun k j => if negb (is_fixed scales) && disp_load (nth k gen []) &&
                                ((j =? PG) || (j =? PMIN) || l_pq opt && ((j =? QG) || (j =? QMIN) || (j =? QMAX)))
                              then gen_factor bus (fun i => zone_factor scale (nth i zs 0%K)) (nth k gen []) else 1)%K).
  { destruct (is_fixed scales) eqn:EF; cbn [negb andb]; [injection HG as <-; apply mult_refl|].
    destruct EL as (-> & He & _). { intros Z. unfold scales in EF. rewrite Z in EF. discriminate. }
    eapply mult_ext; [|apply (gen_loop bus gen e2i zs LZ He ND PL (if l_pq opt then [PG; PMIN; QG; QMIN; QMAX] else [PG; PMIN]) scale gen'); [| |exact HG]].
    - intros i j _. cbv beta. rewrite andb_comm. destruct (disp_load (nth i gen [])); [|rewrite !andb_false_l; reflexivity]. rewrite !andb_true_l.
      destruct (l_pq opt); unfold mem; cbn [existsb andb]; rewrite ?orb_false_r; rewrite ?orb_assoc; reflexivity.
    - destruct (l_pq opt); repeat constructor; cbn; intuition discriminate.
    - destruct (l_pq opt); cbn; intuition discriminate. }
  destruct MB as (LB & MB). destruct MG as (LG & MG).
  split; auto. split; [|split; auto; split].
  - intros i r Hr. destruct (MB i r Hr) as (r' & A & B & C). exists r'. split; auto. split; auto. intros j. rewrite C. destruct (_ && _); auto. ring.
  - intros k g Hg. destruct (MG k g Hg) as (g' & A & B & C). exists g'. split; auto. split; auto. intros j. rewrite C, (nth_error_nth _ _ _ Hg).
    destruct (_ && _ && _); auto. ring.
  - intros EQ NO k Hk. rewrite EQ in HS. apply bind_ok in HS as (Pdd & HP & HS).
    destruct (nth_error_lt load k Hk) as (want & Hw).
    assert (nth_error (combine (seq 0 (length load)) load) k = Some (k, want)) as Ek.
    { rewrite nth_error_combine, Hw. rewrite (nth_error_nth' (seq _ _) 0) by (rewrite seq_length; lia). rewrite seq_nth by lia. reflexivity. }
    destruct (mapM_nth _ _ _ _ _ HS Ek) as (a & Ha & Hn). apply bind_ok in Ha as (rows & Hrows & Ha).
    apply bind_ok in Ha as (pd & Hpd & Ha). apply bind_ok in Ha as (d & Hd & Ha).
    apply zone_scale_ok in Ha; auto. rewrite (nth_error_nth _ _ _ Hw).
    assert (EF : lsum (fun a => a) pd = fixed_sum bus (in_zone zs k) PD).
    { apply col_ok in Hpd as (_ & ->). apply (gather_all _ _ _ []) in Hrows as ->. rewrite !lsum_map. unfold zone_at_k. rewrite (find_filter _ 0%K), lsum_filter. rewrite LZ. reflexivity. }
    assert (ED : d = disp_sum bus gen (in_zone zs k) (fun j => nominal_P (nth j gen []))).
    { unfold zone_at_k in Hd. apply (sum_at_ok _ _ 0%K) in Hd. rewrite LZ in Hd. rewrite Hd. destruct (Nat.eqb_spec (length gen) 0) as [G0|G0].
      - injection HP as <-. unfold disp_sum. rewrite G0. cbn [seq lsum]. apply lsum_zero. intros i _. rewrite nth_repeat. destruct (feqb _ _); auto.
      - destruct (EL G0) as (_ & He & HCl). apply bind_ok in HP as (pmin & Hp & HP). apply col_ok in Hp as (_ & ->).
        destruct (neg_mul_ok bool_neg _ _ _ _ _ _ He HCl HP ND PL) as (_ & E1).
        change (fun i => if feqb (nth i zs 0%K) (fofZ (Z.of_nat (S k))) then nth i Pdd 0%K else 0%K)
          with (fun i => if in_zone zs k i then nth i Pdd 0%K else 0%K). rewrite E1. apply disp_sum_ext. intros j g Hg _.
        pose proof (nth_error_some_lt _ _ _ Hg). rewrite (nth_map_lt _ _ _ _ []) by auto. reflexivity. }
    assert (FA : forall i, in_zone zs k i = true -> zone_factor scale (nth i zs 0%K) = a).
    { intros i Hi. apply feqb_ok in Hi. rewrite (factor_at _ _ k); auto; [|lia]. apply nth_error_nth; auto. }
    assert (EF' : fixed_sum bus' (in_zone zs k) PD = if is_disp scales then lsum (fun a => a) pd else (lsum (fun a => a) pd * a)%K).
    { rewrite EF. unfold fixed_sum. rewrite LB.
      assert (E : forall i, i < nb -> (if in_zone zs k i then cell (nth i bus' []) PD else 0%K)
         = if is_disp scales then (if in_zone zs k i then cell (nth i bus []) PD else 0%K) else ((if in_zone zs k i then cell (nth i bus []) PD else 0) * a)%K).
      { intros i Hi. destruct (nth_error_lt bus i Hi) as (r & Hr). destruct (MB i r Hr) as (r' & A & _ & C).
        rewrite (nth_error_nth _ _ _ Hr), (nth_error_nth _ _ _ A), C, Nat.eqb_refl. destruct (in_zone zs k i) eqn:EZ; [rewrite FA by auto|]; destruct (is_disp scales); cbn [negb andb orb]; ring. }
      destruct (is_disp scales); [|rewrite <- lsum_scal_r]; apply lsum_ext; intros i Hi; apply in_seq in Hi; apply E; lia. }
    assert (ED' : disp_sum bus gen (in_zone zs k) (fun j => nominal_P (nth j gen' [])) = if is_fixed scales then d else (d * a)%K).
    { assert (E : forall j i, j < length gen -> i < nb -> disp_load (nth j gen []) = true -> sits_at bus (nth j gen []) i = true -> in_zone zs k i = true ->
         nominal_P (nth j gen' []) = if is_fixed scales then nominal_P (nth j gen []) else (nominal_P (nth j gen []) * a)%K).
      { intros j i Hj Hi D S Z. destruct (nth_error_lt gen j Hj) as (g & Hg). destruct (MG j g Hg) as (g' & A & _ & C).
        rewrite (nth_error_nth _ _ _ Hg) in *. unfold nominal_P. rewrite (nth_error_nth _ _ _ A), C, D.
        destruct (nth_error_lt bus i Hi) as (r & Hr). unfold gen_factor.
        assert (bus_no r BUS_I = bus_no g GEN_BUS) as EB by (unfold sits_at in S; rewrite (nth_error_nth _ _ _ Hr) in S; apply Nat.eqb_eq; auto).
        rewrite (find_single _ i); auto; [|exact (sits_unique bus g i r ND Hr EB)]. rewrite FA by auto.
        destruct (is_fixed scales); cbn [negb andb orb Nat.eqb PMIN PG]; ring. }
      rewrite ED. unfold disp_sum. destruct (is_fixed scales); [|rewrite <- lsum_scal_r]; apply lsum_ext; intros j Hj; apply in_seq in Hj; cbv zeta;
        destruct (disp_load (nth j gen [])) eqn:D; auto; try ring; [|rewrite <- lsum_scal_r]; apply lsum_ext; intros i Hi; apply in_seq in Hi;
        destruct (in_zone zs k i) eqn:Z; cbn [andb]; try ring; destruct (sits_at _ _ i) eqn:S; try ring; eapply E; eauto; lia. }
    rewrite EF', ED'. exact Ha.
Qed.

(** a zone without scalable load cannot be brought to another total *)
Theorem C35_impossible w want f d : zone_scale w want f d = Err ScalingError <->
  match w with
  | KBoth => (f + d = 0 /\ want <> 0)%K
  | KFixed => (f = 0 /\ want <> d)%K
  | KDisp => (d = 0 /\ want <> f)%K
  | KOther => False
  end.
Proof.
  unfold zone_scale. destruct w; [| | |split; [discriminate|tauto]].
  - destruct (feqb f 0%K) eqn:E; cbn [negb].
    + apply feqb_ok in E. destruct (feqb want d) eqn:E2; [apply feqb_ok in E2|apply feqb_false in E2]; intuition congruence.
    + apply feqb_false in E. split; [discriminate|tauto].
  - destruct (feqb d 0%K) eqn:E; cbn [negb].
    + apply feqb_ok in E. destruct (feqb want f) eqn:E2; [apply feqb_ok in E2|apply feqb_false in E2]; intuition congruence.
    + apply feqb_false in E. split; [discriminate|tauto].
  - destruct (feqb (f + d)%K 0%K) eqn:E; cbn [negb].
    + apply feqb_ok in E. rewrite E. destruct (feqb want 0%K) eqn:E2; [apply feqb_ok in E2|apply feqb_false in E2]; intuition congruence.
    + apply feqb_false in E. split; [discriminate|tauto].
Qed.
End Scale.

Section Pinned.
Context {K : Type} {F : Fld K}.
Variables (bus gen : list (list K)).

Lemma C66_fixed_same_total b za wt : @counts_disp K gen wt = false ->
  total_load b bus gen za wt = total_load false bus gen za wt.
Proof.
  intros E. unfold total_load.
  set (w := if length gen =? 0 then KFixed else match wt with None => KBoth | Some w => w end).
  assert (match w with KBoth | KDisp => true | _ => false end = false) as ->; [|reflexivity].
  unfold w, counts_disp in *. destruct (length gen =? 0); auto. destruct wt as [[]|]; auto.
Qed.

(** with the pinned library no total that includes dispatchable loads is computed *)
Theorem C66_total_partial za wt r : total_load false bus gen za wt = Ok r -> @counts_disp K gen wt = false.
Proof.
  intros H. unfold total_load in H.
  set (w := if length gen =? 0 then KFixed else match wt with None => KBoth | Some w => w end) in *.
  destruct (counts_disp gen wt) eqn:E; auto. exfalso.
  assert (match w with KBoth | KDisp => true | _ => false end = true) as E'.
  { unfold w, counts_disp in *. destruct (length gen =? 0); [discriminate|]. destruct wt as [[]|]; auto; discriminate. }
  cbv zeta in H. rewrite E' in H.
  apply bind_ok in H as (zs & _ & H). apply bind_ok in H as (nz & _ & H).
  apply bind_ok in H as (Pdf & _ & H). apply bind_ok in H as (Qdf & _ & H). apply bind_ok in H as (x & HD & H).
  apply bind_ok in HD as (m & _ & HD). apply bind_ok in HD as (e & _ & HD). apply bind_ok in HD as (C & _ & HD).
  apply bind_ok in HD as (p & _ & HD). apply bind_ok in HD as (P & HP & HD). discriminate.
Qed.
(** ... and no target quantity is reached in a case with generators *)
Theorem C66_scale_partial load lz opt r : scale_load false load bus gen lz opt = Ok r -> l_quantity opt = true -> gen = [].
Proof.
  intros H Q. unfold scale_load in H. cbv zeta in H. rewrite Q in H. destruct (Nat.eqb_spec (length gen) 0) as [E|E].
  { destruct gen; auto; discriminate. }
  apply bind_ok in H as (((m & e) & C) & _ & H). apply bind_ok in H as (zs & _ & H). apply bind_ok in H as (u & _ & H).
  apply bind_ok in H as (sc & HS & H). apply bind_ok in HS as (P & HP & HS). apply bind_ok in HP as (p & _ & HP). discriminate.
Qed.
(** the default single zone needs a case of one bus *)
Theorem C66_default_zone_partial b load opt r : scale_load b [load] bus gen [] opt = Ok r -> length bus = 1.
Proof.
  intros H. unfold scale_load in H. cbv zeta in H.
  apply bind_ok in H as (((m & e) & C) & _ & H). apply bind_ok in H as (zs & HZ & H). unfold scale_zones in HZ. cbn [length Nat.eqb] in HZ.
  apply bind_ok in HZ as (pd & Hp & HZ). apply bind_ok in HZ as (qd & Hq & HZ). apply bind_ok in HZ as (x & Hm & HZ).
  apply col_ok in Hp as (_ & ->). destruct bus as [|? [|? ?]]; try discriminate. reflexivity.
Qed.
End Pinned.

(** ** an example: buses 30, 10, 20 in zones 1, 2, 1; a generator, a dispatchable load and one out of service *)
Definition lq (n : Z) (d : positive) : Qc := Q2Qc (Qmake n d).
Definition l_busrow (n pd qd a : Z) : list Qc := map (fun z => lq z 1) [n; 1; pd; qd; 0; 0; a; 1; 0; 0; 1; 0; 0]%Z.
Definition l_genrow (n pg qg qmax qmin st pmax pmin : Z) : list Qc :=
  map (fun z => lq z 1) ([n; pg; qg; qmax; qmin; 1; 100; st; pmax; pmin] ++ repeat 0 11)%Z.
Definition l_bus := [l_busrow 30 50 10 1; l_busrow 10 70 20 2; l_busrow 20 0 0 1]%Z.
Definition l_gen := [l_genrow 30 100 0 50 (-50) 1 200 10; l_genrow 20 (-25) (-5) 0 (-10) 1 0 (-50);
                     l_genrow 10 (-5) 0 0 0 0 0 (-20); l_genrow 10 (-5) 3 5 0 1 0 (-30)]%Z.
Definition l_table (t : list (list Qc)) (cols : list nat) : list (list Q) := map (fun r => map (fun c => this (cell r c)) cols) t.

Example C35_example_total :
  match total_load true l_bus l_gen ZNone None with Ok (p, q) => (map this p, map this q) | _ => ([], []) end
  = ([100; 100]%Q, [20; 15]%Q).
Proof. vm_compute. reflexivity. Qed.
Example C35_example_total_one_zone :
  match total_load true l_bus l_gen ZAll (Some KDisp) with Ok (p, q) => (map this p, map this q) | _ => ([], []) end
  = ([80]%Q, [5]%Q).
Proof. vm_compute. reflexivity. Qed.
Example C35_example_scale :
  match scale_load true [lq 50 1; lq 150 1] l_bus l_gen [] (LOpt true true None) with
  | Ok (b, g) => (l_table b [PD; QD], l_table g [PG; PMIN; QMIN; QMAX]) | _ => ([], []) end
  = ([[25; 5]; [105; 30]; [0; 0]]%Q,
     [[100; 10; -(50); 50]; [-(25) # 2; -(25); -(5); 0]; [-(5); -(20); 0; 0]; [-(15) # 2; -(45); 0; 15 # 2]]%Q).
Proof. vm_compute. reflexivity. Qed.
Example C35_example_factor :
  match scale_load true [lq 2 1] l_bus l_gen [lq 0 1; lq 1 1; lq 0 1] (LOpt false false (Some KFixed)) with
  | Ok (b, g) => (l_table b [PD; QD], l_table g [PG; PMIN]) | _ => ([], []) end
  = ([[50; 10]; [140; 20]; [0; 0]]%Q, [[100; 10]; [-(25); -(50)]; [-(5); -(20)]; [-(5); -(30)]]%Q).
Proof. vm_compute. reflexivity. Qed.
(** zone 3 has no load *)
Example C35_example_error :
  scale_load true [lq 50 1; lq 150 1; lq 1 1] l_bus l_gen [] (LOpt true true None) = Err ScalingError.
Proof. vm_compute. reflexivity. Qed.
Example C35_example_numbered : numbered l_bus /\ placed l_bus l_gen.
Proof.
  split.
  - unfold numbered. vm_compute. repeat constructor; cbn; intuition discriminate.
  - intros g I D. assert (existsb (Nat.eqb (bus_no g GEN_BUS)) (map (fun r => bus_no r BUS_I) l_bus) = true) as E.
    { revert D. repeat destruct I as [<-|I]; try destruct I; vm_compute; congruence. }
    apply existsb_exists in E as (n & I' & E). apply Nat.eqb_eq in E. rewrite E. exact I'.
Qed.
Theorem C66_refuted : exists (bus gen : list (list Qc)), numbered bus /\ placed bus gen /\
  total_load false bus gen ZNone None = Err NotImplementedError /\
  scale_load false [lq 50 1; lq 150 1] bus gen [] (LOpt true true None) = Err NotImplementedError /\
  (forall b, scale_load b [lq 2 1] bus gen [] (LOpt false true None) = Err ValueError) /\
  total_load true bus gen ZNone None <> Err NotImplementedError.
Proof.
  exists l_bus, l_gen. split; [apply C35_example_numbered|]. split; [apply C35_example_numbered|].
  split; [vm_compute; reflexivity|]. split; [vm_compute; reflexivity|]. split; [intros []; vm_compute; reflexivity|].
  vm_compute. discriminate.
Qed.

Print Assumptions C35_total.
Print Assumptions C35_scale.
Print Assumptions C35_impossible.
Print Assumptions C66_total_partial.
Print Assumptions C66_scale_partial.
Print Assumptions C66_default_zone_partial.
Print Assumptions C66_refuted.
