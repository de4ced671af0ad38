(** C07 (version-1 case conversion), C42 (solved version-1 results) and C43 (error codes). *)
From Verif Require Import Lib.Num Lib.ListFacts Model.Idx Model.Loadcase
  Proofs.Ext2intA.

(** ** specification *)

(** where version 2 stores the quantity that version 1 stores in column [j]
    (version 1: 10 gen data columns then 4 multipliers; 11 branch data columns, then 4 flows,
    then 2 multipliers) *)
Definition gen_v2_col (j : nat) : nat := if j <? 10 then j else j + 11.
Definition branch_v2_col (j : nat) : nat := if j <? 11 then j else j + 2.

Definition rect (a : arr) : Prop := Forall (fun r => length r = a_cols a) (a_rows a).

Definition cell (a : arr) (k j : nat) : option num :=
  match nth_error (a_rows a) k with None => None | Some r => nth_error r j end.

(** column [j] of [a] is column [j'] of [b] *)
Definition same_col (a : arr) (j : nat) (b : arr) (j' : nat) : Prop :=
  forall k, k < length (a_rows a) -> cell b k j' = cell a k j /\ cell b k j' <> None.
Definition const_col (n : nat) (b : arr) (j : nat) (v : num) : Prop :=
  forall k, k < n -> cell b k j = Some v.

Lemma nth_repeat A (x : A) n j : nth_error (repeat x n) j = if j <? n then Some x else None.
Proof.
  destruct (Nat.ltb_spec j n).
  - revert j H. induction n; intros [|j] H; simpl; auto; try lia. apply IHn. lia.
  - apply nth_error_None. rewrite repeat_length. lia.
Qed.

Lemma cell_map a f k j :
  cell {| a_cols := a_cols a; a_rows := map f (a_rows a) |} k j =
  match nth_error (a_rows a) k with None => None | Some r => nth_error (f r) j end.
Proof. unfold cell. simpl. rewrite nth_error_map. destruct (nth_error (a_rows a) k); auto. Qed.

Lemma nth_app_len A (l1 l2 : list A) n j :
  length l1 = n -> nth_error (l1 ++ l2) j =
                   if j <? n then nth_error l1 j else nth_error l2 (j - n).
Proof.
  intros <-. destruct (Nat.ltb_spec j (length l1)).
  - apply nth_error_app1; auto.
  - apply nth_error_app2; auto.
Qed.

Lemma row_in a k : rect a -> k < length (a_rows a) ->
  exists r, nth_error (a_rows a) k = Some r /\ length r = a_cols a.
Proof.
  intros R H. destruct (nth_error (a_rows a) k) as [r|] eqn:E.
  - exists r. split; auto. eapply Forall_forall in R; eauto. eapply nth_error_In; eauto.
  - apply nth_error_None in E. lia.
Qed.

Lemma row_some A (r : list A) n j : length r = n -> j < n -> nth_error r j <> None.
Proof. intros L H E. apply nth_error_None in E. lia. Qed.

(** ** C07 *)

(** the data columns of every documented version-1 table, and the first three generator
    multipliers, end up in the version-2 column of the same quantity; the new generator columns
    are 0 and the new angle limits are -360/360 *)
Theorem C07_gen_columns :
  forall gen branch gen' branch',
  rect gen -> 10 <= a_cols gen -> a_cols gen < 20 ->
  ppc_1to2 gen branch = (gen', branch') ->
  length (a_rows gen') = length (a_rows gen) /\
  rect gen' /\
  (forall j, j < 10 -> same_col gen j gen' (gen_v2_col j)) /\
  (13 <= a_cols gen -> forall j, 10 <= j < 13 -> same_col gen j gen' (gen_v2_col j)) /\
  (forall j, PC1 <= j <= APF -> const_col (length (a_rows gen)) gen' j (ofZ 0)).
Proof.
  intros gen branch gen' branch' R L1 L2 E.
  unfold ppc_1to2 in E.
  destruct (Nat.leb_spec APF (a_cols gen)) as [H|_]; [unfold APF in H; lia|].
  cbv zeta in E. apply (f_equal fst) in E. cbn [fst] in E.
  set (w := a_cols gen) in *.
  change (MU_PMAX - PMIN - 1) with 11 in E. change (MU_QMIN - 11) with 13 in E.
  change (PMIN + 1) with 10 in E. change (MU_PMAX - 11) with 10 in E.
  unfold PC1, APF, gen_v2_col.
  destruct (Nat.leb_spec 13 w) as [H|H].
  - subst gen'. cbn [a_rows]. rewrite map_length.
    assert (C : forall k r j, nth_error (a_rows gen) k = Some r -> length r = w ->
       cell {| a_cols := width_of_slice 0 10 w + 11 + width_of_slice 10 13 w;
              a_rows := map (fun r => slice 0 10 r ++ repeat (ofZ 0) 11 ++ slice 10 13 r)
                            (a_rows gen) |} k j
       = if j <? 10 then nth_error r j else if j <? 21 then Some (ofZ 0)
         else if j <? 24 then nth_error r (j - 11) else None).
    { intros k r j Hk Lr. unfold cell. cbn [a_rows]. rewrite nth_error_map, Hk. cbn [option_map].
      rewrite (nth_app_len _ _ _ 10) by (rewrite slice_length; lia).
      rewrite (nth_app_len _ _ _ 11) by apply repeat_length.
      rewrite !nth_slice, nth_repeat.
      repeat match goal with |- context [?a <? ?b] => destruct (Nat.ltb_spec a b) end;
        try lia; auto. f_equal. lia. }
    repeat split; auto.
    + apply Forall_forall. cbn [a_rows a_cols]. intros r' I. apply in_map_iff in I as (r & <- & I).
      eapply Forall_forall in R; eauto. fold w in R.
      rewrite !app_length, ?repeat_length, !slice_length.
      unfold width_of_slice. lia.
    + destruct (row_in _ _ R H1) as (r & Hr & Lr).
      rewrite (C _ _ _ Hr Lr). unfold cell. rewrite Hr.
      destruct (Nat.ltb_spec j 10); try lia. destruct (Nat.ltb_spec j 10); try lia. auto.
    + destruct (row_in _ _ R H1) as (r & Hr & Lr).
      rewrite (C _ _ _ Hr Lr).
      destruct (Nat.ltb_spec j 10); try lia. destruct (Nat.ltb_spec j 10); try lia.
      eapply row_some; eauto. unfold w in *. lia.
    + destruct (row_in _ _ R H2) as (r & Hr & Lr).
      rewrite (C _ _ _ Hr Lr). unfold cell. rewrite Hr.
      destruct (Nat.ltb_spec j 10); try lia.
      repeat match goal with |- context [?a <? ?b] => destruct (Nat.ltb_spec a b) end; try lia.
      f_equal. lia.
    + destruct (row_in _ _ R H2) as (r & Hr & Lr).
      rewrite (C _ _ _ Hr Lr).
      destruct (Nat.ltb_spec j 10); try lia.
      repeat match goal with |- context [?a <? ?b] => destruct (Nat.ltb_spec a b) end; try lia.
      eapply row_some; eauto. lia.
    + intros j Hj k Hk. destruct (row_in _ _ R Hk) as (r & Hr & Lr).
      rewrite (C _ _ _ Hr Lr).
      destruct (Nat.ltb_spec j 10); try lia.
      repeat match goal with |- context [?a <? ?b] => destruct (Nat.ltb_spec a b) end; try lia.
      auto.
  - subst gen'. cbn [a_rows]. rewrite map_length.
    assert (C : forall k r j, nth_error (a_rows gen) k = Some r -> length r = w ->
       cell {| a_cols := width_of_slice 0 10 w + 11;
              a_rows := map (fun r => slice 0 10 r ++ repeat (ofZ 0) 11) (a_rows gen) |} k j
       = if j <? 10 then nth_error r j else if j <? 21 then Some (ofZ 0) else None).
    { intros k r j Hk Lr. unfold cell. cbn [a_rows]. rewrite nth_error_map, Hk. cbn [option_map].
      rewrite (nth_app_len _ _ _ 10) by (rewrite slice_length; lia).
      rewrite !nth_slice, nth_repeat.
      repeat match goal with |- context [?a <? ?b] => destruct (Nat.ltb_spec a b) end;
        try lia; auto. }
    repeat split; auto; try (exfalso; lia).
    + apply Forall_forall. cbn [a_rows a_cols]. intros r' I. apply in_map_iff in I as (r & <- & I).
      eapply Forall_forall in R; eauto. fold w in R.
      rewrite !app_length, ?repeat_length, !slice_length.
      unfold width_of_slice. lia.
    + destruct (row_in _ _ R H1) as (r & Hr & Lr).
      rewrite (C _ _ _ Hr Lr). unfold cell. rewrite Hr.
      destruct (Nat.ltb_spec j 10); try lia. destruct (Nat.ltb_spec j 10); try lia. auto.
    + destruct (row_in _ _ R H1) as (r & Hr & Lr).
      rewrite (C _ _ _ Hr Lr).
      destruct (Nat.ltb_spec j 10); try lia. destruct (Nat.ltb_spec j 10); try lia.
      eapply row_some; eauto. lia.
    + intros j Hj k Hk. destruct (row_in _ _ R Hk) as (r & Hr & Lr).
      rewrite (C _ _ _ Hr Lr).
      repeat match goal with |- context [?a <? ?b] => destruct (Nat.ltb_spec a b) end; try lia.
      auto.
Qed.

Theorem C07_branch_columns :
  forall gen branch gen' branch',
  rect branch -> 11 <= a_cols branch -> a_cols gen < 20 ->
  ppc_1to2 gen branch = (gen', branch') ->
  length (a_rows branch') = length (a_rows branch) /\
  (a_cols branch < 15 -> rect branch') /\
  (forall j, j < 11 -> same_col branch j branch' (branch_v2_col j)) /\
  const_col (length (a_rows branch)) branch' ANGMIN (ofZ (-360)) /\
  const_col (length (a_rows branch)) branch' ANGMAX (ofZ 360).
Proof.
  intros gen branch gen' branch' R L1 L2 E.
  unfold ppc_1to2 in E.
  destruct (Nat.leb_spec APF (a_cols gen)) as [H|_]; [unfold APF in H; lia|].
  cbv zeta in E. apply (f_equal snd) in E. cbn [snd] in E.
  set (w := a_cols branch) in *.
  change (MU_ST - (PF - BR_STATUS - 1) - 1) with 15 in E.
  change (QT - 1) with 15 in E. change (BR_STATUS + 1) with 11 in E.
  unfold ANGMIN, ANGMAX, branch_v2_col.
  assert (C : exists f, a_rows branch' = map (fun r =>
                slice 0 11 r ++ [ofZ (-360); ofZ 360] ++ f r) (a_rows branch) /\
                (w < 15 -> a_cols branch' = 13 /\ f = fun _ => [])).
  { destruct (Nat.leb_spec 15 w); [|]; subst branch'; simpl.
    - exists (fun r => slice 12 19 r ++ [ofZ 0; ofZ 0]). split; [reflexivity|lia].
    - exists (fun _ => []). split; auto. intros _. split; auto. unfold width_of_slice. lia. }
  clear E. destruct C as (f & Er & Ew).
  assert (C : forall k r j, nth_error (a_rows branch) k = Some r -> length r = w -> j < 13 ->
       cell branch' k j = if j <? 11 then nth_error r j else
                          Some (if j =? 11 then ofZ (-360) else ofZ 360)).
  { intros k r j Hk Lr Hj. unfold cell. rewrite Er, nth_error_map, Hk. cbn [option_map].
    rewrite (nth_app_len _ _ _ 11) by (rewrite slice_length; lia).
    rewrite (nth_app_len _ _ _ 2) by reflexivity.
    rewrite nth_slice. change (11 - 0) with 11.
    destruct (Nat.ltb_spec j 11); auto.
    destruct (Nat.ltb_spec (j - 11) 2); try lia.
    assert (j = 11 \/ j = 12) as [->| ->] by lia; reflexivity. }
  repeat split.
  - rewrite Er, map_length. auto.
  - intros Hw. destruct (Ew Hw) as [Wb Ef].
    apply Forall_forall. rewrite Er. intros r' I. apply in_map_iff in I as (r & <- & I).
    eapply Forall_forall in R; eauto. fold w in R.
    rewrite !app_length, !slice_length, Wb, Ef. cbn [length]. cbv beta in R. unfold w in *. lia.
  - destruct (row_in _ _ R H0) as (r & Hr & Lr). 
    rewrite (C _ _ _ Hr Lr) by (destruct (Nat.ltb_spec j 11); lia).
    unfold cell. rewrite Hr.
    destruct (Nat.ltb_spec j 11); try lia. destruct (Nat.ltb_spec j 11); try lia. auto.
  - destruct (row_in _ _ R H0) as (r & Hr & Lr).
    rewrite (C _ _ _ Hr Lr) by (destruct (Nat.ltb_spec j 11); lia).
    destruct (Nat.ltb_spec j 11); try lia. destruct (Nat.ltb_spec j 11); try lia.
    eapply row_some; eauto. lia.
  - intros k Hk. destruct (row_in _ _ R Hk) as (r & Hr & Lr).
    rewrite (C _ _ _ Hr Lr) by lia. reflexivity.
  - intros k Hk. destruct (row_in _ _ R Hk) as (r & Hr & Lr).
    rewrite (C _ _ _ Hr Lr) by lia. reflexivity.
Qed.

(** [loadcase] on a dict converts exactly the cases whose gen table is narrower than 21 columns,
    always returns a version-2 case and leaves everything else (in particular a version-2 case)
    alone *)
Definition complete (c : case) (g b : arr) : Prop :=
  (exists m, c_baseMVA c = Val m) /\ (exists t, c_bus c = Val t) /\
  c_gen c = Val g /\ c_branch c = Val b.

Theorem C07_loadcase :
  forall rf c g b eg ea, complete c g b ->
  exists c', loadcase rf (Dict c) true eg ea = Ok (OCase c') /\
  c_version c' = Val false /\ c_bus c' = c_bus c /\ c_baseMVA c' = c_baseMVA c /\
  c_gencost c' = c_gencost c /\ c_areas c' = c_areas c /\
  (a_cols g < 21 -> exists g' b', ppc_1to2 g b = (g', b') /\
                    c_gen c' = Val g' /\ c_branch c' = Val b') /\
  (21 <= a_cols g -> c_gen c' = c_gen c /\ c_branch c' = c_branch c).
Proof.
  intros rf c g b eg ea ((m & Em) & (t & Et) & Eg & Eb).
  unfold loadcase. rewrite Em, Et, Eg, Eb. cbn [is_none por bind].
  destruct (Nat.ltb_spec (a_cols g) 21).
  - destruct (ppc_1to2 g b) as [g' b'] eqn:E12. eexists. split; [reflexivity|].
    simpl. repeat split; auto; try lia. eauto.
  - eexists. split; [reflexivity|]. simpl. repeat split; auto. lia.
Qed.

(** the version recorded in the input is never looked at: [hasattr] on a dict is always false *)
Theorem C07_version_field_ignored :
  forall rf c v o eg ea,
  loadcase rf (Dict c) o eg ea =
  loadcase rf (Dict {| c_baseMVA := c_baseMVA c; c_bus := c_bus c; c_gen := c_gen c;
                       c_branch := c_branch c; c_areas := c_areas c;
                       c_gencost := c_gencost c; c_version := v |}) o eg ea.
Proof. intros. reflexivity. Qed.

(** ** C42: results of a solved version-1 case *)

(** a solved 15-column version-1 branch table does not keep its flows: column PF receives the
    reactive flow, and for a 17-column one the from-bus multiplier lands in QT *)
Definition solved_branch (w : nat) : arr :=
  {| a_cols := w; a_rows := [map (fun k => ofZ (Z.of_nat k)) (seq 0 w)] |}.
Definition v1_gen (w : nat) : arr :=
  {| a_cols := w; a_rows := [map (fun k => ofZ (Z.of_nat k)) (seq 100 w)] |}.

Lemma solved_rect w : rect (solved_branch w).
Proof. repeat constructor. rewrite map_length, seq_length. reflexivity. Qed.
Lemma v1_rect w : rect (v1_gen w).
Proof. repeat constructor. rewrite map_length, seq_length. reflexivity. Qed.

Lemma ofZ_neq a b : a <> b -> Some (ofZ a) <> Some (ofZ b).
Proof. intros H E. apply H, ofZ_inj. congruence. Qed.

Theorem C42_branch_flows_refuted :
  exists gen branch, rect gen /\ rect branch /\ a_cols gen = 10 /\ a_cols branch = 15 /\
  ~ (forall j, j < 15 -> same_col branch j (snd (ppc_1to2 gen branch)) (branch_v2_col j)).
Proof.
  exists (v1_gen 10), (solved_branch 15).
  split; [apply v1_rect|]. split; [apply solved_rect|]. split; auto. split; auto.
  intros H. destruct (H 11 ltac:(lia) 0 ltac:(simpl; lia)) as [E _].
  apply (ofZ_neq 12 11); [lia|]. exact E.
Qed.

Theorem C42_branch_multipliers_refuted :
  exists gen branch, rect gen /\ rect branch /\ a_cols gen = 10 /\ a_cols branch = 17 /\
  ~ (forall j, 15 <= j < 17 -> same_col branch j (snd (ppc_1to2 gen branch)) (branch_v2_col j)).
Proof.
  exists (v1_gen 10), (solved_branch 17).
  split; [apply v1_rect|]. split; [apply solved_rect|]. split; auto. split; auto.
  intros H. destruct (H 15 ltac:(lia) 0 ltac:(simpl; lia)) as [E _].
  apply (ofZ_neq 16 15); [lia|]. exact E.
Qed.

(** the fourth generator multiplier of a 14-column table is dropped: the result has 24 columns *)
Theorem C42_gen_multiplier_refuted :
  exists gen branch, rect gen /\ rect branch /\ a_cols gen = 14 /\ a_cols branch = 11 /\
  a_cols (fst (ppc_1to2 gen branch)) = MU_QMIN /\
  ~ (forall j, j < 14 -> same_col gen j (fst (ppc_1to2 gen branch)) (gen_v2_col j)).
Proof.
  exists (v1_gen 14), (solved_branch 11).
  split; [apply v1_rect|]. split; [apply solved_rect|]. repeat split.
  intros H. destruct (H 13 ltac:(lia) 0 ltac:(simpl; lia)) as [_ E].
  apply E. reflexivity.
Qed.

(** what does hold: every column of a solved table up to the status, and for every solved table
    the lost column is exactly PF - the value found in PF is the input's QF *)
Theorem C42_flows_shifted_partial :
  forall gen branch, rect branch -> 15 <= a_cols branch -> a_cols gen < 20 ->
  same_col branch 12 (snd (ppc_1to2 gen branch)) PF /\
  same_col branch 13 (snd (ppc_1to2 gen branch)) QF /\
  same_col branch 14 (snd (ppc_1to2 gen branch)) PT.
Proof.
  intros gen branch R L1 L2. unfold ppc_1to2.
  destruct (Nat.leb_spec APF (a_cols gen)) as [H|_]; [unfold APF in H; lia|].
  cbv zeta. unfold snd.
  destruct (Nat.leb_spec (MU_ST - (PF - BR_STATUS - 1) - 1) (a_cols branch)) as [_|H];
    [|unfold MU_ST, PF, BR_STATUS in H; lia].
  change (BR_STATUS + 1) with 11. change (PF - 1) with 12. change (MU_ST + 1) with 19.
  assert (G : forall j, 12 <= j < 15 -> same_col branch j
     {| a_cols := width_of_slice 0 11 (a_cols branch) + 2
                  + width_of_slice 12 19 (a_cols branch) + 2;
        a_rows := map (fun r => slice 0 11 r ++ [ofZ (-360); ofZ 360] ++
                        slice 12 19 r ++ repeat (ofZ 0) 2) (a_rows branch) |} (j + 1)).
  { intros j Hj k Hk. destruct (row_in _ _ R Hk) as (r & Hr & Lr).
    unfold cell. cbn [a_rows]. rewrite nth_error_map, Hr. cbn [option_map].
    rewrite (nth_app_len _ _ _ 11) by (rewrite slice_length; lia).
    rewrite (nth_app_len _ _ _ 2) by reflexivity.
    rewrite (nth_app_len _ _ _ (length (slice 12 19 r))) by reflexivity.
    rewrite slice_length, !nth_slice.
    destruct (Nat.ltb_spec (j + 1) 11); try lia.
    destruct (Nat.ltb_spec (j + 1 - 11) 2); try lia.
    destruct (Nat.ltb_spec (j + 1 - 11 - 2) (Nat.min (19 - 12) (length r - 12))); try lia.
    destruct (Nat.ltb_spec (j + 1 - 11 - 2) (19 - 12)); try lia.
    replace (12 + (j + 1 - 11 - 2)) with j by lia.
    split; auto. eapply row_some; eauto. lia. }
  repeat split; try apply (G 12); try apply (G 13); try apply (G 14); auto; lia.
Qed.

(** ** C43: error codes *)

(** the documented exit codes 1 (neither a string nor a dict) and 5 (missing data) can only be
    returned for a path: for a dict or another object the code raises instead *)
Theorem C43_documented_codes_refuted :
  exists c, c_bus c = PyNone /\
  (forall rf o eg ea, loadcase rf OtherObj o eg ea = Err UnboundLocalError) /\
  (forall rf o eg ea, loadcase rf (Dict c) o eg ea = Err UnboundLocalError).
Proof.
  exists {| c_baseMVA := Val (ofZ 100); c_bus := PyNone; c_gen := Val (v1_gen 10);
            c_branch := Val (solved_branch 11); c_areas := Missing; c_gencost := Missing;
            c_version := Missing |}.
  repeat split; intros rf [] [] []; reflexivity.
Qed.

(** no dict input ever yields an exit code, and a dict yields a result exactly when the four
    required keys are there with values (and the optional ones, if asked for) *)
Theorem C43_dict_outcome :
  forall rf c as_obj eg ea,
  (forall n, loadcase rf (Dict c) as_obj eg ea <> Ok (OInfo n)) /\
  ((exists out, loadcase rf (Dict c) as_obj eg ea = Ok out) <->
   (exists g b, complete c g b) /\
   (as_obj = false -> eg = true -> exists t, c_gencost c = Val t) /\
   (as_obj = false -> ea = true -> exists t, c_areas c = Val t)).
Proof.
  intros rf c as_obj eg ea. unfold loadcase, complete.
  destruct (c_baseMVA c) as [| |m], (c_bus c) as [| |u], (c_gen c) as [| |g],
    (c_branch c) as [| |b];
  try (split; [intros n; cbn; discriminate
             | split; [intros (o & E); cbn in E; discriminate
                      | intros ((g0 & b0 & (m0 & E1) & (t0 & E2) & E3 & E4) & _); discriminate]]).
  destruct (if a_cols g <? 21 then ppc_1to2 g b else (g, b)) as [g' b'].
  destruct as_obj, eg, ea; cbn;
    destruct (c_gencost c) as [| |gc], (c_areas c) as [| |ar]; cbn;
    (split; [intros n; discriminate|]);
    (split; [intros (o & E); try discriminate; clear E|]);
    try (intros ((g0 & b0 & _) & A1 & A2);
         first [ solve [eauto]
               | destruct (A1 eq_refl eq_refl); discriminate
               | destruct (A2 eq_refl eq_refl); discriminate ]);
    (split; [exists g, b; eauto 8|]; split; intros; try discriminate; eauto).
Qed.

(** ** a concrete case: two generators with multipliers, two branches without results *)
Definition g1 : arr := {| a_cols := 13; a_rows :=
  [map (fun k => ofZ (Z.of_nat k)) (seq 1 13); map (fun k => ofZ (Z.of_nat k)) (seq 51 13)] |}.
Definition b1 : arr := {| a_cols := 11; a_rows :=
  [map (fun k => ofZ (Z.of_nat k)) (seq 1 11); map (fun k => ofZ (Z.of_nat k)) (seq 21 11)] |}.

Example C07_example :
  rect g1 /\ rect b1 /\
  cell (fst (ppc_1to2 g1 b1)) 1 PMIN = Some (ofZ 60) /\
  cell (fst (ppc_1to2 g1 b1)) 1 APF = Some (ofZ 0) /\
  cell (fst (ppc_1to2 g1 b1)) 1 MU_QMAX = Some (ofZ 63) /\
  cell (snd (ppc_1to2 g1 b1)) 0 BR_STATUS = Some (ofZ 11) /\
  cell (snd (ppc_1to2 g1 b1)) 1 ANGMIN = Some (ofZ (-360)).
Proof. repeat split; repeat constructor. Qed.

Print Assumptions C07_gen_columns.
Print Assumptions C07_branch_columns.
Print Assumptions C07_loadcase.
Print Assumptions C07_version_field_ignored.
Print Assumptions C42_branch_flows_refuted.
Print Assumptions C42_branch_multipliers_refuted.
Print Assumptions C42_gen_multiplier_refuted.
Print Assumptions C42_flows_shifted_partial.
Print Assumptions C43_documented_codes_refuted.
Print Assumptions C43_dict_outcome.
