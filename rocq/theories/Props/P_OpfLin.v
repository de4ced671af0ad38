(** Linear constraints of the optimal power flow.  C31: piecewise-linear costs (makeAy); C32: angle
    differences, constant power factors, capability curves; C53: reactive piecewise-linear costs. *)
From Coq Require Import Reals Lra.
From Verif Require Import Lib.ListFacts Lib.QcFacts Model.Cost Spec.CostSpec Model.OpfLin Spec.OpfSpec
  Proofs.SparseFacts Proofs.OrdFacts Proofs.OpfLinA Proofs.OpfLinB Proofs.OpfLinC.
Local Open Scope nat_scope.

Section Theorems.
Context {K : Type} {F : Fld K}.
Add Field KF : (@f_ok K F).

(** ** C31 *)

(** the rows hold exactly if every cost variable is on or above every segment line of its cost,
    taken at the generator's output in MW *)
Theorem C31_segments (B : K) ng gencost pgbas qgbas ybas A b :
  0 < pgbas -> 0 < ybas -> length gencost <= ng ->
  makeAy B ng gencost pgbas qgbas ybas = Ok (A, b) ->
  length b = nrows A /\ ncols A = ybas - 1 + length (pwl_rows gencost) /\
  forall x, rows_le A b x <->
    forall j i, nth_error (pwl_rows gencost) j = Some i ->
      above (bpts (nth i gencost [])) (B * nth (pgbas - 1 + i) x 0)%K (nth (ybas - 1 + j) x 0%K).
Proof.
  intros HP HY LG H. destruct (makeAy_ok B ng gencost pgbas qgbas ybas A b HY H) as (_ & L & C & R).
  split; auto. split; auto. intros x. rewrite R.
  assert (forall j i, nth_error (pwl_rows gencost) j = Some i -> sidx ng pgbas qgbas i = pgbas - 1 + i) as E.
  { intros j i Hj. apply nth_error_In in Hj. unfold pwl_rows in Hj. apply filter_In in Hj as (Hi & _).
    apply in_seq in Hi. unfold sidx. replace (ng <? i) with false by (symmetry; apply Nat.ltb_ge; lia). lia. }
  split; intros H1 j i Hj; specialize (H1 j i Hj); rewrite (E j i Hj) in *; auto.
Qed.

(** for a convex cost that is the cost itself: the least feasible value of the variable *)
Theorem C31_convex (a : K * K) pts p y : convex_from a pts -> pts <> [] ->
  (above (a :: pts) p y <-> le (interp a pts p) y).
Proof. apply above_interp. Qed.

(** proper data are accepted *)
Theorem C31_accepts (B : K) ng gencost pgbas qgbas ybas :
  B <> 0%K -> 0 < pgbas -> length gencost <= ng -> pgbas + length gencost <= ybas ->
  Forall (fun r => MODEL < length r) gencost ->
  (forall i, In i (pwl_rows gencost) ->
     (0 < ftrunc (cell (nth i gencost []) NCOST))%Z /\
     COST + 2 * npoints (nth i gencost []) <= length (nth i gencost []) /\
     (forall a c, In (a, c) (combine (bpts (nth i gencost [])) (tl (bpts (nth i gencost [])))) -> fst a <> fst c)) ->
  exists A b, makeAy B ng gencost pgbas qgbas ybas = Ok (A, b).
Proof.
  intros NB HP LG HY HM HR. apply makeAy_total; auto. intros i Hi. destruct (HR i Hi) as (H1 & H2 & H3).
  repeat (split; auto). unfold pwl_rows in Hi. apply filter_In in Hi as (Hi & _). apply in_seq in Hi.
  unfold sidx. replace (ng <? i) with false by (symmetry; apply Nat.ltb_ge; lia). lia.
Qed.

(** ** C32 *)

(** angle differences, in radians, between the limits in degrees; a limit of zero is no limit; no
    rows unless some limit is within (-360, 360), none at all when the limits are ignored *)
Theorem C32_angles ign (branch : list (list K)) nb A l u iang :
  makeAang ign branch nb = Ok (A, l, u, iang) ->
  nrows A = length iang /\ ncols A = nb /\ length l = nrows A /\ length u = nrows A /\ NoDup iang /\
  (forall i, In i iang <-> ign = false /\ exists r, nth_error branch i = Some r /\ angle_limited r) /\
  (forall Va, rows_in A l u Va <->
     (ign = false -> forall i r, nth_error branch i = Some r -> angle_limited r -> angle_ok r Va)).
Proof. intros H. apply makeAang_ok in H. tauto. Qed.

(** dispatchable loads with reactive limits keep their power factor; nothing else has a row *)
Theorem C32_loads sin_ cos_ atan2 (B : K) gen A l u ivl : trig_ok sin_ cos_ atan2 ->
  makeAvl sin_ cos_ atan2 B gen = Ok (A, l, u, ivl) ->
  nrows A = length ivl /\ ncols A = 2 * length gen /\ length l = nrows A /\ length u = nrows A /\
  (forall i, In i ivl <-> exists g, nth_error gen i = Some g /\ var_load g) /\
  (forall x, rows_in A l u x <->
     forall i g, nth_error gen i = Some g -> var_load g ->
       const_pf g (B * nth i x 0)%K (B * nth (length gen + i) x 0)%K).
Proof. intros HT H. apply (makeAvl_ok _ _ _ _ _ _ _ _ _ HT) in H. tauto. Qed.

(** within the box of P and Q limits, the rows hold exactly if every generator with a capability
    curve is below its upper and above its lower edge, whether or not the edge got a row *)
Theorem C32_capability norm2 (B : K) gen Ah uh Al ul ih il : lt 0%K B ->
  Forall (fun g => has_curve g -> trapezoid g /\ norm_on norm2 g) gen ->
  makeApq norm2 B gen = Ok (Ah, uh, (Al, ul), (ih, il)) ->
  (nrows Ah = length ih /\ ncols Ah = 2 * length gen /\ length uh = nrows Ah) /\
  (nrows Al = length il /\ ncols Al = 2 * length gen /\ length ul = nrows Al) /\
  forall x,
    (forall i g, nth_error gen i = Some g -> in_box g (B * nth i x 0)%K (B * nth (length gen + i) x 0)%K) ->
    (rows_le Ah uh x /\ rows_le Al ul x <->
     forall i g, nth_error gen i = Some g -> has_curve g ->
       under_cap g (B * nth i x 0)%K (B * nth (length gen + i) x 0)%K /\
       over_cap g (B * nth i x 0)%K (B * nth (length gen + i) x 0)%K).
Proof. intros HB HF H. pose proof (makeApq_ok _ _ _ _ _ _ _ _ _ HB HF H). tauto. Qed.

(** a generator without a curve gets no row; hasPQcap gives one only where the edge cuts the box *)
Theorem C32_no_curve h (g : list K) : cell g PC1 = cell g PC2 -> PC2 < length g -> hasPQcap h g = Ok false.
Proof.
  intros H L. unfold hasPQcap, PC1, PC2 in *.
  rewrite (proj2 (get_ok g 10 (cell g 10))) by (apply nth_error_nth'; lia).
  rewrite (proj2 (get_ok g 11 (cell g 11))) by (apply nth_error_nth'; lia). cbn [bind].
  rewrite (proj2 (feqb_ok _ _) H). reflexivity.
Qed.

(** ** C53 *)

(** the layout of the AC problem: columns Pg, Qg, y; cost rows for Pg, then for Qg *)
Definition ac_Ay (B : K) (ng : nat) (gencost : list (list K)) := makeAy B ng gencost 1 ng (1 + ng + ng).

(** right as long as no generator but the first has a reactive piecewise-linear cost *)
Theorem C53_first_reactive_partial (B : K) ng gencost A b :
  Forall (fun i => i <= ng) (pwl_rows gencost) -> ac_Ay B ng gencost = Ok (A, b) ->
  forall x, rows_le A b x <->
    forall j i, nth_error (pwl_rows gencost) j = Some i ->
      above (bpts (nth i gencost [])) (B * nth i x 0)%K (nth (ng + ng + j) x 0%K).
Proof.
  intros HF H x. unfold ac_Ay in H. destruct (makeAy_ok B ng gencost 1 ng (1 + ng + ng) A b ltac:(lia) H) as (_ & _ & _ & R). rewrite R.
  assert (forall j i, nth_error (pwl_rows gencost) j = Some i -> sidx ng 1 ng i = i) as E.
  { intros j i Hj. apply nth_error_In in Hj. rewrite Forall_forall in HF. specialize (HF i Hj).
    unfold sidx. replace (ng <? i) with false by (symmetry; apply Nat.ltb_ge; lia). lia. }
  replace (1 + ng + ng - 1) with (ng + ng) by lia.
  split; intros H1 j i Hj; specialize (H1 j i Hj); rewrite (E j i Hj) in *; auto.
Qed.

(** in general the later ones constrain the reactive output of the generator before *)
Theorem C53_shifted_partial (B : K) ng gencost A b : ac_Ay B ng gencost = Ok (A, b) ->
  forall x, rows_le A b x <->
    forall j i, nth_error (pwl_rows gencost) j = Some i ->
      above (bpts (nth i gencost [])) (B * nth (if ng <? i then i - 1 else i) x 0)%K (nth (ng + ng + j) x 0%K).
Proof.
  intros H x. unfold ac_Ay in H. destruct (makeAy_ok B ng gencost 1 ng (1 + ng + ng) A b ltac:(lia) H) as (_ & _ & _ & R). rewrite R.
  replace (1 + ng + ng - 1) with (ng + ng) by lia.
  assert (forall i, sidx ng 1 ng i = if ng <? i then i - 1 else i) as E.
  { intros i. unfold sidx. destruct (ng <? i) eqn:Q; [apply Nat.ltb_lt in Q|apply Nat.ltb_ge in Q]; lia. }
  split; intros H1 j i Hj; specialize (H1 j i Hj); rewrite E in *; auto.
Qed.
End Theorems.

(** ** C31, against totcost *)
Theorem C31_totcost B ng gencost ss pgbas qgbas ybas A b Pg f :
  0 < pgbas -> 0 < ybas -> length gencost <= ng ->
  makeAy B ng gencost pgbas qgbas ybas = Ok (A, b) ->
  Forall2 row_is gencost ss -> Forall (fun s => match s with SPwl pts => convex pts | SPoly _ => True end) ss ->
  length Pg = length gencost -> totcost gencost (map (Qcmult B) Pg) = Ok f ->
  forall x, (forall i, i < length gencost -> nth (pgbas - 1 + i) x 0%Qc = nth i Pg 0%Qc) ->
  (rows_le A b x <-> forall j i, nth_error (pwl_rows gencost) j = Some i ->
                       (nth i f 0 <= nth (ybas - 1 + j) x 0)%Qc).
Proof. apply makeAy_totcost. Qed.

(** ** Examples *)
Definition zs := map zc.
(** a convex cost with three points, a polynomial and a line *)
Definition ex_gencost : list (list Qc) :=
  [zs [1; 0; 0; 3; 0; 0; 10; 100; 20; 300]; zs [2; 0; 0; 2; 3; 4; 0; 0; 0; 0]; zs [1; 0; 0; 2; 0; 5; 10; 25; 0; 0]]%Z.
Definition ex_Ay := makeAy (zc 100) 3 ex_gencost 1 0 4.
(** slopes 10, 20 and 2 per MW; columns 3 and 4 hold the cost variables *)
Example C31_example :
  match ex_Ay with
  | Ok (A, b) => (nrows A, ncols A, map (fun e => (erow e, ecol e, this (ev e))) (ents A), map this b)
  | Err _ => (0, 0, [], [])
  end = (3, 5, [(0, 0, Qmake 1000 1); (1, 0, Qmake 2000 1); (0, 3, Qmake (-1) 1); (1, 3, Qmake (-1) 1); (2, 2, Qmake 200 1); (2, 4, Qmake (-1) 1)],
         [Qmake 0 1; Qmake 100 1; Qmake (-5) 1]).
Proof. vm_compute. reflexivity. Qed.
Definition ex_specs : list rowspec :=
  [SPwl [(zc 0, zc 0); (zc 10, zc 100); (zc 20, zc 300)]; SPoly (zs [3; 4]%Z); SPwl [(zc 0, zc 5); (zc 10, zc 25)]].
Example C31_example_rows : Forall2 row_is ex_gencost ex_specs.
Proof.
  repeat constructor; try (vm_compute; reflexivity); try (vm_compute; congruence); try (simpl; lia).
  - exists []. vm_compute. reflexivity.
  - exists (zs [0; 0; 0; 0]%Z). vm_compute. reflexivity.
  - exists (zs [0; 0]%Z). vm_compute. reflexivity.
Qed.
Example C31_example_convex :
  Forall (fun s => match s with SPwl pts => convex pts | SPoly _ => True end) ex_specs.
Proof.
  repeat constructor; intros [|[|[|j]]] p q s H1 H2 H3; try discriminate.
  cbn in H1, H2, H3. injection H1 as <-. injection H2 as <-. injection H3 as <-. vm_compute. discriminate.
Qed.
Example C31_example_totcost : totcost ex_gencost (map (Qcmult (zc 100)) [qc 15 100; zc 0; qc 5 100]) = Ok (zs [200; 4; 15]%Z).
Proof. vm_compute. reflexivity. Qed.
Example C31_example_interp : convex_from (zc 0, zc 0) [(zc 10, zc 100); (zc 20, zc 300)] /\
  this (interp (zc 0, zc 0) [(zc 10, zc 100); (zc 20, zc 300)] (zc 15)) = (200#1)%Q.
Proof. vm_compute. repeat split; auto. Qed.

(** real sine, cosine and the four-quadrant arc tangent are as required *)
Definition atan2R (y x : R) : R :=
  if Rlt_dec x 0 then (if Rlt_dec y 0 then atan (y / x) - PI else atan (y / x) + PI)%R else atan (y / x).
Example C32_trig : trig_ok (K := R) sin cos atan2R.
Proof.
  intros x y Hx. cbn in *.
  assert (0 < cos (atan (y / x)))%R as CP.
  { pose proof (atan_bound (y / x)). apply cos_gt_0; lra. }
  assert (sin (atan (y / x)) = y / x * cos (atan (y / x)))%R as ST.
  { pose proof (tan_atan (y / x)) as T. unfold tan in T. rewrite <- T at 2. field. lra. }
  set (t := atan (y / x)) in *. unfold atan2R. fold t. exists (Rabs x / cos t)%R.
  assert (0 < Rabs x / cos t)%R as HP by (apply Rdiv_lt_0_compat; auto; apply Rabs_pos_lt; auto).
  split. { unfold lt. cbn. apply r_ltb_ok. exact HP. }
  destruct (Rlt_dec x 0) as [N|N].
  - rewrite Rabs_left in * by auto.
    assert (forall s : R, (s = t - PI \/ s = t + PI -> sin s = - sin t /\ cos s = - cos t)%R) as SH.
    { intros s [-> | ->]; [|rewrite neg_sin, neg_cos; auto].
      rewrite sin_minus, cos_minus, sin_PI, cos_PI. split; ring. }
    destruct (Rlt_dec y 0);
      [destruct (SH (t - PI)%R (or_introl eq_refl)) as (-> & ->)|destruct (SH (t + PI)%R (or_intror eq_refl)) as (-> & ->)];
      rewrite ST; split; field; lra.
  - rewrite Rabs_right by lra. rewrite ST. split; field; lra.
Qed.
(** and the real square root gives the norm *)
Example C32_norm a b : norm_at (K := R) (fun a b => sqrt (a * a + b * b))%R a b.
Proof.
  unfold norm_at, le. cbn. split.
  - apply not_true_iff_false. rewrite r_ltb_ok. pose proof (sqrt_pos (a * a + b * b)). lra.
  - apply sqrt_sqrt. nra.
Qed.

(** limits of 30 degrees above only, both, none, ignored since beyond 360 *)
Definition br (f t lo hi : Z) : list Qc := zs [f; t; 0; 0; 0; 0; 0; 0; 0; 0; 1; lo; hi]%Z.
Definition ex_br := [br 0 1 0 30; br 1 2 (-10) 20; br 2 0 0 0; br 0 2 (-360) 360]%Z.
Example C32_example_angles :
  match makeAang false ex_br 3 with
  | Ok (A, l, u, ix) => (nrows A, map (fun e => (erow e, ecol e, this (ev e))) (ents A),
                         map (fun b => match b with EFin _ => 0 | ENeg => 1 | EPos => 2 end) (l ++ u), ix)
  | Err _ => (0, [], [], [])
  end = (2, [(0, 0, Qmake 1 1); (1, 1, Qmake 1 1); (0, 1, Qmake (-1) 1); (1, 2, Qmake (-1) 1)], [1; 0; 0; 0], [0; 1])
  /\ option_map (fun A => nrows (fst (fst (fst A)))) (match makeAang true ex_br 3 with Ok A => Some A | _ => None end) = Some 0.
Proof. vm_compute. split; reflexivity. Qed.

(** a 3-4-5 upper edge that cuts the box, a lower edge that does not *)
Definition ex_g : list Qc := zs [0; 0; 0; 10; -10; 1; 100; 1; 8; 0; 0; 4; -20; 10; -17; 7]%Z.
Definition ex_g2 : list Qc := zs [1; 0; 0; 10; -10; 1; 100; 1; 8; 0; 0; 0; 0; 0; 0; 0]%Z.
Definition n345 (a b : Qc) : Qc := zc 5.
Example C32_example_curve :
  has_curve ex_g /\ trapezoid ex_g /\ norm_on n345 ex_g /\ ~ has_curve ex_g2.
Proof.
  unfold has_curve, trapezoid, norm_on, norm_at, lt, le.
  repeat split; try (vm_compute; reflexivity); try (apply qc_eqb_eq; vm_compute; reflexivity); vm_compute; congruence.
Qed.
Example C32_example_capability :
  match makeApq n345 (zc 100) [ex_g; ex_g2] with
  | Ok (Ah, uh, (Al, ul), (ih, il)) =>
      (map (fun e => (erow e, ecol e, this (ev e))) (ents Ah), map this uh, nrows Al, ih, il)
  | Err _ => ([], [], 9, [], [])
  end = ([(0, 0, Qmake 3 5); (0, 2, Qmake 4 5)], [Qmake 2 25], 0, [0], []).
Proof. vm_compute. reflexivity. Qed.

(** loads: constant power factor 0.8 with a lower, with an upper reactive limit; none; a generator *)
Definition gn (qmax qmin pmax pmin : Z) : list Qc := zs [0; 0; 0; qmax; qmin; 1; 100; 1; pmax; pmin]%Z.
Definition ex_loads := [gn 0 (-30) 0 (-40); gn 30 0 0 (-40); gn 0 0 0 (-40); gn 50 (-50) 80 0]%Z.
(** sine and cosine of the angle encoded as 1 + half the tangent *)
Definition ex_sin (a : Qc) : Qc := (- (a - 1) * zc 2)%Qc.
Definition ex_at (y x : Qc) : Qc := (1 + y / x / zc 2)%Qc.
Example C32_example_loads :
  match makeAvl ex_sin (fun _ => zc (-1)) ex_at (zc 100) ex_loads with
  | Ok (A, l, u, ivl) => (map (fun e => (erow e, ecol e, this (ev e))) (ents A), ivl)
  | Err _ => ([], [])
  end = ([(0, 0, Qmake (-3) 4); (1, 1, Qmake 3 4); (0, 4, Qmake 1 1); (1, 5, Qmake 1 1)], [0; 1])
  /\ var_load (nth 0 ex_loads []) /\ var_load (nth 1 ex_loads []) /\ ~ var_load (nth 2 ex_loads []) /\ ~ var_load (nth 3 ex_loads []).
Proof.
  split; [vm_compute; reflexivity|].
  unfold var_load, is_load, lt. repeat split; try (vm_compute; reflexivity).
  - left. vm_compute. congruence.
  - right. vm_compute. congruence.
  - intros (_ & [C|C]); apply C; apply qc_eqb_eq; vm_compute; reflexivity.
  - intros ((C & _) & _). vm_compute in C. discriminate.
Qed.

(** ** C53: two generators; the second has a reactive piecewise-linear cost of 1 per MVAr; the
    constraints accept cost variable 0 at an output of 100 MVAr *)
Definition ex_qcost : list (list Qc) :=
  [zs [2; 0; 0; 2; 1; 0; 0; 0]; zs [2; 0; 0; 2; 1; 0; 0; 0]; zs [2; 0; 0; 2; 0; 0; 0; 0]; zs [1; 0; 0; 2; 0; 0; 100; 100]]%Z.
Theorem C53_reactive_refuted :
  exists (B : Qc) ng gencost A b x, length gencost = 2 * ng /\ ac_Ay B ng gencost = Ok (A, b) /\
    rows_le A b x /\
    ~ forall j i, nth_error (pwl_rows gencost) j = Some i ->
        above (bpts (nth i gencost [])) (B * nth i x 0)%K (nth (ng + ng + j) x 0%K).
Proof.
  destruct (ac_Ay (zc 100) 2 ex_qcost) as [(A, b)|e] eqn:E; [|vm_compute in E; discriminate].
  exists (zc 100), 2, ex_qcost, A, b, (zs [0; 0; 0; 1; 0]%Z). split; auto. split; auto. split.
  - apply (C53_shifted_partial _ _ _ _ _ E). intros [|[|j]] i Hj; vm_compute in Hj; try discriminate.
    injection Hj as <-. intros a c [Hin|[]]. injection Hin as <- <-. vm_compute. reflexivity.
  - intros H. specialize (H 0 3 eq_refl (zc 0, zc 0) (zc 100, zc 100) (or_introl eq_refl)). vm_compute in H. discriminate.
Qed.
Definition ex_qcost1 : list (list Qc) :=
  [zs [2; 0; 0; 2; 1; 0; 0; 0]; zs [2; 0; 0; 2; 1; 0; 0; 0]; zs [1; 0; 0; 2; 0; 0; 100; 100]; zs [2; 0; 0; 2; 0; 0; 0; 0]]%Z.
Example C53_example_first : Forall (fun i => i <= 2) (pwl_rows ex_qcost1) /\
  match ac_Ay (zc 100) 2 ex_qcost1 with Ok (A, b) => map (fun e => (erow e, ecol e)) (ents A) = [(0, 2); (0, 4)] | _ => False end.
Proof. vm_compute. repeat constructor. Qed.

Print Assumptions C31_segments.
Print Assumptions C31_convex.
Print Assumptions C31_accepts.
Print Assumptions C31_totcost.
Print Assumptions C32_angles.
Print Assumptions C32_loads.
Print Assumptions C32_capability.
Print Assumptions C32_no_curve.
Print Assumptions C32_trig.
Print Assumptions C53_first_reactive_partial.
Print Assumptions C53_shifted_partial.
Print Assumptions C53_reactive_refuted.
