(** C11 (polycost), C12 (totcost), C13 and C46 (modcost), C14 (polyshift). *)
From Coq Require Import Reals.
From Coquelicot Require Import Coquelicot.
From Verif Require Import Lib.QcFacts Lib.LinAlg Lib.ListFacts Model.Cost Spec.CostSpec
  Spec.RealSpec Proofs.LinAlgFacts Proofs.CostA Proofs.CostB Proofs.CostC Proofs.CostR.
Local Open Scope nat_scope.

(** ** C11 *)

(** the value: Horner evaluation of each row's own coefficients, however many there are *)
Theorem C11_value :
  forall g css Pg, Forall2 poly_row g css -> Forall (fun cs => cs <> []) css ->
  length Pg = length g -> polycost g Pg 0 = Ok (map2 polyval css Pg).
Proof.
  intros g css Pg F NE L. destruct (polycost_ok g css Pg 0 F L NE) as (f & E & Lf & V).
  rewrite E. f_equal. pose proof (Forall2_len _ _ _ F) as Lc.
  apply nth_error_ext. intros i. rewrite nth_map2.
  destruct (nth_error css i) as [cs|] eqn:Hc; destruct (nth_error Pg i) as [P|] eqn:HP.
  - destruct (V i cs P Hc HP) as (pad & ->). simpl pds. rewrite low_app_zeros, low_rev. reflexivity.
  - apply nth_error_None in HP. apply nth_error_some_lt in Hc. lia.
  - apply nth_error_None in Hc. apply nth_error_some_lt in HP. lia.
  - apply nth_error_None. apply nth_error_None in Hc. lia.
Qed.

(** the derivative outputs, for every order: the der-th derivative of the real polynomial *)
Theorem C11_derivatives :
  forall g css Pg der, Forall2 poly_row g css -> Forall (fun cs => cs <> []) css ->
  length Pg = length g ->
  exists f, polycost g Pg der = Ok f /\ length f = length g /\
  forall i cs P v, nth_error css i = Some cs -> nth_error Pg i = Some P ->
    nth_error f i = Some v -> is_derive_n (polyvalR cs) der (q2r P) (q2r v).
Proof.
  intros g css Pg der F NE L. destruct (polycost_ok g css Pg der F L NE) as (f & E & Lf & V).
  exists f. split; auto. split; auto. intros i cs P v Hc HP Hv.
  destruct (V i cs P Hc HP) as (pad & Hv'). rewrite Hv in Hv'. injection Hv' as ->.
  rewrite lowR_q.
  apply (is_derive_n_ext (lowR (rev cs ++ repeat 0%Qc pad))).
  - intros t. apply lowR_rev.
  - apply lowR_is_derive_n.
Qed.

(** ** C12 *)
Theorem C12_totcost :
  forall g ss Pg, Forall2 row_is g ss -> length Pg = length g ->
  exists f, totcost g Pg = Ok f /\ length f = length g /\
  forall i s P v, nth_error ss i = Some s -> nth_error Pg i = Some P ->
    nth_error f i = Some v -> row_value s P v.
Proof.
  intros g ss Pg F L. rewrite (totcost_ok g ss Pg F L). eexists. split; [reflexivity|].
  pose proof (Forall2_len _ _ _ F) as Ls. split; [rewrite map2_length; lia|].
  intros i s P v Hs HP Hv. rewrite nth_map2, Hs, HP in Hv. injection Hv as <-.
  destruct (nth_error_lt g i) as (r & Hr); [apply nth_error_some_lt in Hs; lia|].
  destruct (Forall2_nth _ _ _ _ _ F Hr) as (s' & Hs' & R). rewrite Hs in Hs'. injection Hs' as <-.
  destruct s as [cs|pts]; simpl in *; auto. destruct R as (_ & I & L2). apply pwl_at_value; auto.
Qed.

(** what [row_value] says about piecewise-linear rows: it is one value, the given cost at each
    breakpoint, and the interpolation in between *)
Theorem C12_one_value :
  forall pts x v v', x_increasing pts -> 2 <= length pts ->
  pwl_value pts x v -> pwl_value pts x v' -> v = v'.
Proof.
  intros pts x v v' I L V V'. rewrite (pwl_value_unique pts x v), (pwl_value_unique pts x v'); auto.
Qed.

Theorem C12_breakpoint :
  forall pts j p v, x_increasing pts -> 2 <= length pts -> nth_error pts j = Some p ->
  pwl_value pts (fst p) v -> v = snd p.
Proof.
  intros pts j p v I L Hp V. destruct (Nat.eq_dec (S j) (length pts)) as [E|NE].
  - destruct j as [|j]; [lia|]. destruct (nth_error_lt pts j) as (o & Ho); [lia|].
    assert (OP : (fst o < fst p)%Qc) by (eapply inc_lt with (i := j) (j := S j); eauto).
    rewrite (V j o p).
    + apply line_right. auto.
    + split; auto. split; auto. split; [right; apply Qclt_le_weak; auto|right; apply Qcle_refl].
  - assert (Hj := nth_error_some_lt _ _ _ Hp).
    destruct (nth_error_lt pts (S j)) as (q & Hq); [lia|].
    assert (PQ : (fst p < fst q)%Qc) by (eapply inc_lt with (i := j) (j := S j); eauto).
    rewrite (V j p q).
    + apply line_left.
    + split; auto. split; auto. split; [right; apply Qcle_refl|right; apply Qclt_le_weak; auto].
Qed.

Theorem C12_interpolation :
  forall pts j p q x v, nth_error pts j = Some p -> nth_error pts (S j) = Some q ->
  (fst p <= x <= fst q)%Qc -> pwl_value pts x v -> v = line p q x.
Proof. intros pts j p q x v Hp Hq [A B] V. apply (V j). repeat split; auto. Qed.

(** with non-decreasing slopes the cost is the largest of its segment lines *)
Theorem C12_convex_max :
  forall pts x v, x_increasing pts -> 2 <= length pts -> convex pts -> pwl_value pts x v ->
  (forall j p q, nth_error pts j = Some p -> nth_error pts (S j) = Some q -> (line p q x <= v)%Qc) /\
  (exists j p q, nth_error pts j = Some p /\ nth_error pts (S j) = Some q /\ v = line p q x).
Proof.
  intros pts x v I L C V. rewrite (pwl_value_unique pts x v I L V). split.
  - intros j p q Hp Hq. eapply convex_max; eauto.
  - destruct (pwl_at_segment pts x L) as (j & p & q & (Hp & Hq & _) & E). eauto 10.
Qed.

(** ** C13 *)
(** where the changed cost is evaluated, and what the old value becomes *)
Definition at_x (t : modtype) (a x : Qc) : Qc :=
  match t with SCALE_X => x * a | SHIFT_X => x + a | _ => x end%Qc.
Definition to_f (t : modtype) (a v : Qc) : Qc :=
  match t with SCALE_F => a * v | SHIFT_F => v + a | _ => v end%Qc.

Theorem C13_modcost :
  forall g ss a t, Forall2 row_is g ss -> (t = SCALE_X -> 0 < a)%Qc ->
  exists g', modcost g a t = Ok g' /\
  forall Pg f, length Pg = length g -> totcost g Pg = Ok f ->
    totcost g' (map (at_x t a) Pg) = Ok (map (to_f t a) f).
Proof.
  intros g ss a t F PA. destruct (modcost_ok a t g ss F PA) as (g' & ss' & E & F' & RL).
  exists g'. split; auto. intros Pg f L Ef.
  rewrite (totcost_ok g ss Pg F L) in Ef. injection Ef as <-.
  pose proof (Forall2_len _ _ _ F) as L1. pose proof (Forall2_len _ _ _ F') as L2.
  pose proof (Forall2_len _ _ _ RL) as L3.
  rewrite (totcost_ok g' ss') by (auto; rewrite map_length; lia). f_equal.
  clear - RL. unfold map2. revert Pg. induction RL as [|s s' ss ss' H RL IH]; intros Pg; auto.
  destruct Pg as [|P Pg]; auto. cbn [map combine fst snd]. rewrite IH. f_equal.
  specialize (H P). destruct t; simpl in *; auto.
Qed.

(** ** C46: negative horizontal scaling *)
Theorem C46_scale_x_polynomial_partial :
  forall a r cs, poly_row r cs -> cs <> [] -> a <> 0%Qc ->
  exists r' cs', modcost [r] a SCALE_X = Ok [r'] /\ poly_row r' cs' /\
    forall x, polyval cs' (x * a)%Qc = polyval cs x.
Proof.
  intros a r cs R NE NZ. destruct (mod_poly_ok a SCALE_X r cs R NE (fun _ => NZ))
    as (r' & cs' & E & R' & _ & V).
  exists r', cs'. split; auto. unfold modcost. cbn [mapM]. unfold model_is, get.
  rewrite (proj1 R). cbn [of_option bind].
  replace (qc_eqb (zc 2) PW_LINEAR) with false
    by (symmetry; apply qc_eqb_neq; intros C; apply zc_inj in C; discriminate).
  replace (qc_eqb (zc 2) POLYNOMIAL) with true by (symmetry; apply qc_eqb_refl).
  rewrite E. reflexivity.
Qed.

(** the breakpoints of a piecewise-linear row end up in decreasing order: with factor -1 the
    cost 0,0 / 1,1 / 2,3 at x = 2 is 3, but the changed cost at -2 is 2 *)
Definition pwl3 : vec := map zc [1; 0; 0; 3; 0; 0; 1; 1; 2; 3]%Z.

Lemma one_result (r : result vec) v :
  match r with Ok [x] => (this x == this v)%Q | _ => False end -> r = Ok [v].
Proof.
  destruct r as [[|x [|]]|]; try tauto. intros H. apply Qc_is_canon in H. congruence.
Qed.

Theorem C46_scale_x_negative_refuted :
  exists r pts r' f f', pwl_row r pts /\ x_increasing pts /\ 2 <= length pts /\
  modcost [r] (zc (-1)) SCALE_X = Ok [r'] /\
  totcost [r] [zc 2] = Ok [f] /\ totcost [r'] [(zc 2 * zc (-1))%Qc] = Ok [f'] /\ f <> f'.
Proof.
  exists pwl3, [(zc 0, zc 0); (zc 1, zc 1); (zc 2, zc 3)].
  exists (match modcost [pwl3] (zc (-1)) SCALE_X with Ok [r] => r | _ => [] end), (zc 3), (zc 2).
  split; [|split; [|split; [|split; [|split; [|split]]]]].
  - split; [reflexivity|]. split; [reflexivity|]. exists []. reflexivity.
  - simpl. repeat split; apply qc_ltb_lt; reflexivity.
  - simpl. auto.
  - vm_compute. reflexivity.
  - apply one_result. vm_compute. reflexivity.
  - apply one_result. vm_compute. reflexivity.
  - intros C. apply zc_inj in C. discriminate.
Qed.

(** ** C14 *)
Theorem C14_polyshift :
  forall c a, length (polyshift c a) = length c /\
  forall x, polyval (polyshift c a) x = polyval c (x - a)%Qc.
Proof. intros c a. split; [apply polyshift_length|apply polyshift_value]. Qed.

(** ** a concrete mixed table: a cubic, a piecewise-linear row and a line *)
Definition ex_cost : list vec :=
  [map zc [2; 0; 0; 4; 1; -2; 3; 5; 0; 0]%Z;
   pwl3;
   map zc [2; 0; 0; 2; 7; 1; 9; 9; 9; 9]%Z].
Definition ex_specs : list rowspec :=
  [SPoly (map zc [1; -2; 3; 5]%Z); SPwl [(zc 0, zc 0); (zc 1, zc 1); (zc 2, zc 3)];
   SPoly (map zc [7; 1]%Z)].

Lemma ex_rows : Forall2 row_is ex_cost ex_specs.
Proof.
  constructor; [|constructor; [|constructor; [|constructor]]].
  - split; [|discriminate]. split; [reflexivity|]. split; [reflexivity|].
    exists (map zc [0; 0]%Z). reflexivity.
  - split; [|split; [|simpl; auto]].
    + split; [reflexivity|]. split; [reflexivity|]. exists []. reflexivity.
    + simpl. repeat split; apply qc_ltb_lt; reflexivity.
  - split; [|discriminate]. split; [reflexivity|]. split; [reflexivity|].
    exists (map zc [9; 9; 9; 9]%Z). reflexivity.
Qed.

Definition shown (r : result vec) : option (list Q) :=
  match r with Ok l => Some (map this l) | Err _ => None end.

Example C12_example : shown (totcost ex_cost (map zc [2; 3; 4]%Z)) = Some [11#1; 5#1; 29#1]%Q.
Proof. vm_compute. reflexivity. Qed.
Example C13_example :
  match modcost ex_cost (zc 2) SHIFT_X with
  | Ok g => shown (totcost g (map zc [4; 5; 6]%Z))
  | Err _ => None end = Some [11#1; 5#1; 29#1]%Q.
Proof. vm_compute. reflexivity. Qed.
Example C11_example :
  shown (polycost [nth 0 ex_cost []; nth 2 ex_cost []] (map zc [2; 4]%Z) 1) = Some [7#1; 7#1]%Q.
Proof. vm_compute. reflexivity. Qed.

Print Assumptions C11_value.
Print Assumptions C11_derivatives.
Print Assumptions C12_totcost.
Print Assumptions C12_one_value.
Print Assumptions C12_breakpoint.
Print Assumptions C12_interpolation.
Print Assumptions C12_convex_max.
Print Assumptions C13_modcost.
Print Assumptions C46_scale_x_polynomial_partial.
Print Assumptions C46_scale_x_negative_refuted.
Print Assumptions C14_polyshift.
