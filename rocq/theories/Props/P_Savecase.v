(** C117 and C118: saving a case to a Python file and loading it again. *)
From Coq Require Import Lia.
From Verif Require Import Lib.ListFacts Spec.SaveSpec Proofs.SaveA Proofs.SaveB.
Local Open Scope nat_scope.

Section Save.
Variables g9 f4 : Qc -> Qc.

Lemma table_back whole res fs t : table_ok t -> length fs <= a_cols t ->
  (forall j, j < length fs -> nth_error fs j = Some (if existsb (Nat.eqb j) whole then FD else if res <=? j then F4 else F9)) ->
  exists toks t', show_rows g9 f4 fs (length fs) (a_rows t) = Ok toks /\ array_of toks = Ok t' /\ keeps g9 f4 whole res (length fs) t t' /\ a_rows t' <> [].
Proof.
  intros T L Q. do 2 eexists. split; [apply rows_ok; [apply T|apply T|exact L]|]. split; [apply array_ok; auto|]. split; [apply keeps_ok; auto|].
  cbn [a_rows]. unfold out. intros C. apply map_eq_nil in C. apply map_eq_nil in C. destruct T as (_ & _ & T). contradiction.
Qed.
Ltac columns := intros j Hj; cbn [length app bus_fmt gen_fmt branch_fmt] in Hj; do 25 (destruct j as [|j]; [first [exfalso; lia | reflexivity]|]); exfalso; lia.

Lemma bus_back t : table_ok t -> 13 <= a_cols t -> exists toks t', save_bus g9 f4 t = Ok toks /\ array_of toks = Ok t' /\
  keeps g9 f4 [BUS_I; BUS_TYPE; BUS_AREA; ZONE] LAM_P (bus_width t) t t' /\ a_rows t' <> [].
Proof.
  intros T L. unfold save_bus, bus_width. change (MU_VMIN + 1) with 17. destruct (a_cols t <? 17) eqn:W.
  - apply (table_back _ LAM_P bus_fmt t T); [exact L|]. columns.
  - apply Nat.ltb_ge in W. apply (table_back _ LAM_P (bus_fmt ++ [F4; F4; F4; F4]) t T); [exact W|]. columns.
Qed.
Lemma gen_back t : table_ok t -> 21 <= a_cols t -> exists toks t', save_gen g9 f4 t = Ok toks /\ array_of toks = Ok t' /\
  keeps g9 f4 [GEN_BUS; GEN_STATUS] MU_PMAX (gen_width t) t t' /\ a_rows t' <> [].
Proof.
  intros T L. unfold save_gen, gen_width. change (MU_QMIN + 1) with 25. destruct (a_cols t <? 25) eqn:W.
  - apply (table_back _ MU_PMAX gen_fmt t T); [exact L|]. columns.
  - apply Nat.ltb_ge in W. apply (table_back _ MU_PMAX (gen_fmt ++ [F4; F4; F4; F4]) t T); [exact W|]. columns.
Qed.
Lemma branch_back t : table_ok t -> 13 <= a_cols t -> a_cols t <> 19 -> a_cols t <> 20 -> exists toks t', save_branch g9 f4 t = Ok toks /\ array_of toks = Ok t' /\
  keeps g9 f4 [F_BUS; T_BUS; BR_STATUS] PF (branch_width t) t t' /\ a_rows t' <> [].
Proof.
  intros T L N1 N2. unfold save_branch, branch_width. change (QT + 1) with 17. change (MU_ST + 1) with 19. destruct (a_cols t <? 17) eqn:W.
  - apply (table_back _ PF branch_fmt t T); [exact L|]. columns.
  - apply Nat.ltb_ge in W. destruct (a_cols t <? 19) eqn:W2.
    + apply (table_back _ PF (branch_fmt ++ [F4; F4; F4; F4]) t T); [exact W|]. columns.
    + apply Nat.ltb_ge in W2. apply (table_back _ PF (branch_fmt ++ [F4; F4; F4; F4; F4; F4; F4; F4]) t T); [cbn [length app branch_fmt]; lia|]. columns.
Qed.
Lemma gencost_back t : table_ok t -> costs_fit t -> exists toks t', save_gencost g9 f4 (a_rows t) = Ok toks /\ array_of toks = Ok t' /\
  keeps g9 f4 [MODEL; NCOST] (a_cols t) (a_cols t) t t' /\ a_rows t' <> [].
Proof.
  intros T F. rewrite (gencost_fits g9 f4 t T F). destruct F as (n & L & _). set (fs := [FD; F9; F9; FD] ++ repeat F9 (a_cols t - 4)).
  assert (LF : length fs = a_cols t) by (unfold fs; rewrite app_length, repeat_length; cbn [length]; lia).
  do 2 eexists. split; [reflexivity|]. split; [apply array_ok; [auto|lia]|]. split.
  - replace (keeps g9 f4 [MODEL; NCOST] (a_cols t) (a_cols t)) with (keeps g9 f4 [MODEL; NCOST] (a_cols t) (length fs)) by (rewrite LF; reflexivity).
    apply keeps_ok; [auto|lia|]. rewrite LF. intros j Hj. replace (a_cols t <=? j) with false by (symmetry; apply Nat.leb_gt; auto).
    do 4 (destruct j as [|j]; [reflexivity|]). unfold fs. cbn [nth_error app existsb Nat.eqb MODEL NCOST orb].
    rewrite nth_error_repeat by lia. reflexivity.
  - cbn [a_rows]. unfold out. intros C. apply map_eq_nil in C. apply map_eq_nil in C. destruct T as (_ & _ & T). contradiction.
Qed.

Lemma rows_nonempty (t : arr) : a_rows t <> [] -> (0 <? length (a_rows t)) = true.
Proof. destruct (a_rows t); [contradiction|reflexivity]. Qed.

Lemma keeps_cols whole res w t t' : keeps g9 f4 whole res w t t' -> a_cols t' = w.
Proof. intros K. apply K. Qed.

(** a case with finite, rectangular tables of the usual widths comes back with the values that its text stands for *)
Theorem C117_saved_partial c fname : savable c -> good_name fname ->
  exists f file c', savecase g9 f4 fname false c = Ok (f, file) /\ load_py f file = Got c' /\ comes_back g9 (keeps g9 f4) c c'.
Proof.
  intros [(q & B) (Tb & Lb) (Tg & Lg) (Tl & Ll & N1 & N2) SA SC (UA & UN & U0 & U1 & U2)] G.
  destruct (good_target fname G) as (f & root & E & BN & ID).
  destruct (bus_back _ Tb Lb) as (kb & tb & Eb & Rb & Kb & Nb). destruct (gen_back _ Tg Lg) as (kg & tg & Eg & Rg & Kg & Ng).
  destruct (branch_back _ Tl Ll N1 N2) as (kl & tl & El & Rl & Kl & Nl).
  assert (W : a_cols tg <? 21 = false) by (apply Nat.ltb_ge; rewrite (keeps_cols _ _ _ _ _ Kg); unfold gen_width; destruct (_ <? _); lia).
  assert (XA : exists sa fa, (match nonempty (sc_areas c) (fun a => length (a_rows a)) with
           | None => Ok []
           | Some a => rows <- show_rows g9 f4 [FD; FD] (PRICE_REF_BUS + 1) (a_rows a) ;; Ok [STable 4 "areas" rows] end) = Ok sa /\
           keeps_opt (fun t => keeps g9 f4 [0; 1] 2 2 t) (sc_areas c) fa /\ forallb in_place sa = true /\
           forall x, c_areas x = Missing -> foldM (fun c s => exec s c) sa x = Ok {| c_baseMVA := c_baseMVA x; c_bus := c_bus x; c_gen := c_gen x; c_branch := c_branch x; c_areas := fa; c_gencost := c_gencost x; c_version := c_version x |}).
  { destruct (sc_areas c) as [t|].
    - destruct (SA t eq_refl) as (T & L). destruct (table_back [0; 1] 2 [FD; FD] t T L) as (k & t' & E1 & R1 & K1 & _); [columns|].
      exists [STable 4 "areas" k], (Val t'). cbn [nonempty]. rewrite (rows_nonempty t) by apply T. change (PRICE_REF_BUS + 1) with (length [FD; FD]). rewrite E1. cbn [bind].
      split; [reflexivity|]. split; [exact K1|]. split; [reflexivity|]. intros x Hx. cbn [foldM exec]. rewrite R1. reflexivity.
    - exists [], Missing. split; [reflexivity|]. split; [exact I|]. split; [reflexivity|]. intros [] Hx. cbn in Hx. subst. reflexivity. }
  destruct XA as (sa & fa & EA & KA & PA & XA).
  assert (XC : exists sc fc, (match nonempty (sc_gencost c) (fun a => length (a_rows a)) with
           | None => Ok []
           | Some a => rows <- save_gencost g9 f4 (a_rows a) ;; Ok [STable 4 "gencost" rows] end) = Ok sc /\
           keeps_opt (fun t => keeps g9 f4 [MODEL; NCOST] (a_cols t) (a_cols t) t) (sc_gencost c) fc /\ forallb in_place sc = true /\
           forall x, c_gencost x = Missing -> foldM (fun c s => exec s c) sc x = Ok {| c_baseMVA := c_baseMVA x; c_bus := c_bus x; c_gen := c_gen x; c_branch := c_branch x; c_areas := c_areas x; c_gencost := fc; c_version := c_version x |}).
  { destruct (sc_gencost c) as [t|].
    - destruct (SC t eq_refl) as (T & F). destruct (gencost_back t T F) as (k & t' & E1 & R1 & K1 & _).
      exists [STable 4 "gencost" k], (Val t'). cbn [nonempty]. rewrite (rows_nonempty t) by apply T. rewrite E1. cbn [bind].
      split; [reflexivity|]. split; [exact K1|]. split; [reflexivity|]. intros x Hx. cbn [foldM exec]. rewrite R1. reflexivity.
    - exists [], Missing. split; [reflexivity|]. split; [exact I|]. split; [reflexivity|]. intros [] Hx. cbn in Hx. subst. reflexivity. }
  destruct XC as (sc & fc & EC & KC & PC & XC).
  eexists f, _, {| c_baseMVA := Val (Fin (g9 q)); c_bus := Val tb; c_gen := Val tg; c_branch := Val tl; c_areas := fa; c_gencost := fc; c_version := Val false |}.
  split.
  { unfold savecase. cbn [guard negb bind]. rewrite E. cbn [guard negb bind]. rewrite B. cbn [show bind]. rewrite Eb, Eg, El. cbn [bind]. rewrite EA. cbn [bind]. rewrite EC. cbn [bind].
    unfold save_user. rewrite UA, UN, U0, U1, U2. cbn [has_rows guard negb bind save_var]. reflexivity. }
  split.
  { unfold load_py, read_py. cbn [app forallb in_place]. rewrite ID, !forallb_app, PA, PC. cbn [forallb in_place Nat.eqb andb negb].
    rewrite BN, String.eqb_refl. cbn [negb]. cbn [foldM exec value_of bind]. rewrite Rb. cbn [bind foldM exec]. rewrite Rg. cbn [bind foldM exec]. rewrite Rl. cbn [bind foldM exec].
    assert (FA : forall l1 l2 x, foldM (fun c s => exec s c) (l1 ++ l2) x = (y <- foldM (fun c s => exec s c) l1 x ;; foldM (fun c s => exec s c) l2 y)).
    { clear. induction l1 as [|a l1 IH]; intros l2 x; [reflexivity|]. cbn [app foldM]. destruct (exec a x); [cbn [bind]; apply IH|reflexivity]. }
    rewrite FA, XA by reflexivity. cbn [bind]. rewrite FA, XC by reflexivity. cbn [bind app foldM exec c_gen assign empty_case String.eqb Ascii.eqb Bool.eqb].
    cbn. destruct tg as [cg [|r rs]]; [exfalso; apply Ng; reflexivity|]. cbn in W |- *. rewrite W. reflexivity. }
  constructor; cbn [c_baseMVA c_bus c_gen c_branch c_areas c_gencost c_version]; eauto. intros q' B'. rewrite B in B'. congruence.
Qed.

Lemma list_ext {A} (l : list A) : forall l', length l = length l' -> (forall j a, nth_error l j = Some a -> nth_error l' j = Some a) -> l = l'.
Proof.
  induction l as [|x l IH]; intros [|y l'] L H; cbn in L; try discriminate; [reflexivity|]. f_equal.
  - specialize (H 0 x eq_refl). cbn in H. congruence.
  - apply IH; [lia|]. intros j a E. apply (H (S j) a E).
Qed.
Lemma keeps_exactly whole res w t t' : rounding g9 f4 -> table_ok t -> w <= a_cols t -> short_cells whole res w t ->
  keeps g9 f4 whole res w t t' -> exactly whole res w t t'.
Proof.
  intros (R9 & R4) (R & A & _) L S (K1 & K2 & K3 & K4). split; [exact K1|]. symmetry. apply list_ext; [rewrite map_length; auto|].
  intros i r E. rewrite nth_error_map in E. destruct (nth_error (a_rows t) i) as [r0|] eqn:E0; [|discriminate]. injection E as <-.
  destruct (nth_error (a_rows t') i) as [r'|] eqn:E'; [|apply nth_error_None in E'; assert (i < length (a_rows t)) by (apply nth_error_Some; congruence); lia].
  f_equal. symmetry. pose proof (proj1 (Forall_forall _ _) R r0 (nth_error_In _ _ E0)) as L0. pose proof (proj1 (Forall_forall _ _) K3 r' (nth_error_In _ _ E')) as L'.
  pose proof (proj1 (Forall_forall _ _) A r0 (nth_error_In _ _ E0)) as F0. cbv beta in L0, L', F0.
  apply list_ext; [rewrite firstn_length; lia|]. intros j a Ea. assert (Hj : j < w) by (assert (j < length (firstn w r0)) by (apply nth_error_Some; congruence); rewrite firstn_length in *; lia).
  rewrite firstn_nth_error in Ea by auto. destruct (proj1 (Forall_forall _ _) F0 a (nth_error_In _ _ Ea)) as (q & ->).
  assert (X : entry t i j = Some (Fin q)) by (unfold entry; rewrite E0; exact Ea). pose proof (K4 i j q Hj X) as Y. unfold entry in Y. rewrite E' in Y. rewrite Y. do 2 f_equal.
  specialize (S i j q Hj X). unfold kept_value. destruct (existsb _ _); [destruct S as (z & ->); rewrite qtrunc_zc; reflexivity|].
  destruct (res <=? j); auto.
Qed.

(** numbers with few digits come back unchanged *)
Theorem C117_exact_partial c fname : rounding g9 f4 -> savable c -> short_case c -> good_name fname ->
  exists f file c', savecase g9 f4 fname false c = Ok (f, file) /\ load_py f file = Got c' /\ c_baseMVA c' = Val (sc_base c) /\ comes_back g9 exactly c c'.
Proof.
  intros R V S G. destruct (C117_saved_partial c fname V G) as (f & file & c' & E & L & [HB Hb Hg Hl HA HC HV]). exists f, file, c'. do 2 (split; [assumption|]).
  destruct V as [(q & B) (Tb & Lb) (Tg & Lg) (Tl & Ll & N1 & N2) SA SC _]. destruct S as [S0 Sb Sg Sl SSA SSC].
  split; [rewrite (HB q B), B; do 2 f_equal; apply R; auto|]. constructor.
  - exact HB.
  - destruct Hb as (t & Et & K). exists t. split; [exact Et|]. eapply keeps_exactly; eauto. unfold bus_width. destruct (_ <? 17) eqn:W; [lia|]. apply Nat.ltb_ge in W. exact W.
  - destruct Hg as (t & Et & K). exists t. split; [exact Et|]. eapply keeps_exactly; eauto. unfold gen_width. destruct (_ <? 25) eqn:W; [lia|]. apply Nat.ltb_ge in W. exact W.
  - destruct Hl as (t & Et & K). exists t. split; [exact Et|]. eapply keeps_exactly; eauto. unfold branch_width. destruct (_ <? 17) eqn:W; [lia|]. apply Nat.ltb_ge in W.
    destruct (_ <? 19) eqn:W2; [lia|]. apply Nat.ltb_ge in W2. lia.
  - unfold keeps_opt in *. destruct (sc_areas c) as [t|], (c_areas c'); try contradiction; auto. destruct (SA t eq_refl). eapply keeps_exactly; eauto.
  - unfold keeps_opt in *. destruct (sc_gencost c) as [t|], (c_gencost c'); try contradiction; auto. destruct (SC t eq_refl). eapply keeps_exactly; eauto.
  - exact HV.
Qed.

(** ** Cases that cannot be saved *)
Definition never_saved (c : scase) : Prop := forall fname v1 x, savecase g9 f4 fname v1 c <> Ok x.
Ltac step E H := match type of H with bind ?e _ = Ok _ => destruct e as [?|?] eqn:E; [cbn [bind] in H|discriminate H] end.

(** what a case that is saved has passed *)
Lemma saved_inv c fname v1 x : savecase g9 f4 fname v1 c = Ok x -> (exists b, save_gen g9 f4 (sc_gen c) = Ok b) /\ (exists b, save_branch g9 f4 (sc_branch c) = Ok b) /\ (exists b, save_bus g9 f4 (sc_bus c) = Ok b) /\
  (forall t, sc_gencost c = Some t -> a_rows t <> [] -> exists b, save_gencost g9 f4 (a_rows t) = Ok b) /\ save_user c = Ok tt /\
  (exists b, save_var g9 f4 4 "z0" (sc_z0 c) = Ok b) /\ (exists b, save_var g9 f4 8 "zl" (sc_zl c) = Ok b) /\ (exists b, save_var g9 f4 4 "zu" (sc_zu c) = Ok b).
Proof.
  intros H. unfold savecase in H. step E0 H. destruct (target fname) as ((f & root) & mat). step E1 H. step E2 H. step E3 H. step E4 H. step E5 H. step E6 H.
  step E7 H. step E8 H. step E9 H. step E10 H. step E11 H. do 3 (split; [eauto|]). split.
  - intros t Ht N. rewrite Ht in E7. cbn [nonempty] in E7. rewrite (rows_nonempty t N) in E7. step E E7. eauto.
  - match goal with H : save_user c = Ok ?u |- _ => destruct u end. eauto 7.
Qed.

(** cost rows with columns beyond those in use *)
Theorem C117_wide_costs_refuted c t : sc_gencost c = Some t -> a_rows t <> [] ->
  (forall r, In r (a_rows t) -> exists m, uses r m /\ 4 + Z.to_nat m < length r) -> never_saved c.
Proof. intros E N H fname v1 x C. apply saved_inv in C as (_ & _ & _ & C & _). destruct (C t E N) as (b & Q). exact (gencost_wide g9 f4 _ N H b Q). Qed.
(** generator tables of the old format, and branch tables with 19 or 20 columns *)
Theorem C117_widths_refuted c : (rectangular (sc_gen c) /\ a_rows (sc_gen c) <> [] /\ a_cols (sc_gen c) < 21) \/
  (rectangular (sc_branch c) /\ a_rows (sc_branch c) <> [] /\ (a_cols (sc_branch c) < 13 \/ a_cols (sc_branch c) = 19 \/ a_cols (sc_branch c) = 20)) -> never_saved c.
Proof.
  intros H fname v1 x C. apply saved_inv in C as ((b1 & G) & (b2 & L) & _). destruct H as [(R & N & W)|(R & N & W)].
  - unfold save_gen in G. change (MU_QMIN + 1) with 25 in G. replace (a_cols (sc_gen c) <? 25) with true in G by (symmetry; apply Nat.ltb_lt; lia).
    destruct (a_rows (sc_gen c)) as [|r l] eqn:E; [contradiction|]. pose proof (rows_width g9 f4 _ _ _ _ r G (or_introl eq_refl)) as Q.
    unfold rectangular in R. rewrite E in R. pose proof (Forall_inv R) as R1. cbv beta in R1. rewrite R1 in Q. change (length gen_fmt) with 21 in Q. change (APF + 1) with 21 in Q. lia.
  - unfold save_branch in L. change (QT + 1) with 17 in L. change (MU_ST + 1) with 19 in L. unfold rectangular in R. destruct (a_rows (sc_branch c)) as [|r l] eqn:E; [contradiction|]. pose proof (Forall_inv R) as R1. cbv beta in R1.
    destruct (a_cols (sc_branch c) <? 17) eqn:W1; [apply Nat.ltb_lt in W1; pose proof (rows_width g9 f4 _ _ _ _ r L (or_introl eq_refl)) as Q; rewrite R1 in Q; change (ANGMAX + 1) with 13 in Q; change (length branch_fmt) with 13 in Q; lia|].
    apply Nat.ltb_ge in W1. replace (a_cols (sc_branch c) <? 19) with false in L by (symmetry; apply Nat.ltb_ge; lia).
    pose proof (rows_width g9 f4 _ _ _ _ r L (or_introl eq_refl)) as Q. rewrite R1 in Q. change (length _) with 21 in Q. change (MU_ANGMAX + 1) with 21 in Q. lia.
Qed.

(** user constraints or costs; user variables, unless there is just one *)
Theorem C118_matrices_refuted c m : sc_A c = Some m \/ sc_N c = Some m -> u_sparse m = true \/ u_rows m <> [] -> never_saved c.
Proof.
  intros H D fname v1 x C. apply saved_inv in C as (_ & _ & _ & _ & C & _). unfold save_user in C.
  assert (N : has_rows (Some m) <> Ok false).
  { cbn [has_rows]. destruct (u_sparse m); [discriminate|]. destruct D as [D|D]; [discriminate|]. destruct (u_rows m); [contradiction|discriminate]. }
  step E1 C. step E2 C. step E3 C. step E4 C. destruct H as [H|H].
  - rewrite H in E1. destruct a; [discriminate E3|]. contradiction.
  - rewrite H in E4. match goal with E : has_rows (Some m) = Ok ?b |- _ => destruct b; [discriminate C|contradiction] end.
Qed.
Theorem C118_variables_refuted c z : sc_z0 c = Some z \/ sc_zl c = Some z \/ sc_zu c = Some z -> 2 <= length z -> never_saved c.
Proof.
  intros H L fname v1 x C. apply saved_inv in C as (_ & _ & _ & _ & _ & (b0 & C0) & (b1 & C1) & (b2 & C2)).
  destruct z as [|y [|y' z]]; cbn in L; try lia. destruct H as [H|[H|H]]; [rewrite H in C0; discriminate C0|rewrite H in C1; discriminate C1|rewrite H in C2; discriminate C2].
Qed.
(** a lower bound on a single user variable gives a file that cannot be read *)
Theorem C118_lower_refuted c z fname f file : sc_zl c = Some [z] -> savecase g9 f4 fname false c = Ok (f, file) -> load_py f file = SyntaxError.
Proof.
  intros Z H. unfold savecase in H. step E0 H. destruct (target fname) as ((f' & root) & mat). step E1 H. step E2 H. step E3 H. step E4 H. step E5 H. step E6 H.
  step E7 H. step E8 H. step E9 H. step E10 H. step E11 H. injection H as <- <-. rewrite Z in E10. cbn [save_var] in E10. step E E10. injection E10 as <-.
  unfold load_py, read_py. cbn [app forallb]. rewrite !forallb_app. cbn [app forallb in_place Nat.eqb andb]. rewrite !andb_false_r. reflexivity.
Qed.
(** the old format cannot be written *)
Theorem C118_version1 c fname : savecase g9 f4 fname true c = Err NotImplementedError.
Proof. reflexivity. Qed.
End Save.
Print Assumptions C117_saved_partial.
Print Assumptions C117_exact_partial.
Print Assumptions C117_wide_costs_refuted.
Print Assumptions C117_widths_refuted.
Print Assumptions C118_matrices_refuted.
Print Assumptions C118_variables_refuted.
Print Assumptions C118_lower_refuted.

(** ** Examples *)
Definition n_row (l : list (Z * positive)) : list num := map (fun p => Fin (qc (fst p) (snd p))) l.
Definition z_row (l : list Z) : list num := map (fun z => Fin (zc z)) l.
Definition x_bus := {| a_cols := 13; a_rows := [z_row [1; 3; 0; 0; 0; 0; 1; 1; 0; 345; 1; 1; 1]; z_row [2; 1] ++ n_row [(1801, 20%positive); (30, 1%positive); (0, 1%positive); (0, 1%positive); (1, 1%positive); (1, 1%positive); (0, 1%positive); (345, 1%positive); (1, 1%positive); (11, 10%positive); (9, 10%positive)]]%Z |}.
Definition x_gen (lim : num) := {| a_cols := 21; a_rows := [z_row [1; 0; 0; 300] ++ [lim] ++ z_row [1; 100; 1; 250; 10; 0; 0; 0; 0; 0; 0; 0; 0; 0; 0; 0]]%Z |}.
Definition x_branch := {| a_cols := 13; a_rows := [z_row [1; 2; 0] ++ n_row [(576, 10000%positive)] ++ z_row [0; 250; 250; 250; 0; 0; 1; -360; 360]]%Z |}.
Definition x_cost (w : nat) := {| a_cols := w; a_rows := [z_row [2; 1500; 0; 3]%Z ++ n_row [(11, 100%positive); (5, 1%positive); (150, 1%positive)]%Z ++ repeat (Fin (zc 0)) (w - 7)] |}.
Definition x_case (w : nat) (lim : num) (zl : option (list num)) : scase := {| sc_base := Fin (zc 100); sc_bus := x_bus; sc_gen := x_gen lim; sc_branch := x_branch; sc_areas := None;
  sc_gencost := Some (x_cost w); sc_A := None; sc_N := None; sc_z0 := None; sc_zl := zl; sc_zu := None |}.

Ltac fin_rows := repeat constructor; eexists; reflexivity.
Lemma x_savable : savable (x_case 7 (Fin (zc (-300))) None).
Proof.
  constructor.
  - eexists. reflexivity.
  - split; [split; [repeat constructor|split; [fin_rows|discriminate]]|cbn; lia].
  - split; [split; [repeat constructor|split; [fin_rows|discriminate]]|cbn; lia].
  - split; [split; [repeat constructor|split; [fin_rows|discriminate]]|cbn; lia].
  - discriminate.
  - intros t E. injection E as <-. split; [split; [repeat constructor|split; [fin_rows|discriminate]]|].
    exists 3%Z. split; [reflexivity|]. split; [lia|]. assert (U : uses (z_row [2; 1500; 0; 3]%Z ++ n_row [(11%Z, 100%positive); (5%Z, 1%positive); (150%Z, 1%positive)]) 3) by (exists 3%Z; split; [lia|]; split; [reflexivity|]; right; split; reflexivity).
    split; [eexists; split; [left; reflexivity|exact U]|]. intros r [<-|[]]. exists 3%Z. split; [exact U|lia].
  - repeat split.
Qed.
Example x_name : good_name "out/case2" /\ good_name "case2.py".
Proof. split; split; reflexivity. Qed.
(** written with exact numbers, the case comes back as it was *)
Example C117_example : match savecase (fun q => q) (fun q => q) "out/case2" false (x_case 7 (Fin (zc (-300))) None) with
  | Ok (f, file) => f = "out/case2.py"%string /\ match load_py f file with
      | Got c => c_bus c = Val x_bus /\ c_gen c = Val (x_gen (Fin (zc (-300)))) /\ c_branch c = Val x_branch /\ c_gencost c = Val (x_cost 7) /\ c_areas c = Missing | _ => False end
  | _ => False end.
Proof. vm_compute. repeat split. Qed.
(** a padded cost table is not written *)
Example C117_padded_example : savecase (fun q => q) (fun q => q) "case2" false (x_case 8 (Fin (zc (-300))) None) = Err TypeError.
Proof. vm_compute. reflexivity. Qed.
(** a generator without a lower limit on its reactive power is saved, and the file cannot be loaded *)
Theorem C117_infinite_refuted g9 f4 : exists f file, savecase g9 f4 "case2" false (x_case 7 NInf None) = Ok (f, file) /\ load_py f file = Raises NameError.
Proof. do 2 eexists. split; vm_compute; reflexivity. Qed.
Print Assumptions C117_infinite_refuted.
(** nor can a file whose name is not a Python identifier *)
Theorem C117_name_refuted g9 f4 : exists f file, savecase g9 f4 "2bus" false (x_case 7 (Fin (zc (-300))) None) = Ok (f, file) /\ load_py f file = SyntaxError.
Proof. do 2 eexists. split; vm_compute; reflexivity. Qed.
Print Assumptions C117_name_refuted.
(** a lower bound of a user variable *)
Example C118_lower_example : match savecase (fun q => q) (fun q => q) "case2" false (x_case 7 (Fin (zc (-300))) (Some [Fin (zc 1)])) with
  | Ok (f, file) => load_py f file = SyntaxError | Err _ => False end.
Proof. vm_compute. reflexivity. Qed.
Example C118_matrix_example : savecase (fun q => q) (fun q => q) "case2" false
  {| sc_base := Fin (zc 100); sc_bus := x_bus; sc_gen := x_gen (Fin (zc 0)); sc_branch := x_branch; sc_areas := None; sc_gencost := None;
     sc_A := Some {| u_sparse := false; u_cols := 2; u_rows := [z_row [1; 0]%Z] |}; sc_N := None; sc_z0 := None; sc_zl := None; sc_zu := None |} = Err AttributeError.
Proof. vm_compute. reflexivity. Qed.
(** the hypotheses of [C117_exact_partial] hold for this case *)
Definition tenths (x : Qc) : Z := (Qnum (this x) * 10000 / Zpos (Qden (this x)))%Z.
Definition short_b (whole : list nat) (res j : nat) (x : num) : bool :=
  match x with
  | Fin q => if existsb (Nat.eqb j) whole then qc_eqb q (zc (qtrunc q)) else
      qc_eqb q (decimal (tenths q) (-4)) && ((res <=? j) || (Z.abs (tenths q) <? 10 ^ 9)%Z)
  | _ => true
  end.
Lemma short_b_ok whole res j q : short_b whole res j (Fin q) = true ->
  if existsb (Nat.eqb j) whole then exists z, q = zc z else if res <=? j then short4 q else short9 q.
Proof.
  cbn [short_b]. destruct (existsb _ _); [intros H; apply qc_eqb_eq in H; eauto|]. intros H. apply andb_prop in H as (H & L). apply qc_eqb_eq in H.
  destruct (res <=? j); [exists (tenths q); exact H|]. exists (tenths q), (-4)%Z. split; [apply Z.ltb_lt; exact L|exact H].
Qed.
Fixpoint short_row (whole : list nat) (res j : nat) (r : list num) : bool :=
  match r with [] => true | x :: r' => short_b whole res j x && short_row whole res (S j) r' end.
Lemma short_row_ok whole res r : forall k j x, short_row whole res k r = true -> nth_error r j = Some x -> short_b whole res (k + j) x = true.
Proof.
  induction r as [|y r IH]; intros k [|j] x H E; cbn [short_row nth_error] in *; try discriminate; apply andb_prop in H as (H1 & H2).
  - injection E as <-. rewrite Nat.add_0_r. exact H1.
  - rewrite <- plus_n_Sm. apply (IH (S k) j x H2 E).
Qed.
Lemma short_rows_ok whole res w t : forallb (short_row whole res 0) (a_rows t) = true -> short_cells whole res w t.
Proof.
  intros H i j x _ E. unfold entry in E. destruct (nth_error (a_rows t) i) as [r|] eqn:R; [|discriminate]. rewrite forallb_forall in H.
  apply short_b_ok. exact (short_row_ok whole res r 0 j _ (H r (nth_error_In _ _ R)) E).
Qed.
Lemma x_short : short_case (x_case 7 (Fin (zc (-300))) None).
Proof.
  constructor; try (apply short_rows_ok; vm_compute; reflexivity).
  - intros q E. cbn in E. injection E as <-. exists 1%Z, 2%Z. split; [reflexivity|]. apply qc_eqb_eq. vm_compute. reflexivity.
  - discriminate.
  - intros t E. injection E as <-. apply short_rows_ok. vm_compute. reflexivity.
Qed.
Example C117_exact_example g9 f4 : rounding g9 f4 -> exists f file c', savecase g9 f4 "case2" false (x_case 7 (Fin (zc (-300))) None) = Ok (f, file) /\ load_py f file = Got c' /\
  c_baseMVA c' = Val (Fin (zc 100)) /\ comes_back g9 exactly (x_case 7 (Fin (zc (-300))) None) c'.
Proof. intros R. apply (C117_exact_partial g9 f4 _ "case2" R x_savable x_short). split; reflexivity. Qed.
(** a case with a padded cost table, as in [C117_wide_costs_refuted] *)
Example C117_padded_never g9 f4 : never_saved g9 f4 (x_case 8 (Fin (zc (-300))) None).
Proof.
  apply (C117_wide_costs_refuted g9 f4 _ (x_cost 8)); [reflexivity|discriminate|]. intros r [<-|[]]. exists 3%Z. split; [|cbn; lia].
  exists 3%Z. split; [lia|]. split; [reflexivity|]. right. split; reflexivity.
Qed.
(** values with more digits, or fractions in whole-number columns, change: one third of a bus type, 1/3 in 9 digits *)
Example C117_cut_example : match savecase (fun q => Q2Qc (inject_Z (qtrunc (q * zc 1000000000)) / inject_Z 1000000000)) (fun q => q) "case2" false
     {| sc_base := Fin (qc 1 3); sc_bus := {| a_cols := 13; a_rows := [n_row [(7%Z, 2%positive)] ++ z_row [3; 0; 0; 0; 0; 1; 1; 0; 345; 1; 1; 1]%Z] |}; sc_gen := x_gen (Fin (zc 0)); sc_branch := x_branch; sc_areas := None;
        sc_gencost := None; sc_A := None; sc_N := None; sc_z0 := None; sc_zl := None; sc_zu := None |} with
  | Ok (f, file) => match load_py f file with
      | Got c => c_baseMVA c = Val (Fin (qc 333333333 1000000000)) /\ match c_bus c with Val t => entry t 0 0 = Some (Fin (zc 3)) | _ => False end
      | _ => False end
  | _ => False end.
Proof. vm_compute. repeat split; repeat f_equal; apply Qc_is_canon; reflexivity. Qed.
