(** Property C127: multipliers in the results of IPOPT. *)
From Coq Require Import Lia.
From Verif Require Import Lib.ListFacts Lib.QcFacts Model.IpoptRes Spec.PipsSpec Proofs.SparseFacts Proofs.FldFacts Proofs.NetworkC Proofs.OrdFacts Proofs.IpoptB Proofs.IpoptD.
Local Open Scope nat_scope.

Section Multipliers.
Context {K : Type} {F : Fld K}.
Add Field KF : (@f_ok K F).

Lemma pick_ok sel g (lam into r : list K) : pick sel g lam into = Ok r -> length r = length into /\
  forall i, i < length into -> nth i r 0%K = if (i <? length lam) && sel (nth i lam 0%K) then g (nth i lam 0%K) else nth i into 0%K.
Proof.
  unfold pick. intros H. step H. apply scatter_checked_ok in H as (L & B & ->). rewrite map_length in L. rewrite Forall_forall in B. split; [apply scatter_length|]. intros i Hi.
  destruct (Nat.ltb_spec i (length lam)) as [Q|Q]; cbn [andb].
  - destruct (sel (nth i lam 0%K)) eqn:S.
    + assert (I : In i (find (map sel lam))) by (apply in_find; rewrite nth_error_map, (nth_error_nth' _ 0%K) by auto; cbn; congruence). apply In_nth_error in I as (k & Hk).
      apply nth_error_nth. apply (scatter_at _ _ _ k i); auto; [apply find_NoDup|]. rewrite nth_error_map, (gather_nth _ _ _ _ _ E Hk), (nth_error_nth' _ 0%K) by auto. reflexivity.
    + assert (I : ~ In i (find (map sel lam))) by (intros I; apply in_find in I; rewrite nth_error_map, (nth_error_nth' _ 0%K) in I by auto; cbn in I; congruence).
      erewrite nth_error_nth; [reflexivity|]. rewrite scatter_other by auto. apply nth_error_nth'. auto.
  - assert (I : ~ In i (find (map sel lam))) by (intros I; apply find_lt in I; rewrite map_length in I; lia).
    erewrite nth_error_nth; [reflexivity|]. rewrite scatter_other by auto. apply nth_error_nth'. auto.
Qed.
Lemma gather_block (l v : list K) a n i : gather l (seq a n) = Ok v -> i < n -> nth i v 0%K = nth (a + i) l 0%K.
Proof.
  intros E Hi. assert (Hk : nth_error (seq a n) i = Some (a + i)) by (rewrite (nth_error_nth' _ 0) by (rewrite seq_length; lia); rewrite seq_nth by lia; reflexivity).
  pose proof (gather_nth _ _ _ _ _ E Hk) as Q. assert (Li : i < length v) by (rewrite (gather_length _ _ _ E), seq_length; auto). rewrite (nth_error_nth' v 0%K Li) in Q. symmetry in Q. symmetry. apply nth_error_nth. exact Q.
Qed.
Lemma ewise_nth (g : K -> K -> K) u v w i : ewise g u v = Ok w -> i < length u -> nth i w 0%K = g (nth i u 0%K) (nth i v 0%K).
Proof.
  unfold ewise. destruct (Nat.eqb_spec (length u) (length v)) as [Q|]; [|discriminate]. intros E Hi. injection E as <-. unfold map2. apply nth_error_nth.
  rewrite nth_error_map, (nth_error_nth' _ (0%K, 0%K)) by (rewrite combine_length; lia). rewrite combine_nth by auto. reflexivity.
Qed.
Lemma flow_ok nl il (m r : list K) : scatter_checked (repeat 0%K nl) il m = Ok r -> NoDup il -> length r = nl /\
  (forall k l, nth_error il k = Some l -> nth l r 0%K = nth k m 0%K /\ l < nl) /\ (forall l, ~ In l il -> nth l r 0%K = 0%K).
Proof.
  intros H ND. apply scatter_checked_ok in H as (L & B & ->). rewrite Forall_forall, repeat_length in B. split; [rewrite scatter_length, repeat_length; auto|split].
  - intros k l Hk. assert (I : l < nl) by (apply B; eapply nth_error_In, Hk). split; auto. apply nth_error_nth. apply (scatter_at _ _ _ k l); auto; [|rewrite repeat_length; auto].
    apply nth_error_nth'. rewrite <- L. apply nth_error_Some. congruence.
  - intros l Hl. destruct (Nat.lt_ge_cases l nl) as [Q|Q]; [|apply nth_overflow; rewrite scatter_length, repeat_length; auto].
    apply nth_error_nth. rewrite scatter_other by auto. apply nth_error_repeat. auto.
Qed.

(** a multiplier as the difference of two that are not negative, of which one is zero *)
Definition parts (lam l u : K) : Prop := (u - l)%K = lam /\ le 0%K l /\ le 0%K u /\ (l = 0%K \/ u = 0%K).
Lemma parts_of a : parts a (if fltb a 0%K then ropp a else 0%K) (if fltb 0%K a then a else 0%K).
Proof.
  unfold parts. destruct (lt_le_dec a 0%K) as [L|L].
  - rewrite L. assert (E : fltb 0%K a = false) by (apply lt_le, L). rewrite E. split; [ring|]. split; [apply lt_le; apply pos_opp in L; exact L|]. split; [apply le_refl|auto].
  - red in L. rewrite L. destruct (fltb 0%K a) eqn:E.
    + split; [ring|]. split; [apply le_refl|split; [exact L|auto]].
    + assert (a = 0%K) by (apply le_antisym; auto). subst. split; [ring|]. split; [apply le_refl|split; [apply le_refl|auto]].
Qed.

(** whenever the multipliers are computed for distinct limited branches *)
Theorem C127_multipliers nb nl nA ny base il rate lmbda zl zu m : ipopt_mu nb nl nA ny base il rate lmbda zl zu = Ok m -> NoDup il ->
  let nl2 := length il in let n := 2 * nb + nl + nl in
  length (nln_l m) = n /\ length (nln_u m) = n /\ length (lin_l m) = nA /\ length (lin_u m) = nA /\
  (forall i, i < 2 * nb -> i < length lmbda -> parts (nth i lmbda 0%K) (nth i (nln_l m) 0%K) (nth i (nln_u m) 0%K)) /\
  (forall k l, nth_error il k = Some l -> l < nl /\
     nth (2 * nb + l) (nln_u m) 0%K = (fofZ 2 * nth (2 * nb + k) lmbda 0 * nth k rate 0 / base)%K /\
     nth (2 * nb + nl + l) (nln_u m) 0%K = (fofZ 2 * nth (2 * nb + nl2 + k) lmbda 0 * nth k rate 0 / base)%K) /\
  (forall l, l < nl -> ~ In l il -> nth (2 * nb + l) (nln_u m) 0%K = 0%K /\ nth (2 * nb + nl + l) (nln_u m) 0%K = 0%K) /\
  (forall i, 2 * nb <= i < n -> nth i (nln_l m) 0%K = 0%K) /\
  (forall r, r < nA -> parts (nth (2 * nb + 2 * nl2 + r) lmbda 0%K) (nth r (lin_l m) 0%K) (nth r (lin_u m) 0%K)).
Proof.
  intros H ND. unfold ipopt_mu in H. do 14 step H. injection H as <-. cbn [nln_l nln_u lin_l lin_u pimul].
  destruct (flow_ok _ _ _ _ E3 ND) as (LF & F1 & F2). destruct (flow_ok _ _ _ _ E4 ND) as (LT & T1 & T2).
  destruct (pick_ok _ _ _ _ _ E5) as (L5 & P5). destruct (pick_ok _ _ _ _ _ E6) as (L6 & P6). destruct (pick_ok _ _ _ _ _ E8) as (L8 & P8). destruct (pick_ok _ _ _ _ _ E9) as (L9 & P9).
  rewrite repeat_length in L5, L8, L9, P5, P8, P9. rewrite !app_length, repeat_length, LF, LT in L6, P6.
  pose proof (firstn_length (2 * nb) lmbda) as LE. pose proof (gather_length _ _ _ E) as G0. pose proof (gather_length _ _ _ E0) as G1. pose proof (gather_length _ _ _ E7) as G7. rewrite seq_length in G0, G1, G7.
  split; [lia|split; [lia|split; [lia|split; [lia|]]]]. split; [|split; [|split; [|split]]].
  - intros i Hi Hl. rewrite P5, P6 by lia. destruct (Nat.ltb_spec i (length (firstn (2 * nb) lmbda))) as [Q|Q]; [|lia]. cbn [andb].
    assert (EN : nth i (firstn (2 * nb) lmbda) 0%K = nth i lmbda 0%K) by (rewrite <- (firstn_skipn (2 * nb) lmbda) at 2; rewrite app_nth1 by lia; reflexivity). rewrite EN.
    rewrite app_nth1 by (rewrite repeat_length; lia). rewrite !nth_repeat. apply parts_of.
  - intros k l Hk. destruct (F1 k l Hk) as (F1' & Ll). destruct (T1 k l Hk) as (T1' & _). assert (Kk : k < length il) by (apply nth_error_Some; congruence). split; auto.
    rewrite !P6 by lia. destruct (Nat.ltb_spec (2 * nb + l) (length (firstn (2 * nb) lmbda))); [lia|]. destruct (Nat.ltb_spec (2 * nb + nl + l) (length (firstn (2 * nb) lmbda))); [lia|]. cbn [andb]. split.
    + rewrite app_nth2 by (rewrite repeat_length; lia). rewrite repeat_length. replace (2 * nb + l - 2 * nb) with l by lia. rewrite app_nth1 by lia. rewrite F1', (ewise_nth _ _ _ _ _ E1) by lia. rewrite (gather_block _ _ _ _ _ E) by lia. reflexivity.
    + rewrite app_nth2 by (rewrite repeat_length; lia). rewrite repeat_length. rewrite app_nth2 by lia. replace (2 * nb + nl + l - 2 * nb - length x3) with l by lia. rewrite T1', (ewise_nth _ _ _ _ _ E2) by lia. rewrite (gather_block _ _ _ _ _ E0) by lia. reflexivity.
  - intros l Ll Nl. rewrite !P6 by lia. destruct (Nat.ltb_spec (2 * nb + l) (length (firstn (2 * nb) lmbda))); [lia|]. destruct (Nat.ltb_spec (2 * nb + nl + l) (length (firstn (2 * nb) lmbda))); [lia|]. cbn [andb].
    assert (R0 : length (repeat (0%K : K) (2 * nb)) = 2 * nb) by apply repeat_length. split.
    + rewrite app_nth2 by lia. rewrite app_nth1 by lia. rewrite R0. replace (2 * nb + l - 2 * nb) with l by lia. auto.
    + rewrite app_nth2 by lia. rewrite app_nth2 by lia. rewrite R0. replace (2 * nb + nl + l - 2 * nb - length x3) with l by lia. auto.
  - intros i Hi. rewrite P5 by lia. destruct (Nat.ltb_spec i (length (firstn (2 * nb) lmbda))); [lia|]. cbn [andb]. apply nth_repeat.
  - intros r Hr. rewrite P8, P9 by lia. rewrite G7. destruct (Nat.ltb_spec r nA); [|lia]. cbn [andb]. rewrite !nth_repeat. rewrite (gather_block _ _ _ _ _ E7) by auto. apply parts_of.
Qed.

Lemma ewise_length (g : K -> K -> K) u v w : ewise g u v = Ok w -> length w = length u.
Proof. unfold ewise. destruct (Nat.eqb_spec (length u) (length v)) as [Q|]; [|discriminate]. intros E. injection E as <-. unfold map2. rewrite map_length, combine_length. lia. Qed.

(** the vector pimul: minus the multipliers of IPOPT, one entry for the cost, the bounds last *)
Theorem C127_pimul nb nl nA ny base il rate lmbda zl zu m : ipopt_mu nb nl nA ny base il rate lmbda zl zu = Ok m -> NoDup il ->
  let n := 2 * nb + nl + nl in let c := if 0 <? ny then 1 else 0 in
  length (pimul m) = n + nA + c + length zl /\
  (forall i, i < 2 * nb -> i < length lmbda -> nth i (pimul m) 0%K = (0 - nth i lmbda 0)%K) /\
  (forall r, r < nA -> nth (n + r) (pimul m) 0%K = (0 - nth (2 * nb + 2 * length il + r) lmbda 0)%K) /\
  (0 < ny -> nth (n + nA) (pimul m) 0%K = (0 - 1)%K) /\
  (forall j, j < length zl -> nth (n + nA + c + j) (pimul m) 0%K = (nth j zl 0 - nth j zu 0)%K).
Proof.
  intros H ND. pose proof (C127_multipliers _ _ _ _ _ _ _ _ _ _ _ H ND) as (L1 & L2 & L3 & L4 & B & _ & _ & _ & R). unfold ipopt_mu in H. do 14 step H. injection H as <-. cbn [nln_l nln_u lin_l lin_u pimul] in *.
  pose proof (ewise_length _ _ _ _ E10) as M1. pose proof (ewise_length _ _ _ _ E11) as M2. pose proof (ewise_length _ _ _ _ E12) as M3. rewrite L1 in M1. rewrite L3 in M2.
  cbv zeta. split; [rewrite !app_length, repeat_length; lia|]. split; [|split; [|split]].
  - intros i Hi Hl. rewrite app_nth1 by lia. rewrite (ewise_nth _ _ _ _ _ E10) by lia. destruct (B i Hi Hl) as (Q & _). rewrite <- Q. ring.
  - intros r Hr. rewrite app_nth2 by lia. rewrite app_nth1 by lia. rewrite M1. replace (2 * nb + nl + nl + r - (2 * nb + nl + nl)) with r by lia. rewrite (ewise_nth _ _ _ _ _ E11) by lia. destruct (R r Hr) as (Q & _). rewrite <- Q. ring.
  - intros Hn. rewrite !app_nth2 by lia. rewrite M1, M2. replace (2 * nb + nl + nl + nA - (2 * nb + nl + nl) - nA) with 0 by lia. destruct (Nat.ltb_spec 0 ny); [|lia]. cbn [repeat app nth]. ring.
  - intros j Hj. rewrite !app_nth2 by (rewrite ?repeat_length; lia). rewrite repeat_length, M1, M2. match goal with |- nth ?a _ _ = _ => replace a with j by lia end. apply (ewise_nth _ _ _ _ _ E12). auto.
Qed.
End Multipliers.
Print Assumptions C127_multipliers.
Print Assumptions C127_pimul.

(** one bus, two branches of which the second has a limit of 50, one linear constraint, base 100 *)
Definition ex_mu := ipopt_mu (K := Qc) 1 2 1 1 (qc 100 1) [1] [qc 50 1] [qc (-3) 1; qc 4 1; qc 6 1; qc 8 1; qc (-5) 1] [qc 1 1] [qc 2 1].
Definition show (r : result (@ipmu Qc)) : list (list Q) :=
  match r with Ok m => map (map this) [nln_l m; nln_u m; lin_l m; lin_u m; pimul m] | _ => [] end.
Example C127_example : show ex_mu =
  map (map (fun z => inject_Z z)) [[3;0;0;0;0;0]; [0;4;0;6;0;8]; [5]; [0]; [3;-4;0;-6;0;-8;5;-1;-1]]%Z.
Proof. vm_compute. reflexivity. Qed.
