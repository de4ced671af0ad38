(** The DC problem with reserves, in internal numbering. *)
From Verif Require Import Lib.ListFacts Model.Reserves Spec.ReserveSpec Spec.PipsRun Proofs.SparseFacts Proofs.FldFacts
  Proofs.OrdFacts Proofs.PipsF Proofs.PipsG Proofs.PipsI Proofs.DcOpfA Proofs.DcOpfB Proofs.DcOpfC Proofs.DcOpfD
  Proofs.DcOpfE Proofs.DcOpfF Proofs.DcOpfG Proofs.DcOpfH Proofs.DcOpfI Proofs.RunOpfB Proofs.ReserveA Proofs.ReserveB Props.P_DcOpf Props.P_DcOpt.
Local Open Scope nat_scope.

Section D.
Context {K : Type} {F : Fld K}.
Add Field KF : (@f_ok K F).

(** sums over sets of indices *)
Lemma lsum_support (f : nat -> K) l l' : NoDup l -> NoDup l' -> (forall x, In x l' -> In x l) ->
  (forall x, In x l -> ~ In x l' -> f x = 0%K) -> lsum f l = lsum f l'.
Proof.
  intros N N' S Z.
  set (rest := filter (fun x => negb (if in_dec Nat.eq_dec x l' then true else false)) l).
  assert (Permutation.Permutation l (l' ++ rest)) as P.
  { apply Permutation.NoDup_Permutation; auto.
    - assert (forall a b : list nat, NoDup a -> NoDup b -> (forall x, In x a -> ~ In x b) -> NoDup (a ++ b)) as NA.
      { induction a as [|u a IH]; intros b A1 A2 A3; auto. inversion A1; subst. cbn. constructor.
        - rewrite in_app_iff. intros [H|H]; auto. apply (A3 u); cbn; auto.
        - apply IH; auto. intros y Hy. apply A3. cbn. auto. }
      apply NA; auto; [apply NoDup_filter; auto|]. intros x Hx Hr. apply filter_In in Hr as (_ & Hr).
      destruct (in_dec Nat.eq_dec x l'); [discriminate|contradiction].
    - intros x. rewrite in_app_iff. unfold rest. rewrite filter_In. split.
      + intros Hx. destruct (in_dec Nat.eq_dec x l') as [I|I]; auto.
      + intros [H|(H & _)]; auto. }
  rewrite (lsum_perm _ _ _ P), lsum_app, (lsum_zero _ rest).
  - ring.
  - intros x Hx. unfold rest in Hx. apply filter_In in Hx as (H1 & H2). apply Z; auto.
    destruct (in_dec Nat.eq_dec x l'); [discriminate|auto].
Qed.

(** the upper bound of a reserve *)
Lemma rmax_ordered B ramp qty : lt 0%K B -> le 0%K ramp -> (forall a, qty = Some a -> le 0%K a) ->
  ordered (EFin 0%K) (rmax B ramp qty).
Proof.
  intros HB HR HQ. unfold rmax. destruct (nonzero ramp), qty as [v|]; cbn; auto.
  - destruct (fltb v ramp); cbn; apply div_nn; auto.
  - apply div_nn; auto.
  - apply div_nn; auto.
Qed.

Lemma rmax_excess t B ramp qty x : lt 0%K B ->
  match rmax B ramp qty with EFin b => excess_to t (x - b)%K | EPos => True | ENeg => False end ->
  (ramp <> 0%K -> excess_to t (x - ramp / B)%K) /\ (forall a, qty = Some a -> excess_to t (x - a / B)%K).
Proof.
  intros HB H. assert (B <> 0%K) as BN by (apply pos_nz; auto).
  assert (mono : forall a b : K, le a b -> excess_to t (x - a / B)%K -> excess_to t (x - b / B)%K).
  { intros a b L E. unfold excess_to in *. eapply le_lt_trans; [|exact E]. apply le_sub. apply le_sub in L.
    assert ((x - a / B - (x - b / B) = (b - a) / B)%K) as -> by (field; auto). apply div_nn; auto. }
  unfold rmax in H. destruct (nonzero ramp) eqn:NZ.
  - destruct qty as [v|].
    + destruct (fltb v ramp) eqn:L; cbn in H.
      * split; [intros _|intros a Ea; assert (a = v) by congruence; subst a; auto]. apply (mono v); auto. apply lt_le. exact L.
      * split; auto. intros a Ea. assert (a = v) by congruence. subst a. apply (mono ramp); auto.
    + cbn in H. split; auto. discriminate.
  - split.
    + intros N. apply nonzero_iff in N. congruence.
    + intros a ->. exact H.
Qed.

(** the costs of the reserves *)
Lemma res_costs_shaped Cw nx : length Cw <= nx ->
  let cp := res_costs (K := K) Cw nx in
  shaped (nrows (k_N cp)) nx (k_N cp) /\ shaped (nrows (k_N cp)) (nrows (k_N cp)) (k_H cp) /\ sym_mat (k_H cp) /\
  Forall (fun a => a = 0%K) (k_rh cp) /\
  forall x, length x = nx -> user_cost (k_N cp) (k_H cp) (k_Cw cp) (k_rh cp) (k_mm cp) x
    = lsum (fun m => nth m Cw 0 * nth (nx - length Cw + m) x 0)%K (seq 0 (length Cw)).
Proof.
  intros L cp. unfold cp, res_costs. cbn [k_N k_H k_rh k_Cw k_mm nrows]. set (n := length Cw) in *.
  assert (WN : wf (SM n nx (zip3 (seq 0 n) (seq (nx - n) n) (repeat (1%K : K) n)))).
  { unfold wf. cbn. apply Forall_forall. intros e He. apply zip3_in in He as (A & B). apply in_seq in A. apply in_seq in B. lia. }
  split; [split; [reflexivity|split; [reflexivity|exact WN]]|].
  split; [split; [reflexivity|split; [reflexivity|constructor]]|].
  split; [intros i j; reflexivity|]. split; [apply Forall_forall; intros a Ha; apply repeat_spec in Ha; auto|].
  intros x Lx. unfold user_cost, qform, user_w. cbn [nrows].
  rewrite (lsum_zero _ (seq 0 n)).
  2:{ intros i _. rewrite lsum_zero; [ring|]. intros j _. unfold at_, zerom. cbn. ring. }
  match goal with |- (?a * 0 + ?s = _)%K => assert ((a * 0 + s = s)%K) as -> by ring end.
  apply lsum_ext. intros m Hm. apply in_seq in Hm. f_equal.
  rewrite (nth_map_lt _ (seq 0 n) m _ 0) by (rewrite seq_length; lia). rewrite seq_nth by lia. cbn [Nat.add].
  rewrite !nth_repeat_lt by lia. rewrite row_val_mulrow by auto. unfold mulrow. cbn [ents].
  rewrite (lsum_zip3 _ _ _ _ n) by (rewrite ?seq_length, ?repeat_length; auto).
  rewrite (lsum_ext _ (fun j => if m =? j then nth (nx - n + j) x 0%K else 0%K)).
  - rewrite lsum_seq_single' by lia. ring.
  - intros j Hj. apply in_seq in Hj. cbn. rewrite !seq_nth by lia. cbn. rewrite (Nat.eqb_sym m j).
    destruct (j =? m); auto. rewrite nth_repeat_lt by lia. ring.
Qed.

Variable solve : smat K -> list K -> result (option (list K)).
Variable ln : K -> K.
Variables (ign : bool) (opts : dcopt (K := K)) (B : K) (bus gen branch gencost : list (list K)) (U : user (K := K)).
Variables (o : dcom (K := K)) (z : dcres (K := K)) (cp : costp (K := K)).
Notation nb := (length bus).
Notation ng := (length gen).
Notation ny := (length (multi_rows ng gencost)).
Hypothesis WU : forall M, u_A U = Some M -> shaped (nrows M) (ncols M) M.
Hypothesis SET : dc_setup ign B bus gen branch gencost U = Ok o.
Hypothesis WN : shaped (nrows (k_N cp)) (d_nx o) (k_N cp).
Hypothesis WH : shaped (nrows (k_N cp)) (nrows (k_N cp)) (k_H cp).
Hypothesis SH : sym_mat (k_H cp).
Hypothesis LO : limits_ordered ign B bus gen branch (u_A U) (u_l U) (u_u U) (u_zl U) (u_zu U).
Hypothesis MO : Forall moderate (d_l o ++ d_u o ++ d_xmin o ++ d_xmax o).
Hypothesis SOL : dcopf solve ln opts B bus gen branch o cp = Ok z.

(** lengths of the result, and bounds that are absent *)
Lemma result_lengths : let m := z_lmbda z in
  length (z_x z) = d_nx o /\ length (m_lower m) = d_nx o /\ length (m_upper m) = d_nx o /\
  length (m_mu_l m) = nrows (d_A o) /\ length (m_mu_u m) = nrows (d_A o) /\
  (forall j, j < d_nx o -> (lower (d_xmin o) j = ENeg -> nth j (m_lower m) 0%K = 0%K) /\
     (upper (d_xmax o) j = EPos -> nth j (m_upper m) 0%K = 0%K)) /\
  (forall i, i < nrows (d_A o) -> (lower (d_l o) i = ENeg -> nth i (m_mu_l m) 0%K = 0%K) /\
     (upper (d_u o) i = EPos -> nth i (m_mu_u m) 0%K = 0%K)).
Proof.
  pose proof SOL as H. unfold dcopf in H. apply bind_ok in H as (((HH & CC) & C0) & HO & H).
  apply bind_ok in H as (x0 & H0 & H). apply bind_ok in H as (s & HS & H).
  destruct (set_ok ign B bus gen branch gencost U o WU SET) as (Bb & Pbi & S).
  destruct (objective_ok _ _ _ _ _ _ _ _ _ _ S cp HH CC C0 WN WH SH HO) as (_ & _ & _ & W & N & C & LCC & SY & _).
  destruct (dc_update_ok _ _ _ _ _ _ _ _ _ _ S C0 s z H) as (X & Fv & ES & EM & _).
  destruct (d_lengths _ _ _ _ _ _ _ _ _ _ S) as (L1 & L2 & L3 & L4 & WA & CA).
  pose proof (start_length _ _ _ _ _ _ _ _ _ _ S x0 H0) as Lx0.
  assert (shaped_opt (length x0) (Some (d_A o))) as SA.
  { cbn. split; [auto|]. split; [congruence|]. unfold wf in WA. rewrite Lx0, <- CA. exact WA. }
  assert (bounds_ordered (length x0) (rows_of (Some (d_A o))) (d_l o) (d_u o) (d_xmin o) (d_xmax o)) as BO.
  { rewrite Lx0. exact (ordered_rows _ _ _ _ _ _ _ _ _ _ S LO). }
  rewrite !Forall_app in MO. destruct MO as (M1 & M2 & M3 & M4).
  assert (forall (b : list (ext K)) i, Forall moderate b -> moderate (lower b i) /\ moderate (upper b i)) as MB.
  { intros b i HF. unfold lower, upper. rewrite !bound_nth. rewrite Forall_forall in HF.
    split; (destruct (lt_dec i (length b)); [apply HF; apply nth_In; auto|rewrite nth_overflow by lia; cbn; auto]). }
  destruct (one_sided solve ln (qp HH CC) (pips_options opts) x0 (Some (d_A o)) (d_l o) (d_u o) (d_xmin o) (d_xmax o)
    SA ltac:(right; congruence) ltac:(right; congruence) ltac:(right; auto)
    ltac:(right; auto) s HS BO) as (OS1 & OS2).
  destruct (result_ok solve ln (qp HH CC) (pips_options opts) x0 (Some (d_A o)) (d_l o) (d_u o) (d_xmin o) (d_xmax o) 0 0
    SA ltac:(rewrite Lx0; apply qp_shaped; auto) ltac:(right; congruence) ltac:(right; congruence) ltac:(right; auto)
    ltac:(right; auto) s HS BO) as (sp & f & df & hn & gn & dhn & dgn & lam & mu & mu0 & zz & h & Lx & _ & _ & E & _ & RF & _ & _ & _ & _ & _ & RES).
  destruct RES as (_ & _ & _ & RES).
  destruct RES as (R1 & R2 & R3 & R4 & _).
  { intros j _. apply modest_of; apply MB; auto. } { intros j _. apply modest_of; apply MB; auto. }
  cbv zeta in *. rewrite EM, X. cbn [rows_of] in *. rewrite Lx0 in *.
  cbn [p_f qp] in E. destruct (qp_f_ok HH CC (d_nx o) _ f df W N C LCC E) as (Lr & _).
  do 5 (split; [auto|]). split; auto.
Qed.
End D.
