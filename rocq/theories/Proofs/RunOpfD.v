(** What a solved DC problem leaves in the external tables, with user constraints and costs. *)
From Verif Require Import Proofs.Ext2intA Lib.ListFacts Model.RunOpf Spec.RunOpfSpec Spec.PipsRun
  Proofs.SparseFacts Proofs.FldFacts Proofs.OrdFacts Proofs.PfsolnA Proofs.TableEdit Proofs.OpfLinA Proofs.DcOpfA
  Proofs.DcOpfC Proofs.DcOpfE Proofs.Ext2intB Proofs.RunPfA Proofs.RunPfB Proofs.RunOpfA Proofs.RunOpfB
  Proofs.RunOpfC Props.P_DcOpf.
Local Open Scope nat_scope.

Definition bcols := [VA; LAM_P; LAM_Q; MU_VMIN; MU_VMAX].
Definition gcols := [PG; MU_PMIN; MU_PMAX; MU_QMIN; MU_QMAX].
Definition lcols := [PF; PT; QF; QT; MU_SF; MU_ST; MU_ANGMIN; MU_ANGMAX].
Definition goff := [PG; QG; MU_PMAX; MU_PMIN].
Definition loff := [PF; QF; PT; QT; MU_SF; MU_ST; MU_ANGMIN; MU_ANGMAX].

Section Parts.
Context {K : Type} {F : Fld K}.
Add Field KF : (@f_ok K F).
Variable argsort : list Z -> list nat.
Hypothesis Has : argsort_spec argsort.
Variable solve : smat K -> list K -> result (option (list K)).
Variable ln : K -> K.
Variables (ign : bool) (opts : dcopt (K := K)) (B : K) (p q r : ppc_of K) (U : user (K := K)) (cp : nat -> costp (K := K))
  (o : dcom (K := K)) (z : dcres (K := K)).
Hypothesis W : wf_case p.
Hypothesis E : in_ext_state p.
Hypothesis WU : forall M, u_A U = Some M -> shaped (nrows M) (ncols M) M.
Hypothesis Hq : ext2int argsort (opf_columns p) = Ok q.
Hypothesis RUN : dc_solved solve ln ign opts B q U cp = Ok (o, z, r).

Lemma dc_parts : exists gc sb sg sl sa branch',
  (exists o0 i2eZ gon ge, conv argsort (opf_columns p) q o0 i2eZ sb gon ge sg sl sa) /\
  p_gencost q = Some gc /\ dc_setup ign B (p_bus q) (p_gen q) (p_branch q) gc U = Ok o /\
  dcopf solve ln opts B (p_bus q) (p_gen q) (p_branch q) o (cp (d_nx o)) = Ok z /\
  internal_form (opf_columns p) q sb sg sl sa /\
  reports_in bcols gcols goff lcols loff p r /\
  carried (opf_columns p) q (z_bus z) (z_gen z) branch' r sb sg sl /\
  (forall k i y, nth_error sb k = Some i -> bus_at (opf_columns p) y i ->
     total_at GEN_BUS (fun g => cell g PG) (p_gen r) y
     = lsum (fun g => if bus_no g GEN_BUS =? k then cell g PG else 0%K) (z_gen z)) /\
  (forall k i y, nth_error sb k = Some i -> bus_at (opf_columns p) y i ->
     (total_at F_BUS (fun g => cell g PF) (p_branch r) y + total_at T_BUS (fun g => cell g PT) (p_branch r) y)%K
     = drawn (fun g => cell g PF) (fun g => cell g PT) branch' k) /\
  (forall k y b, nth_error (p_bus q) k = Some y -> nth_error (z_bus z) k = Some b ->
     degrees (cell b VA) = nth k (z_x z) 0%K /\
     (B * cell b LAM_P = nth k (m_mu_u (z_lmbda z)) 0 - nth k (m_mu_l (z_lmbda z)) 0)%K /\
     forall c, ~ In c bcols -> cell b c = cell y c) /\
  (forall k y g, nth_error (p_gen q) k = Some y -> nth_error (z_gen z) k = Some g ->
     cell g PG = (B * output (length (p_bus q)) (z_x z) k)%K /\
     (B * cell g MU_PMIN)%K = nth (length (p_bus q) + k) (m_lower (z_lmbda z)) 0%K /\
     (B * cell g MU_PMAX)%K = nth (length (p_bus q) + k) (m_upper (z_lmbda z)) 0%K /\
     forall c, ~ In c gcols -> cell g c = cell y c) /\
  (forall k y g, nth_error (p_branch q) k = Some y -> nth_error branch' k = Some g ->
     (cell g PF = (B * dc_flow y (angles (length (p_bus q)) (z_x z)))%K /\ cell g PT = (- cell g PF)%K /\
      cell g QF = 0%K /\ cell g QT = 0%K /\ forall c, ~ In c lcols -> cell g c = cell y c) /\
     (~ flow_limited y -> cell g MU_SF = 0%K /\ cell g MU_ST = 0%K) /\
     (flow_limited y -> exists n n',
        row_says (d_nx o) (d_A o) (d_l o) (d_u o) n ENeg (EFin (cell y RATE_A / B)%K)
          (fun x => dc_flow y (angles (length (p_bus q)) x)) /\
        row_says (d_nx o) (d_A o) (d_l o) (d_u o) n' ENeg (EFin (cell y RATE_A / B)%K)
          (fun x => - dc_flow y (angles (length (p_bus q)) x))%K /\
        (B * cell g MU_SF)%K = nth n (m_mu_u (z_lmbda z)) 0%K /\ (B * cell g MU_ST)%K = nth n' (m_mu_u (z_lmbda z)) 0%K) /\
     (z_success z = true -> ign = false -> angle_limited y -> exists n,
        row_says (d_nx o) (d_A o) (d_l o) (d_u o) n (ang_bound ENeg (cell y ANGMIN)) (ang_bound EPos (cell y ANGMAX))
          (fun x => angle_diff y (angles (length (p_bus q)) x)) /\
        cell g MU_ANGMIN = degrees (nth n (m_mu_l (z_lmbda z)) 0%K) /\
        cell g MU_ANGMAX = degrees (nth n (m_mu_u (z_lmbda z)) 0%K)) /\
     (z_success z = false \/ ign = true \/ ~ angle_limited y ->
        cell g MU_ANGMIN = cell y MU_ANGMIN /\ cell g MU_ANGMAX = cell y MU_ANGMAX)) /\
  (forall k y g, nth_error (z_branch z) k = Some y -> nth_error branch' k = Some g ->
     cell g MU_SF = cell y MU_SF /\ cell g MU_ST = cell y MU_ST).
Proof.
  pose proof RUN as H. unfold dc_solved in H.
  apply bind_ok in H as (gc & Hgc & H). apply bind_ok in H as (o' & Ho & H). apply bind_ok in H as (z' & Hz & H).
  apply bind_ok in H as (br & Hbr & H). apply bind_ok in H as (r0 & Hr & H).
  assert (o' = o /\ z' = z /\ r0 = r) as (-> & -> & ->) by (split; [|split]; congruence). clear H.
  unfold back_to_external in Hr. apply bind_ok in Hr as (r1 & H1 & Hr). apply bind_ok in Hr as (od & Hod & Hr).
  apply bind_ok in Hr as (g2 & Hg2 & Hr). apply bind_ok in Hr as (l2 & Hl2 & Hr).
  assert (r = with_tables r1 (p_bus r1) g2 l2) as -> by congruence. clear Hr.
  assert (p_gencost q = Some gc) as Hgc' by (destruct (p_gencost q); cbn in Hgc; congruence).
  assert (p_order r1 = Some od) as Hod' by (destruct (p_order r1); cbn in Hod; congruence).
  destruct (set_ok ign B (p_bus q) (p_gen q) (p_branch q) gc U o WU Ho) as (Bb & Pbi & SS).
  pose proof (iang_nodup _ _ _ _ _ _ _ _ Ho) as ND.
  pose proof Hz as Hz'. unfold dcopf in Hz'. apply bind_ok in Hz' as (((HH & CC) & C0) & HO & Hz').
  apply bind_ok in Hz' as (x0 & H0 & Hz'). apply bind_ok in Hz' as (s & HS & Hz').
  destruct (C33_report ign B (p_bus q) (p_gen q) (p_branch q) gc U o WU Ho C0 s z Hz')
    as (A1 & A2 & A3 & A4 & A5 & A6 & A7 & A8 & A9 & A10).
  rewrite <- A1, <- A4 in *. cbv zeta in A8, A9, A10.
  rewrite (ss_nb _ _ _ _ _ _ _ _ _ _ SS) in Hbr.
  destruct (ang_mults_ok (p_bus q) o ND (z_success z) _ _ _ _ Hbr) as (LB & AM).
  assert (KB : keeps bcols (p_bus q) (z_bus z)).
  { split; auto. intros i y Hy. destruct (A8 i y Hy) as (b & Hb & (KL & KC) & _). exists b. auto. }
  assert (KG : keeps gcols (p_gen q) (z_gen z)).
  { split; auto. intros i y Hy. destruct (A9 i y Hy) as (b & Hb & (KL & KC) & _). exists b. auto. }
  assert (LROW : forall i y, nth_error (p_branch q) i = Some y -> exists y1 b, nth_error (z_branch z) i = Some y1 /\
     nth_error br i = Some b /\ length b = length y /\ (forall j, ~ In j lcols -> cell b j = cell y j)).
  { intros i y Hy. destruct (A10 i y Hy) as (y1 & Hy1 & (KL & KC) & _). destruct (AM i y1 Hy1) as (b & Hb & (KL2 & KC2) & _).
    exists y1, b. split; auto. split; auto. split; [congruence|]. intros j N. unfold lcols in N. cbn [In] in N.
    rewrite KC2, KC by (cbn [In]; tauto). reflexivity. }
  assert (KL : keeps lcols (p_branch q) br).
  { split; [congruence|]. intros i y Hy. destruct (LROW i y Hy) as (y1 & b & _ & Hb & L & C). exists b. auto. }
  assert (Q1 : ~ In BUS_I bcols) by (cbn; intuition discriminate).
  assert (Q2 : ~ In GEN_BUS gcols) by (cbn; intuition discriminate).
  assert (Q3 : ~ In F_BUS lcols /\ ~ In T_BUS lcols) by (split; cbn; intuition discriminate).
  assert (Q4 : ~ In GEN_BUS goff) by (cbn; intuition discriminate).
  assert (Q5 : ~ In F_BUS loff /\ ~ In T_BUS loff) by (split; cbn; intuition discriminate).
  destruct (through_conv argsort Has bcols gcols goff lcols loff Q1 Q2 Q3 Q4 Q5 (opf_columns p) q r1 od
              (z_bus z) (z_gen z) br g2 l2 (wf_wide _ W) E Hq KB KG KL H1 Hod' Hg2 Hl2)
    as (sb & sg & sl & sa & CV & IF & RI & CAR & GT & LT).
  exists gc, sb, sg, sl, sa, br. split; [exact CV|]. do 3 (split; [auto|]). split; [exact IF|].
  split; [apply reports_wide; auto|]. split; [exact CAR|].
  split. { intros k i y Hk Bi. apply (GT k i y PG Hk Bi). left; auto. }
  split. { intros k i y Hk Bi. apply (LT k i y PF PT Hk Bi); cbn; auto. }
  split. { intros k y b Hy Hb. destruct (A8 k y Hy) as (b' & Hb' & (KL' & KC) & V & L & _).
           assert (b' = b) by congruence. subst b'. auto. }
  split. { intros k y b Hy Hb. destruct (A9 k y Hy) as (b' & Hb' & (KL' & KC) & V & M1 & M2 & _).
           assert (b' = b) by congruence. subst b'. auto. }
  split; [|intros k y1 b Hy1 Hb; destruct (AM k y1 Hy1) as (b' & Hb' & (KL2 & KC2) & _); assert (b' = b) by congruence; subst b';
           split; apply KC2; cbn; intuition discriminate].
  intros k y b Hy Hb. destruct (A10 k y Hy) as (b1 & Hb1 & (KL1 & KC1) & P1 & P2 & P3 & P4 & P5 & P6).
  destruct (AM k b1 Hb1) as (b' & Hb' & (KL2 & KC2) & M1 & M2). assert (b' = b) by congruence. subst b'.
  assert (forall c, ~ In c [MU_ANGMIN; MU_ANGMAX] -> cell b c = cell b1 c) as KC by auto.
  split; [|split; [|split; [|split]]].
  - rewrite (KC PF), (KC PT), (KC QF), (KC QT) by (cbn; intuition discriminate). do 4 (split; [auto|]).
    destruct (LROW k y Hy) as (_ & b2 & _ & Hb2 & _ & C). assert (b2 = b) by congruence. subst b2. exact C.
  - rewrite (KC MU_SF), (KC MU_ST) by (cbn; intuition discriminate). auto.
  - rewrite (KC MU_SF), (KC MU_ST) by (cbn; intuition discriminate). auto.
  - intros OK IG AL. assert (In k (d_iang o)) as I by (apply (ss_iang _ _ _ _ _ _ _ _ _ _ SS); eauto).
    apply In_nth_error in I as (n & Hn). exists (length (p_bus q) + d_nl2 o + d_nl2 o + n).
    split; [exact (ang_row _ _ _ _ _ _ _ _ _ _ SS n k y Hn Hy)|]. apply M2; auto.
  - intros NL. rewrite <- (KC1 MU_ANGMIN), <- (KC1 MU_ANGMAX) by (cbn; intuition discriminate). apply M1.
    destruct NL as [C|[C|C]]; [left; congruence|right|right]; intros I; apply (ss_iang _ _ _ _ _ _ _ _ _ _ SS) in I as (I1 & y' & Hy' & I2).
    + congruence.
    + assert (y' = y) by congruence. subst y'. auto.
Qed.
End Parts.
