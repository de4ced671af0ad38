(** Second derivatives of (C V) conj (Y V) and of the bus and branch quantities. *)
From Coq Require Import Reals Lra.
From Verif Require Import Lib.ListFacts Spec.AcDeriv Model.Derivs Proofs.LinAlgFacts
  Proofs.SparseFacts Proofs.FldFacts Proofs.YbusA Proofs.MatFacts Proofs.DerivA Proofs.DerivR.
Local Open Scope nat_scope.
Add Ring CRR : (@r_ok CR _).

Lemma jj2 : (jj * jj)%K = (- (1) : CR)%K.
Proof. apply cpx_eq; cbn; ring. Qed.
Lemma conj_jj : conj (jj : CR) = (- jj)%K.
Proof. apply cpx_eq; cbn; ring. Qed.
Lemma conj_opp (z : CR) : conj (- z)%K = (- conj z)%K.
Proof. apply cpx_eq; cbn; ring. Qed.

Section State.
Variables (n : nat) (s : state).
Hypothesis O : ok n s.

Lemma ok_len : length (volt s) = n.
Proof. destruct O as (A & B & _). unfold volt, map2. rewrite map_length, combine_length. lia. Qed.

Lemma cabs_volt i : i < n -> cabsR (nth i (volt s) 0%K) = nth i (mag s) 0%R /\
  (0 < nth i (mag s) 0)%R.
Proof.
  intros H. destruct O as (A & B & C). rewrite (volt_nth n) by auto.
  assert (P : (0 < nth i (mag s) 0)%R).
  { rewrite Forall_forall in C. apply C. apply nth_In. lia. }
  split; auto. unfold cabsR, nrm2. cbn [re im radd rmul fld_rng R_fld R_rng].
  set (m := nth i (mag s) 0%R) in *. set (a := nth i (ang s) 0%R).
  replace (m * cos a * (m * cos a) + m * sin a * (m * sin a))%R with (m * m)%R.
  - apply sqrt_square. lra.
  - pose proof (sin2_cos2 a) as T. unfold Rsqr in T.
    replace (m * cos a * (m * cos a) + m * sin a * (m * sin a))%R
      with (m * m * (sin a * sin a + cos a * cos a))%R by ring. rewrite T. ring.
Qed.

Lemma nz_volt : nz cabsR (volt s).
Proof.
  unfold nz. apply Forall_forall. intros z Hz. destruct (In_nth _ _ (0%K : CR) Hz) as (i & Hi & <-).
  rewrite ok_len in Hi. destruct (cabs_volt i Hi) as [-> P]. intros C.
  cbn in C. lra.
Qed.

Lemma vn_uv i : i < n -> vn cabsR (volt s) i = uv s i.
Proof.
  intros H. unfold vn. rewrite (nth_map_lt _ _ _ _ (0%K : CR)) by (rewrite ok_len; auto).
  destruct (cabs_volt i H) as [-> P]. destruct O as (A & B & _). rewrite (volt_nth n) by auto.
  unfold uv. apply cpx_eq; cbn; field; lra.
Qed.

Lemma vi_uv i : i < n -> (vi cabsR (volt s) i * vv (volt s) i)%K = uv s i.
Proof.
  intros H. rewrite <- vn_uv by auto. symmetry. apply vn_vi; [apply nz_volt|rewrite ok_len; auto].
Qed.
End State.

(** weighted sums of [ddprow] *)
Section Quad.
Variables (nl n : nat) (c y : nat -> nat -> CR) (lam : list CR).

Lemma quad_first s co k : ok n s -> k < n ->
  partial co k (weighted lam nl (prow n c y)) s
    (lsum (fun l => nth l lam 0 * dprow n c y l co k s)%K (seq 0 nl)).
Proof.
  intros (A & B & _) Hk. unfold partial, weighted.
  apply (cd_lsum (fun l t => (nth l lam 0 * prow n c y l (coord_set co k s t))%K)).
  intros l Hl. apply cd_scal. apply partial_prow; auto.
Qed.

Lemma quad_second s co k co' m : ok n s -> k < n -> m < n ->
  partial2 n co k co' m (weighted lam nl (prow n c y)) s
    (lsum (fun l => nth l lam 0 * ddprow n c y l co k co' m s)%K (seq 0 nl)).
Proof.
  intros OK Hk Hm.
  exists (fun s' => lsum (fun l => nth l lam 0 * dprow n c y l co k s')%K (seq 0 nl)).
  split; [intros s' OK'; apply quad_first; auto|].
  destruct OK as (A & B & _). unfold partial.
  apply (cd_lsum (fun l t => (nth l lam 0 * dprow n c y l co k (coord_set co' m s t))%K)).
  intros l Hl. apply cd_scal. apply partial_dprow; auto.
Qed.

Local Notation A := (eA nl c y lam).

Lemma quad_collapse s co k co' m (w u z : CR) : w = dv co k s -> u = dv co' m s ->
  z = delta k m (ddv co co' k s) ->
  lsum (fun l => nth l lam 0 * ddprow n c y l co k co' m s)%K (seq 0 nl)
  = (z * lsum (fun i => A i k * conj (vv (volt s) i)) (seq 0 n)
     + conj z * lsum (fun i => A k i * vv (volt s) i) (seq 0 n)
     + A m k * (w * conj u) + A k m * (u * conj w))%K.
Proof.
  intros -> -> ->. set (v := vv (volt s)). set (z := delta k m _). set (w := dv co k s).
  set (u := dv co' m s).
  assert (S1 : lsum (fun i => A i k * conj (v i))%K (seq 0 n)
               = lsum (fun l => nth l lam 0 * c l k * conj (lin n y v l))%K (seq 0 nl)).
  { unfold eA. rewrite (lsum_ext (fun i => (lsum _ (seq 0 nl) * conj (v i))%K)
      (fun i => lsum (fun l => conj (y l i) * vv lam l * c l k * conj (v i)) (seq 0 nl))%K).
    2: { intros i _. symmetry. apply lsum_scal_r. }
    rewrite lsum_swap. apply lsum_ext. intros l _. unfold lin. rewrite conj_lsum, <- lsum_scal.
    apply lsum_ext. intros i _. rewrite conj_mul. unfold vv. ring. }
  assert (S2 : lsum (fun i => A k i * v i)%K (seq 0 n)
               = lsum (fun l => nth l lam 0 * conj (y l k) * lin n c v l)%K (seq 0 nl)).
  { unfold eA. rewrite (lsum_ext (fun i => (lsum _ (seq 0 nl) * v i)%K)
      (fun i => lsum (fun l => conj (y l k) * vv lam l * c l i * v i) (seq 0 nl))%K).
    2: { intros i _. symmetry. apply lsum_scal_r. }
    rewrite lsum_swap. apply lsum_ext. intros l _. unfold lin. rewrite <- lsum_scal.
    apply lsum_ext. intros i _. unfold vv. ring. }
  rewrite S1, S2. unfold eA. rewrite <- !lsum_scal, <- !lsum_scal_r, <- !lsum_add.
  apply lsum_ext. intros l _. unfold ddprow. fold v z w u. rewrite !conj_mul. unfold vv. ring.
Qed.

Variable s : state.
Hypothesis OK : ok n s.
Local Notation V := (volt s).
Local Notation vi := (vi cabsR V).
Definition dsum co k co' m : CR :=
  lsum (fun l => nth l lam 0 * ddprow n c y l co k co' m s)%K (seq 0 nl).

Lemma quad_AA k m : k < n -> m < n -> dsum Ang k Ang m =
    (eB nl c y V lam k m + eB nl c y V lam m k - eD nl n c y V lam k m - eG nl n c y V lam k m)%K.
Proof.
  intros Hk Hm. unfold dsum.
  rewrite (quad_collapse s Ang k Ang m (jj * vv V k)%K (jj * vv V m)%K
    (delta k m (- vv V k))%K eq_refl eq_refl eq_refl).
  unfold eB, eD, eG, delta. rewrite !conj_mul, conj_jj, conj_if, conj_opp.
  destruct (Nat.eqb_spec k m) as [<-|]; pose proof jj2; ring [H].
Qed.

Lemma quad_MA k m : k < n -> m < n -> dsum Mag k Ang m =
    (jj * vi k * (eB nl c y V lam k m - eB nl c y V lam m k
                  - eD nl n c y V lam k m + eG nl n c y V lam k m))%K.
Proof.
  intros Hk Hm. unfold dsum.
  rewrite (quad_collapse s Mag k Ang m (vi k * vv V k)%K (jj * vv V m)%K
    (delta k m (jj * (vi k * vv V k)))%K); auto.
  2: { apply (vi_uv n); auto. }
  2: { rewrite (vi_uv n) by auto. reflexivity. }
  unfold eB, eD, eG, delta. rewrite !conj_mul, conj_jj, conj_if, !conj_mul, conj_jj, vi_real.
  destruct (Nat.eqb_spec k m) as [<-|]; ring.
Qed.

Lemma quad_AM k m : k < n -> m < n -> dsum Ang k Mag m =
    (jj * vi m * (eB nl c y V lam m k - eB nl c y V lam k m
                  - eD nl n c y V lam m k + eG nl n c y V lam m k))%K.
Proof.
  intros Hk Hm. unfold dsum.
  rewrite (quad_collapse s Ang k Mag m (jj * vv V k)%K (vi m * vv V m)%K
    (delta k m (jj * (vi k * vv V k)))%K); auto.
  2: { apply (vi_uv n); auto. }
  2: { rewrite (vi_uv n) by auto. reflexivity. }
  unfold eB, eD, eG, delta. rewrite !conj_mul, conj_jj, conj_if, !conj_mul, conj_jj, !vi_real.
  rewrite (Nat.eqb_sym m k). destruct (Nat.eqb_spec k m) as [<-|]; ring.
Qed.

Lemma quad_MM k m : k < n -> m < n -> dsum Mag k Mag m =
    (vi k * (eB nl c y V lam k m + eB nl c y V lam m k) * vi m)%K.
Proof.
  intros Hk Hm. unfold dsum.
  rewrite (quad_collapse s Mag k Mag m (vi k * vv V k)%K (vi m * vv V m)%K 0%K); auto.
  2: { apply (vi_uv n); auto. }
  2: { apply (vi_uv n); auto. }
  2: { unfold delta. destruct (k =? m); reflexivity. }
  unfold eB. rewrite !conj_mul, !vi_real, conj_0. ring.
Qed.

(** linear forms *)
Lemma lin_first s' co k : ok n s' -> k < n ->
  partial co k (weighted lam nl (fun l s' => lin n y (vv (volt s')) l)) s'
    (eI nl y lam k * dv co k s')%K.
Proof.
  intros (A & B & _) Hk. unfold partial, weighted. eapply cd_eq.
  - apply (cd_lsum (fun l t => (nth l lam 0 * lin n y (vv (volt (coord_set co k s' t))) l)%K)).
    intros l Hl. apply cd_scal. apply partial_lin; auto.
  - unfold eI. rewrite <- lsum_scal_r. apply lsum_ext. intros l _. unfold vv. ring.
Qed.
Lemma lin_second co k co' m : k < n -> m < n ->
  partial2 n co k co' m (weighted lam nl (fun l s' => lin n y (vv (volt s')) l)) s
    (delta k m (eI nl y lam k * ddv co co' k s))%K.
Proof.
  intros Hk Hm. exists (fun s' => eI nl y lam k * dv co k s')%K.
  split; [intros s' OK'; apply lin_first; auto|].
  destruct OK as (A & B & _). eapply cd_eq.
  - apply (partial_lin2 n s A B co k co' m (fun _ => eI nl y lam) 0%nat); auto.
  - cbv beta. unfold delta. destruct (k =? m); ring.
Qed.
End Quad.

(** rows that pick out one voltage *)
Lemma lin_pick n (f : nat -> nat) (v : nat -> CR) l : f l < n ->
  lin n (fun l m => delta (f l) m 1%K) v l = v (f l).
Proof.
  intros H. unfold lin, delta.
  rewrite (lsum_ext _ (fun i => if f l =? i then v i else 0%K)).
  - apply lsum_seq_single'; auto.
  - intros i _. destruct (f l =? i); ring.
Qed.

(** ** squared magnitudes *)
Lemma nrm2_cd f x d : cderiv f x d ->
  derivable_pt_lim (fun t => nrm2 (f t)) x (2 * re (conj (f x) * d)%K)%R.
Proof.
  intros [A B]. eapply dl_eq.
  - apply (derivable_pt_lim_plus _ _ _ _ _ (derivable_pt_lim_mult _ _ _ _ _ A A)
        (derivable_pt_lim_mult _ _ _ _ _ B B)).
  - cbn. ring.
Qed.

Section Squared.
Variables (nl n : nat) (lam : list R) (q : nat -> state -> CR).
Variables (co co' : coord) (k m : nat) (s : state).
Variables (dq : nat -> state -> CR) (dq' ddq : nat -> CR).
Hypothesis H1 : forall l s', ok n s' -> partial co k (q l) s' (dq l s').
Hypothesis H1' : forall l, partial co' m (q l) s (dq' l).
Hypothesis H2 : forall l, partial co' m (dq l) s (ddq l).

Lemma sq_second :
  partial2R n co k co' m (weightedR lam nl (fun l s' => nrm2 (q l s'))) s
    (2 * re (lsum (fun l => nth l (map ofK lam) 0
              * (conj (q l s) * ddq l + conj (dq' l) * dq l s))%K (seq 0 nl)))%R.
Proof.
  exists (fun s' => lsum (fun l => nth l lam 0 * (2 * re (conj (q l s') * dq l s')%K)%R)%K
                      (seq 0 nl)). split.
  - intros s' OK. unfold partialR, weightedR.
    apply (dl_lsum (fun l t => (nth l lam 0 * nrm2 (q l (coord_set co k s' t)))%K)).
    intros l _. eapply dl_eq; [apply derivable_pt_lim_scal; apply nrm2_cd; apply (H1 l s' OK)|].
    cbv beta. rewrite coord_same. reflexivity.
  - unfold partialR. eapply dl_eq.
    + apply (dl_lsum (fun l t => (nth l lam 0 * (2 * re (conj (q l (coord_set co' m s t))
          * dq l (coord_set co' m s t))%K)%R)%K)).
      intros l _. apply derivable_pt_lim_scal. apply derivable_pt_lim_scal.
      destruct (cd_mul _ _ _ _ _ (cd_conj _ _ _ (H1' l)) (H2 l)) as [D _].
      exact D.
    + cbv beta. rewrite (lsum_hom (re : CR -> R)) by reflexivity.
      match goal with |- _ = (2 * ?x)%R => change (2 * x)%R with (rmul (2 : R)%R x) end.
      rewrite <- lsum_scal.
      apply lsum_ext. intros l _. rewrite coord_same.
      assert (nth l (map ofK lam) (@r0 CR _) = ofK (nth l lam 0%R)) as -> by apply (map_nth ofK lam 0%R l).
      cbn. ring.
Qed.
End Squared.
