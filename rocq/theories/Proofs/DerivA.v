(** The matrices of Model/Derivs.v are defined, with these entries. *)
From Verif Require Import Lib.ListFacts Model.Derivs Proofs.LinAlgFacts Proofs.SparseFacts
  Proofs.FldFacts Proofs.NetworkA Proofs.NetworkB Proofs.YbusA Proofs.MatFacts.
Local Open Scope nat_scope.

Ltac stp L := let M := fresh "M" in let E := fresh "E" in let H := fresh "H" in
  destruct L as (M & E & H); rewrite E; cbn [bind].

Section DerivA.
Context {K : Type} {F : Fld K}.
Variable cabs : cpx K -> K.
Add Field KF : (@f_ok K F).
Add Ring CR : (@r_ok (cpx K) _).
Local Notation cm := (@ismat (cpx K) _).

Lemma conj_0 : conj (0%K : cpx K) = 0%K.
Proof. apply cpx_eq; simpl; ring. Qed.
Lemma conj_add (a b : cpx K) : conj (a + b)%K = (conj a + conj b)%K.
Proof. apply cpx_eq; simpl; ring. Qed.
Lemma conj_mul (a b : cpx K) : conj (a * b)%K = (conj a * conj b)%K.
Proof. apply cpx_eq; simpl; ring. Qed.
Lemma conj_sub (a b : cpx K) : conj (a - b)%K = (conj a - conj b)%K.
Proof. apply cpx_eq; simpl; ring. Qed.
Lemma conj_conj (a : cpx K) : conj (conj a) = a.
Proof. apply cpx_eq; simpl; ring. Qed.
Lemma conj_lsum {A} (f : A -> cpx K) l : conj (lsum f l) = lsum (fun x => conj (f x)) l.
Proof. apply lsum_hom; [apply conj_0|apply conj_add]. Qed.
Lemma conj_if (b : bool) (x : cpx K) : conj (if b then x else 0%K) = if b then conj x else 0%K.
Proof. destruct b; auto. apply conj_0. Qed.

Lemma cm_conj M nr nc g : cm M nr nc g -> cm (conjm M) nr nc (fun i j => conj (g i j)).
Proof. apply ismat_mapm; [apply conj_0|apply conj_add]. Qed.
Lemma cm_scale c M nr nc g : cm M nr nc g -> cm (scalem c M) nr nc (fun i j => c * g i j)%K.
Proof. apply (ismat_mapm (cmul c)). - apply cpx_eq; simpl; ring. - intros. apply cpx_eq; simpl; ring. Qed.
Lemma cm_neg M nr nc g : cm M nr nc g -> cm (negm M) nr nc (fun i j => - g i j)%K.
Proof. apply (ismat_mapm copp). - apply cpx_eq; simpl; ring. - intros. apply cpx_eq; simpl; ring. Qed.
Lemma cm_sub A B nr nc f g : cm A nr nc f -> cm B nr nc g ->
  exists M, subm A B = Ok M /\ cm M nr nc (fun i j => f i j - g i j)%K.
Proof.
  intros HA HB. unfold subm. destruct (ismat_add _ _ _ _ _ _ HA (cm_neg _ _ _ _ HB)) as (M & E & H).
  exists M; split; auto. eapply ismat_eq; [exact H|]. intros; cbv beta. ring.
Qed.
Lemma cm_getH M nr nc g : cm M nr nc g -> cm (getH M) nc nr (fun i j => conj (g j i)).
Proof. intros H. unfold getH. apply (cm_conj _ _ _ (fun i j => g j i)). apply ismat_transp; auto. Qed.
Lemma cm_real M nr nc g : cm M nr nc g -> ismat (realm M) nr nc (fun i j => re (g i j)).
Proof. apply ismat_mapm; reflexivity. Qed.
Lemma cm_imag M nr nc g : cm M nr nc g -> ismat (imagm M) nr nc (fun i j => im (g i j)).
Proof. apply ismat_mapm; reflexivity. Qed.
Lemma im_twice (M : smat K) nr nc g : ismat M nr nc g ->
  ismat (twice M) nr nc (fun i j => fofZ 2 * g i j)%K.
Proof. apply (ismat_mapm (rmul (fofZ 2))); intros; ring. Qed.

Lemma nth_conj v i : nth i (map conj v) (0%K : cpx K) = conj (nth i v 0%K).
Proof. rewrite <- conj_0 at 1. apply map_nth. Qed.

(** the product with a scaled diagonal on the left *)
Lemma cm_jdiag (c : cpx K) (v : list (cpx K)) D n nc B g : length v = n ->
  cm D n n (fun i j => if i =? j then nth i v 0 else 0)%K -> cm B n nc g ->
  exists M, mulm (scalem c D) B = Ok M /\ cm M n nc (fun i j => c * nth i v 0 * g i j)%K.
Proof.
  intros L HD HB.
  destruct (ismat_diag_mul (map (cmul c) v) (scalem c D) B n nc g) as (M & E & H); auto.
  - rewrite map_length; auto.
  - eapply ismat_eq; [apply cm_scale; exact HD|]. intros i j Hi Hj; cbv beta.
    destruct (i =? j); [|apply cpx_eq; simpl; ring].
    rewrite (nth_map_lt _ _ _ _ 0%K) by lia. reflexivity.
  - exists M. split; auto. eapply ismat_eq; [exact H|]. intros i j Hi Hj; cbv beta.
    rewrite (nth_map_lt _ _ _ _ 0%K) by lia. reflexivity.
Qed.

Lemma cm_conj_diag (v : list (cpx K)) D n : length v = n ->
  cm D n n (fun i j => if i =? j then nth i v 0 else 0)%K ->
  cm (conjm D) n n (fun i j => if i =? j then nth i (map conj v) 0 else 0)%K.
Proof.
  intros L H. eapply ismat_eq; [apply cm_conj; exact H|]. intros i j Hi Hj; cbv beta.
  rewrite conj_if, nth_conj. reflexivity.
Qed.

Definition nz (V : list (cpx K)) : Prop := Forall (fun z => cabs z <> 0%K) V.

Lemma ofK_nz a : a <> 0%K -> ofK a <> (0%K : cpx K).
Proof. intros H C. apply H. apply (f_equal re) in C. exact C. Qed.

Lemma vnorm_def V : nz V -> vnorm cabs V = Ok (map (fun z => cdiv z (ofK (cabs z))) V).
Proof.
  intros N. unfold vnorm. rewrite cvdiv_def.
  - f_equal. rewrite <- (map_id V) at 1. apply map2_map.
  - rewrite map_length; auto.
  - apply Forall_map. eapply Forall_impl; [|exact N]. intros; apply ofK_nz; auto.
Qed.
Lemma inv_abs_def V : nz V -> inv_abs cabs V = Ok (map (fun z => cdiv (ofK 1%K) (ofK (cabs z))) V).
Proof.
  intros N. unfold inv_abs. rewrite cvdiv_def.
  - f_equal. apply map2_map.
  - rewrite !map_length; auto.
  - apply Forall_map. eapply Forall_impl; [|exact N]. intros; apply ofK_nz; auto.
Qed.

(** voltages as functions of the bus position *)
Definition vv (V : list (cpx K)) (i : nat) : cpx K := nth i V 0%K.
Definition vn (V : list (cpx K)) (i : nat) : cpx K := nth i (map (fun z => cdiv z (ofK (cabs z))) V) 0%K.
Definition vi (V : list (cpx K)) (i : nat) : cpx K := nth i (map (fun z => cdiv (ofK 1%K) (ofK (cabs z))) V) 0%K.
(** row [i] of a matrix function applied to [x] *)
Definition lin (n : nat) (y : nat -> nat -> cpx K) (x : nat -> cpx K) (i : nat) : cpx K :=
  lsum (fun k => y i k * x k)%K (seq 0 n).
Definition delta (i k : nat) (x : cpx K) : cpx K := if i =? k then x else 0%K.

Lemma lin_eq n y x x' i : (forall k, k < n -> x k = x' k) -> lin n y x i = lin n y x' i.
Proof. intros H. apply lsum_ext. intros k Hk. apply in_seq in Hk. rewrite H; auto. lia. Qed.

Lemma vi_real V i : conj (vi V i) = vi V i.
Proof.
  unfold vi. destruct (Nat.lt_ge_cases i (length V)) as [H|H].
  - rewrite (nth_map_lt _ _ _ _ 0%K) by auto. apply cpx_eq; cbn [conj cdiv ofK re im nrm2]; auto.
    rewrite !(Fdiv_def f_ok). ring.
  - rewrite nth_overflow by (rewrite map_length; auto). apply conj_0.
Qed.

Lemma vn_vi V i : nz V -> i < length V -> vn V i = (vi V i * vv V i)%K.
Proof.
  intros N H. unfold vn, vi, vv. rewrite !(nth_map_lt _ _ _ _ (0%K : cpx K)) by auto.
  set (z := nth i V 0%K). assert (Nz : cabs z <> 0%K).
  { unfold nz in N. rewrite Forall_forall in N. apply N. apply nth_In; auto. }
  cbn [rmul cpx_rng]. apply cpx_eq; cbn [cmul cdiv ofK re im]; unfold nrm2; cbn [ofK re im]; field;
   repeat split; auto; intro C; apply Nz.
  all: destruct (f_nz_mul (cabs z) (cabs z) Nz Nz); etransitivity; [|exact C]; cbn [ofK re im]; ring.
Qed.

Section Bus.
Variables (n : nat) (Y : @cmat K) (y : nat -> nat -> cpx K) (V : list (cpx K)).
Hypothesis P : 0 < n.
Hypothesis HY : cm Y n n y.
Hypothesis L : length V = n.
Hypothesis N : nz V.

Lemma dSbus_entries : exists dm da, dSbus_dV cabs Y V = Ok (dm, da) /\
  cm dm n n (fun i k => vv V i * conj (y i k * vn V k)
                        + delta i k (conj (lin n y (vv V) i) * vn V k))%K /\
  cm da n n (fun i k => jj * vv V i * conj (delta i k (lin n y (vv V) i) - y i k * vv V k))%K.
Proof.
  unfold dSbus_dV.
  destruct (ismat_mulv Y n n y V HY L) as (I & EI & LI & HI). rewrite EI. cbn [bind].
  stp (ismat_diag V n L P). stp (ismat_diag I n LI P).
  rewrite (vnorm_def V N). cbn [bind]. set (Vn := map _ V).
  assert (LV : length Vn = n) by (unfold Vn; rewrite map_length; auto).
  stp (ismat_diag Vn n LV P).
  stp (ismat_mul_diag Vn _ _ n n y LV HY H1).
  stp (ismat_diag_mul V _ _ n n _ L H (cm_conj _ _ _ _ H2)).
  stp (ismat_mul_diag Vn _ _ n n _ LV (cm_conj _ _ _ _ H0) H1).
  stp (ismat_add _ _ _ _ _ _ H3 H4).
  stp (ismat_mul_diag V _ _ n n y L HY H).
  stp (cm_sub _ _ _ _ _ _ H0 H6).
  stp (cm_jdiag jj V _ n n _ _ L H (cm_conj _ _ _ _ H7)).
  do 2 eexists; split; [reflexivity|]. split.
  - eapply ismat_eq; [exact H5|].
    intros i k Hi Hk; cbv beta. unfold vv, vn. fold Vn. f_equal. rewrite HI by auto.
    unfold delta. rewrite conj_if. destruct (i =? k); auto. ring.
  - eapply ismat_eq; [exact H8|].
    intros i k Hi Hk; cbv beta. unfold delta, vv. rewrite HI by auto. reflexivity.
Qed.

Variable lam : list (cpx K).
Hypothesis LL : length lam = n.

Definition eC (k m : nat) : cpx K := (vv lam k * vv V k * conj (y k m * vv V m))%K.
Definition eE (k m : nat) : cpx K :=
  (conj (vv V k) * (conj (y m k) * vv V m * vv lam m
     - delta k m (lsum (fun i => conj (y i k) * vv V i * vv lam i) (seq 0 n))))%K.
Definition eF (k m : nat) : cpx K :=
  (eC k m - delta k m (vv lam k * vv V k * conj (lin n y (vv V) k)))%K.

Lemma d2Sbus_entries : exists Gaa Gav Gva Gvv,
  d2Sbus_dV2 cabs Y V lam = Ok (Gaa, Gav, Gva, Gvv) /\
  cm Gaa n n (fun k m => eE k m + eF k m)%K /\
  cm Gav n n (fun k m => jj * vi V m * (eE m k - eF m k))%K /\
  cm Gva n n (fun k m => jj * vi V k * (eE k m - eF k m))%K /\
  cm Gvv n n (fun k m => vi V k * (eC k m + eC m k) * vi V m)%K.
Proof.
  unfold d2Sbus_dV2.
  destruct (ismat_mulv Y n n y V HY L) as (I & EI & LI & HI). rewrite EI. cbn [bind].
  stp (ismat_diag lam n LL P). stp (ismat_diag V n L P).
  unfold ewise. rewrite LL, L, Nat.eqb_refl. cbn [bind].
  set (lv := map2 cmul lam V).
  assert (Llv : length lv = n) by (unfold lv, map2; rewrite map_length, combine_length; lia).
  stp (ismat_diag lv n Llv P).
  stp (ismat_mul_diag V _ _ n n y L HY H0).
  stp (ismat_diag_mul lv _ _ n n _ Llv H1 (cm_conj _ _ _ _ H2)).
  stp (ismat_mul_diag V _ _ n n _ L (cm_getH _ _ _ _ HY) H0).
  stp (ismat_mul_diag lam _ _ n n _ LL H4 H).
  destruct (ismat_mulv _ n n _ lam H4 LL) as (Dl & EDl & LDl & HDl). rewrite EDl. cbn [bind].
  stp (ismat_diag Dl n LDl P).
  stp (cm_sub _ _ _ _ _ _ H5 H6).
  assert (LcV : length (map conj V) = n) by (rewrite map_length; auto).
  stp (ismat_diag_mul (map conj V) _ _ n n _ LcV (cm_conj_diag _ _ _ L H0) H7).
  assert (LcI : length (map conj I) = n) by (rewrite map_length; auto).
  stp (ismat_diag (map conj I) n LcI P).
  stp (ismat_diag_mul lv _ _ n n _ Llv H1 H9).
  stp (cm_sub _ _ _ _ _ _ H3 H10).
  rewrite (inv_abs_def V N). cbn [bind]. set (Vi := map _ V).
  assert (LVi : length Vi = n) by (unfold Vi; rewrite map_length; auto).
  stp (ismat_diag Vi n LVi P).
  stp (ismat_add _ _ _ _ _ _ H8 H11).
  stp (cm_sub _ _ _ _ _ _ H8 H11).
  stp (cm_jdiag jj Vi _ n n _ _ LVi H12 H14).
  stp (ismat_add _ _ _ _ _ _ H3 (ismat_transp _ _ _ _ H3)).
  stp (ismat_diag_mul Vi _ _ n n _ LVi H12 H16).
  stp (ismat_mul_diag Vi _ _ n n _ LVi H17 H12).
  assert (Elv : forall k, k < n -> nth k lv 0%K = (vv lam k * vv V k)%K).
  { intros k Hk. unfold lv. rewrite (nth_map2_d _ _ _ _ 0%K 0%K) by lia. reflexivity. }
  assert (EE : forall k m, k < n -> m < n ->
    (nth k (map conj V) 0 * (conj (y m k) * nth m V 0 * nth m lam 0
       - (if k =? m then nth k Dl 0 else 0)))%K = eE k m).
  { intros k m Hk Hm. rewrite nth_conj, HDl by auto. reflexivity. }
  assert (EC : forall k m, k < n -> m < n ->
    (nth k lv 0 * conj (y k m * nth m V 0))%K = eC k m).
  { intros k m Hk Hm. rewrite Elv by auto. reflexivity. }
  assert (EF : forall k m, k < n -> m < n ->
    (nth k lv 0 * conj (y k m * nth m V 0)
     - nth k lv 0 * (if k =? m then nth k (map conj I) 0 else 0))%K = eF k m).
  { intros k m Hk Hm. rewrite EC, Elv, nth_conj, HI by auto. unfold eF, delta. f_equal.
    destruct (k =? m); auto. ring. }
  do 4 eexists; split; [reflexivity|]. split; [|split; [|split]].
  - eapply ismat_eq; [exact H13|]. intros k m Hk Hm; cbv beta. rewrite EE, EF; auto.
  - eapply ismat_eq; [exact (ismat_transp _ _ _ _ H15)|]. intros k m Hk Hm; cbv beta.
    rewrite EE, EF; auto.
  - eapply ismat_eq; [exact H15|]. intros k m Hk Hm; cbv beta. rewrite EE, EF; auto.
  - eapply ismat_eq; [exact H18|]. intros k m Hk Hm; cbv beta. rewrite !EC; auto.
Qed.
End Bus.

Lemma gather_nth {A} (l : list A) idx d : Forall (fun i => i < length l) idx ->
  gather l idx = Ok (map (fun i => nth i l d) idx).
Proof.
  intros H. unfold gather. induction H as [|i idx Hi _ IH]; simpl; auto.
  unfold get at 1. destruct (nth_error_lt l i Hi) as (x & Hx). rewrite Hx. cbn [bind].
  rewrite IH. cbn [bind]. rewrite (nth_error_nth l i d Hx). reflexivity.
Qed.

(** one end of every branch: bus positions [f], admittances [Yf] *)
Section End.
Variables (nl n : nat) (f : list nat) (Yf : @cmat K) (y : nat -> nat -> cpx K) (V : list (cpx K)).
Hypothesis P : 0 < n.
Hypothesis Pl : 0 < nl.
Hypothesis HY : cm Yf nl n y.
Hypothesis L : length V = n.
Hypothesis N : nz V.
Hypothesis Lf : length f = nl.
Hypothesis Bf : Forall (fun i => i < n) f.
Definition fr (l : nat) : nat := nth l f 0.
Let Vn := map (fun z => cdiv z (ofK (cabs z))) V.

Lemma dSend_entries : exists da dm S, dSend_dV f Yf V Vn = Ok (da, dm, S) /\
  cm da nl n (fun l k => jj * (conj (lin n y (vv V) l) * delta (fr l) k (vv V k)
                              - vv V (fr l) * conj (y l k * vv V k)))%K /\
  cm dm nl n (fun l k => vv V (fr l) * conj (y l k * vn V k)
                         + conj (lin n y (vv V) l) * delta (fr l) k (vn V k))%K /\
  length S = nl /\ forall l, l < nl -> vv S l = (vv V (fr l) * conj (lin n y (vv V) l))%K.
Proof.
  unfold dSend_dV. rewrite Lf, L.
  destruct (ismat_mulv Yf nl n y V HY L) as (I & EI & LI & HI). rewrite EI. cbn [bind].
  assert (LV : length Vn = n) by (unfold Vn; rewrite map_length; auto).
  rewrite (gather_nth V f 0%K) by (rewrite L; auto). cbn [bind].
  rewrite (gather_nth Vn f 0%K) by (rewrite LV; auto). cbn [bind].
  set (Vf := map (fun i => nth i V 0%K) f). set (Vnf := map (fun i => nth i Vn 0%K) f).
  assert (LVf : length Vf = nl) by (unfold Vf; rewrite map_length; auto).
  assert (LVnf : length Vnf = nl) by (unfold Vnf; rewrite map_length; auto).
  assert (EVf : forall l, l < nl -> nth l Vf 0%K = vv V (fr l)).
  { intros l Hl. unfold Vf. rewrite (nth_map_lt _ _ _ _ 0) by lia. reflexivity. }
  assert (EVnf : forall l, l < nl -> nth l Vnf 0%K = vn V (fr l)).
  { intros l Hl. unfold Vnf. rewrite (nth_map_lt _ _ _ _ 0) by lia. reflexivity. }
  stp (ismat_diag Vf nl LVf Pl). stp (ismat_diag I nl LI Pl).
  stp (ismat_diag V n L P). stp (ismat_diag Vn n LV P).
  stp (ismat_rows Vf f nl n LVf Lf Bf). stp (ismat_rows Vnf f nl n LVnf Lf Bf).
  assert (LcI : length (map conj I) = nl) by (rewrite map_length; auto).
  pose proof (cm_conj_diag _ _ _ LI H0) as HcI.
  stp (ismat_diag_mul (map conj I) _ _ nl n _ LcI HcI H3).
  stp (ismat_mul_diag V _ _ n nl y L HY H1).
  stp (ismat_diag_mul Vf _ _ nl n _ LVf H (cm_conj _ _ _ _ H6)).
  stp (cm_sub _ _ _ _ _ _ H5 H7).
  stp (ismat_mul_diag Vn _ _ n nl y LV HY H2).
  stp (ismat_diag_mul Vf _ _ nl n _ LVf H (cm_conj _ _ _ _ H9)).
  stp (ismat_diag_mul (map conj I) _ _ nl n _ LcI HcI H4).
  stp (ismat_add _ _ _ _ _ _ H10 H11).
  unfold ewise. rewrite LVf, LI, Nat.eqb_refl. cbn [bind].
  do 3 eexists; split; [reflexivity|]. split; [|split; [|split]].
  - eapply ismat_eq; [apply cm_scale; exact H8|]. intros l k Hl Hk; cbv beta.
    rewrite nth_conj, HI, EVf by auto. unfold delta. fold (fr l).
    destruct (Nat.eqb_spec (fr l) k) as [<-|]; reflexivity.
  - eapply ismat_eq; [exact H12|]. intros l k Hl Hk; cbv beta.
    rewrite nth_conj, HI, EVf, EVnf by auto. unfold delta. fold (fr l).
    destruct (Nat.eqb_spec (fr l) k) as [<-|]; reflexivity.
  - unfold map2. rewrite map_length, combine_length. lia.
  - intros l Hl. unfold vv at 1. rewrite (nth_map2_d _ _ _ _ 0%K 0%K) by lia.
    rewrite EVf, HI by auto. reflexivity.
Qed.

Lemma dIend_entries : exists da dm I, dIend_dV Yf V Vn = Ok (da, dm, I) /\
  cm da nl n (fun l k => jj * y l k * vv V k)%K /\
  cm dm nl n (fun l k => y l k * vn V k)%K /\
  length I = nl /\ forall l, l < nl -> vv I l = lin n y (vv V) l.
Proof.
  unfold dIend_dV.
  assert (LV : length Vn = n) by (unfold Vn; rewrite map_length; auto).
  stp (ismat_diag V n L P). stp (ismat_diag Vn n LV P).
  stp (ismat_mul_diag V _ _ n nl _ L (cm_scale jj _ _ _ _ HY) H).
  stp (ismat_mul_diag Vn _ _ n nl _ LV HY H0).
  destruct (ismat_mulv Yf nl n y V HY L) as (I & EI & LI & HI). rewrite EI. cbn [bind].
  do 3 eexists; split; [reflexivity|]. split; [|split; [|split]]; auto.
Qed.
End End.

Lemma dAend_entries nl n (dS : @cmat K) d S : 0 < nl -> cm dS nl n d -> length S = nl ->
  exists M, dAend dS S = Ok M /\
    ismat M nl n (fun l k => fofZ 2 * re (vv S l) * re (d l k) + fofZ 2 * im (vv S l) * im (d l k))%K.
Proof.
  intros Pl H L. unfold dAend.
  set (p := map (fun s => fofZ 2 * re s)%K S). set (q := map (fun s => fofZ 2 * im s)%K S).
  assert (Lp : length p = nl) by (unfold p; rewrite map_length; auto).
  assert (Lq : length q = nl) by (unfold q; rewrite map_length; auto).
  stp (ismat_diag p nl Lp Pl). stp (ismat_diag q nl Lq Pl).
  stp (ismat_diag_mul p _ _ nl n _ Lp H0 (cm_real _ _ _ _ H)).
  stp (ismat_diag_mul q _ _ nl n _ Lq H1 (cm_imag _ _ _ _ H)).
  destruct (ismat_add _ _ _ _ _ _ H2 H3) as (T & ET & HT). exists T; split; auto.
  eapply ismat_eq; [exact HT|]. intros l k Hl Hk. cbv beta. unfold p, q.
  rewrite !(nth_map_lt _ _ _ _ (0%K : cpx K)) by lia. reflexivity.
Qed.

(** second derivatives of branch quantities *)
Section Br2.
Variables (nl n : nat) (C Y : @cmat K) (c y : nat -> nat -> cpx K) (V lam : list (cpx K)).
Hypothesis P : 0 < n.
Hypothesis Pl : 0 < nl.
Hypothesis HC : cm C nl n c.
Hypothesis HY : cm Y nl n y.
Hypothesis L : length V = n.
Hypothesis N : nz V.
Hypothesis LL : length lam = nl.

Definition eA (k m : nat) : cpx K :=
  lsum (fun l => conj (y l k) * vv lam l * c l m)%K (seq 0 nl).
Definition eB (k m : nat) : cpx K := (conj (vv V k) * eA k m * vv V m)%K.
Definition eD (k m : nat) : cpx K :=
  delta k m (lsum (fun i => eA k i * vv V i) (seq 0 n) * conj (vv V k))%K.
Definition eG (k m : nat) : cpx K :=
  delta k m (lsum (fun i => eA i k * conj (vv V i)) (seq 0 n) * vv V k)%K.

Lemma d2Sbr_entries : exists Haa Hav Hva Hvv,
  d2Sbr_dV2 cabs C Y V lam = Ok (Haa, Hav, Hva, Hvv) /\
  cm Haa n n (fun k m => eB k m + eB m k - eD k m - eG k m)%K /\
  cm Hav n n (fun k m => jj * vi V m * (eB m k - eB k m - eD m k + eG m k))%K /\
  cm Hva n n (fun k m => jj * vi V k * (eB k m - eB m k - eD k m + eG k m))%K /\
  cm Hvv n n (fun k m => vi V k * (eB k m + eB m k) * vi V m)%K.
Proof.
  unfold d2Sbr_dV2.
  stp (ismat_diag lam nl LL Pl). stp (ismat_diag V n L P).
  stp (ismat_mul_diag lam _ _ nl n _ LL (cm_getH _ _ _ _ HY) H).
  destruct (ismat_mul _ _ n nl n _ _ H1 HC) as (A & EqA & HA0). rewrite EqA. cbn [bind].
  assert (HA : cm A n n eA).
  { eapply ismat_eq; [exact HA0|]. intros k m Hk Hm. reflexivity. }
  clear HA0.
  assert (LcV : length (map conj V) = n) by (rewrite map_length; auto).
  stp (ismat_diag_mul (map conj V) _ _ n n _ LcV (cm_conj_diag _ _ _ L H0) HA).
  destruct (ismat_mul_diag V _ _ n n _ L H2 H0) as (B & EqB & HB0). rewrite EqB. cbn [bind].
  assert (HB : cm B n n eB).
  { eapply ismat_eq; [exact HB0|]. intros k m Hk Hm. cbv beta. rewrite nth_conj. reflexivity. }
  clear HB0.
  destruct (ismat_mulv _ n n _ V HA L) as (av & Eav & Lav & Hav). rewrite Eav. cbn [bind].
  unfold ewise. rewrite Lav, LcV, Nat.eqb_refl. cbn [bind].
  set (d0 := map2 cmul av (map conj V)).
  assert (Ld0 : length d0 = n) by (unfold d0, map2; rewrite map_length, combine_length; lia).
  destruct (ismat_diag d0 n Ld0 P) as (D & EqD & HD0). rewrite EqD. cbn [bind].
  assert (HD : cm D n n eD).
  { eapply ismat_eq; [exact HD0|]. intros k m Hk Hm. cbv beta. unfold eD, delta.
    destruct (k =? m); auto. unfold d0. rewrite (nth_map2_d _ _ _ _ 0%K 0%K) by lia.
    rewrite nth_conj, Hav by auto. reflexivity. }
  clear HD0.
  destruct (ismat_mulv _ n n _ (map conj V) (ismat_transp _ _ _ _ HA) LcV) as (atv & Eatv & Latv & Hatv).
  rewrite Eatv. cbn [bind].
  rewrite Latv, L, Nat.eqb_refl. cbn [bind].
  set (g0 := map2 cmul atv V).
  assert (Lg0 : length g0 = n) by (unfold g0, map2; rewrite map_length, combine_length; lia).
  destruct (ismat_diag g0 n Lg0 P) as (G & EqG & HG0). rewrite EqG. cbn [bind].
  assert (HG : cm G n n eG).
  { eapply ismat_eq; [exact HG0|]. intros k m Hk Hm. cbv beta. unfold eG, delta.
    destruct (k =? m); auto. unfold g0. rewrite (nth_map2_d _ _ _ _ 0%K 0%K) by lia.
    rewrite Hatv by auto. cbn [rmul cpx_rng]. f_equal. apply lsum_ext. intros i _.
    rewrite nth_conj. reflexivity. }
  clear HG0.
  stp (ismat_add _ _ _ _ _ _ HB (ismat_transp _ _ _ _ HB)).
  rewrite (inv_abs_def V N). cbn [bind]. set (Vi := map _ V).
  assert (LVi : length Vi = n) by (unfold Vi; rewrite map_length; auto).
  stp (ismat_diag Vi n LVi P).
  stp (cm_sub _ _ _ _ _ _ H3 HD). stp (cm_sub _ _ _ _ _ _ H5 HG).
  stp (cm_sub _ _ _ _ _ _ HB (ismat_transp _ _ _ _ HB)).
  stp (cm_sub _ _ _ _ _ _ H7 HD). stp (ismat_add _ _ _ _ _ _ H8 HG).
  stp (cm_jdiag jj Vi _ n n _ _ LVi H4 H9).
  stp (ismat_diag_mul Vi _ _ n n _ LVi H4 H3).
  stp (ismat_mul_diag Vi _ _ n n _ LVi H11 H4).
  do 4 eexists; split; [reflexivity|]. split; [|split; [|split]]; auto.
  apply (ismat_transp _ _ _ _ H10).
Qed.

Definition eI (k : nat) : cpx K := lsum (fun l => y l k * vv lam l)%K (seq 0 nl).

Lemma d2Ibr_entries : exists Haa Hav Hva Hvv,
  d2Ibr_dV2 cabs Y V lam = Ok (Haa, Hav, Hva, Hvv) /\
  cm Haa n n (fun k m => delta k m (- eI k * vv V k))%K /\
  cm Hav n n (fun k m => delta k m (jj * eI k * vv V k * vi V k))%K /\
  cm Hva n n (fun k m => delta k m (jj * eI k * vv V k * vi V k))%K /\
  cm Hvv n n (fun k m => 0)%K.
Proof.
  unfold d2Ibr_dV2. rewrite (inv_abs_def V N). cbn [bind]. set (Vi := map _ V).
  assert (LVi : length Vi = n) by (unfold Vi; rewrite map_length; auto).
  stp (ismat_diag Vi n LVi P).
  destruct (ismat_mulv _ n nl _ lam (ismat_transp _ _ _ _ HY) LL) as (yl & Eyl & Lyl & Hyl).
  rewrite Eyl. cbn [bind].
  unfold ewise. rewrite map_length, Lyl, L, Nat.eqb_refl. cbn [bind].
  set (h := map2 cmul (map copp yl) V).
  assert (Lh : length h = n) by (unfold h, map2; rewrite map_length, combine_length, map_length; lia).
  stp (ismat_diag h n Lh P).
  stp (ismat_mul_diag Vi _ _ n n _ LVi (cm_scale (copp jj) _ _ _ _ H0) H).
  assert (Eh : forall k, k < n -> nth k h 0%K = (- eI k * vv V k)%K).
  { intros k Hk. unfold h. rewrite (nth_map2_d _ _ _ _ 0%K 0%K) by (rewrite ?map_length; lia).
    rewrite (nth_map_lt _ _ _ _ 0%K) by lia. rewrite Hyl by auto. reflexivity. }
  assert (HH : cm M1 n n (fun k m => delta k m (jj * eI k * vv V k * vi V k))%K).
  { eapply ismat_eq; [exact H1|]. intros k m Hk Hm; cbv beta. unfold delta.
    destruct (Nat.eqb_spec k m) as [<-|].
    - rewrite Eh by auto. change (copp jj) with (- (jj : cpx K))%K.
      change (nth k Vi 0%K) with (vi V k). ring.
    - ring. }
  do 4 eexists; split; [reflexivity|]. split; [|split; [|split]]; auto.
  - eapply ismat_eq; [exact H0|]. intros k m Hk Hm; cbv beta. unfold delta. rewrite Eh by auto. auto.
  - split; [constructor|]. repeat split; auto.
Qed.
End Br2.

(** the squared-magnitude terms *)
Lemma sq_entries nl n (S X Z dl : @cmat K) s x z lam : 0 < nl -> length lam = nl ->
  cm S n n s -> cm X nl n x -> cm Z nl n z ->
  cm dl nl nl (fun i j => if i =? j then nth i lam 0 else 0)%K ->
  exists M, sq_term S X Z dl = Ok M /\
    ismat M n n (fun k m => fofZ 2 * re (s k m
        + lsum (fun l => x l k * vv lam l * conj (z l m)) (seq 0 nl)))%K.
Proof.
  intros Pl LL HS HX HZ Hd. unfold sq_term.
  stp (ismat_mul_diag lam _ _ nl n _ LL (ismat_transp _ _ _ _ HX) Hd).
  stp (ismat_mul _ _ n nl n _ _ H (cm_conj _ _ _ _ HZ)).
  stp (ismat_add _ _ _ _ _ _ HS H0).
  eexists; split; [reflexivity|].
  apply (im_twice _ _ _ _ (cm_real _ _ _ _ H1)).
Qed.
End DerivA.
