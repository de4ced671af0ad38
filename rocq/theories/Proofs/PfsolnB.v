(** Facts about pfsoln: the slack generators and the whole update. *)
From Coq Require Import Permutation.
From Verif Require Import Lib.ListFacts Model.AcPf Spec.PfSpec Proofs.LinAlgFacts Proofs.SparseFacts
  Proofs.FldFacts Proofs.NetworkA Proofs.NetworkB Proofs.NetworkC Proofs.NetworkD Proofs.NetworkE
  Proofs.YbusA Proofs.MatFacts Proofs.AcPfA Proofs.AcPfB Proofs.PfsolnA.
Local Open Scope nat_scope.

Lemma map_upd {A B} (f : A -> B) l i x : map f (upd l i x) = upd (map f l) i (f x).
Proof. revert i. induction l as [|a l IH]; intros [|i]; simpl; auto. f_equal. auto. Qed.

Lemma map_upd_same {A B} (f : A -> B) l i x a : nth_error l i = Some a -> f x = f a ->
  map f (upd l i x) = map f l.
Proof. intros H E. rewrite map_upd, E. apply upd_self. rewrite nth_error_map, H. auto. Qed.

Section PfsolnB.
Context {K : Type} {F : Fld K}.
Add Field KF : (@f_ok K F).
Add Ring CR : (@r_ok (cpx K) _).

Lemma lsum_find {A} (p : A -> bool) (f : nat -> K) (l : list A) d :
  lsum f (find (map p l)) = lsum (fun i => if p (nth i l d) then f i else 0%K) (seq 0 (length l)).
Proof.
  unfold find.
  assert (forall k, lsum f (find_from k (map p l))
    = lsum (fun i => if p (nth i l d) then f (k + i) else 0%K) (seq 0 (length l))) as G.
  { induction l as [|a l IH]; intros k; auto. cbn [map find_from length seq].
    assert (lsum (fun i => if p (nth i (a :: l) d) then f (k + i) else 0%K) (0 :: seq 1 (length l))
      = ((if p a then f k else 0) + lsum f (find_from (S k) (map p l)))%K) as E.
    { cbn [lsum nth]. rewrite Nat.add_0_r. f_equal. rewrite IH, <- seq_shift, lsum_map.
      apply lsum_ext. intros i _. cbn [nth]. rewrite <- Nat.add_succ_comm. reflexivity. }
    rewrite E. destruct (p a); cbn [lsum]; auto. ring. }
  apply (G 0).
Qed.

(** ** totals as sums over the in-service generators *)
Definition gon (gen : list (list K)) := filter in_service gen.
Definition gbs (gen : list (list K)) := map (fun r => bus_no r GEN_BUS) (gon gen).
Definition onl (gen : list (list K)) := find (map in_service gen).

Lemma gen_total_at (q : list K -> K) gen i : gen_total q gen i = at_bus (gbs gen) (map q (gon gen)) i.
Proof.
  unfold at_bus, gbs. rewrite map_length.
  rewrite (lsum_ext _ (fun p => (fun g => if bus_no g GEN_BUS =? i then q g else 0%K) (nth p (gon gen) []))).
  - rewrite <- (lsum_nth (fun g => if bus_no g GEN_BUS =? i then q g else 0%K) (gon gen) []). unfold gon. rewrite lsum_filter. apply lsum_ext.
    intros g _. destruct (in_service g); auto.
  - intros p Hp. apply in_seq in Hp. rewrite (nth_map_lt _ _ _ _ []) by lia.
    destruct (_ =? _); auto. rewrite (nth_map_lt _ _ _ _ []) by lia. reflexivity.
Qed.

(** ** connectivity is untouched by output columns *)
Definition conn (g : list K) : bool * nat := (in_service g, bus_no g GEN_BUS).

Lemma gon_conn gen : gbs gen = map snd (filter fst (map conn gen)).
Proof.
  unfold gbs, gon. induction gen as [|g gen IH]; simpl; auto.
  destruct (in_service g); simpl; [f_equal|]; auto.
Qed.
Lemma onl_conn gen : onl gen = find (map fst (map conn gen)).
Proof. unfold onl. rewrite map_map. reflexivity. Qed.

Lemma first_at_conn gen gen' i k : map conn gen = map conn gen' ->
  first_at gen i k -> first_at gen' i k.
Proof.
  intros E ((g & Hg & S & B) & N).
  assert (forall k h, nth_error gen' k = Some h -> exists h', nth_error gen k = Some h' /\ conn h' = conn h) as T.
  { intros k0 h H0. assert (nth_error (map conn gen') k0 = Some (conn h)) as H1
      by (rewrite nth_error_map, H0; auto).
    rewrite <- E, nth_error_map in H1. destruct (nth_error gen k0) as [h'|]; [|discriminate].
    injection H1 as H1 H2. exists h'. split; auto. unfold conn. congruence. }
  split.
  - assert (nth_error (map conn gen) k = Some (conn g)) as H1 by (rewrite nth_error_map, Hg; auto).
    rewrite E, nth_error_map in H1. destruct (nth_error gen' k) as [g'|] eqn:E'; [|discriminate].
    injection H1 as H1 H2. exists g'. repeat split; congruence.
  - intros k' h L H Sh. destruct (T _ _ H) as (h' & H' & C). injection C as C1 C2.
    rewrite <- C2. apply (N k'); auto. congruence.
Qed.

Lemma conn_upd (g : list K) j v : j <> GEN_STATUS -> j <> GEN_BUS -> conn (upd g j v) = conn g.
Proof. intros A B. unfold conn, in_service, bus_no. rewrite !upd_cell_other; auto. Qed.

(** ** one slack bus *)
Section Slack.
Variables (baseMVA : K) (bus : list (list K)) (bp : nat -> cpx K).
Definition pneed (r : nat) : K := (re (bp r) * baseMVA + cell (nth r bus []) PD)%K.

Lemma slack_step_ok gen r gen' :
  slack_step baseMVA bus (onl gen) (gbs gen) (map bp (gbs gen)) gen r = Ok gen' ->
  exists g row v, nth_error gen g = Some row /\ first_at gen r g /\ PG < length row /\
    gen' = upd gen g (upd row PG v) /\
    v = (pneed r - (gen_total (fun x => cell x PG) gen r - cell row PG))%K.
Proof.
  unfold slack_step. destruct (find (map (fun b => b =? r) (gbs gen))) as [|k0 oth] eqn:EF; [discriminate|].
  intros H. apply bind_ok in H as (s & Hs & H). apply bind_ok in H as (b & Hb & H).
  apply bind_ok in H as (pd & Hpd & H). apply bind_ok in H as (g0 & Hg & H).
  apply bind_ok in H as (gen1 & H1 & H).
  assert (first_gen (onl gen) (gbs gen) r = Ok g0) as FG
    by (unfold first_gen; rewrite EF; simpl; auto).
  apply first_gen_ok in FG as (row & Hrow & S & B & FST).
  assert (first_at gen r g0) as FA by (split; eauto).
  apply set_row1_ok in H1 as (row' & Hrow' & W & ->). rewrite Hrow in Hrow'. injection Hrow' as <-.
  assert (In k0 (find (map (fun b => b =? r) (gbs gen)))) as I0 by (rewrite EF; left; auto).
  assert (nth k0 (gbs gen) 0 = r /\ k0 < length (gbs gen)) as (E0 & L0).
  { apply in_find in I0. rewrite nth_error_map in I0. destruct (nth_error (gbs gen) k0) eqn:E; [|discriminate].
    injection I0 as I0. apply Nat.eqb_eq in I0. subst. split; [apply nth_error_nth; auto|].
    eapply nth_error_some_lt; eauto. }
  apply get_ok in Hs. rewrite nth_error_map in Hs.
  rewrite (nth_error_nth' _ 0 L0), E0 in Hs. injection Hs as <-.
  apply get_ok, (nth_error_nth _ _ []) in Hb. apply get_ok, (nth_error_nth _ _ 0%K) in Hpd.
  assert (re (bp r) * baseMVA + pd = pneed r)%K as EN
    by (unfold pneed, cell; rewrite Hb, Hpd; reflexivity).
  rewrite EN in H.
  assert (forall k g a, nth_error (onl gen) k = Some g -> nth_error gen g = Some a ->
            nth k (gon gen) [] = a) as GN.
  { intros k g a Hk Ha. apply nth_error_find in Hk as (a' & Ha' & _ & Hf).
    rewrite Ha in Ha'. injection Ha' as <-. apply nth_error_nth. exact Hf. }
  apply get_ok in Hg.
  assert (gen_total (fun x => cell x PG) gen r
    = (cell row PG + lsum (fun k => cell (nth k (gon gen) []) PG) oth)%K) as TOT.
  { rewrite gen_total_at. unfold at_bus.
    rewrite (lsum_ext _ (fun i => if (nth i (gbs gen) 0 =? r) then cell (nth i (gon gen) []) PG else 0%K)).
    - rewrite <- (lsum_find (fun b => b =? r) _ (gbs gen) 0), EF. cbn [lsum].
      rewrite (GN _ _ _ Hg Hrow). reflexivity.
    - intros p Hp. apply in_seq in Hp. unfold gbs in Hp. rewrite map_length in Hp.
      destruct (_ =? _); auto. rewrite (nth_map_lt _ _ _ _ []) by lia. reflexivity. }
  destruct oth as [|o1 oth].
  - injection H as <-. exists g0, row, (pneed r). split; auto. split; auto. split; auto. split; auto.
    rewrite TOT. cbn [lsum]. ring.
  - set (os := o1 :: oth) in *. apply bind_ok in H as (idx & Hidx & H).
    apply bind_ok in H as (rows & Hrows & H). apply bind_ok in H as (pg & Hpg & H).
    apply bind_ok in H as (rw & Hrw & H). apply bind_ok in H as (cur & Hcur & H).
    assert (g0 < length gen) as Lg by (eapply nth_error_some_lt; eauto).
    apply get_ok in Hrw. rewrite nth_error_upd_same in Hrw by auto. injection Hrw as <-.
    apply get_ok in Hcur. rewrite nth_error_upd_same in Hcur by auto. injection Hcur as <-.
    apply set_row1_ok in H as (rr & Hrr & _ & ->).
    rewrite nth_error_upd_same in Hrr by auto. injection Hrr as <-. rewrite !upd_upd.
    exists g0, row, (pneed r - lsum (fun a => a) pg)%K.
    split; auto. split; auto. split; auto. split; auto.
    assert (lsum (fun a => a) pg = lsum (fun k => cell (nth k (gon gen) []) PG) os) as ->.
    2: { rewrite TOT. ring. }
    apply col_ok in Hpg as (_ & ->). rewrite lsum_map.
    assert (NoDup (k0 :: os)) as ND by (rewrite <- EF; apply find_NoDup).
    assert (~ In k0 os) as NI by (inversion ND; auto).
    assert (NoDup (onl gen)) as NO by apply find_NoDup.
    clearbody os. clear -Hidx Hrows NI NO GN Hg Lg. revert idx rows Hidx Hrows.
    induction os as [|k os IH]; intros idx rows Hidx Hrows.
    + injection Hidx as <-. injection Hrows as <-. reflexivity.
    + unfold gather in Hidx. cbn [mapM] in Hidx. apply bind_ok in Hidx as (g & Hgk & Hidx).
      apply bind_ok in Hidx as (idx' & Hi & Hidx). injection Hidx as <-.
      unfold gather in Hrows. cbn [mapM] in Hrows. apply bind_ok in Hrows as (a & Ha & Hrows).
      apply bind_ok in Hrows as (rows' & Hr & Hrows). injection Hrows as <-.
      cbn [lsum]. rewrite (IH (fun C => NI (or_intror C)) idx' rows' Hi Hr). f_equal.
      apply get_ok in Hgk, Ha. rewrite nth_error_upd_other in Ha.
      * rewrite (GN _ _ _ Hgk Ha). reflexivity.
      * intros C. subst g. apply NI. left.
        rewrite NoDup_nth_error in NO. symmetry. apply NO; [eapply nth_error_some_lt; eauto|congruence].
Qed.

Lemma slack_fold on gb ref : forall gen gen', NoDup ref -> on = onl gen -> gb = gbs gen ->
  foldM (slack_step baseMVA bus on gb (map bp gb)) ref gen = Ok gen' ->
  map conn gen' = map conn gen /\ length gen' = length gen /\
  (forall k row, nth_error gen k = Some row -> exists row', nth_error gen' k = Some row' /\
     (row' = row \/ exists r v, In r ref /\ first_at gen r k /\ PG < length row /\ row' = upd row PG v)) /\
  (forall r, In r ref -> gen_total (fun x => cell x PG) gen' r = pneed r) /\
  (forall i, ~ In i ref -> gen_total (fun x => cell x PG) gen' i = gen_total (fun x => cell x PG) gen i).
Proof.
  induction ref as [|r ref IH]; intros gen gen' ND -> -> H; simpl in H.
  - injection H as <-. split; auto. split; auto. split; [eauto|]. split; [contradiction|auto].
  - apply bind_ok in H as (gen1 & H1 & H). inversion ND as [|? ? NI ND']; subst.
    apply slack_step_ok in H1 as (g & row & v & Hrow & FA & W & EG & EV).
    assert (map conn gen1 = map conn gen) as EC.
    { rewrite EG. apply (map_upd_same _ _ _ _ row); auto. apply conn_upd; unfold PG, GEN_STATUS, GEN_BUS; lia. }
    assert (g < length gen) as Lg by (eapply nth_error_some_lt; eauto).
    assert (forall i, gen_total (fun x => cell x PG) gen1 i
      = (gen_total (fun x => cell x PG) gen i + (if r =? i then v - cell row PG else 0))%K) as GT.
    { intros i. rewrite EG. unfold gen_total. rewrite (lsum_upd _ _ _ _ row) by auto. f_equal.
      assert (conn (upd row PG v) = conn row) as C by (apply conn_upd; unfold PG, GEN_STATUS, GEN_BUS; lia).
      apply (f_equal fst) in C as C1. apply (f_equal snd) in C as C2. cbn [conn fst snd] in C1, C2.
      rewrite C1, C2.
      destruct FA as ((g' & Hg' & S & B) & _). rewrite Hrow in Hg'. injection Hg' as <-. rewrite S, B.
      cbn [andb]. destruct (r =? i); [|ring]. unfold cell at 1. rewrite nth_upd_same by auto. ring. }
    apply IH in H as (A & L & R & P & Q); auto.
    2: { rewrite !onl_conn, EC. auto. } 2: { rewrite !gon_conn, EC. auto. }
    split; [congruence|]. split; [rewrite L, EG, upd_length; auto|]. split; [|split].
    + intros k rw Hk. destruct (Nat.eq_dec k g) as [->|NE].
      * rewrite Hrow in Hk. injection Hk as <-.
        destruct (R g (upd row PG v)) as (row' & Hr' & C); [rewrite EG; apply nth_error_upd_same; auto|].
        exists row'. split; auto. right. destruct C as [->|(r' & v' & Ir & _ & _ & ->)].
        -- exists r, v. simpl. auto.
        -- exists r, v'. split; [left; auto|]. split; auto. split; auto. apply upd_upd.
      * destruct (R k rw) as (row' & Hr' & C).
        { rewrite EG, nth_error_upd_other by auto. auto. }
        exists row'. split; auto. destruct C as [->|(r' & v' & Ir & F' & W' & ->)]; auto.
        right. exists r', v'. split; [right; auto|]. split; auto.
        apply (first_at_conn gen1); auto.
    + intros r' [->|I].
      * rewrite Q by auto. rewrite GT, Nat.eqb_refl. rewrite EV. ring.
      * auto.
    + intros i N. rewrite Q by (intros C; apply N; right; auto). rewrite GT.
      destruct (Nat.eqb_spec r i) as [->|]; [exfalso; apply N; left; auto|]. ring.
Qed.
End Slack.
End PfsolnB.
