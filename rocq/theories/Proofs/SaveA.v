(** Writing and reading tables. *)
From Coq Require Import Lia.
From Verif Require Import Lib.ListFacts Spec.SaveSpec.
Local Open Scope nat_scope.

Section SaveA.
Variables g9 f4 : Qc -> Qc.

Definition txt (f : fmt) (q : Qc) : Qc := match f with FD => zc (qtrunc q) | F9 => g9 q | F4 => f4 q end.
Definition fin (x : num) : Qc := match x with Fin q => q | _ => zc 0 end.
Definition out_row (fs : list fmt) (r : list num) : list Qc := map (fun p => txt (fst p) (fin (snd p))) (combine fs r).

Lemma show_row_ok fs : forall r, length r = length fs -> Forall (fun x => exists q, x = Fin q) r ->
  show_row g9 f4 fs r = Ok (map TNum (out_row fs r)).
Proof.
  induction fs as [|f fs IH]; intros [|x r] L H; cbn in L; try discriminate; [reflexivity|]. inversion H as [|? ? (q & ->) H']; subst.
  cbn [show_row]. destruct f; cbn [show bind]; rewrite (IH r) by (auto; lia); reflexivity.
Qed.
Lemma out_row_length fs r : length r = length fs -> length (out_row fs r) = length fs.
Proof. intros H. unfold out_row. rewrite map_length, combine_length. lia. Qed.

Lemma values_ok l : mapM value_of (map TNum l) = Ok (map Fin l).
Proof. induction l as [|x l IH]; [reflexivity|]. cbn [map mapM value_of bind]. rewrite IH. reflexivity. Qed.

Definition out (fs : list fmt) (t : arr) : list (list Qc) := map (fun r => out_row fs (firstn (length fs) r)) (a_rows t).
Lemma rows_ok fs t : rectangular t -> all_finite t -> length fs <= a_cols t ->
  show_rows g9 f4 fs (length fs) (a_rows t) = Ok (map (map TNum) (out fs t)).
Proof.
  intros R A L. unfold show_rows, out. rewrite map_map. unfold rectangular, all_finite in *. induction (a_rows t) as [|r l IH]; [reflexivity|].
  inversion R as [|? ? R1 R2]; inversion A as [|? ? A1 A2]; subst. cbn [mapM map]. rewrite show_row_ok.
  - cbn [bind]. rewrite IH by auto. reflexivity.
  - rewrite firstn_length. lia.
  - clear -A1. revert A1. generalize (length fs). induction r as [|x r IH]; intros [|n] A1; cbn; constructor; inversion A1; subst; auto.
Qed.
Lemma out_width fs t r : rectangular t -> length fs <= a_cols t -> In r (out fs t) -> length r = length fs.
Proof.
  intros R L I. apply in_map_iff in I as (x & <- & Hx). apply out_row_length. rewrite firstn_length. rewrite (proj1 (Forall_forall _ _) R _ Hx). lia.
Qed.
Lemma array_ok fs t : table_ok t -> length fs <= a_cols t ->
  array_of (map (map TNum) (out fs t)) = Ok {| a_cols := length fs; a_rows := map (map Fin) (out fs t) |}.
Proof.
  intros (R & A & N) L. unfold array_of.
  assert (V : mapM (mapM value_of) (map (map TNum) (out fs t)) = Ok (map (map Fin) (out fs t))).
  { induction (out fs t) as [|r l IH]; [reflexivity|]. cbn [map mapM]. rewrite values_ok. cbn [bind]. rewrite IH. reflexivity. }
  rewrite V. cbn [bind].
  assert (W : match map (map Fin) (out fs t) with [] => 0 | r :: _ => length r end = length fs).
  { destruct (out fs t) as [|r l] eqn:E; [unfold out in E; apply map_eq_nil in E; contradiction|]. cbn [map]. rewrite map_length. eapply out_width; eauto. rewrite E. left. reflexivity. }
  rewrite W. replace (forallb _ _) with true; [reflexivity|]. symmetry. apply forallb_forall. intros r Hr. apply in_map_iff in Hr as (x & <- & Hx).
  rewrite map_length, (out_width fs t x R L Hx). apply Nat.eqb_refl.
Qed.

Lemma combine_nth_error {A B} (l : list A) (l' : list B) : forall j a b, nth_error l j = Some a -> nth_error l' j = Some b -> nth_error (combine l l') j = Some (a, b).
Proof. revert l'. induction l as [|x l IH]; intros [|y l'] [|j] a b; cbn; intros; try discriminate; [congruence|]. apply IH; auto. Qed.
Lemma firstn_nth_error {A} (l : list A) : forall n j, j < n -> nth_error (firstn n l) j = nth_error l j.
Proof. induction l as [|x l IH]; intros [|n] [|j] H; cbn; auto; try lia. apply IH. lia. Qed.
Lemma keeps_ok whole res fs t : table_ok t -> length fs <= a_cols t ->
  (forall j, j < length fs -> nth_error fs j = Some (if existsb (Nat.eqb j) whole then FD else if res <=? j then F4 else F9)) ->
  keeps g9 f4 whole res (length fs) t {| a_cols := length fs; a_rows := map (map Fin) (out fs t) |}.
Proof.
  intros (R & A & N) L Q. split; [reflexivity|]. cbn [a_rows]. split; [unfold out; rewrite !map_length; reflexivity|]. split.
  - apply Forall_forall. intros r Hr. apply in_map_iff in Hr as (x & <- & Hx). rewrite map_length. eapply out_width; eauto.
  - intros i j x Hj E. unfold entry in *. cbn [a_rows]. unfold out. rewrite !nth_error_map. destruct (nth_error (a_rows t) i) as [r|] eqn:Hr; [|discriminate].
    cbn [option_map]. unfold out_row. rewrite !nth_error_map.
    rewrite (combine_nth_error fs (firstn (length fs) r) j _ (Fin x) (Q j Hj)) by (rewrite firstn_nth_error by auto; exact E).
    cbn [option_map fst snd fin]. unfold kept_value. destruct (existsb _ _); [reflexivity|]. destruct (res <=? j); reflexivity.
Qed.
End SaveA.

(** names *)
Lemma substring_prefix s t : String.substring 0 (String.length s) (s ++ t)%string = s.
Proof. induction s as [|c s IH]; cbn; [destruct t; reflexivity|]. rewrite IH. reflexivity. Qed.
Lemma length_append s t : String.length (s ++ t)%string = String.length s + String.length t.
Proof. induction s as [|c s IH]; cbn; auto. Qed.
Lemma chop_py s : chop 3 (s ++ ".py")%string = s.
Proof. unfold chop. rewrite length_append. cbn [String.length]. replace (String.length s + 3 - 3) with (String.length s) by lia. apply substring_prefix. Qed.
Lemma good_target fname : good_name fname -> exists f root, target fname = (f, root, false) /\ basename (chop 3 f) = basename root /\ identifier (basename root) = true.
Proof.
  intros (NM & ID). unfold target. destruct (ends_with fname ".py") eqn:P.
  - assert (L : 2 < String.length fname) by (unfold ends_with in P; apply andb_prop in P as (P & _); apply Nat.leb_le in P; cbn in P; lia).
    replace (2 <? String.length fname) with true by (symmetry; apply Nat.ltb_lt; auto).
    destruct (chop 3 fname =? "")%string eqn:E; [apply String.eqb_eq in E; rewrite E in ID; discriminate ID|]. exists fname, (chop 3 fname). auto.
  - exists (fname ++ ".py")%string, fname. rewrite NM. split; [|rewrite chop_py; auto].
    destruct (2 <? String.length fname); [|reflexivity]. destruct (4 <? String.length fname); reflexivity.
Qed.
