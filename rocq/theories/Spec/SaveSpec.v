(** What a saved case keeps. *)
From Coq Require Export String.
From Verif Require Export Lib.Num Model.Idx Model.Loadcase Model.Savecase.
Local Open Scope nat_scope.

Section SaveSpec.
(** rounding to 9 significant digits and to 4 decimals *)
Variables g9 f4 : Qc -> Qc.

(** the value kept for column [j]: whole numbers, then results with 4 decimals from column [res] on, 9 digits elsewhere *)
Definition kept_value (whole : list nat) (res j : nat) (x : Qc) : Qc :=
  if existsb (Nat.eqb j) whole then zc (qtrunc x) else if res <=? j then f4 x else g9 x.

Definition entry (t : arr) (i j : nat) : option num :=
  match nth_error (a_rows t) i with Some r => nth_error r j | None => None end.

(** [t'] keeps the first [w] columns of [t] *)
Definition keeps (whole : list nat) (res w : nat) (t t' : arr) : Prop :=
  a_cols t' = w /\ length (a_rows t') = length (a_rows t) /\ Forall (fun r => length r = w) (a_rows t') /\
  forall i j x, j < w -> entry t i j = Some (Fin x) -> entry t' i j = Some (Fin (kept_value whole res j x)).

Definition rectangular (t : arr) : Prop := Forall (fun r => length r = a_cols t) (a_rows t).
Definition all_finite (t : arr) : Prop := Forall (Forall (fun x => exists q, x = Fin q)) (a_rows t).
Definition table_ok (t : arr) : Prop := rectangular t /\ all_finite t /\ a_rows t <> [].

(** numbers of columns that are kept *)
Definition bus_width (t : arr) : nat := if a_cols t <? 17 then 13 else 17.
Definition gen_width (t : arr) : nat := if a_cols t <? 25 then 21 else 25.
Definition branch_width (t : arr) : nat := if a_cols t <? 17 then 13 else if a_cols t <? 19 then 17 else 21.

(** columns that a cost row uses after the first four: two per point, or one per coefficient *)
Definition uses (r : list num) (n : Z) : Prop := exists k, (0 <= k)%Z /\ nth_error r NCOST = Some (ofZ k) /\
  ((nth_error r MODEL = Some (ofZ 1) /\ n = (2 * k)%Z) \/ (nth_error r MODEL = Some (ofZ 2) /\ n = k)).
(** no cost row has unused columns beyond those that some row uses *)
Definition costs_fit (t : arr) : Prop := exists n, a_cols t = 4 + Z.to_nat n /\ (0 <= n)%Z /\
  (exists r, In r (a_rows t) /\ uses r n) /\ (forall r, In r (a_rows t) -> exists m, uses r m /\ (m <= n)%Z).

Record savable (c : scase) : Prop := {
  sv_base : exists q, sc_base c = Fin q;
  sv_bus : table_ok (sc_bus c) /\ 13 <= a_cols (sc_bus c);
  sv_gen : table_ok (sc_gen c) /\ 21 <= a_cols (sc_gen c);
  sv_branch : table_ok (sc_branch c) /\ 13 <= a_cols (sc_branch c) /\ a_cols (sc_branch c) <> 19 /\ a_cols (sc_branch c) <> 20;
  sv_areas : forall t, sc_areas c = Some t -> table_ok t /\ 2 <= a_cols t;
  sv_gencost : forall t, sc_gencost c = Some t -> table_ok t /\ costs_fit t;
  sv_user : sc_A c = None /\ sc_N c = None /\ sc_z0 c = None /\ sc_zl c = None /\ sc_zu c = None }.

(** a name for a Python file whose function can be called *)
Definition good_name (fname : string) : Prop := ends_with fname ".mat" = false /\
  identifier (basename (if ends_with fname ".py" then chop 3 fname else fname)) = true.

(** an optional table is kept, and stays absent when absent *)
Definition keeps_opt (P : arr -> arr -> Prop) (o : option arr) (f : field arr) : Prop :=
  match o, f with None, Missing => True | Some t, Val t' => P t t' | _, _ => False end.

(** [c'] is what is left of [c] after saving and loading, with [P whole res w t t'] for each table *)
Record comes_back (P : list nat -> nat -> nat -> arr -> arr -> Prop) (c : scase) (c' : case) : Prop := {
  cb_base : forall q, sc_base c = Fin q -> c_baseMVA c' = Val (Fin (g9 q));
  cb_bus : exists t, c_bus c' = Val t /\ P [BUS_I; BUS_TYPE; BUS_AREA; ZONE] LAM_P (bus_width (sc_bus c)) (sc_bus c) t;
  cb_gen : exists t, c_gen c' = Val t /\ P [GEN_BUS; GEN_STATUS] MU_PMAX (gen_width (sc_gen c)) (sc_gen c) t;
  cb_branch : exists t, c_branch c' = Val t /\ P [F_BUS; T_BUS; BR_STATUS] PF (branch_width (sc_branch c)) (sc_branch c) t;
  cb_areas : keeps_opt (fun t => P [0; 1] 2 2 t) (sc_areas c) (c_areas c');
  cb_gencost : keeps_opt (fun t => P [MODEL; NCOST] (a_cols t) (a_cols t) t) (sc_gencost c) (c_gencost c');
  cb_version : c_version c' = Val false }.

(** m * 10^e *)
Definition decimal (m e : Z) : Qc := if (0 <=? e)%Z then zc (m * 10 ^ e) else qc m (Z.to_pos (10 ^ (- e))).
(** numbers with at most 9 significant digits, and with at most 4 decimals *)
Definition short9 (x : Qc) : Prop := exists m e, (Z.abs m < 10 ^ 9)%Z /\ x = decimal m e.
Definition short4 (x : Qc) : Prop := exists m, x = decimal m (-4).
Definition rounding : Prop := (forall x, short9 x -> g9 x = x) /\ (forall x, short4 x -> f4 x = x).

(** every cell that is written has a text that stands for it *)
Definition short_cells (whole : list nat) (res w : nat) (t : arr) : Prop := forall i j x, j < w -> entry t i j = Some (Fin x) ->
  if existsb (Nat.eqb j) whole then exists z, x = zc z else if res <=? j then short4 x else short9 x.
Record short_case (c : scase) : Prop := {
  sh_base : forall q, sc_base c = Fin q -> short9 q;
  sh_bus : short_cells [BUS_I; BUS_TYPE; BUS_AREA; ZONE] LAM_P (bus_width (sc_bus c)) (sc_bus c);
  sh_gen : short_cells [GEN_BUS; GEN_STATUS] MU_PMAX (gen_width (sc_gen c)) (sc_gen c);
  sh_branch : short_cells [F_BUS; T_BUS; BR_STATUS] PF (branch_width (sc_branch c)) (sc_branch c);
  sh_areas : forall t, sc_areas c = Some t -> short_cells [0; 1] 2 2 t;
  sh_gencost : forall t, sc_gencost c = Some t -> short_cells [MODEL; NCOST] (a_cols t) (a_cols t) t }.
(** the first [w] columns, unchanged *)
Definition exactly (whole : list nat) (res w : nat) (t t' : arr) : Prop := a_cols t' = w /\ a_rows t' = map (firstn w) (a_rows t).
End SaveSpec.
