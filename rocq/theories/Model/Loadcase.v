(** pypower/loadcase.py: reading a case from a dict, and the version 1 -> 2 conversion.
    Reading and executing case files is not modelled: a path is only looked up through an
    oracle for the existence of files. *)
From Verif Require Import Lib.Num Model.Idx.

(** a 2-D numpy array: [a_cols] is shape[1] (known even without rows) *)
Record arr := { a_cols : nat; a_rows : list (list num) }.

Definition width_of_slice (a b w : nat) : nat := Nat.min b w - Nat.min a w.

(** loadcase.py:226-261 *)
Definition ppc_1to2 (gen branch : arr) : arr * arr :=
  if APF <=? a_cols gen then (gen, branch)
  else
    let shift := MU_PMAX - PMIN - 1 in
    let mu_Pmax := MU_PMAX - shift in
    let mu_Qmin := MU_QMIN - shift in
    let zeros_ n := repeat (ofZ 0) n in
    let gen' :=
      if mu_Qmin <=? a_cols gen then
        {| a_cols := width_of_slice 0 (PMIN + 1) (a_cols gen) + shift
                     + width_of_slice mu_Pmax mu_Qmin (a_cols gen);
           a_rows := map (fun r => slice 0 (PMIN + 1) r ++ zeros_ shift
                                   ++ slice mu_Pmax mu_Qmin r) (a_rows gen) |}
      else
        {| a_cols := width_of_slice 0 (PMIN + 1) (a_cols gen) + shift;
           a_rows := map (fun r => slice 0 (PMIN + 1) r ++ zeros_ shift) (a_rows gen) |} in
    let shift := PF - BR_STATUS - 1 in
    let mu_St := MU_ST - shift in
    let lim := [ofZ (-360); ofZ 360] in
    let w := a_cols branch in
    let branch' :=
      if mu_St - 1 <=? w then
        {| a_cols := width_of_slice 0 (BR_STATUS + 1) w + 2
                     + width_of_slice (PF - 1) (MU_ST + 1) w + 2;
           a_rows := map (fun r => slice 0 (BR_STATUS + 1) r ++ lim
                                   ++ slice (PF - 1) (MU_ST + 1) r ++ zeros_ 2)
                         (a_rows branch) |}
      else if QT - 1 <=? w then
        {| a_cols := width_of_slice 0 (BR_STATUS + 1) w + 2
                     + width_of_slice (PF - 1) (QT + 1) w;
           a_rows := map (fun r => slice 0 (BR_STATUS + 1) r ++ lim
                                   ++ slice (PF - 1) (QT + 1) r) (a_rows branch) |}
      else
        {| a_cols := width_of_slice 0 (BR_STATUS + 1) w + 2;
           a_rows := map (fun r => slice 0 (BR_STATUS + 1) r ++ lim) (a_rows branch) |} in
    (gen', branch').

(** value of a dict key: absent, present with value None, or present *)
Inductive field (A : Type) := Missing | PyNone | Val (a : A).
Arguments Missing {A}. Arguments PyNone {A}. Arguments Val {A}.

(** case dict; other keys are copied unchanged and not modelled *)
Record case := {
  c_baseMVA : field num; c_bus : field arr; c_gen : field arr; c_branch : field arr;
  c_areas : field arr; c_gencost : field arr;
  c_version : field bool (* true: '1', false: '2' *) }.

(** [s[key] is None] *)
Definition is_none {A} (f : field A) : result bool :=
  match f with Missing => Err KeyError | PyNone => Ok true | Val _ => Ok false end.

(** Python's short-circuit [a or b] *)
Definition por (a : result bool) (b : unit -> result bool) : result bool :=
  x <- a ;; if x then Ok true else b tt.

Inductive input := Path (name : nat) | Dict (c : case) | OtherObj.

Inductive output :=
| OCase (c : case)                         (* return_as_obj=True *)
| OList (l : list (field arr)) (base : field num)   (* individual matrices *)
| OInfo (n : nat).                         (* exit code *)

Section Load.
(** result of reading an existing file (not modelled further): an error code or a dict *)
Variable read_file : nat -> option (nat + case).

(** loadcase.py:27-221.  For a dict or any other object the variable [lasterr] is never
    assigned, so the error branch at line 219 raises UnboundLocalError. *)
Definition loadcase (inp : input) (as_obj expect_gencost expect_areas : bool) : result output :=
  let expect_gencost := if as_obj then false else expect_gencost in
  let expect_areas := if as_obj then false else expect_areas in
  let '(info, s, lasterr_bound) :=
    match inp with
    | Path n => match read_file n with
                | None => (2, None, true)
                | Some (inl e) => (e, None, true)
                | Some (inr c) => (0, Some c, true)
                end
    | Dict c => (0, Some c, false)
    | OtherObj => (1, None, false)
    end in
  let fail n := if lasterr_bound : bool then Ok (OInfo n) else Err UnboundLocalError in
  match s with
  | None => fail info
  | Some c =>
      bad <- por (is_none (c_baseMVA c)) (fun _ =>
             por (is_none (c_bus c)) (fun _ =>
             por (is_none (c_gen c)) (fun _ =>
             por (is_none (c_branch c)) (fun _ =>
             por (if expect_gencost then is_none (c_gencost c) else Ok false) (fun _ =>
                 (if expect_areas then is_none (c_areas c) else Ok false)))))) ;;
      if bad : bool then fail 5
      else match c_gen c, c_branch c with
           | Val g, Val b =>
               let v1 := a_cols g <? 21 in
               let '(g', b') := if v1 then ppc_1to2 g b else (g, b) in
               let c' := {| c_baseMVA := c_baseMVA c; c_bus := c_bus c; c_gen := Val g';
                            c_branch := Val b'; c_areas := c_areas c;
                            c_gencost := c_gencost c; c_version := Val false |} in
               if as_obj then Ok (OCase c')
               else Ok (OList ([c_bus c'; c_gen c'; c_branch c'] ++
                          if expect_gencost
                          then (if expect_areas then [c_areas c'; c_gencost c']
                                else [c_gencost c'])
                          else []) (c_baseMVA c'))
           | _, _ => Err TypeError
           end
  end.
End Load.
