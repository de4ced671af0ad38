(** Property C130: the forms in which loadcase.py returns a case, and its exit codes. *)
From Verif Require Import Lib.Num Model.Idx Model.Loadcase.

(** the list of tables has those of the dict, in the documented order *)
Theorem C130_lists rf inp eg ea l base eg' ea' : loadcase rf inp false eg ea = Ok (OList l base) ->
  exists c, loadcase rf inp true eg' ea' = Ok (OCase c) /\ base = c_baseMVA c /\
    nth_error l 0 = Some (c_bus c) /\ nth_error l 1 = Some (c_gen c) /\ nth_error l 2 = Some (c_branch c) /\
    skipn 3 l = (if eg then (if ea then [c_areas c; c_gencost c] else [c_gencost c]) else []).
Proof.
  unfold loadcase. intros H.
  destruct (match inp with Path n => _ | Dict c => _ | OtherObj => _ end) as ((info, [c|]), b); [|destruct b; discriminate]. cbv zeta in *.
  destruct (c_baseMVA c) as [| |m] eqn:E1; try (destruct b; discriminate). destruct (c_bus c) as [| |u] eqn:E2; try (destruct b; discriminate).
  destruct (c_gen c) as [| |g] eqn:E3; try (destruct b; discriminate). destruct (c_branch c) as [| |r] eqn:E4; try (destruct b; discriminate).
  cbn [is_none por bind] in *. destruct (if a_cols g <? 21 then ppc_1to2 g r else (g, r)) as (g', r') eqn:E5.
  exists {| c_baseMVA := Val m; c_bus := Val u; c_gen := Val g'; c_branch := Val r'; c_areas := c_areas c; c_gencost := c_gencost c; c_version := Val false |}.
  split; [reflexivity|]. cbn [c_baseMVA c_bus c_gen c_branch c_areas c_gencost] in *.
  destruct eg, ea, (c_gencost c) eqn:E6, (c_areas c) eqn:E7; cbn [is_none por bind] in H; try (destruct b; discriminate); injection H as <- <-; repeat split.
Qed.

(** a missing file gives 2, a file that cannot be read its own code, and one that lacks data 5; otherwise a file gives what its dict does *)
Theorem C130_codes rf n as_obj eg ea : loadcase rf (Path n) as_obj eg ea =
  match rf n with
  | None => Ok (OInfo 2)
  | Some (inl e) => Ok (OInfo e)
  | Some (inr c) => match loadcase rf (Dict c) as_obj eg ea with Err UnboundLocalError => Ok (OInfo 5) | r => r end
  end.
Proof.
  unfold loadcase. destruct (rf n) as [[e|c]|]; [reflexivity| |reflexivity]. cbv zeta.
  destruct (c_baseMVA c) as [| |m]; [reflexivity..|]. destruct (c_bus c) as [| |u]; [reflexivity..|]. destruct (c_gen c) as [| |g]; [reflexivity..|]. destruct (c_branch c) as [| |r]; [reflexivity..|].
  cbn [is_none por bind]. destruct (if a_cols g <? 21 then ppc_1to2 g r else (g, r)) as (g', r'). destruct as_obj; [reflexivity|].
  destruct eg, ea, (c_gencost c), (c_areas c); reflexivity.
Qed.
Print Assumptions C130_lists.
Print Assumptions C130_codes.

(** a version 2 case with costs and areas *)
Definition ex_arr (n : nat) (z : Z) : arr := {| a_cols := n; a_rows := [repeat (ofZ z) n] |}.
Definition ex_load : case := {| c_baseMVA := Val (ofZ 100); c_bus := Val (ex_arr 13 1); c_gen := Val (ex_arr 21 2); c_branch := Val (ex_arr 13 3);
  c_areas := Val (ex_arr 2 4); c_gencost := Val (ex_arr 7 5); c_version := Missing |}.
Example C130_example :
  loadcase (fun _ => Some (inr ex_load)) (Path 0) false true true =
    Ok (OList [Val (ex_arr 13 1); Val (ex_arr 21 2); Val (ex_arr 13 3); Val (ex_arr 2 4); Val (ex_arr 7 5)] (Val (ofZ 100))) /\
  loadcase (fun _ => None) (Path 0) false true true = Ok (OInfo 2).
Proof. split; reflexivity. Qed.
