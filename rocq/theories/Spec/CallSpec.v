(** The calling forms of an optimal power flow as its documentation lists them, and what each argument stands for. *)
From Verif Require Import Model.OpfArgs.
Local Open Scope string_scope.

Definition data_names : list string := ["baseMVA"; "bus"; "gen"; "branch"; "areas"; "gencost"].
Definition extras : list (list string) :=
  [ [];
    ["ppopt"];
    ["userfcn"; "ppopt"];
    ["A"; "l"; "u"];
    ["A"; "l"; "u"; "ppopt"];
    ["A"; "l"; "u"; "ppopt"; "N"; "fparm"; "H"; "Cw"];
    ["A"; "l"; "u"; "ppopt"; "N"; "fparm"; "H"; "Cw"; "z0"; "zl"; "zu"] ].

(** the two ways to begin: with a case (a dict or a file name), or with the data matrices *)
Definition case_forms : list (list string) := map (fun e => ("ppc" :: e)%list) extras.
Definition matrix_forms : list (list string) := map (fun e => (data_names ++ e)%list) extras.

(** the argument of a call that the form gives to a role *)
Definition given (form : list string) (args : list val) (role : string) : option val := dget (combine form args) role.

(** a problem as the optimiser gets it, role by role *)
Definition role_value (o : opf_input) (role : string) : option val :=
  dget [("baseMVA", o_baseMVA o); ("bus", o_bus o); ("gen", o_gen o); ("branch", o_branch o); ("areas", o_areas o);
        ("gencost", o_gencost o); ("ppopt", a_ppopt (o_user o)); ("userfcn", a_userfcn (o_user o));
        ("A", a_Au (o_user o)); ("l", a_lbu (o_user o)); ("u", a_ubu (o_user o)); ("N", a_N (o_user o));
        ("fparm", a_fparm (o_user o)); ("H", a_H (o_user o)); ("Cw", a_Cw (o_user o)); ("z0", a_z0 (o_user o));
        ("zl", a_zl (o_user o)); ("zu", a_zu (o_user o))] role.

(** when a value says nothing: None always, an array without entries except for the matrices A, N and H *)
Definition silent (role : string) (v : val) : bool :=
  match v with
  | PNone => true
  | PVec _ 0 | PDense _ 0 _ | PDict [] | PStr "" => negb (existsb (String.eqb role) ["A"; "N"; "H"])
  | _ => false
  end.
(** bounds go with their matrix, weights with the matrix of the costs *)
Definition lead (role : string) : string :=
  if (role =? "l") || (role =? "u") then "A" else if role =? "Cw" then "N" else role.
Definition nothing (role : string) : val := if existsb (String.eqb role) ["A"; "N"; "H"] then PNone else empty_array.

Definition stated (form : list string) (args : list val) (role : string) : bool :=
  match given form args role with Some v => negb (silent role v) | None => false end.

(** the value of a role: from the call if it says something there, else from the case, else nothing *)
Definition choice (default : val) (form : list string) (args : list val) (case : list (string * val)) (role : string)
    : option val :=
  if stated form args (lead role) then given form args role
  else if role =? "ppopt" then Some default
  else if has_key case (lead role) then dget case role
  else match given form args role with Some v => Some v | None => Some (nothing role) end.

Definition all_roles : list string :=
  data_names ++ ["ppopt"; "userfcn"; "A"; "l"; "u"; "N"; "fparm"; "H"; "Cw"; "z0"; "zl"; "zu"].

(** two problems with the same data, options, constraints, costs and variables; what says nothing may say it in its own way *)
Definition same_or_silent (o o' : opf_input) (role : string) : Prop :=
  role_value o' role = role_value o role \/
  exists v v', role_value o role = Some v /\ role_value o' role = Some v' /\ silent role v = true /\ silent role v' = true.
Record same_problem (o o' : opf_input) : Prop := SameProblem {
  sp_data : forall role, In role ["baseMVA"; "bus"; "gen"; "branch"; "gencost"; "ppopt"; "A"; "N"] ->
              role_value o' role = role_value o role;
  sp_bounds : a_Au (o_user o) <> PNone -> forall role, In role ["l"; "u"] -> role_value o' role = role_value o role;
  sp_costs : a_N (o_user o) <> PNone -> forall role, In role ["Cw"; "H"] -> role_value o' role = role_value o role;
  sp_fparm : a_N (o_user o) <> PNone -> same_or_silent o o' "fparm";
  sp_rest : forall role, In role ["areas"; "z0"; "zl"; "zu"; "userfcn"] -> same_or_silent o o' role }.
