(** pypower/main.py: options on the command line, with the parts of optparse that it relies on (matching of long options,
    conversion of values).
    Arguments are given as long options with or without a value, `--name=text` or `--name`; short options, values in the
    next argument, help texts and the name of the case file are left out.  A run that stops with a message is [Exit]. *)
From Verif Require Export Model.Dispatch.
Local Open Scope string_scope.

Inductive parsed := Parsed (ppopt : options) | Exit | Crash (e : exn).

(** main.py:28-29 *)
Definition AFFIRMATIVE : list string := ["True"; "Yes"; "true"; "yes"; "1"; "Y"; "y"].
Definition NEGATIVE : list string := ["False"; "No"; "false"; "no"; "0"; "N"; "n"].
(** main.py:31-35 *)
Definition CASES : list string := ["case4gs"; "case6ww"; "case9"; "case9Q"; "case14"; "case24_ieee_rts"; "case30"; "case30Q";
  "case30pwl"; "case39"; "case57"; "case118"; "case300"; "case30_userfcns"].
Definition mem (s : string) (l : list string) : bool := existsb (String.eqb s) l.

(** what a long option of the parser does *)
Inductive action := AHelp | AFlag | AText | ACase | ASet (default : optv).

(** main.py:80-135; optparse adds help and version *)
Definition long_options (opf : bool) : list (string * action) :=
  ([("help", AHelp); ("version", AHelp); ("test", AFlag); ("testcase", ACase); ("outfile", AText); ("solvedcase", AText)]
  ++ (if opf then [("uopf", AFlag); ("w_res", AFlag)] ++ map (fun o => (fst o, ASet (snd o))) (OPF_OPTIONS ++ PDIPM_OPTIONS)
      else map (fun o => (fst o, ASet (snd o))) PF_OPTIONS)
  ++ map (fun o => (fst o, ASet (snd o))) OUTPUT_OPTIONS)%list.

(** optparse._match_abbrev: the option of that name, or the only one that starts with it *)
Definition match_long {A} (l : list (string * A)) (w : string) : option (string * A) :=
  match List.find (fun o => fst o =? w) l with
  | Some o => Some o
  | None => match filter (fun o => prefix w (fst o)) l with [o] => Some o | _ => None end
  end.

Section Main.
(** int(text) and float(text) *)
Variable int_of : string -> option Z.
Variable float_of : string -> option optv.

(** main.py:38-54; [option.choices] is None for options of type string *)
Definition option_callback (name : string) (value : optv) (ppopt : options) : parsed :=
  match value with
  | OStr s => if mem s AFFIRMATIVE then Parsed (oset ppopt (upper name) (OBool true))
              else if mem s NEGATIVE then Parsed (oset ppopt (upper name) (OBool false))
              else Crash TypeError
  | v => Parsed (oset ppopt (upper name) v)
  end.

(** main.py:25 and 57-75: the type of an option is that of its default *)
Definition convert (default : optv) (text : string) : option optv :=
  match default with
  | OBool _ => if mem text (AFFIRMATIVE ++ NEGATIVE) then Some (OStr text) else None
  | OInt _ => option_map OInt (int_of text)
  | OFloat _ _ | OInf => float_of text
  | OStr _ => Some (OStr text)
  end.

Definition argument (opf : bool) (a : string * option string) (ppopt : options) : parsed :=
  match match_long (long_options opf) (fst a) with
  | None => Exit
  | Some (_, AHelp) => Exit
  | Some (_, AFlag) => match snd a with None => Parsed ppopt | Some _ => Exit end
  | Some (_, AText) => match snd a with None => Exit | Some _ => Parsed ppopt end
  | Some (_, ACase) => match snd a with Some t => if mem t CASES then Parsed ppopt else Exit | None => Exit end
  | Some (name, ASet default) =>
      match snd a with
      | None => Exit
      | Some text => match convert default text with Some v => option_callback name v ppopt | None => Exit end
      end
  end.

(** main.py:78-158: the options handed to the run *)
Fixpoint arguments (opf : bool) (l : list (string * option string)) (ppopt : options) : parsed :=
  match l with
  | [] => Parsed ppopt
  | a :: l' => match argument opf a ppopt with Parsed d => arguments opf l' d | r => r end
  end.
Definition parse_options (opf : bool) (l : list (string * option string)) : parsed := arguments opf l (ppoption None []).
End Main.
