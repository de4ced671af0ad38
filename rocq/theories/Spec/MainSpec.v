(** Options on the command line. *)
From Verif Require Export Model.Main.
Local Open Scope string_scope.

Section MainSpec.
Variable int_of : string -> option Z.
Variable float_of : string -> option optv.

(** the options of a command that change the run *)
Definition settable (opf : bool) : options := ((if opf then OPF_OPTIONS ++ PDIPM_OPTIONS else PF_OPTIONS) ++ OUTPUT_OPTIONS)%list.

(** [text] is a way to write [v] for an option whose default is [default] *)
Inductive means : optv -> string -> optv -> Prop :=
| MeansYes b s : In s ["True"; "Yes"; "true"; "yes"; "1"; "Y"; "y"] -> means (OBool b) s (OBool true)
| MeansNo b s : In s ["False"; "No"; "false"; "no"; "0"; "N"; "n"] -> means (OBool b) s (OBool false)
| MeansInt n s z : int_of s = Some z -> means (OInt n) s (OInt z)
| MeansFloat m e s v : float_of s = Some v -> (forall t, v <> OStr t) -> means (OFloat m e) s v.

(** a setting (name, text) that gives the option [name] the value [v] *)
Definition gives (opf : bool) (a : string * string) (v : optv) : Prop := exists default, In (fst a, default) (settable opf) /\ means default (snd a) v.

(** value of [name] after the settings: that of the last one, or the default *)
Fixpoint last_value (l : list (string * optv)) (name : string) (d : optv) : optv :=
  match l with [] => d | (n, v) :: l' => last_value l' name (if n =? name then v else d) end.
End MainSpec.
