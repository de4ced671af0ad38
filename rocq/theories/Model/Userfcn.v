(** User callbacks: pypower/add_userfcn.py, remove_userfcn.py, run_userfcn.py, and the on/off
    part of toggle_reserves.py, toggle_iflims.py, toggle_dcline.py. *)
From Verif Require Import Lib.Py.

(** stage names; [Sother] stands for any other string *)
Inductive stage := Sext2int | Sformulation | Sint2ext | Sprintpf | Ssavecase | Sother (n : nat).

Definition stage_eqb (a b : stage) : bool :=
  match a, b with
  | Sext2int, Sext2int | Sformulation, Sformulation | Sint2ext, Sint2ext
  | Sprintpf, Sprintpf | Ssavecase, Ssavecase => true
  | Sother m, Sother n => m =? n
  | _, _ => false
  end.

Section Userfcn.
Variables F Arg : Type.
Variable feqb : F -> F -> bool.     (* Python's [==] on functions: identity *)

(** one registration {'fcn': f, 'args': a}; a missing 'args' key is read back as [] *)
Record entry := { e_fcn : F; e_args : list Arg }.

(** ppc['userfcn']: [None] if the key is missing, otherwise a dict stage -> list *)
Definition userfcn := option (list (stage * list entry)).

Fixpoint assoc (s : stage) (d : list (stage * list entry)) : option (list entry) :=
  match d with
  | [] => None
  | (s', l) :: r => if stage_eqb s s' then Some l else assoc s r
  end.

(** d[s] = l *)
Fixpoint dset (s : stage) (l : list entry) (d : list (stage * list entry))
  : list (stage * list entry) :=
  match d with
  | [] => [(s, l)]
  | (s', l') :: r => if stage_eqb s s' then (s', l) :: r else (s', l') :: dset s l r
  end.

(** add_userfcn.py:88-113.  [allow_multiple] and an invalid stage name only decide whether a
    message is written, so they do not occur. *)
Definition add_userfcn (u : userfcn) (s : stage) (f : F) (args : list Arg) : userfcn :=
  let e := {| e_fcn := f; e_args := args |} in
  match u with
  | None => Some [(s, [e])]
  | Some d => match assoc s d with
              | None => Some (dset s [e] d)
              | Some l => Some (dset s (l ++ [e]) d)
              end
  end.

(** remove_userfcn.py:22-29: scan from the end, delete the first match *)
Fixpoint remove_first (f : F) (l : list entry) : list entry :=
  match l with
  | [] => []
  | e :: r => if feqb (e_fcn e) f then r else e :: remove_first f r
  end.
Definition remove_userfcn (u : userfcn) (s : stage) (f : F) : result userfcn :=
  match u with
  | None => Err KeyError
  | Some d => match assoc s d with
              | None => Err KeyError
              | Some l => Ok (Some (dset s (rev (remove_first f (rev l))) d))
              end
  end.

(** run_userfcn.py:29-47.  [call] runs a callback of the stages ext2int/formulation/int2ext,
    [call_out] one of printpf/savecase (which also gets the file and options, part of the
    closure here).  Callbacks may raise.  The caller passes ppc['userfcn'], so the key exists. *)
Variable V : Type.
Variables (call call_out : F -> V -> list Arg -> result V).

Definition run_userfcn (d : list (stage * list entry)) (s : stage) (v : V) : result V :=
  match assoc s d with
  | None => Ok v
  | Some l =>
      foldM (fun rv e =>
               match s with
               | Sext2int | Sformulation | Sint2ext => call (e_fcn e) rv (e_args e)
               | Sprintpf | Ssavecase => call_out (e_fcn e) rv (e_args e)
               | Sother _ => Ok rv
               end) l v
  end.
End Userfcn.
Arguments e_fcn {F Arg}. Arguments e_args {F Arg}.

(** ** toggle_* *)
Inductive ext := Reserves | Iflims | Dcline.

(** the callbacks userfcn_<ext>_<stage>, and any other user function *)
Inductive cb := Cb (e : ext) (s : stage) | User (n : nat).

Definition ext_eqb (a b : ext) : bool :=
  match a, b with Reserves, Reserves | Iflims, Iflims | Dcline, Dcline => true | _, _ => false end.
Definition cb_eqb (a b : cb) : bool :=
  match a, b with
  | Cb e s, Cb e' s' => ext_eqb e e' && stage_eqb s s'
  | User m, User n => m =? n
  | _, _ => false
  end.

Inductive on_off := On | Off | BadArg.

Section Toggle.
Variable Arg : Type.

Definition on_stages : list stage := [Sext2int; Sformulation; Sint2ext; Sprintpf; Ssavecase].

(** toggle_reserves.py:65-91, toggle_iflims.py:55-79, toggle_dcline.py:53-90; [data_ok] tells
    whether the extension's input data passes the checks of the 'on' branch (only toggle_dcline
    raises; the other two write a message and go on) *)
Definition toggle (e : ext) (data_ok : bool) (sw : on_off) (u : userfcn cb Arg)
  : result (userfcn cb Arg) :=
  match sw with
  | On => if ext_eqb e Dcline && negb data_ok then Err ValueError
          else Ok (fold_left (fun u s => add_userfcn cb Arg u s (Cb e s) []) on_stages u)
  | Off => foldM (fun u s => remove_userfcn cb Arg cb_eqb u s (Cb e s)) (rev on_stages) u
  | BadArg => if ext_eqb e Dcline then Err ValueError else Ok u
  end.
End Toggle.
