(** Storing the old value of a nested field: pypower/e2i_field.py:49-60 and pypower/i2e_field.py:37-50, without the
    reordering of the value itself (Model/Ext2int.v).  A dict is a list of keys and values in which the first entry of a
    key counts; a value that is no dict is an array. *)
From Coq Require Export String.
From Verif Require Export Lib.Py.

Section Nested.
Context {V : Type}.
Inductive tree := Arr (v : V) | Dict (d : list (string * tree)).
Definition dict := list (string * tree).

Fixpoint get (k : string) (d : dict) : option tree :=
  match d with [] => None | (k', t) :: r => if String.eqb k k' then Some t else get k r end.
(** d[k] = t *)
Fixpoint put (k : string) (t : tree) (d : dict) : dict :=
  match d with
  | [] => [(k, t)]
  | (k', t') :: r => if String.eqb k k' then (k', t) :: r else (k', t') :: put k t r
  end.

(** e2i_field.py:54-58: for fld in field: if fld not in v_ext: v_ext[fld] = {}; v_ext = v_ext[fld].
    The step into v_ext[fld] belongs to the if. *)
Fixpoint prepare (d : dict) (field : list string) : dict :=
  match field with
  | [] => d
  | f :: r => match get f d with Some _ => prepare d r | None => put f (Dict (prepare [] r)) d end
  end.

(** ppc["order"]["ext"]["f1"]...["fn"] = v *)
Fixpoint assign (d : dict) (field : list string) (v : V) : result dict :=
  match field with
  | [] => Err OutOfModel
  | f :: r =>
    match r with
    | [] => Ok (put f (Arr v) d)
    | _ => match get f d with
           | None => Err KeyError
           | Some (Arr _) => Err IndexError
           | Some (Dict d') => d2 <- assign d' r v ;; Ok (put f (Dict d2) d)
           end
    end
  end.

(** e2i_field.py:54-60, i2e_field.py:43-50 for a list of names *)
Definition store_nested (d : dict) (field : list string) (v : V) : result dict := assign (prepare d field) field v.
End Nested.
Arguments tree : clear implicits.
Arguments dict : clear implicits.
