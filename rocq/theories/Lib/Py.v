(** Python-level base: exceptions as values, numpy style indexing of lists. *)
From Coq Require Export List ZArith Lia Bool Arith.
Export ListNotations.

(** Exceptions the modelled code can raise (only the class is kept, not the message).
    [NonFinite] is not a Python exception: it marks the point where numpy would produce
    inf/nan (division by zero, conversion of inf/nan to int), which the models do not follow;
    [OutOfModel] marks other inputs whose treatment is not modelled. *)
Inductive exn : Type :=
| IndexError | KeyError | ValueError | TypeError | NameError | AttributeError
| UnboundLocalError | NotImplementedError | AssertionError | ScalingError | NonFinite | OutOfModel.

Inductive result (A : Type) : Type :=
| Ok (a : A)
| Err (e : exn).
Arguments Ok {A} a.
Arguments Err {A} e.

Definition bind {A B} (r : result A) (f : A -> result B) : result B :=
  match r with Ok a => f a | Err e => Err e end.

Notation "x <- e ;; f" := (bind e (fun x => f))
  (at level 61, e at next level, right associativity).
Notation "' p <- e ;; f" := (bind e (fun p => f))
  (at level 61, p pattern, e at next level, right associativity).

Definition guard (b : bool) (e : exn) : result unit := if b then Ok tt else Err e.

Definition of_option {A} (e : exn) (o : option A) : result A :=
  match o with Some a => Ok a | None => Err e end.

Definition is_ok {A} (r : result A) : bool := match r with Ok _ => true | Err _ => false end.

Fixpoint mapM {A B} (f : A -> result B) (l : list A) : result (list B) :=
  match l with
  | [] => Ok []
  | x :: xs => y <- f x ;; ys <- mapM f xs ;; Ok (y :: ys)
  end.

(** [foldM]: a Python [for] loop whose body may raise. *)
Fixpoint foldM {A S} (f : S -> A -> result S) (l : list A) (s : S) : result S :=
  match l with
  | [] => Ok s
  | x :: xs => s' <- f s x ;; foldM f xs s'
  end.

(** numpy scalar index [i] into an axis of length [n]: negative indices count from the end. *)
Definition np_index (n : nat) (i : Z) : result nat :=
  if (0 <=? i)%Z && (i <? Z.of_nat n)%Z then Ok (Z.to_nat i)
  else if (- Z.of_nat n <=? i)%Z && (i <? 0)%Z then Ok (Z.to_nat (i + Z.of_nat n))
  else Err IndexError.

Definition np_get {A} (l : list A) (i : Z) : result A :=
  k <- np_index (length l) i ;; of_option IndexError (nth_error l k).

(** checked access by a natural number (column constants, loop counters) *)
Definition get {A} (l : list A) (i : nat) : result A := of_option IndexError (nth_error l i).

(** [l[i] = x] for a position known to be in range; out of range leaves [l] unchanged
    (the checked version is [set_checked]). *)
Fixpoint upd {A} (l : list A) (i : nat) (x : A) : list A :=
  match l, i with
  | [], _ => []
  | _ :: t, O => x :: t
  | h :: t, S i' => h :: upd t i' x
  end.

Definition set_checked {A} (l : list A) (i : nat) (x : A) : result (list A) :=
  if i <? length l then Ok (upd l i x) else Err IndexError.

(** [numpy.flatnonzero] of a boolean mask *)
Fixpoint find_from (k : nat) (mask : list bool) : list nat :=
  match mask with
  | [] => []
  | b :: m => if b then k :: find_from (S k) m else find_from (S k) m
  end.
Definition find (mask : list bool) : list nat := find_from 0 mask.

(** fancy indexing [A[idx]] *)
Definition gather {A} (l : list A) (idx : list nat) : result (list A) := mapM (get l) idx.

(** fancy assignment [A[idx] = vals] (numpy requires equal lengths unless broadcasting) *)
Fixpoint scatter {A} (l : list A) (idx : list nat) (vals : list A) : list A :=
  match idx, vals with
  | i :: idx', v :: vals' => scatter (upd l i v) idx' vals'
  | _, _ => l
  end.
Definition scatter_checked {A} (l : list A) (idx : list nat) (vals : list A)
  : result (list A) :=
  if negb (length idx =? length vals) then Err ValueError
  else if forallb (fun i => i <? length l) idx then Ok (scatter l idx vals)
  else Err IndexError.

(** [l[a:b]] for natural bounds *)
Definition slice {A} (a b : nat) (r : list A) : list A := firstn (b - a) (skipn a r).
