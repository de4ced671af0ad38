(** pypower/savecase.py: writing a case to a Python file, and what loadcase.py makes of that file (Model/Loadcase.v takes the
    result of reading a file from an oracle; here it is computed for files written by savecase).
    A file is kept as the list of its statements; comments and blank lines are left out.  Numbers are kept as the value their
    text stands for.  Left out: MAT files, failure to open the file, callbacks, comments that span several lines. *)
From Coq Require Export String Ascii.
From Verif Require Export Lib.Num Model.Idx Model.Loadcase Model.Ext2int.
Local Open Scope nat_scope.

(** a case dict; [None]: key absent *)
Record scase := {
  sc_base : num; sc_bus : arr; sc_gen : arr; sc_branch : arr; sc_areas : option arr; sc_gencost : option arr;
  sc_A : option umat; sc_N : option umat; sc_z0 : option (list num); sc_zl : option (list num); sc_zu : option (list num) }.

(** ** Text *)
(** a number, or a name (inf, -inf, nan) *)
Inductive tok := TNum (q : Qc) | TName.
(** %d, %.9g, %.4f *)
Inductive fmt := FD | F9 | F4.

Inductive stmt :=
| SDef (name : string)                                      (* def name(): *)
| SBase (t : tok)                                           (* ppc['baseMVA'] = t *)
| STable (indent : nat) (key : string) (rows : list (list tok)) (* ppc[key] = array([rows]) *)
| SReturn.                                                  (* return ppc *)

Section Save.
(** the value of the text that %.9g and %.4f make of a finite number *)
Variables g9 f4 : Qc -> Qc.

(** f % x; %d of inf or nan raises OverflowError or ValueError *)
Definition show (f : fmt) (x : num) : result tok :=
  match f, x with
  | FD, Fin q => Ok (TNum (zc (qtrunc q)))
  | F9, Fin q => Ok (TNum (g9 q))
  | F4, Fin q => Ok (TNum (f4 q))
  | FD, _ => Err NonFinite
  | _, _ => Ok TName
  end.
(** template % tuple: as many values as places *)
Fixpoint show_row (fs : list fmt) (r : list num) : result (list tok) :=
  match fs, r with
  | [], [] => Ok []
  | f :: fs', x :: r' => t <- show f x ;; ts <- show_row fs' r' ;; Ok (t :: ts)
  | _, _ => Err TypeError
  end.
Definition show_rows (fs : list fmt) (w : nat) (t : list (list num)) : result (list (list tok)) :=
  mapM (fun r => show_row fs (firstn w r)) t.

(** savecase.py:175-188 *)
Definition bus_fmt : list fmt := [FD; FD; F9; F9; F9; F9; FD; F9; F9; F9; FD; F9; F9].
Definition save_bus (t : arr) : result (list (list tok)) :=
  if a_cols t <? MU_VMIN + 1 then show_rows bus_fmt (VMIN + 1) (a_rows t)
  else show_rows (bus_fmt ++ [F4; F4; F4; F4]) (MU_VMIN + 1) (a_rows t).
(** savecase.py:190-213 *)
Definition gen_fmt : list fmt := [FD; F9; F9; F9; F9; F9; F9; FD; F9; F9; F9; F9; F9; F9; F9; F9; F9; F9; F9; F9; F9].
Definition save_gen (t : arr) : result (list (list tok)) :=
  if a_cols t <? MU_QMIN + 1 then show_rows gen_fmt (APF + 1) (a_rows t)
  else show_rows (gen_fmt ++ [F4; F4; F4; F4]) (MU_QMIN + 1) (a_rows t).
(** savecase.py:215-249 *)
Definition branch_fmt : list fmt := [FD; FD; F9; F9; F9; F9; F9; F9; F9; F9; FD; F9; F9].
Definition save_branch (t : arr) : result (list (list tok)) :=
  if a_cols t <? QT + 1 then show_rows branch_fmt (ANGMAX + 1) (a_rows t)
  else if a_cols t <? MU_ST + 1 then show_rows (branch_fmt ++ [F4; F4; F4; F4]) (QT + 1) (a_rows t)
  else show_rows (branch_fmt ++ [F4; F4; F4; F4; F4; F4; F4; F4]) (MU_ANGMAX + 1) (a_rows t).

(** max(t[t[:, MODEL] == m, NCOST]), 0 if there is none *)
Definition finite (x : num) : result Qc := match x with Fin q => Ok q | _ => Err NonFinite end.
Definition qmax (a b : Qc) : Qc := if qc_ltb a b then b else a.
Definition max_count (m : Z) (t : list (list num)) : result Qc :=
  models <- mapM (fun r => get r MODEL) t ;;
  rows <- gather t (find (map (fun x => num_eqb x (ofZ m)) models)) ;;
  ns <- mapM (fun r => x <- get r NCOST ;; finite x) rows ;;
  Ok (match ns with [] => zc 0 | n :: ns' => fold_left qmax ns' n end).
(** savecase.py:263-287: whole rows, and as many places as the largest count needs *)
Definition save_gencost (t : list (list num)) : result (list (list tok)) :=
  n1 <- max_count 1 t ;;
  n2 <- max_count 2 t ;;
  let n := qtrunc (qmax (zc 2 * n1)%Qc n2) in
  mapM (show_row ([FD; F9; F9; FD] ++ repeat F9 (Z.to_nat n))) t.

Definition nonempty {A} (o : option A) (len : A -> nat) : option A :=
  match o with Some a => if 0 <? len a then Some a else None | None => None end.

(** savecase.py:289-333.  [len] of a sparse matrix raises TypeError; a dense one has rows or not, and print_sparse
    (line 367) calls a method that dense arrays do not have. *)
Definition has_rows (m : option umat) : result bool :=
  match m with
  | None => Ok false
  | Some m => if u_sparse m then Err TypeError else Ok (0 <? length (u_rows m))
  end.
Definition save_user (c : scase) : result unit :=
  a <- has_rows (sc_A c) ;;
  _ <- (if (a : bool) then Ok true else has_rows (sc_N c)) ;;
  _ <- guard (negb a) AttributeError ;;
  n <- has_rows (sc_N c) ;;
  guard (negb n) AttributeError.

(** savecase.py:335-352: one line per element, each formatting the whole vector, which works for a single element only *)
Definition save_var (indent : nat) (key : string) (z : option (list num)) : result (list stmt) :=
  match z with
  | None | Some [] => Ok []
  | Some [x] => t <- show F9 x ;; Ok [STable indent key [[t]]]
  | Some _ => Err TypeError
  end.

(** ** Names *)
Definition ends_with (s suf : string) : bool :=
  (String.length suf <=? String.length s) && (String.substring (String.length s - String.length suf) (String.length suf) s =? suf)%string.
Definition chop (n : nat) (s : string) : string := String.substring 0 (String.length s - n) s.
Fixpoint basename_from (acc s : string) : string :=
  match s with
  | EmptyString => acc
  | String c s' => basename_from (if Ascii.eqb c "/" then EmptyString else acc ++ String c EmptyString)%string s'
  end.
Definition basename (s : string) : string := basename_from EmptyString s.

(** savecase.py:79-94: name of the file, name without extension, MAT file? *)
Definition target (fname : string) : string * string * bool :=
  let l := String.length fname in
  let '(root, mat) :=
    if 2 <? l then
      if ends_with fname ".py" then (chop 3 fname, false)
      else if 4 <? l then (if ends_with fname ".mat" then (chop 4 fname, true) else (EmptyString, false))
      else (EmptyString, false)
    else (EmptyString, false) in
  if (root =? "")%string then (fname ++ ".py", fname, false)%string else (fname, root, mat).

(** savecase.py:33-363 with version='1' ([v1]) or '2'; name of the file and its contents *)
Definition savecase (fname : string) (v1 : bool) (c : scase) : result (string * list stmt) :=
  _ <- guard (negb v1) NotImplementedError ;;
  let '(fname, root, mat) := target fname in
  _ <- guard (negb mat) OutOfModel ;;
  base <- show F9 (sc_base c) ;;
  bus <- save_bus (sc_bus c) ;;
  gen <- save_gen (sc_gen c) ;;
  branch <- save_branch (sc_branch c) ;;
  areas <- match nonempty (sc_areas c) (fun a => length (a_rows a)) with
           | None => Ok []
           | Some a => rows <- show_rows [FD; FD] (PRICE_REF_BUS + 1) (a_rows a) ;; Ok [STable 4 "areas" rows]
           end ;;
  costs <- match nonempty (sc_gencost c) (fun a => length (a_rows a)) with
           | None => Ok []
           | Some a => rows <- save_gencost (a_rows a) ;; Ok [STable 4 "gencost" rows]
           end ;;
  _ <- save_user c ;;
  z0 <- save_var 4 "z0" (sc_z0 c) ;;
  zl <- save_var 8 "zl" (sc_zl c) ;;
  zu <- save_var 4 "zu" (sc_zu c) ;;
  Ok (fname, [SDef (basename root); SBase base; STable 4 "bus" bus; STable 4 "gen" gen; STable 4 "branch" branch]
             ++ areas ++ costs ++ z0 ++ zl ++ zu ++ [SReturn]).
End Save.

(** ** Reading the file *)
Inductive reading := Got (c : case) | SyntaxError | Raises (e : exn).

Definition letter (c : ascii) : bool :=
  let n := nat_of_ascii c in (65 <=? n) && (n <=? 90) || (97 <=? n) && (n <=? 122) || (n =? 95).
Definition digit (c : ascii) : bool := let n := nat_of_ascii c in (48 <=? n) && (n <=? 57).
Fixpoint word (s : string) : bool :=
  match s with EmptyString => true | String c s' => (letter c || digit c) && word s' end.
(** names of ASCII characters; reserved words are not told apart *)
Definition identifier (s : string) : bool :=
  match s with EmptyString => false | String c s' => letter c && word s' end.

(** inf and nan are not defined in loadcase.py *)
Definition value_of (t : tok) : result num := match t with TNum q => Ok (Fin q) | TName => Err NameError end.
Definition array_of (rows : list (list tok)) : result arr :=
  rows <- mapM (mapM value_of) rows ;;
  let w := match rows with [] => 0 | r :: _ => length r end in
  _ <- guard (forallb (fun r => length r =? w) rows) ValueError ;;
  Ok {| a_cols := w; a_rows := rows |}.

Definition empty_case : case := {| c_baseMVA := Missing; c_bus := Missing; c_gen := Missing; c_branch := Missing;
  c_areas := Missing; c_gencost := Missing; c_version := Val false |}.
(** ppc[key] = a; other keys are not kept *)
Definition assign (key : string) (a : arr) (c : case) : case :=
  {| c_baseMVA := c_baseMVA c;
     c_bus := if (key =? "bus")%string then Val a else c_bus c; c_gen := if (key =? "gen")%string then Val a else c_gen c;
     c_branch := if (key =? "branch")%string then Val a else c_branch c; c_areas := if (key =? "areas")%string then Val a else c_areas c;
     c_gencost := if (key =? "gencost")%string then Val a else c_gencost c; c_version := c_version c |}.
Definition exec (s : stmt) (c : case) : result case :=
  match s with
  | SBase t => x <- value_of t ;;
      Ok {| c_baseMVA := Val x; c_bus := c_bus c; c_gen := c_gen c; c_branch := c_branch c; c_areas := c_areas c;
            c_gencost := c_gencost c; c_version := c_version c |}
  | STable _ key rows => a <- array_of rows ;; Ok (assign key a c)
  | _ => Ok c
  end.
Definition in_place (s : stmt) : bool :=
  match s with SDef name => identifier name | STable indent _ _ => indent =? 4 | _ => true end.

(** loadcase.py:108-120: compile the file, run its function; [name] is the base name of the file.  A table without rows is
    a one-dimensional array; asking for its number of columns raises IndexError (loadcase.py:184), as is modelled for the
    generators. *)
Definition read_py (name : string) (file : list stmt) : reading :=
  if negb (forallb in_place file) then SyntaxError
  else match file with
       | SDef name' :: body =>
           if negb (name' =? name)%string then Raises NameError
           else match foldM (fun c s => exec s c) body empty_case with
                | Err e => Raises e
                | Ok c => match c_gen c with
                          | Val {| a_rows := [] |} => Raises IndexError
                          | _ => Got c
                          end
                end
       | _ => Raises NameError
       end.

(** loadcase(fname) of a file with extension .py *)
Definition load_py (fname : string) (file : list stmt) : reading :=
  match read_py (basename (chop 3 fname)) file with
  | Got c => match loadcase (fun _ => Some (inr c)) (Path 0) true true true with
             | Ok (OCase c') => Got c'
             | Ok _ => Raises OutOfModel
             | Err e => Raises e
             end
  | r => r
  end.
