(** pypower/opf_args.py: the arguments of an optimal power flow call.
    Values are tokens with the shape that the code looks at.  Left out: messages on stderr, reading of case files
    (a parameter), and the contents of the default options (a parameter). *)
From Coq Require Export String.
From Verif Require Export Lib.Py.
Local Open Scope string_scope.

(** None, a file name, a number, a vector, a dense or a sparse matrix, a dict *)
Inductive val : Type :=
| PNone | PStr (s : string) | PNum (id : Z) | PVec (id : Z) (len : nat) | PDense (id : Z) (r c : nat)
| PSparse (id : Z) (r c : nat) | PDict (d : list (string * val)).

Definition is_none (v : val) : bool := match v with PNone => true | _ => false end.
Definition py_len (v : val) : result nat :=
  match v with
  | PVec _ n | PDense _ n _ => Ok n
  | PDict d => Ok (List.length d)
  | PStr s => Ok (String.length s)
  | PNone | PNum _ | PSparse _ _ _ => Err TypeError
  end.
Definition shape0 (v : val) : result nat :=
  match v with PVec _ n | PDense _ n _ | PSparse _ n _ => Ok n | _ => Err AttributeError end.
Definition shape1 (v : val) : result nat :=
  match v with PDense _ _ n | PSparse _ _ n => Ok n | PVec _ _ => Err IndexError | _ => Err AttributeError end.
Definition empty_array : val := PVec 0 0.

Fixpoint dget (d : list (string * val)) (k : string) : option val :=
  match d with [] => None | (k', v) :: d => if k' =? k then Some v else dget d k end.
Fixpoint dset (d : list (string * val)) (k : string) (v : val) : list (string * val) :=
  match d with [] => [(k, v)] | (k', v') :: d => if k' =? k then (k, v) :: d else (k', v') :: dset d k v end.
Definition dkey (d : list (string * val)) (k : string) : result val := of_option KeyError (dget d k).
Definition has_key (d : list (string * val)) (k : string) : bool := match dget d k with Some _ => true | None => false end.

(** x is None or len(x) == 0 *)
Definition none_or_empty (v : val) : result bool :=
  if is_none v then Ok true else (n <- py_len v ;; Ok (Nat.eqb n 0)).
(** x is not None and len(x) > 0 *)
Definition filled (v : val) : result bool := b <- none_or_empty v ;; Ok (negb b).

Record user_args : Type := UserArgs {
  a_Au : val; a_lbu : val; a_ubu : val; a_ppopt : val; a_N : val; a_fparm : val; a_H : val; a_Cw : val;
  a_z0 : val; a_zl : val; a_zu : val; a_userfcn : val }.
Record opf_input : Type := OpfInput {
  o_baseMVA : val; o_bus : val; o_gen : val; o_branch : val; o_gencost : val; o_areas : val; o_user : user_args }.

Section OpfArgs.
Variable ppoption : val.                                      (* ppoption() *)
Variable loadcase : val -> result (list (string * val)).

(** opf_args.py:101-195: names as bound by the unpacking and the assignments that follow *)
Definition case_args (args : list val) : result (val * user_args) :=
  let userfcn := empty_array in
  match args with
  | [casefile; bus; gen; branch; areas; gencost; Au; lbu; ubu; ppopt; N; fparm] =>
      let zu := fparm in let zl := N in let z0 := ppopt in let Cw := ubu in let H := lbu in let fparm := Au in
      let N := gencost in let ppopt := areas in let ubu := branch in let lbu := gen in let Au := bus in
      Ok (casefile, UserArgs Au lbu ubu ppopt N fparm H Cw z0 zl zu userfcn)
  | [casefile; bus; gen; branch; areas; gencost; Au; lbu; ubu] =>
      let zu := empty_array in let zl := empty_array in let z0 := empty_array in let Cw := ubu in let H := lbu in
      let fparm := Au in let N := gencost in let ppopt := areas in let ubu := branch in let lbu := gen in let Au := bus in
      Ok (casefile, UserArgs Au lbu ubu ppopt N fparm H Cw z0 zl zu userfcn)
  | [casefile; bus; gen; branch; areas] =>
      let zu := empty_array in let zl := empty_array in let z0 := empty_array in let Cw := empty_array in
      let H := PNone in let fparm := empty_array in let N := PNone in let ppopt := areas in
      let ubu := branch in let lbu := gen in let Au := bus in
      Ok (casefile, UserArgs Au lbu ubu ppopt N fparm H Cw z0 zl zu userfcn)
  | [casefile; bus; gen; branch] =>
      let zu := empty_array in let zl := empty_array in let z0 := empty_array in let Cw := empty_array in
      let H := PNone in let fparm := empty_array in let N := PNone in let ppopt := ppoption in
      let ubu := branch in let lbu := gen in let Au := bus in
      Ok (casefile, UserArgs Au lbu ubu ppopt N fparm H Cw z0 zl zu userfcn)
  | [casefile; bus; gen] =>
      let userfcn := bus in
      let zu := empty_array in let zl := empty_array in let z0 := empty_array in let Cw := empty_array in
      let H := PNone in let fparm := empty_array in let N := PNone in let ppopt := gen in
      let ubu := empty_array in let lbu := empty_array in let Au := PNone in
      Ok (casefile, UserArgs Au lbu ubu ppopt N fparm H Cw z0 zl zu userfcn)
  | [casefile; bus] =>
      let zu := empty_array in let zl := empty_array in let z0 := empty_array in let Cw := empty_array in
      let H := PNone in let fparm := empty_array in let N := PNone in let ppopt := bus in
      let ubu := empty_array in let lbu := empty_array in let Au := PNone in
      Ok (casefile, UserArgs Au lbu ubu ppopt N fparm H Cw z0 zl zu userfcn)
  | [casefile] =>
      let zu := empty_array in let zl := empty_array in let z0 := empty_array in let Cw := empty_array in
      let H := PNone in let fparm := empty_array in let N := PNone in let ppopt := ppoption in
      let ubu := empty_array in let lbu := empty_array in let Au := PNone in
      Ok (casefile, UserArgs Au lbu ubu ppopt N fparm H Cw z0 zl zu userfcn)
  | _ => Err UnboundLocalError          (* message, then loadcase(casefile) *)
  end.

(** opf_args.py:197-219: what the call leaves open is taken from the case *)
Definition from_case (ppc : list (string * val)) (u : user_args) : result opf_input :=
  let 'UserArgs Au lbu ubu ppopt N fparm H Cw z0 zl zu userfcn := u in
  baseMVA <- dkey ppc "baseMVA" ;; bus <- dkey ppc "bus" ;; gen <- dkey ppc "gen" ;; branch <- dkey ppc "branch" ;;
  gencost <- dkey ppc "gencost" ;;
  let areas := match dget ppc "areas" with Some a => a | None => empty_array end in
  '(Au, lbu, ubu) <- (if is_none Au && has_key ppc "A"
                      then (a <- dkey ppc "A" ;; l <- dkey ppc "l" ;; u <- dkey ppc "u" ;; Ok (a, l, u))
                      else Ok (Au, lbu, ubu)) ;;
  '(N, Cw) <- (if is_none N && has_key ppc "N"
               then (n <- dkey ppc "N" ;; c <- dkey ppc "Cw" ;; Ok (n, c)) else Ok (N, Cw)) ;;
  let H := if is_none H then match dget ppc "H" with Some h => h | None => H end else H in
  let or_case v k := (b <- none_or_empty v ;; Ok (if b then match dget ppc k with Some w => w | None => v end else v)) in
  fparm <- or_case fparm "fparm" ;; z0 <- or_case z0 "z0" ;; zl <- or_case zl "zl" ;; zu <- or_case zu "zu" ;;
  userfcn <- or_case userfcn "userfcn" ;;
  Ok (OpfInput baseMVA bus gen branch gencost areas (UserArgs Au lbu ubu ppopt N fparm H Cw z0 zl zu userfcn)).

(** opf_args.py:229-294 *)
Definition matrix_args (args : list val) : result opf_input :=
  let userfcn := empty_array in
  match args with
  | [baseMVA; bus; gen; branch; areas; gencost; Au; lbu; ubu; ppopt; N; fparm; H; Cw; z0; zl; zu] =>
      Ok (OpfInput baseMVA bus gen branch gencost areas (UserArgs Au lbu ubu ppopt N fparm H Cw z0 zl zu userfcn))
  | [baseMVA; bus; gen; branch; areas; gencost; Au; lbu; ubu; ppopt; N; fparm; H; Cw] =>
      let zu := empty_array in let zl := empty_array in let z0 := empty_array in
      Ok (OpfInput baseMVA bus gen branch gencost areas (UserArgs Au lbu ubu ppopt N fparm H Cw z0 zl zu userfcn))
  | [baseMVA; bus; gen; branch; areas; gencost; Au; lbu; ubu; ppopt] =>
      let zu := empty_array in let zl := empty_array in let z0 := empty_array in let Cw := empty_array in
      let H := PNone in let fparm := empty_array in let N := PNone in
      Ok (OpfInput baseMVA bus gen branch gencost areas (UserArgs Au lbu ubu ppopt N fparm H Cw z0 zl zu userfcn))
  | [baseMVA; bus; gen; branch; areas; gencost; Au; lbu; ubu] =>
      let zu := empty_array in let zl := empty_array in let z0 := empty_array in let Cw := empty_array in
      let H := PNone in let fparm := empty_array in let N := PNone in let ppopt := ppoption in
      Ok (OpfInput baseMVA bus gen branch gencost areas (UserArgs Au lbu ubu ppopt N fparm H Cw z0 zl zu userfcn))
  | [baseMVA; bus; gen; branch; areas; gencost; userfcn; ppopt] =>
      let zu := empty_array in let zl := empty_array in let z0 := empty_array in let Cw := empty_array in
      let H := PNone in let fparm := empty_array in let N := PNone in
      let ubu := empty_array in let lbu := empty_array in let Au := PNone in
      Ok (OpfInput baseMVA bus gen branch gencost areas (UserArgs Au lbu ubu ppopt N fparm H Cw z0 zl zu userfcn))
  | [baseMVA; bus; gen; branch; areas; gencost; ppopt] =>
      let zu := empty_array in let zl := empty_array in let z0 := empty_array in let Cw := empty_array in
      let H := PNone in let fparm := empty_array in let N := PNone in
      let ubu := empty_array in let lbu := empty_array in let Au := PNone in
      Ok (OpfInput baseMVA bus gen branch gencost areas (UserArgs Au lbu ubu ppopt N fparm H Cw z0 zl zu userfcn))
  | [baseMVA; bus; gen; branch; areas; gencost] =>
      let zu := empty_array in let zl := empty_array in let z0 := empty_array in let Cw := empty_array in
      let H := PNone in let fparm := empty_array in let N := PNone in let ppopt := ppoption in
      let ubu := empty_array in let lbu := empty_array in let Au := PNone in
      Ok (OpfInput baseMVA bus gen branch gencost areas (UserArgs Au lbu ubu ppopt N fparm H Cw z0 zl zu userfcn))
  | _ => Err UnboundLocalError          (* message, then the first look at N *)
  end.

(** opf_args.py:296-325: the shapes are looked at for messages only; empty options become the default *)
Definition looked_at (o : opf_input) : result opf_input :=
  let 'UserArgs Au lbu ubu ppopt N fparm H Cw z0 zl zu userfcn := o_user o in
  nw <- (if is_none N then Ok 0%nat else shape0 N) ;;
  _ <- (if Nat.eqb nw 0 then Ok tt
        else (_ <- shape0 Cw ;; n <- py_len fparm ;; _ <- (if Nat.eqb n 0 then Ok 0%nat else shape0 fparm) ;;
              _ <- (if is_none H then Ok 0%nat else shape0 H) ;;
              if is_none Au then Ok tt
              else (m <- shape0 Au ;; if Nat.eqb m 0 then Ok tt else (_ <- shape1 N ;; _ <- shape1 Au ;; Ok tt)))) ;;
  e <- none_or_empty ppopt ;;
  Ok (OpfInput (o_baseMVA o) (o_bus o) (o_gen o) (o_branch o) (o_gencost o) (o_areas o)
        (UserArgs Au lbu ubu (if e then ppoption else ppopt) N fparm H Cw z0 zl zu userfcn)).

(** opf_args.py:22-328 *)
Definition opf_args (args : list val) : result opf_input :=
  match args with
  | [] => Err IndexError
  | (PStr _ | PDict _) :: _ =>
      '(casefile, u) <- case_args args ;; ppc <- loadcase casefile ;; o <- from_case ppc u ;; looked_at o
  | _ => o <- matrix_args args ;; looked_at o
  end.

(** opf_args.py:331-364.  A dict given by the caller is the object filled in here, so the caller sees these entries *)
Definition opf_args2 (args : list val) : result (list (string * val) * val) :=
  o <- opf_args args ;;
  let 'UserArgs Au lbu ubu ppopt N fparm H Cw z0 zl zu userfcn := o_user o in
  let ppc := match args with PDict d :: _ => d | _ => [] end in
  let ppc := dset ppc "baseMVA" (o_baseMVA o) in
  let ppc := dset ppc "bus" (o_bus o) in
  let ppc := dset ppc "gen" (o_gen o) in
  let ppc := dset ppc "branch" (o_branch o) in
  let ppc := dset ppc "gencost" (o_gencost o) in
  b <- filled (o_areas o) ;;
  let ppc := if b then dset ppc "areas" (o_areas o) else ppc in
  b <- filled lbu ;;
  let ppc := if b then dset (dset (dset ppc "A" Au) "l" lbu) "u" ubu else ppc in
  b <- filled Cw ;;
  ppc <- (if b then
            (let ppc := dset (dset ppc "N" N) "Cw" Cw in
             n <- py_len fparm ;;
             let ppc := if Nat.eqb n 0 then ppc else dset ppc "fparm" fparm in
             Ok (dset ppc "H" H))
          else Ok ppc) ;;
  b <- filled z0 ;;
  let ppc := if b then dset ppc "z0" z0 else ppc in
  b <- filled zl ;;
  let ppc := if b then dset ppc "zl" zl else ppc in
  b <- filled zu ;;
  let ppc := if b then dset ppc "zu" zu else ppc in
  b <- filled userfcn ;;
  let ppc := if b then dset ppc "userfcn" userfcn else ppc in
  Ok (ppc, ppopt).
End OpfArgs.
