(** Unit decommitment: uopf.py, and the end of opf.py.  The optimisation itself is an oracle. *)
From Verif Require Export Model.OpfLin Model.AcPf.
Local Open Scope nat_scope.

Section Uopf.
Context {K : Type} {F : Fld K}.

(** what uopf reads of a result: [o_off] is results['order']['gen']['status']['off'] *)
Record ores := ORes {
  o_bus : list (list K); o_gen : list (list K); o_f : K; o_success : bool; o_off : list nat }.
(** opf.py:163-172: ext2int, opf_setup, opf_execute and int2ext for a given bus and gen table (the other
    fields of the case are the same in every call and are left out) *)
Variable solve : list (list K) -> list (list K) -> result ores.

(** [t[ix_(rows, js)] = 0] *)
Definition zero_rows (rows js : list nat) (t : list (list K)) : result (list (list K)) :=
  foldM (fun t j => set_rows t rows j (repeat 0%K (length rows))) js t.
(** opf.py:157-158: columns for the multipliers; rows have equal length *)
Definition pad (n : nat) (t : list (list K)) : list (list K) :=
  map (fun r => r ++ repeat 0%K (n - length r)) t.
(** ** opf.py:145-190 *)
Definition opf (bus gen : list (list K)) : result ores :=
  r <- solve (pad (S MU_VMIN) bus) (pad (S MU_QMIN) gen) ;;
  g <- (if 0 <? length (o_off r) then zero_rows (o_off r) [PG; QG; MU_PMAX; MU_PMIN] (o_gen r) else Ok (o_gen r)) ;;
  Ok (ORes (o_bus r) g (o_f r) (o_success r) (o_off r)).

(** uopf.py:57-61 *)
Definition on_gens (gen : list (list K)) (wantload : bool) : result (list nat) :=
  ld <- mapM isload gen ;; st <- col GEN_STATUS gen ;;
  Ok (find (map2 (fun b s => pos_status s && Bool.eqb b wantload) ld st)).
Definition pmin_of (gen : list (list K)) (idx : list nat) : result K :=
  rows <- gather gen idx ;; v <- col PMIN rows ;; Ok (lsum (fun a => a) v).

(** uopf.py:93 *)
Definition candidates (gen : list (list K)) : result (list nat) :=
  mu <- col MU_PMIN gen ;; lo <- col PMIN gen ;;
  Ok (find (map2 (fun m l => fltb 0%K m && fltb 0%K l) mu lo)).
(** uopf.py:101-116: one candidate; the flag is [not done] *)
Definition try_unit (r0 : ores) (best : ores * bool) (k : nat) : result (ores * bool) :=
  gen <- zero_rows [k] [PG; QG; GEN_STATUS] (o_gen r0) ;;
  r <- opf (o_bus r0) gen ;;
  Ok (if o_success r && fltb (o_f r) (o_f (fst best)) then (r, true) else best).
(** uopf.py:91-128: [None] means that the loop has not ended after [fuel] stages.  results1 is results0 at
    the start of every stage. *)
Fixpoint stages (fuel : nat) (r0 : ores) : option (result ores) :=
  match fuel with
  | 0 => None
  | S fuel =>
      match candidates (o_gen r0) with
      | Err e => Some (Err e)
      | Ok [] => Some (Ok r0)
      | Ok cs =>
          match foldM (try_unit r0) cs (r0, false) with
          | Err e => Some (Err e)
          | Ok (r1, true) => stages fuel r1
          | Ok (_, false) => Some (Ok r0)
          end
      end
  end.

(** ** uopf.py:25-130.  The body of the first loop always raises: fairmax.py:29 calls a tuple (TypeError), and
    max of no units is a ValueError; errors of totcost before that are not told apart. *)
Definition uopf (fuel : nat) (bus gen : list (list K)) : option (result ores) :=
  let start :=
    on <- on_gens gen false ;;
    onld <- on_gens gen true ;;
    pd <- col PD bus ;;
    ldmin <- pmin_of gen onld ;;
    let capacity := (lsum (fun a => a) pd - ldmin)%K in
    pmin <- pmin_of gen on ;;
    _ <- guard (negb (fltb capacity pmin)) (if length on =? 0 then ValueError else TypeError) ;;
    opf bus gen in
  match start with Err e => Some (Err e) | Ok r => stages fuel r end.
End Uopf.
Arguments ores K : clear implicits.
