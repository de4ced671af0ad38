(** class opf_model: pypower/opf_model.py.

    Block names are strings.  Matrices are shapes with dense rows of rationals (sparse storage is
    not modelled); bounds are table cells (so that +-inf is available).  Messages written to
    stderr are dropped, except where building the message itself raises. *)
From Coq Require Export String.
From Verif Require Export Lib.LinAlg.

Record mat := { m_rows : nat; m_cols : nat; m_data : list vec }.

(** Python dict with string keys *)
Definition dict (D : Type) := list (string * D).
Fixpoint dget {D} (d : dict D) (k : string) : option D :=
  match d with
  | [] => None
  | (k', v) :: r => if String.eqb k k' then Some v else dget r k
  end.
Fixpoint dset {D} (d : dict D) (k : string) (v : D) : dict D :=
  match d with
  | [] => [(k, v)]
  | (k', v') :: r => if String.eqb k k' then (k', v) :: r else (k', v') :: dset r k v
  end.

(** one named set: index range and data *)
Record entry (D : Type) := { e_i1 : nat; e_iN : nat; e_N : nat; e_data : D }.
Arguments e_i1 {D}. Arguments e_iN {D}. Arguments e_N {D}. Arguments e_data {D}.

(** self.var / self.nln / self.lin / self.cost (opf_model.py:32-100); 'NS' is the length of
    'order' *)
Record blocks (D : Type) := { b_idx : dict (entry D); b_N : nat; b_order : list string }.
Arguments b_idx {D}. Arguments b_N {D}. Arguments b_order {D}.

Definition empty_blocks {D} : blocks D := {| b_idx := []; b_N := 0; b_order := [] |}.

(** the bookkeeping common to all add_* methods *)
Definition add_block {D} (b : blocks D) (name : string) (n : nat) (d : D) : blocks D :=
  {| b_idx := dset (b_idx b) name {| e_i1 := b_N b; e_iN := b_N b + n; e_N := n; e_data := d |};
     b_N := b_N b + n;
     b_order := b_order b ++ [name] |}.

Record vdata := { v_0 : list num; v_l : list num; v_u : list num }.

(** list of variable sets; an empty list is replaced by the list object self.var['order']
    itself, which later add_vars calls extend *)
Inductive varsets := VAll | VList (l : list string).

Record ldata := { l_A : mat; l_l : list num; l_u : list num; l_vs : varsets }.

(** optional cost parameters *)
Record cparam := {
  c_N : mat; c_Cw : vec; c_H : option mat;
  c_dd : option vec; c_rh : option vec; c_kk : option vec; c_mm : option vec }.

Record cdata := { k_N : mat; k_Cw : vec; k_H : option mat; k_vs : varsets }.

(** full set of cost parameters, self.cost['params'] *)
Record params := {
  q_N : list vec; q_Cw : vec; q_H : list vec; q_dd : vec; q_rh : vec; q_kk : vec; q_mm : vec }.

Record om := {
  o_var : blocks vdata; o_nln : blocks unit; o_lin : blocks ldata; o_cost : blocks cdata;
  (* self.cost['data']['dd'] etc.: dicts of their own *)
  o_dd : dict vec; o_rh : dict vec; o_kk : dict vec; o_mm : dict vec;
  o_params : option params }.

(** opf_model.py:27-103 *)
Definition new_om : om :=
  {| o_var := empty_blocks; o_nln := empty_blocks; o_lin := empty_blocks;
     o_cost := empty_blocks; o_dd := []; o_rh := []; o_kk := []; o_mm := [];
     o_params := None |}.

(** [None] or an empty vector means default *)
Definition default (o : option (list num)) (n : nat) (v : num) : list num :=
  match o with Some ((_ :: _) as l) => l | _ => repeat v n end.

(** opf_model.py:380-418 *)
Definition add_vars (m : om) (name : string) (n : nat) (v0 vl vu : option (list num)) : om :=
  {| o_var := add_block (o_var m) name n
                {| v_0 := default v0 n (ofZ 0); v_l := default vl n NInf;
                   v_u := default vu n PInf |};
     o_nln := o_nln m; o_lin := o_lin m; o_cost := o_cost m;
     o_dd := o_dd m; o_rh := o_rh m; o_kk := o_kk m; o_mm := o_mm m;
     o_params := o_params m |}.

(** opf_model.py:195-211 *)
Definition add_nln (m : om) (name : string) (n : nat) : om :=
  {| o_var := o_var m; o_nln := add_block (o_nln m) name n tt; o_lin := o_lin m;
     o_cost := o_cost m; o_dd := o_dd m; o_rh := o_rh m; o_kk := o_kk m; o_mm := o_mm m;
     o_params := o_params m |}.

Definition resolve (m : om) (vs : varsets) : list string :=
  match vs with VAll => b_order (o_var m) | VList l => l end.

(** [for k in range(len(varsets)): nv += self.var['idx']['N'][varsets[k]]] *)
Definition count_vars (m : om) (vs : list string) : result nat :=
  foldM (fun nv v => e <- of_option KeyError (dget (b_idx (o_var m)) v) ;; Ok (nv + e_N e)) vs 0.

Definition to_varsets (vs : list string) : varsets :=
  match vs with [] => VAll | _ => VList vs end.

(** opf_model.py:212-256; wrong sizes only produce a message *)
Definition add_lin (m : om) (name : string) (A : mat) (l u : list num) (vs : list string)
  : result om :=
  let l' := default (Some l) (m_rows A) NInf in
  let u' := default (Some u) (m_rows A) PInf in
  let vs' := to_varsets vs in
  _ <- count_vars m (resolve m vs') ;;
  Ok {| o_var := o_var m; o_nln := o_nln m;
        o_lin := add_block (o_lin m) name (m_rows A)
                   {| l_A := A; l_l := l'; l_u := u'; l_vs := vs' |};
        o_cost := o_cost m; o_dd := o_dd m; o_rh := o_rh m; o_kk := o_kk m; o_mm := o_mm m;
        o_params := o_params m |}.

Definition opt_len_ok (n : nat) (o : option vec) : bool :=
  match o with None => true | Some v => length v =? n end.

Definition dset_opt (d : dict vec) (k : string) (o : option vec) : dict vec :=
  match o with None => d | Some v => dset d k v end.

(** opf_model.py:259-378.  Building the messages for wrong sizes of Cw, H, dd, rh, kk, mm raises
    TypeError (too few format arguments), and so does [sparse(nw, nx)]; only a wrong number of
    columns of N with nw > 0 is let through.  dd, rh, kk and mm are stored under the literal key
    "name" (lines 361-371). *)
Definition add_costs (m : om) (name : string) (cp : cparam) (vs : list string) : result om :=
  let vs' := to_varsets vs in
  let nw := m_rows (c_N cp) in
  nv <- count_vars m (resolve m vs') ;;
  _ <- guard ((m_cols (c_N cp) =? nv) || negb (nw =? 0)) TypeError ;;
  _ <- guard (length (c_Cw cp) =? nw) TypeError ;;
  _ <- guard (match c_H cp with None => true
              | Some H => (m_rows H =? nw) && (m_cols H =? nw) end) TypeError ;;
  _ <- guard (opt_len_ok nw (c_dd cp) && opt_len_ok nw (c_rh cp)
              && opt_len_ok nw (c_kk cp) && opt_len_ok nw (c_mm cp)) TypeError ;;
  Ok {| o_var := o_var m; o_nln := o_nln m; o_lin := o_lin m;
        o_cost := add_block (o_cost m) name nw
                    {| k_N := c_N cp; k_Cw := c_Cw cp; k_H := c_H cp; k_vs := vs' |};
        o_dd := dset_opt (o_dd m) "name" (c_dd cp);
        o_rh := dset_opt (o_rh m) "name" (c_rh cp);
        o_kk := dset_opt (o_kk m) "name" (c_kk cp);
        o_mm := dset_opt (o_mm m) "name" (c_mm cp);
        o_params := o_params m |}.

(** numpy assignment [dst[i:i+n] = seg] with broadcasting of a single element *)
Definition assign {A} (dst : list A) (i n : nat) (seg : list A) : result (list A) :=
  match seg with
  | [x] => Ok (put dst i (repeat x n))
  | _ => if length seg =? n then Ok (put dst i seg) else Err ValueError
  end.

(** the column loop of lines 460-465 / 745-750 for one row: [for v in vsl: Ai[j1:jN] = r[k1:kN]] *)
Definition spread (m : om) (vs : list string) (r : vec) : result vec :=
  p <- foldM (fun st v =>
         let '(row, kN) := st in
         e <- of_option KeyError (dget (b_idx (o_var m)) v) ;;
         let k1 := kN in
         let kN := kN + e_N e in
         row' <- assign row (e_i1 e) (e_iN e - e_i1 e) (slice k1 kN r) ;;
         Ok (row', kN)) vs (repeat 0%Qc (b_N (o_var m)), 0) ;;
  Ok (fst p).

(** opf_model.py:708-757; [None] is Python's None (no constraints) *)
Definition linear_constraints (m : om)
  : result (option (list vec) * list num * list num) :=
  if b_N (o_lin m) =? 0 then Ok (None, [], [])
  else
    let n := b_N (o_lin m) in
    st <- foldM (fun st name =>
        let '(A, l, u) := st in
        e <- of_option KeyError (dget (b_idx (o_lin m)) name) ;;
        if e_N e =? 0 then Ok st
        else
          Ai <- mapM (spread m (resolve m (l_vs (e_data e)))) (m_data (l_A (e_data e))) ;;
          l' <- assign l (e_i1 e) (e_iN e - e_i1 e) (l_l (e_data e)) ;;
          u' <- assign u (e_i1 e) (e_iN e - e_i1 e) (l_u (e_data e)) ;;
          Ok (put A (e_i1 e) Ai, l', u'))
      (b_order (o_lin m))
      (repeat (repeat 0%Qc (b_N (o_var m))) n, repeat NInf n, repeat PInf n) ;;
    let '(A, l, u) := st in Ok (Some A, l, u).

(** opf_model.py:678-705 *)
Definition getv (m : om) (name : option string) : result (list num * list num * list num) :=
  match name with
  | None =>
      foldM (fun st nm =>
        let '(v0, vl, vu) := st in
        e <- of_option KeyError (dget (b_idx (o_var m)) nm) ;;
        Ok (v0 ++ v_0 (e_data e), vl ++ v_l (e_data e), vu ++ v_u (e_data e)))
        (b_order (o_var m)) ([], [], [])
  | Some nm =>
      match dget (b_idx (o_var m)) nm with
      | Some e => Ok (v_0 (e_data e), v_l (e_data e), v_u (e_data e))
      | None => Ok ([], [], [])
      end
  end.

(** opf_model.py:652-675 *)
Definition getN {D} (b : blocks D) (name : option string) : nat :=
  match name with
  | None => b_N b
  | Some nm => match dget (b_idx b) nm with Some e => e_N e | None => 0 end
  end.

(** opf_model.py:421-489 *)
Definition build_cost_params (m : om) : result om :=
  let nw := b_N (o_cost m) in
  let fill (d : dict vec) name (e : entry cdata) (v : vec) : result vec :=
    match dget d name with
    | None => Ok v
    | Some x => assign v (e_i1 e) (e_iN e - e_i1 e) x
    end in
  q <- foldM (fun q name =>
      e <- of_option KeyError (dget (b_idx (o_cost m)) name) ;;
      if e_N e =? 0 then Ok q
      else
        let n := e_iN e - e_i1 e in
        Ni <- mapM (spread m (resolve m (k_vs (e_data e)))) (m_data (k_N (e_data e))) ;;
        Cw <- assign (q_Cw q) (e_i1 e) n (k_Cw (e_data e)) ;;
        let H := match k_H (e_data e) with
                 | None => q_H q
                 | Some h => put (q_H q) (e_i1 e)
                     (map2 (fun r s => put r (e_i1 e) s)
                           (slice (e_i1 e) (e_iN e) (q_H q)) (m_data h))
                 end in
        dd <- fill (o_dd m) name e (q_dd q) ;;
        rh <- fill (o_rh m) name e (q_rh q) ;;
        kk <- fill (o_kk m) name e (q_kk q) ;;
        mm <- fill (o_mm m) name e (q_mm q) ;;
        Ok {| q_N := put (q_N q) (e_i1 e) Ni; q_Cw := Cw; q_H := H;
              q_dd := dd; q_rh := rh; q_kk := kk; q_mm := mm |})
    (b_order (o_cost m))
    {| q_N := repeat (repeat 0%Qc (b_N (o_var m))) nw; q_Cw := repeat 0%Qc nw;
       q_H := repeat (repeat 0%Qc nw) nw; q_dd := repeat 1%Qc nw; q_rh := repeat 0%Qc nw;
       q_kk := repeat 0%Qc nw; q_mm := repeat 1%Qc nw |} ;;
  Ok {| o_var := o_var m; o_nln := o_nln m; o_lin := o_lin m; o_cost := o_cost m;
        o_dd := o_dd m; o_rh := o_rh m; o_kk := o_kk m; o_mm := o_mm m;
        o_params := Some q |}.

Definition with_params (m : om) (q : params) : om :=
  {| o_var := o_var m; o_nln := o_nln m; o_lin := o_lin m; o_cost := o_cost m;
     o_dd := o_dd m; o_rh := o_rh m; o_kk := o_kk m; o_mm := o_mm m; o_params := Some q |}.

(** opf_model.py:567-603: the named query cuts the stored parameters down in place, so it
    returns a new state as well *)
Definition get_cost_params (m : om) (name : option string) : result (om * params) :=
  q <- of_option KeyError (o_params m) ;;
  match name with
  | None => Ok (m, q)
  | Some nm =>
      match dget (b_idx (o_cost m)) nm with
      | None => Ok (m, q)
      | Some e =>
          if e_N e =? 0 then Ok (m, q)
          else
            let idx := seq (e_i1 e) (e_iN e - e_i1 e) in
            N <- gather (q_N q) idx ;;
            Cw <- gather (q_Cw q) idx ;;
            let H := map (slice (e_i1 e) (e_iN e)) (slice (e_i1 e) (e_iN e) (q_H q)) in
            dd <- gather (q_dd q) idx ;;
            rh <- gather (q_rh q) idx ;;
            kk <- gather (q_kk q) idx ;;
            mm <- gather (q_mm q) idx ;;
            let q' := {| q_N := N; q_Cw := Cw; q_H := H; q_dd := dd; q_rh := rh;
                         q_kk := kk; q_mm := mm |} in
            Ok (with_params m q', q')
      end
  end.

Definition b2q (b : bool) : Qc := if b then 1%Qc else 0%Qc.

(** one row of w (opf_model.py:543-560); duplicate entries of the sparse diagonals add up *)
Definition w_row (r dd kk mm : Qc) : Qc :=
  let lt := qc_ltb r (- kk) in
  let eq := qc_eqb r 0 && qc_eqb kk 0 in
  let gt := qc_ltb kk r in
  let kbar := ((b2q lt - b2q gt) * kk)%Qc in
  let rr := (r + kbar)%Qc in
  let M := ((b2q lt + b2q eq + b2q gt) * mm)%Qc in
  let LL := b2q (qc_eqb dd 1) in
  let QQ := b2q (qc_eqb dd (zc 2)) in
  (M * (LL + QQ * rr) * rr)%Qc.

Fixpoint w_rows (r dd kk mm : vec) : vec :=
  match r, dd, kk, mm with
  | a :: r', d :: dd', k :: kk', m :: mm' => w_row a d k m :: w_rows r' dd' kk' mm'
  | _, _, _, _ => []
  end.

(** the cost function evaluated from a parameter set, opf_model.py:540-562 *)
Definition eval_params (q : params) (x : vec) : Qc :=
  let r := map2 Qcminus (matvec (q_N q) x) (q_rh q) in
  let w := w_rows r (q_dd q) (q_kk q) (q_mm q) in
  (dot (matvec (q_H q) w) w / zc 2 + dot (q_Cw q) w)%Qc.

(** opf_model.py:492-564; with no cost rows the matrix N is a dense (0, nx) array and the
    product raises (not followed further) *)
Definition compute_cost (m : om) (x : vec) (name : option string) : result (om * Qc) :=
  mq <- get_cost_params m name ;;
  let '(m', q) := mq in
  if length (q_N q) =? 0 then Err ValueError
  else Ok (m', eval_params q x).

(** ** histories of calls *)
Inductive op :=
| AddVars (name : string) (n : nat) (v0 vl vu : option (list num))
| AddNln (name : string) (n : nat)
| AddLin (name : string) (A : mat) (l u : list num) (vs : list string)
| AddCosts (name : string) (cp : cparam) (vs : list string).

Definition step (m : om) (o : op) : result om :=
  match o with
  | AddVars name n v0 vl vu => Ok (add_vars m name n v0 vl vu)
  | AddNln name n => Ok (add_nln m name n)
  | AddLin name A l u vs => add_lin m name A l u vs
  | AddCosts name cp vs => add_costs m name cp vs
  end.

Definition run (ops : list op) : result om := foldM step ops new_om.
