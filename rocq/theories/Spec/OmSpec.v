(** What a sequence of opf_model calls is supposed to describe (no reference to the index
    bookkeeping of the model). *)
From Verif Require Export Lib.LinAlg Model.OpfModel.
Local Open Scope string_scope.

(** ** the declared sets, in order of declaration *)
Record vset := { vs_name : string; vs_n : nat;
                 vs_v0 : option (list num); vs_vl : option (list num); vs_vu : option (list num) }.
Record lset := { ls_name : string; ls_A : mat; ls_l : list num; ls_u : list num;
                 ls_vs : list string }.
Record cset := { cs_name : string; cs_cp : cparam; cs_vs : list string }.

Definition vars (ops : list op) : list vset :=
  flat_map (fun o => match o with
    | AddVars nm n a b c =>
        [{| vs_name := nm; vs_n := n; vs_v0 := a; vs_vl := b; vs_vu := c |}]
    | _ => [] end) ops.
Definition nlns (ops : list op) : list (string * nat) :=
  flat_map (fun o => match o with AddNln nm n => [(nm, n)] | _ => [] end) ops.
Definition lins (ops : list op) : list lset :=
  flat_map (fun o => match o with
    | AddLin nm A l u vs =>
        [{| ls_name := nm; ls_A := A; ls_l := l; ls_u := u; ls_vs := vs |}]
    | _ => [] end) ops.
Definition costs (ops : list op) : list cset :=
  flat_map (fun o => match o with
    | AddCosts nm cp vs => [{| cs_name := nm; cs_cp := cp; cs_vs := vs |}]
    | _ => [] end) ops.

Definition distinct_names (ops : list op) : Prop :=
  NoDup (map vs_name (vars ops)) /\ NoDup (map fst (nlns ops)) /\
  NoDup (map ls_name (lins ops)) /\ NoDup (map cs_name (costs ops)).

Definition vnames (V : list vset) : list (string * nat) := map (fun v => (vs_name v, vs_n v)) V.

Definition total (S : list (string * nat)) : nat := list_sum (map snd S).

(** ** index ranges *)
(** the named sets occupy consecutive ranges, in order, starting at [i] and ending at [j] *)
Fixpoint consecutive (rng : string -> option (nat * nat)) (S : list (string * nat)) (i j : nat)
  : Prop :=
  match S with
  | [] => i = j
  | (nm, n) :: S' => rng nm = Some (i, i + n) /\ consecutive rng S' (i + n) j
  end.

Definition range {D} (b : blocks D) (nm : string) : option (nat * nat) :=
  match dget (b_idx b) nm with Some e => Some (e_i1 e, e_iN e) | None => None end.

(** values of a set with the documented defaults (0, -inf, inf) *)
Definition given (o : option (list num)) (n : nat) (d : num) : list num :=
  match o with None | Some [] => repeat d n | Some l => l end.

(** ** variables: the part of [x] that belongs to a named set *)
Fixpoint part (S : list (string * nat)) (x : vec) (nm : string) : vec :=
  match S with
  | [] => []
  | (nm', n) :: S' => if String.eqb nm nm' then firstn n x else part S' (skipn n x) nm
  end.

(** no sets named: all variables *)
Definition over (S : list (string * nat)) (vs : list string) : list string :=
  match vs with [] => map fst S | _ => vs end.

Definition parts (S : list (string * nat)) (x : vec) (vs : list string) : vec :=
  flat_map (part S x) (over S vs).

Definition size_of (S : list (string * nat)) (nm : string) : nat :=
  match List.find (fun p => String.eqb nm (fst p)) S with Some p => snd p | None => 0 end.

Definition mat_wf (A : mat) : Prop :=
  length (m_data A) = m_rows A /\ Forall (fun r => length r = m_cols A) (m_data A).

(** a set declared over known, distinct variable sets with the right number of columns *)
Definition columns_ok (S : list (string * nat)) (A : mat) (vs : list string) : Prop :=
  mat_wf A /\ NoDup vs /\ incl vs (map fst S) /\
  m_cols A = list_sum (map (size_of S) (over S vs)).

(** ** linear constraints *)
Definition num_le (a b : num) : Prop :=
  match a, b with
  | Fin p, Fin q => (p <= q)%Qc
  | NInf, (NInf | Fin _ | PInf) => True
  | (Fin _ | PInf), PInf => True
  | _, _ => False
  end.

Definition between (l : list num) (y : vec) (u : list num) : Prop :=
  Forall2 (fun a b => num_le a (Fin b)) l y /\ Forall2 (fun a b => num_le (Fin a) b) y u.

Definition lin_wf (S : list (string * nat)) (c : lset) : Prop :=
  columns_ok S (ls_A c) (ls_vs c) /\
  (ls_l c = [] \/ length (ls_l c) = m_rows (ls_A c)) /\
  (ls_u c = [] \/ length (ls_u c) = m_rows (ls_A c)).

(** the set's own constraint, on the part of [x] it was declared over *)
Definition lin_holds (S : list (string * nat)) (x : vec) (c : lset) : Prop :=
  between (given (Some (ls_l c)) (m_rows (ls_A c)) NInf)
          (matvec (m_data (ls_A c)) (parts S x (ls_vs c)))
          (given (Some (ls_u c)) (m_rows (ls_A c)) PInf).

(** ** user costs: the documented function f_u(x, cp) (opf_model.py:276-303), row by row *)
Definition doc_w (R dd kk mm : Qc) : Qc :=
  let K := if qc_ltb R (- kk) then kk else if qc_ltb kk R then (- kk)%Qc else 0%Qc in
  let RR := (R + K)%Qc in
  let U := if qc_leb (- kk) R && qc_leb R kk then 0%Qc else 1%Qc in
  let DDL := if qc_eqb dd 1 then 1%Qc else 0%Qc in
  let DDQ := if qc_eqb dd (zc 2) then 1%Qc else 0%Qc in
  ((mm * U * DDL + mm * U * DDQ * RR) * RR)%Qc.

Definition opt_vec (o : option vec) (n : nat) (d : Qc) : vec :=
  match o with None => repeat d n | Some v => v end.

Fixpoint doc_ws (y rh dd kk mm : vec) : vec :=
  match y, rh, dd, kk, mm with
  | a :: y', r :: rh', d :: dd', k :: kk', m :: mm' =>
      doc_w (a - r) d k m :: doc_ws y' rh' dd' kk' mm'
  | _, _, _, _, _ => []
  end.

Definition user_cost (cp : cparam) (xx : vec) : Qc :=
  let nw := m_rows (c_N cp) in
  let w := doc_ws (matvec (m_data (c_N cp)) xx) (opt_vec (c_rh cp) nw 0%Qc)
                  (opt_vec (c_dd cp) nw 1%Qc) (opt_vec (c_kk cp) nw 0%Qc)
                  (opt_vec (c_mm cp) nw 1%Qc) in
  let quad := match c_H cp with None => 0%Qc | Some H => dot w (matvec (m_data H) w) end in
  (quad / zc 2 + dot (c_Cw cp) w)%Qc.

Definition cost_wf (S : list (string * nat)) (c : cset) : Prop :=
  columns_ok S (c_N (cs_cp c)) (cs_vs c) /\
  length (c_Cw (cs_cp c)) = m_rows (c_N (cs_cp c)) /\
  (forall H, c_H (cs_cp c) = Some H ->
     mat_wf H /\ m_rows H = m_rows (c_N (cs_cp c)) /\ m_cols H = m_rows (c_N (cs_cp c))).

(** the same parameters without the four optional vectors *)
Definition drop_optional (cp : cparam) : cparam :=
  {| c_N := c_N cp; c_Cw := c_Cw cp; c_H := c_H cp;
     c_dd := None; c_rh := None; c_kk := None; c_mm := None |}.
