(** Specification vocabulary for case tables, independent of the conversion code. *)
From Coq Require Import Permutation.
From Verif Require Import Lib.Num Model.Idx Model.Ext2int.

Section Cells.
Context {C : Type} {CC : Cell C}.
Local Notation num := C.
Local Notation row := (list C).
Local Notation table := (list (list C)).
Local Notation umat := (umat_of C).
Local Notation tabs := (tabs_of C).
Local Notation order := (order_of C).
Local Notation ppc := (ppc_of C).

(** all rows of a table have the same width, at least [k] columns *)
Definition rect (k : nat) (t : table) : Prop :=
  exists w, k <= w /\ Forall (fun r => length r = w) t.

(** bus row [i] carries the external number [z] *)
Definition bus_at (p : ppc) (z : Z) (i : nat) : Prop :=
  exists r, nth_error (p_bus p) i = Some r /\ nth_error r BUS_I = Some (ofZ z).

(** cell [c] of row [r] names an existing bus [z] *)
Definition names_bus (p : ppc) (c : nat) (r : row) (z : Z) : Prop :=
  nth_error r c = Some (ofZ z) /\ exists i, bus_at p z i.

(** a well-formed external case *)
Record wf_case (p : ppc) : Prop := {
  wf_bus_rect : rect 2 (p_bus p);
  wf_gen_rect : rect 8 (p_gen p);
  wf_br_rect : rect 11 (p_branch p);
  wf_areas_rect : forall a, p_areas p = Some a -> rect 2 a;
  (* bus numbers: distinct non-negative integers *)
  wf_bus_num : forall i r, nth_error (p_bus p) i = Some r ->
     exists z, (0 <= z)%Z /\ nth_error r BUS_I = Some (ofZ z);
  wf_bus_distinct : forall z i j, bus_at p z i -> bus_at p z j -> i = j;
  (* bus types PQ, PV, REF or NONE, at least one bus not isolated *)
  wf_bus_type : forall i r, nth_error (p_bus p) i = Some r ->
     exists t, (1 <= t <= 4)%Z /\ nth_error r BUS_TYPE = Some (ofZ t);
  wf_some_bus : exists i r, nth_error (p_bus p) i = Some r
                            /\ nth_error r BUS_TYPE <> Some (ofZ 4);
  (* generators, branches and areas refer to existing buses *)
  wf_gen_bus : forall r, In r (p_gen p) -> exists z, names_bus p GEN_BUS r z;
  wf_br_bus : forall r, In r (p_branch p) ->
     (exists z, names_bus p F_BUS r z) /\ (exists z, names_bus p T_BUS r z);
  wf_br_status : forall r, In r (p_branch p) ->
     nth_error r BR_STATUS = Some (ofZ 0) \/ nth_error r BR_STATUS = Some (ofZ 1);
  wf_area_bus : forall a r, p_areas p = Some a -> In r a ->
     exists z, names_bus p PRICE_REF_BUS r z;
  (* one cost row per generator at least *)
  wf_gencost : forall g, p_gencost p = Some g -> length (p_gen p) <= length g;
  (* user matrices have a column for every standard variable and are rectangular *)
  wf_A : forall m, p_A p = Some m -> length (p_bus p) + length (p_gen p) <= u_cols m
     /\ Forall (fun r => length r = u_cols m) (u_rows m);
  (* N is split with the ordering chosen from A's width (ext2int.py:85-89) *)
  wf_N : forall m, p_N p = Some m -> length (p_bus p) + length (p_gen p) <= u_cols m
     /\ Forall (fun r => length r = u_cols m) (u_rows m)
     /\ (forall a, p_A p = Some a -> u_cols m = u_cols a) }.

(** in-service equipment *)
Definition bus_in_service (p : ppc) (i : nat) : Prop :=
  exists r, nth_error (p_bus p) i = Some r /\ nth_error r BUS_TYPE <> Some (ofZ 4).

Definition connected (p : ppc) (c : nat) (r : row) : Prop :=
  exists z i, nth_error r c = Some (ofZ z) /\ bus_at p z i /\ bus_in_service p i.

Definition gen_in_service (p : ppc) (g : nat) : Prop :=
  exists r s, nth_error (p_gen p) g = Some r /\ nth_error r GEN_STATUS = Some s
              /\ num_gt0 s = true /\ connected p GEN_BUS r.

Definition branch_in_service (p : ppc) (l : nat) : Prop :=
  exists r, nth_error (p_branch p) l = Some r /\ nth_error r BR_STATUS = Some (ofZ 1)
            /\ connected p F_BUS r /\ connected p T_BUS r.

(** [idx] lists exactly the positions satisfying [P], each once *)
Definition lists_exactly (idx : list nat) (P : nat -> Prop) : Prop :=
  NoDup idx /\ forall i, In i idx <-> P i.

Definition increasing (idx : list nat) : Prop :=
  forall a b i j, a < b -> nth_error idx a = Some i -> nth_error idx b = Some j -> i < j.

(** internal number [k] stands for the bus numbered [z]: it is the [k]-th kept bus *)
Definition stands_for (p : ppc) (sb : list nat) (k : nat) (z : Z) : Prop :=
  exists i, nth_error sb k = Some i /\ bus_at p z i.

(** numpy.argsort: some permutation that sorts the keys *)
Definition argsort_spec (argsort : list Z -> list nat) : Prop :=
  forall keys, Permutation (argsort keys) (seq 0 (length keys)) /\
    forall a b i j x y, a < b ->
      nth_error (argsort keys) a = Some i -> nth_error (argsort keys) b = Some j ->
      nth_error keys i = Some x -> nth_error keys j = Some y -> (x <= y)%Z.

(** the internal form: which rows are kept, in which order, with which numbers *)
Record internal_form (p q : ppc) (sb sg sl sa : list nat) : Prop := {
  if_sb : lists_exactly sb (bus_in_service p) /\ increasing sb;
  if_sg : lists_exactly sg (gen_in_service p);
  if_sl : lists_exactly sl (branch_in_service p) /\ increasing sl;
  if_bus_len : length (p_bus q) = length sb;
  if_bus : forall k i r, nth_error sb k = Some i -> nth_error (p_bus p) i = Some r ->
     nth_error (p_bus q) k = Some (upd r BUS_I (ofN k));
  if_gen_len : length (p_gen q) = length sg;
  if_gen : forall k i r z b, nth_error sg k = Some i -> nth_error (p_gen p) i = Some r ->
     nth_error r GEN_BUS = Some (ofZ z) -> stands_for p sb b z ->
     nth_error (p_gen q) k = Some (upd r GEN_BUS (ofN b));
  if_gen_sorted : forall k1 k2 r1 r2 b1 b2, k1 < k2 ->
     nth_error (p_gen q) k1 = Some r1 -> nth_error (p_gen q) k2 = Some r2 ->
     nth_error r1 GEN_BUS = Some (ofN b1) -> nth_error r2 GEN_BUS = Some (ofN b2) -> b1 <= b2;
  if_br_len : length (p_branch q) = length sl;
  if_br : forall k i r zf zt bf bt, nth_error sl k = Some i ->
     nth_error (p_branch p) i = Some r ->
     nth_error r F_BUS = Some (ofZ zf) -> nth_error r T_BUS = Some (ofZ zt) ->
     stands_for p sb bf zf -> stands_for p sb bt zt ->
     nth_error (p_branch q) k = Some (upd (upd r F_BUS (ofN bf)) T_BUS (ofN bt));
  if_areas : match p_areas p with
     | None | Some [] => p_areas q = None
     | Some a => lists_exactly sa (fun i => exists r, nth_error a i = Some r
                                            /\ connected p PRICE_REF_BUS r) /\ increasing sa
        /\ exists a', p_areas q = Some a' /\ length a' = length sa
        /\ forall k i r z b, nth_error sa k = Some i -> nth_error a i = Some r ->
            nth_error r PRICE_REF_BUS = Some (ofZ z) -> stands_for p sb b z ->
            nth_error a' k = Some (upd r PRICE_REF_BUS (ofN b))
     end;
  (* one cost row per kept generator, in the same order; reactive costs likewise *)
  if_gencost : match p_gencost p with
     | None => p_gencost q = None
     | Some g => exists g', p_gencost q = Some g'
        /\ (forall k i, nth_error sg k = Some i -> nth_error g' k = nth_error g i)
        /\ (length g = 2 * length (p_gen p) ->
              length g' = 2 * length sg /\
              forall k i, nth_error sg k = Some i ->
                nth_error g' (length sg + k) = nth_error g (length (p_gen p) + i))
        /\ (length g = length (p_gen p) -> length g' = length sg)
     end }.

(** result tables written by a solver: same shape, bus columns untouched *)
Definition same_shape (cols : list nat) (t t' : table) : Prop :=
  length t' = length t /\
  forall k r r', nth_error t k = Some r -> nth_error t' k = Some r' ->
    length r' = length r /\ forall c, In c cols -> nth_error r' c = nth_error r c.

Definition with_results (q : ppc) (bus gen branch : table) : ppc :=
  {| p_bus := bus; p_gen := gen; p_branch := branch; p_gencost := p_gencost q;
     p_areas := p_areas q; p_A := p_A q; p_N := p_N q; p_order := p_order q |}.

(** row [i] of the restored table [t'] is the solver's row put at position [i], with the
    original bus reference(s) in columns [cols]; other rows are the original ones *)
Definition written_back (cols : list nat) (idx : list nat) (orig res t' : table) : Prop :=
  length t' = length orig /\
  (forall i, ~ In i idx -> nth_error t' i = nth_error orig i) /\
  (forall k i r0 r, nth_error idx k = Some i -> nth_error orig i = Some r0 ->
     nth_error res k = Some r ->
     exists r', nth_error t' i = Some r' /\ length r' = length r
       /\ forall c, nth_error r' c = if in_dec Nat.eq_dec c cols then nth_error r0 c
                                     else nth_error r c).

(** a case that has never been converted, or has been converted back *)
Definition in_ext_state (p : ppc) : Prop :=
  match p_order p with None => True | Some o => o_state o = StateE end.

(** the tables of [p], with an empty areas table removed *)
Definition same_case (p r : ppc) : Prop :=
  p_bus r = p_bus p /\ p_gen r = p_gen p /\ p_branch r = p_branch p /\
  p_gencost r = p_gencost p /\ p_areas r = drop_empty_areas (p_areas p) /\
  p_A r = p_A p /\ p_N r = p_N p.

(** conversion to internal form and back, repeated *)
Definition cycle argsort (p : ppc) : result ppc := q <- ext2int argsort p ;; int2ext q.

Fixpoint cycles argsort (n : nat) (p : ppc) : result ppc :=
  match n with O => Ok p | S m => q <- cycle argsort p ;; cycles argsort m q end.

(** external position of each internal row, per ordering *)
Definition src (sb sg sl : list nat) (k : okind) : list nat :=
  match k with OBus => sb | OGen => sg | OBranch => sl end.
End Cells.
