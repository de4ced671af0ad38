(** Vocabulary for statements about a whole run: the case before and the reported case after. *)
From Verif Require Export Spec.NetSpec Model.Ext2int Spec.CaseSpec.

Section RunSpec.
Context {K : Type} {F : Fld K}.
Local Open Scope nat_scope.

(** total of a quantity over all rows whose column [j] holds the bus number [z] *)
Definition total_at (j : nat) (q : list K -> K) (t : list (list K)) (z : Z) : K :=
  lsum (fun r => if (ftrunc (cell r j) =? z)%Z then q r else 0%K) t.

(** [t'] has the rows of [t]; cells outside the columns [cols] are the same *)
Definition only_changes (cols : list nat) (t t' : list (list K)) : Prop :=
  length t' = length t /\
  forall i r, nth_error t i = Some r -> exists r', nth_error t' i = Some r' /\ length r <= length r' /\
    forall j, ~ In j cols -> cell r' j = cell r j.

(** [g] is the row of an in-service generator at the bus numbered [z] *)
Definition serves (p : ppc_of K) (z : Z) (g : list K) : Prop :=
  exists j, gen_in_service p j /\ nth_error (p_gen p) j = Some g /\ nth_error g GEN_BUS = Some (ofZ z).
(** total of a quantity over the in-service generators at the bus numbered [z], [idx] listing the positions
    of the in-service generators *)
Definition served (p : ppc_of K) (idx : list nat) (q : list K -> K) (z : Z) : K :=
  lsum (fun j => let g := nth j (p_gen p) [] in if (ftrunc (cell g GEN_BUS) =? z)%Z then q g else 0%K) idx.

(** what a run may change in a case: voltages of buses that are not isolated, power of generators and flows
    of branches; both are zero if the element is out of service *)
Record reports (p r : ppc_of K) : Prop := {
  rp_bus : only_changes [VM; VA] (p_bus p) (p_bus r);
  rp_isolated : forall i, ~ bus_in_service p i -> nth_error (p_bus r) i = nth_error (p_bus p) i;
  rp_gen : only_changes [PG; QG] (p_gen p) (p_gen r);
  rp_gen_off : forall i g, nth_error (p_gen r) i = Some g -> ~ gen_in_service p i ->
     cell g PG = 0%K /\ cell g QG = 0%K;
  rp_branch : only_changes [PF; QF; PT; QT] (p_branch p) (p_branch r);
  rp_branch_off : forall i g, nth_error (p_branch r) i = Some g -> ~ branch_in_service p i ->
     cell g PF = 0%K /\ cell g QF = 0%K /\ cell g PT = 0%K /\ cell g QT = 0%K;
  rp_gencost : p_gencost r = p_gencost p;
  rp_areas : p_areas r = drop_empty_areas (p_areas p);
  rp_A : p_A r = p_A p;
  rp_N : p_N r = p_N p }.
End RunSpec.
