(** Continuation power flow: the injections at a given load parameter. *)
From Verif Require Export Spec.PfSpec.

Section CpfSpec.
Context {K : Type} {F : Fld K}.
Local Open Scope nat_scope.

(** [base + lam * transfer], bus by bus *)
Definition inj (lam : K) (base transfer : list (cpx K)) : list (cpx K) :=
  map2 (fun b x => b + ofK lam * x)%K base transfer.

(** same voltage off the lists, same magnitude off the PQ list *)
Definition keeps (cabs : cpx K -> K) (n : nat) (pv pq : list nat) (V V' : list (cpx K)) : Prop :=
  forall i, i < n -> (~ In i (pv ++ pq) -> nth i V' 0%K = nth i V 0%K) /\
                     (~ In i pq -> cabs (nth i V' 0%K) = cabs (nth i V 0%K)).

(** neighbours in a list *)
Definition adjacent {A} (l : list A) (a b : A) : Prop := exists u v, l = u ++ a :: b :: v.
End CpfSpec.
