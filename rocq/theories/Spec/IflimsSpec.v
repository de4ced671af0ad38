(** Vocabulary for interface flow limits. *)
From Verif Require Export Spec.NetSpec Spec.OpfSpec.
Local Open Scope nat_scope.

(** position of [i] in [l] *)
Fixpoint place (i : nat) (l : list nat) : option nat :=
  match l with
  | [] => None
  | j :: l => if j =? i then Some 0 else option_map S (place i l)
  end.

Section IflimsSpec.
Context {K : Type} {F : Fld K}.
(** Flow over interface [num]: signed sum of the flows [fl] of its branches.  The user's map lists branches by their
    row in the whole table; [on] are the rows in service.  The first in-service branch is left out. *)
Definition if_flow (fl : nat -> K) (on : list nat) (ifmap : list (Z * Z)) (num : Z) : K :=
  lsum (fun r => if (fst r =? num)%Z then
                   match place (Z.abs_nat (snd r)) on with
                   | Some (S p) => (fofZ (Z.sgn (snd r)) * fl (S p))%K
                   | _ => 0%K
                   end
                 else 0%K) ifmap.
(** the same with every in-service branch; branch 0 cannot be listed reversed *)
Definition if_flow_all (fl : nat -> K) (on : list nat) (ifmap : list (Z * Z)) (num : Z) : K :=
  lsum (fun r => if (fst r =? num)%Z then
                   match place (Z.abs_nat (snd r)) on with
                   | Some p => if (snd r <? 0)%Z then (- fl p)%K else fl p
                   | _ => 0%K
                   end
                 else 0%K) ifmap.
Definition within_lim (lim : ext K * ext K) (v : K) : Prop := above_lo (fst lim) v /\ below_up (snd lim) v.
End IflimsSpec.
