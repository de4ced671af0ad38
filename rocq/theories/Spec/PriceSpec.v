(** Vocabulary for prices in the reported tables of a DC optimal power flow. *)
From Verif Require Export Spec.RunOpfSpec.

Section PriceSpec.
Context {K : Type} {F : Fld K}.
Local Open Scope nat_scope.

(** [lam] gives the reported price at every bus in service *)
Definition prices_of (p r : ppc_of K) (lam : Z -> K) : Prop :=
  forall z i b, bus_in_service p i -> bus_at p z i -> nth_error (p_bus r) i = Some b -> lam z = cell b LAM_P.
(** change of the flow of a branch, per unit, with the angle of bus [z] *)
Definition flow_per_angle (l : list K) (z : Z) : K :=
  (((if (ftrunc (cell l F_BUS) =? z)%Z then 1 else 0) - (if (ftrunc (cell l T_BUS) =? z)%Z then 1 else 0))
   / (cell l BR_X * tap_ratio l))%K.
(** difference of the prices at the ends of a branch and the prices of its limits *)
Definition price_gap (lam : Z -> K) (l : list K) : K :=
  (lam (ftrunc (cell l F_BUS)) - lam (ftrunc (cell l T_BUS)) + cell l MU_SF - cell l MU_ST)%K.
End PriceSpec.
