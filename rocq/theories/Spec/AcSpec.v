(** Circuit vocabulary for AC statements, independent of admittance matrices. *)
From Verif Require Export Spec.NetSpec.

Section AcSpec.
Context {K : Type} {F : Fld K}.
Variable cis : K -> cpx K.
Local Open Scope fld_scope.

(** complex turns ratio: magnitude [tap_ratio], angle SHIFT degrees *)
Definition turns (r : list K) : cpx K :=
  cmul (ofK (tap_ratio r)) (cis (fpi / fofZ 180 * cell r SHIFT)).

(** the branch equations: an ideal transformer at the from end (voltage [Vi] and current [I1] on
    its inner side), a series impedance carrying [Is], half the charging at each inner end *)
Definition pi_circuit (r : list K) (Vf Vt If It : cpx K) : Prop :=
  exists Vi I1 Is : cpx K,
    Vf = turns r * Vi /\
    I1 = conj (turns r) * If /\
    Cx (cell r BR_R) (cell r BR_X) * Is = Vi - Vt /\
    I1 = Is + jK (cell r BR_B / fofZ 2) * Vi /\
    It = jK (cell r BR_B / fofZ 2) * Vt - Is.

(** shunt admittance of a bus row, per unit *)
Definition shunt (baseMVA : K) (b : list K) : cpx K :=
  Cx (cell b GS / baseMVA) (cell b BS / baseMVA).

(** currents leaving bus [i] into the branches, given the end currents of each branch *)
Definition into_branches (branch : list (list K)) (If It : list (cpx K)) (i : nat) : cpx K :=
  lsum (fun p => (if (bus_no (snd p) F_BUS =? i)%nat then nth (fst p) If 0 else 0)
               + (if (bus_no (snd p) T_BUS =? i)%nat then nth (fst p) It 0 else 0))
    (combine (seq 0 (length branch)) branch).
End AcSpec.
