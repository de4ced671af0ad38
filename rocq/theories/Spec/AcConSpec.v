(** Constraints of the AC optimal power flow: power balance at the buses and flow limits of branches,
    as functions of the point x (see AcOpfSpec). *)
From Coq Require Import Reals.
From Verif Require Export Model.OpfFcn Spec.PfSpec Spec.AcOpfSpec.

Section AcCon.
Context {K : Type} {F : Fld K}.
Variable cis : K -> cpx K.     (* a -> cos a + j sin a *)
Local Open Scope nat_scope.

(** the complex bus voltages *)
Definition ac_volt (nb : nat) (x : list K) : list (cpx K) :=
  map (fun k => ofK (nth (nb + k) x 0) * cis (nth k x 0))%K (seq 0 nb).
(** outputs of the generators in service at bus i; off is 0 for active and ng for reactive power *)
Definition ac_supply (gen : list (list K)) (nb off : nat) (x : list K) (i : nat) : K :=
  lsum (fun k => let g := nth k gen [] in
    if in_service g && (bus_no g GEN_BUS =? i) then ac_output nb x (off + k) else 0%K) (seq 0 (length gen)).
(** power flowing into the network at bus i, plus load, minus supply, per unit *)
Definition p_balance (B : K) (bus gen : list (list K)) (Y : smat (cpx K)) (i : nat) (x : list K) : K :=
  let nb := length bus in
  (re (bus_power Y (ac_volt nb x) i) + cell (nth i bus []) PD / B - ac_supply gen nb 0 x i)%K.
Definition q_balance (B : K) (bus gen : list (list K)) (Y : smat (cpx K)) (i : nat) (x : list K) : K :=
  let nb := length bus in
  (im (bus_power Y (ac_volt nb x) i) + cell (nth i bus []) QD / B - ac_supply gen nb (length gen) x i)%K.
(** squared apparent power, active power or current of row l of Y, leaving bus i *)
Definition end_sq (lim : flow_lim) (Y : smat (cpx K)) (i l : nat) (V : list (cpx K)) : K :=
  let s := (nth i V 0 * conj (bus_current Y V l))%K in
  match lim with
  | LimS => nrm2 s
  | LimP => (re s * re s)%K
  | LimI => nrm2 (bus_current Y V l)
  end.
(** ... over the squared rating of the branch; col is F_BUS or T_BUS *)
Definition overflow (lim : flow_lim) (B : K) (nb : nat) (r : list K) (col : nat) (Y : smat (cpx K)) (l : nat)
    (x : list K) : K :=
  (end_sq lim Y (bus_no r col) l (ac_volt nb x) - (cell r RATE_A / B) * (cell r RATE_A / B))%K.
(** ** tables and admittance matrices that fit together *)
Variables (D : acdata (K := K)) (Y Yf Yt : smat (cpx K)) (il : list nat).
Definition brow (l : nat) : list K := nth (nth l il 0) (a_branch D) [].
Definition brows : list (list K) := map (fun i => nth i (a_branch D) []) il.
(** numbers of buses are consecutive, il lists the branches with a limit, Yf and Yt have a row for each *)
Record con_shape : Prop := {
  cn_B : a_base D <> 0%K;
  cn_bus : wide QD (a_bus D);
  cn_gen : wide GEN_STATUS (a_gen D);
  cn_gbus : buses_ok (length (a_bus D)) GEN_BUS (a_gen D);
  cn_Y : square (length (a_bus D)) Y;
  cn_Yf : fits (length il) (length (a_bus D)) Yf;
  cn_Yt : fits (length il) (length (a_bus D)) Yt;
  cn_il : Forall (fun i => i < length (a_branch D)) il;
  cn_w : wide RATE_A brows;
  cn_f : buses_ok (length (a_bus D)) F_BUS brows;
  cn_t : buses_ok (length (a_bus D)) T_BUS brows;
  cn_rate : Forall (fun r => cell r RATE_A <> 0%K) brows }.
End AcCon.

(** the point as voltage magnitudes and angles, over the reals *)
Definition cisR (a : R) : cpx R := Cx (cos a) (sin a).
