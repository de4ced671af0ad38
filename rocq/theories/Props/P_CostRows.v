(** Property C13, continued: modcost.py works row by row and leaves alone what it does not know. *)
From Verif Require Import Lib.LinAlg Lib.ListFacts Model.Cost.

Lemma mapM_split {A B} (f : A -> result B) (l1 l2 : list A) :
  mapM f (l1 ++ l2) = (o1 <- mapM f l1 ;; o2 <- mapM f l2 ;; Ok (o1 ++ o2)).
Proof.
  induction l1 as [|a l1 IH]; cbn [app mapM bind].
  - destruct (mapM f l2); reflexivity.
  - destruct (f a); [|reflexivity]. cbn [bind]. rewrite IH. destruct (mapM f l1); [|reflexivity]. cbn [bind]. destruct (mapM f l2); reflexivity.
Qed.
Theorem C13_row_by_row g1 g2 alpha t :
  modcost (g1 ++ g2) alpha t = (o1 <- modcost g1 alpha t ;; o2 <- modcost g2 alpha t ;; Ok (o1 ++ o2)).
Proof. apply mapM_split. Qed.

(** rows of an unknown model, and all rows if the kind of change is unknown *)
Theorem C13_unknown gencost alpha t :
  (forall r, In r gencost -> exists q, get r MODEL = Ok q /\ (t = OtherType \/ q <> zc 1 /\ q <> zc 2)) -> modcost gencost alpha t = Ok gencost.
Proof.
  unfold modcost. induction gencost as [|r g IH]; intros H; [reflexivity|]. cbn [mapM]. rewrite (IH (fun x I => H x (or_intror I))). destruct (H r (or_introl eq_refl)) as (q & E & Q).
  unfold model_is. rewrite E. cbn [bind]. unfold qc_eqb, PW_LINEAR, POLYNOMIAL. destruct (Qc_eq_dec q (zc 1)), (Qc_eq_dec q (zc 2)); destruct Q as [->|(N1 & N2)]; try reflexivity; try (now destruct N1); try (now destruct N2).
Qed.
Print Assumptions C13_row_by_row.
Print Assumptions C13_unknown.

(** a polynomial row is scaled beside a row of model 3 *)
Example C13_unknown_example : (match modcost [[zc 3; zc 0; zc 0; zc 1; zc 5]; [zc 2; zc 0; zc 0; zc 1; zc 5]] (zc 2) SCALE_F with Ok g => map (map this) g | _ => [] end) =
  map (map this) [[zc 3; zc 0; zc 0; zc 1; zc 5]; [zc 2; zc 0; zc 0; zc 1; zc 10]].
Proof. vm_compute. reflexivity. Qed.
