(** A concrete case used by the examples: buses 10, 3 (isolated), 7, 2; generators not in bus
    order, one off-line, one at the isolated bus; one branch off, one to the isolated bus. *)
From Coq Require Import Lia.
From Verif Require Import Lib.Num Lib.ListFacts Model.Idx Model.Ext2int Spec.CaseSpec
  Proofs.Ext2intA.

Definition mkbus n t := [ofZ n; ofZ t; ofZ 5; PInf].
Definition mkgen b st pg :=
  [ofZ b; ofZ pg; ofZ 0; PInf; NInf; ofZ 1; ofZ 100; ofZ st; ofZ 10; ofZ 0].
Definition mkbr f t s :=
  [ofZ f; ofZ t; ofZ 0; ofZ 1; ofZ 0; ofZ 0; ofZ 0; ofZ 0; ofZ 0; ofZ 0; ofZ s].
Definition mkA (sparse : bool) : umat :=
  {| u_sparse := sparse; u_cols := 9; u_rows := [map ofZ [0; 1; 2; 3; 4; 5; 6; 7; 8]%Z] |}.
Definition p0A (A : option umat) : ppc :=
  {| p_bus := [mkbus 10 3; mkbus 3 4; mkbus 7 1; mkbus 2 2];
     p_gen := [mkgen 7 1 11; mkgen 10 1 22; mkgen 3 1 33; mkgen 2 0 44; mkgen 2 1 55];
     p_branch := [mkbr 10 7 1; mkbr 7 3 1; mkbr 2 10 0; mkbr 2 7 1];
     p_gencost := Some [[ofZ 1]; [ofZ 2]; [ofZ 3]; [ofZ 4]; [ofZ 5]];
     p_areas := Some [[ofZ 1; ofZ 7]; [ofZ 2; ofZ 3]];
     p_A := A; p_N := None; p_order := None |}.
Definition p0 := p0A None.

Lemma some_ofZ a b : Some (ofZ a) = Some (ofZ b) -> a = b.
Proof. intros H. apply ofZ_inj. congruence. Qed.

Ltac idx_cases :=
  repeat match goal with
  | H : nth_error ?l ?i = Some _ |- _ =>
      is_var i; destruct i; cbn [nth_error p0A p_bus] in H; try discriminate H
  end.
Ltac row_of H r :=
  match type of H with Some ?x = Some r => assert (r = x) by congruence; subst r; clear H end.

Lemma p0_wf (b : bool) : wf_case (p0A (if b then Some (mkA true) else None)).
Proof.
  set (A := if b then Some (mkA true) else None).
  constructor.
  - exists 4; split; [lia|]. repeat constructor.
  - exists 10; split; [lia|]. repeat constructor.
  - exists 11; split; [lia|]. repeat constructor.
  - intros a E. injection E as <-. exists 2; split; [lia|]. repeat constructor.
  - intros i r H. idx_cases; row_of H r; eexists; (split; [|reflexivity]); lia.
  - intros z i j (r & H & Hc) (r' & H' & Hc').
    cbn [p0A p_bus] in H, H'.
    idx_cases; auto; exfalso; row_of H r; row_of H' r';
      unfold mkbus, BUS_I in Hc, Hc'; cbn [nth_error] in Hc, Hc';
      apply some_ofZ in Hc; apply some_ofZ in Hc'; lia.
  - intros i r H. idx_cases; row_of H r; eexists; (split; [|reflexivity]); lia.
  - exists 0. eexists. split; [reflexivity|]. intros C. apply some_ofZ in C; lia.
  - intros r Hr. repeat (destruct Hr as [<-|Hr]); [..|destruct Hr];
      (eexists; split; [reflexivity|]);
      first [exists 0; eexists; split; reflexivity|exists 1; eexists; split; reflexivity
            |exists 2; eexists; split; reflexivity|exists 3; eexists; split; reflexivity].
  - intros r Hr. repeat (destruct Hr as [<-|Hr]); [..|destruct Hr]; split;
      (eexists; split; [reflexivity|]);
      first [exists 0; eexists; split; reflexivity|exists 1; eexists; split; reflexivity
            |exists 2; eexists; split; reflexivity|exists 3; eexists; split; reflexivity].
  - intros r Hr. repeat (destruct Hr as [<-|Hr]); [..|destruct Hr]; (left; reflexivity) || (right; reflexivity).
  - intros a r E Hr. injection E as <-. repeat (destruct Hr as [<-|Hr]); [..|destruct Hr];
      (eexists; split; [reflexivity|]);
      first [exists 0; eexists; split; reflexivity|exists 1; eexists; split; reflexivity
            |exists 2; eexists; split; reflexivity|exists 3; eexists; split; reflexivity].
  - intros g E. injection E as <-. simpl; lia.
  - intros m E. unfold A in E. destruct b; [|discriminate]. injection E as <-. simpl.
    split; [lia|]. repeat constructor.
  - intros m E; discriminate.
Qed.
