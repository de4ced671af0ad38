(** C06 (user callbacks) and C37 (enabling/disabling extensions). *)
From Verif Require Import Lib.Py Lib.ListFacts Model.Userfcn Proofs.Userfcn.

(** ** specification *)
Section Spec.
Variables F Arg V : Type.

(** a registration request *)
Record request := { rq_stage : stage; rq_fcn : F; rq_args : list Arg }.

Definition register (ops : list request) : userfcn F Arg :=
  fold_left (fun u r => add_userfcn F Arg u (rq_stage r) (rq_fcn r) (rq_args r)) ops None.

Definition for_stage (s : stage) (ops : list request) : list request :=
  filter (fun r => stage_eqb s (rq_stage r)) ops.

(** call the requested functions one after the other, each on the previous result *)
Fixpoint chain (call : F -> V -> list Arg -> result V) (ops : list request) (v : V) : result V :=
  match ops with
  | [] => Ok v
  | r :: rest => match call (rq_fcn r) v (rq_args r) with
                 | Err e => Err e
                 | Ok v' => chain call rest v'
                 end
  end.
End Spec.
Arguments rq_stage {F Arg}. Arguments rq_fcn {F Arg}. Arguments rq_args {F Arg}.

Definition conv_stage (s : stage) : Prop := s = Sext2int \/ s = Sformulation \/ s = Sint2ext.
Definition out_stage (s : stage) : Prop := s = Sprintpf \/ s = Ssavecase.

Lemma register_callbacks F Arg ops s :
  callbacks F Arg (register F Arg ops) s =
  map (fun r => {| e_fcn := rq_fcn r; e_args := rq_args r |}) (for_stage F Arg s ops).
Proof.
  unfold register.
  assert (G : forall u, callbacks F Arg
     (fold_left (fun u r => add_userfcn F Arg u (rq_stage r) (rq_fcn r) (rq_args r)) ops u) s =
     callbacks F Arg u s ++ map (fun r => {| e_fcn := rq_fcn r; e_args := rq_args r |})
                                (for_stage F Arg s ops)).
  { induction ops as [|r ops IH]; intros u; simpl; [rewrite app_nil_r; auto|].
    rewrite IH, callbacks_add. unfold for_stage. simpl.
    destruct (stage_eqb s (rq_stage r)); simpl; rewrite <- app_assoc; auto. }
  rewrite G. reflexivity.
Qed.

Lemma run_callbacks F Arg V call call_out d s v :
  run_userfcn F Arg V call call_out d s v =
  foldM (fun rv e => match s with
               | Sext2int | Sformulation | Sint2ext => call (e_fcn e) rv (e_args e)
               | Sprintpf | Ssavecase => call_out (e_fcn e) rv (e_args e)
               | Sother _ => Ok rv end) (callbacks F Arg (Some d) s) v.
Proof. unfold run_userfcn, callbacks. destruct (assoc F Arg s d); reflexivity. Qed.

(** ** C06 *)

(** after any history of registrations, running a stage calls exactly the functions registered
    for it, once per registration, in registration order, each on the previous one's result *)
Theorem C06_run_in_registration_order :
  forall F Arg V (call call_out : F -> V -> list Arg -> result V) ops d s v,
  register F Arg ops = Some d ->
  (conv_stage s -> run_userfcn F Arg V call call_out d s v
                   = chain F Arg V call (for_stage F Arg s ops) v) /\
  (out_stage s -> run_userfcn F Arg V call call_out d s v
                  = chain F Arg V call_out (for_stage F Arg s ops) v).
Proof.
  intros F Arg V call call_out ops d s v Hd.
  rewrite run_callbacks, <- Hd, register_callbacks.
  assert (G : forall c l v, foldM (fun rv e => c (e_fcn e) rv (e_args e))
     (map (fun r => {| e_fcn := rq_fcn r; e_args := rq_args r |}) l) v = chain F Arg V c l v).
  { induction l as [|r l IH]; intros w; simpl; auto.
    destruct (c (rq_fcn r) w (rq_args r)); simpl; auto. }
  split.
  - intros [->|[->| ->]]; apply G.
  - intros [->| ->]; apply G.
Qed.
Print Assumptions C06_run_in_registration_order.

(** observable trace: logging callbacks record each registered function exactly once, in order *)
Theorem C06_trace : forall F Arg ops d s, register F Arg ops = Some d -> conv_stage s ->
  run_userfcn F Arg (list F) (fun f log _ => Ok (log ++ [f])) (fun f log _ => Ok (log ++ [f])) d s []
  = Ok (map rq_fcn (for_stage F Arg s ops)).
Proof.
  intros F Arg ops d s Hd Hs.
  destruct (C06_run_in_registration_order F Arg (list F) (fun f log _ => Ok (log ++ [f]))
              (fun f log _ => Ok (log ++ [f])) ops d s [] Hd) as [H _].
  rewrite H by auto. generalize (for_stage F Arg s ops). intros l.
  assert (G : forall pre, chain F Arg (list F) (fun f log _ => Ok (log ++ [f])) l pre
              = Ok (pre ++ map rq_fcn l)).
  { induction l as [|r l IH]; intros pre; simpl; [rewrite app_nil_r; auto|].
    rewrite IH, <- app_assoc. reflexivity. }
  apply (G []).
Qed.
Print Assumptions C06_trace.

(** removal takes away the most recent registration of the function and nothing else *)
Theorem C06_remove_most_recent : forall F Arg feqb u s f,
  (forall a b, Bool.reflect (a = b) (feqb a b)) ->
  (exists e, In e (callbacks F Arg u s) /\ e_fcn e = f) ->
  exists u' l1 e l2, remove_userfcn F Arg feqb u s f = Ok u' /\
    callbacks F Arg u s = l1 ++ e :: l2 /\ e_fcn e = f /\
    Forall (fun x => e_fcn x <> f) l2 /\ callbacks F Arg u' s = l1 ++ l2 /\
    forall s', s' <> s -> callbacks F Arg u' s' = callbacks F Arg u s'.
Proof.
  intros F Arg feqb u s f Hf (e & Hin & He).
  destruct (remove_ok F Arg feqb Hf u s f) as [(d & l & _ & _ & u' & Hu & Hr & Ho)|(_ & E)].
  - destruct Hr as [(l1 & e' & l2 & E & He' & H2 & E')|(H & _)].
    + exists u', l1, e', l2. auto 10.
    + rewrite Forall_forall in H. exfalso. apply (H _ Hin He).
  - rewrite E in Hin; destruct Hin.
Qed.
Print Assumptions C06_remove_most_recent.

(** add followed by remove restores the callbacks of every stage *)
Theorem C06_add_remove : forall F Arg feqb u s f a,
  (forall x y, Bool.reflect (x = y) (feqb x y)) ->
  exists u', remove_userfcn F Arg feqb (add_userfcn F Arg u s f a) s f = Ok u' /\
  forall s', callbacks F Arg u' s' = callbacks F Arg u s'.
Proof. intros. apply add_remove; auto. Qed.
Print Assumptions C06_add_remove.

(** Finding: the documented [allow_multiple=False] protection does not exist: registering the
    same function twice makes it run twice. *)
Theorem C06_duplicates_rejected_refuted :
  exists ops : list (request nat nat), exists d,
    ops = [{| rq_stage := Sformulation; rq_fcn := 7; rq_args := [] |};
           {| rq_stage := Sformulation; rq_fcn := 7; rq_args := [] |}] /\
    register nat nat ops = Some d /\
    run_userfcn nat nat (list nat) (fun f l _ => Ok (l ++ [f])) (fun f l _ => Ok (l ++ [f]))
      d Sformulation [] = Ok [7; 7].
Proof. eexists. eexists. split; [reflexivity|]. split; reflexivity. Qed.

(** ** C37 *)
Theorem C37_on_adds_five : forall Arg e u, exists u',
  toggle Arg e true On u = Ok u' /\
  (forall s, In s [Sext2int; Sformulation; Sint2ext; Sprintpf; Ssavecase] ->
     callbacks cb Arg u' s = callbacks cb Arg u s ++ [{| e_fcn := Cb e s; e_args := [] |}]) /\
  (forall n, callbacks cb Arg u' (Sother n) = callbacks cb Arg u (Sother n)).
Proof.
  intros Arg e u.
  assert (exists u', toggle Arg e true On u = Ok u') as [u' Hu].
  { unfold toggle. rewrite Bool.andb_false_r. eauto. }
  exists u'. split; auto. pose proof (toggle_on_callbacks Arg e u u' Hu) as H. split.
  - intros s Hs. rewrite H. repeat (destruct Hs as [<-|Hs]; [reflexivity|]). destruct Hs.
  - intros n. rewrite H. apply app_nil_r.
Qed.
Print Assumptions C37_on_adds_five.

(** switching an extension on, then any later registrations by others (user functions or other
    extensions), then off again: only the later registrations remain in addition *)
Theorem C37_off_restores : forall Arg e ok u v w,
  toggle Arg e true On u = Ok v ->
  (forall s, exists l, callbacks cb Arg w s = callbacks cb Arg v s ++ l /\
                       Forall (fun x => e_fcn x <> Cb e s) l) ->
  exists x, toggle Arg e ok Off w = Ok x /\
    forall s l, callbacks cb Arg w s = callbacks cb Arg v s ++ l ->
                callbacks cb Arg x s = callbacks cb Arg u s ++ l.
Proof. intros. eapply toggle_off_later; eauto. Qed.
Print Assumptions C37_off_restores.

Corollary C37_on_off : forall Arg e ok u v, toggle Arg e true On u = Ok v ->
  exists x, toggle Arg e ok Off v = Ok x /\
    forall s, callbacks cb Arg x s = callbacks cb Arg u s.
Proof.
  intros Arg e ok u v H. destruct (C37_off_restores Arg e ok u v v H) as (x & Hx & Hs).
  - intros s. exists []. rewrite app_nil_r. auto.
  - exists x. split; auto. intros s. rewrite (Hs s []) by (rewrite app_nil_r; auto).
    apply app_nil_r.
Qed.
Print Assumptions C37_on_off.

(** only toggle_dcline rejects missing data or a wrong switch *)
Theorem C37_bad_input : forall Arg e u,
  toggle Arg e false On u = (if ext_eqb e Dcline then Err ValueError
                             else toggle Arg e true On u) /\
  toggle Arg e false BadArg u = (if ext_eqb e Dcline then Err ValueError else Ok u).
Proof. intros Arg e u. unfold toggle. destruct e; simpl; auto. Qed.
Print Assumptions C37_bad_input.

Example ex_two_extensions : exists u v w,
  toggle nat Reserves true On None = Ok u /\ toggle nat Iflims true On u = Ok v /\
  toggle nat Reserves true Off v = Ok w /\
  map e_fcn (callbacks cb nat v Sint2ext) = [Cb Reserves Sint2ext; Cb Iflims Sint2ext] /\
  map e_fcn (callbacks cb nat w Sint2ext) = [Cb Iflims Sint2ext].
Proof. eexists. eexists. eexists. repeat split; reflexivity. Qed.
