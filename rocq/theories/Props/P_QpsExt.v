(** Property C123: the interfaces to external solvers of quadratic programs. *)
From Verif Require Import Model.QpsExt.
Local Open Scope nat_scope.

Definition fails {A} (r : result A) : Prop := exists e, r = Err e.
Lemma fails_bind {A B} (r : result A) (f : A -> result B) : (forall a, r = Ok a -> fails (f a)) -> fails (bind r f).
Proof. intros H. destruct r as [a|e]; cbn; [apply H; reflexivity|exists e; reflexivity]. Qed.
Ltac next := apply fails_bind; let a := fresh "a" in let E := fresh "E" in intros a E.

(** a program that is taken for a linear one has an empty H; no other dense H gets past the test *)
Lemma lp_only H b : is_lp H = Ok b -> b = true /\ exists c, H = Dense 0 c.
Proof.
  unfold is_lp. destruct H as [[|r] c| |]; cbn; intros E; try discriminate; [injection E as <-; eauto|]. unfold any_any in E. destruct (2 <=? c); discriminate.
Qed.

(** whatever the program, the solver is never called *)
Theorem C123_cplex H c A l u xmin xmax x0 : fails (qps_cplex H c A l u xmin xmax x0).
Proof. unfold qps_cplex. do 10 next. eexists. reflexivity. Qed.
Theorem C123_gurobi o H c A l u xmin xmax x0 : fails (qps_gurobi o H c A l u xmin xmax x0).
Proof. unfold qps_gurobi. do 9 next. eexists. reflexivity. Qed.
Theorem C123_ipopt o H c A l u xmin xmax x0 : fails (qps_ipopt o H c A l u xmin xmax x0).
Proof.
  unfold qps_ipopt. next. next. destruct (lp_only _ _ E0) as (-> & _). next. destruct a0 as (H' & nx). do 5 next.
  apply fails_bind. intros n EH. destruct (columns A xmin xmax) as [k|]; [|discriminate E1]. cbn [bind] in E1. destruct (set k); [|discriminate E1]. injection E1 as <- <-. discriminate EH.
Qed.
Theorem C123_mosek o H c A l u xmin xmax x0 : fails (qps_mosek o H c A l u xmin xmax x0).
Proof.
  unfold qps_mosek. next. rewrite Bool.orb_true_r. cbv zeta. do 3 next. destruct a2; eexists; reflexivity.
Qed.

(** the optimal power flow hands over a sparse H: a TypeError in each of them *)
Theorem C123_opf o c A l u xmin xmax x0 : let c := Vec c in let l := Vec l in
  qps_cplex Sparse c (Dense A 0) l u xmin xmax x0 = Err TypeError /\ qps_cplex Sparse c Sparse l u xmin xmax x0 = Err TypeError /\
  qps_gurobi o Sparse c Sparse l u xmin xmax x0 = Err TypeError /\ qps_ipopt o Sparse c Sparse l u xmin xmax x0 = Err TypeError /\
  qps_mosek o Sparse c Sparse l u xmin xmax x0 = Err TypeError.
Proof. repeat split; reflexivity. Qed.
Print Assumptions C123_cplex.
Print Assumptions C123_gurobi.
Print Assumptions C123_ipopt.
Print Assumptions C123_mosek.
Print Assumptions C123_opf.

(** ** examples: the quadratic program of the documentation (4 variables, 2 constraints), and a linear one *)
Definition v (l : list Z) : vec := Vec (map n_ofZ l).
Definition qp4 f : result unit := f (Dense 4 4) (v [0;0;0;0]%Z) (Dense 2 4) (v [1;2]%Z) (Vec [n_ofZ 1; PInf]) (v [0;0;0;0]%Z) (Vec []) (v [1;0;0;1]%Z).
Definition lp3 f : result unit := f (Dense 0 0) (v [-5;-4;-6]%Z) (Dense 3 3) (Vec [NInf; NInf; NInf]) (v [20;42;30]%Z) (v [0;0;0]%Z) (Vec []) (Vec []).
Example C123_example :
  qp4 qps_cplex = Err ValueError /\ qp4 (qps_gurobi (Ok tt)) = Err ValueError /\ qp4 (qps_ipopt (Ok tt)) = Err ValueError /\
  qp4 (qps_mosek (Ok tt)) = Err TypeError /\
  lp3 qps_cplex = Err TypeError /\ lp3 (qps_gurobi (Ok tt)) = Err TypeError /\ lp3 (qps_ipopt (Ok tt)) = Err TypeError /\
  lp3 (qps_mosek (Ok tt)) = Err TypeError.
Proof. repeat split; vm_compute; reflexivity. Qed.
(** the checks before that point can be passed: a linear program comes as far as the split of its constraints *)
Example C123_reached : is_lp (Dense 0 0) = Ok true /\ columns (Dense 3 3) (v [0;0;0]%Z) (Vec []) = Ok (Some 3) /\
  rows_of (Dense 3 3) (Vec [NInf; NInf; NInf]) (v [20;42;30]%Z) = Ok 3 /\ rows_of (Dense 3 3) (Vec []) (Vec []) = Err IndexError /\
  columns (Dense 0 3) (Vec []) (Vec []) = Ok None /\ qps_gurobi (Ok tt) (Dense 0 0) (Vec []) (Dense 0 3) (Vec []) (Vec []) (Vec []) (Vec []) (Vec []) = Err UnboundLocalError.
Proof. repeat split; vm_compute; reflexivity. Qed.
