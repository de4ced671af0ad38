(** runpf.py:171-288: the AC power flow with ENFORCE_Q_LIMS.  The tables hold floats, so that the test
    for infeasibility (lines 216-218), evaluated as soon as one limit is violated, raises: with the
    pinned NumPy bus[gen[:, GEN_BUS], BUS_TYPE] is an IndexError (float indices); a NumPy that accepts
    float indices ([float_index]) goes on to PV | bus[...], a TypeError for a float operand.  Lines
    219-288 are therefore never reached with float tables.  Integer tables are outside the model. *)
From Verif Require Export Model.AcPf.

Section Qlim.
Context {K : Type} {F : Fld K}.
Variables (cis : K -> cpx K) (cabs cang : cpx K -> K).
Variable solve : list (list K) -> list K -> result (list K).
Variable splu : list (list K) -> result (list K -> result (list K)).
Variable float_index : bool.
Local Open Scope nat_scope.

(** lines 202-208: find(gen_status & qg_max_lim), find(gen_status & qg_min_lim) *)
Definition over_max (viol : K) (gen : list (list K)) : result (list nat) :=
  st <- col GEN_STATUS gen ;;
  qg <- col QG gen ;;
  qmax <- col QMAX gen ;;
  Ok (find (map2 andb (map pos_status st) (map2 (fun q m => fltb (m + viol)%K q) qg qmax))).

Definition under_min (viol : K) (gen : list (list K)) : result (list nat) :=
  st <- col GEN_STATUS gen ;;
  qg <- col QG gen ;;
  qmin <- col QMIN gen ;;
  Ok (find (map2 andb (map pos_status st) (map2 (fun q m => fltb q (m - viol)%K) qg qmin))).

(** lines 176-270; [qlim] is ppopt["ENFORCE_Q_LIMS"] (0, 1 or 2), [viol] is ppopt["OPF_VIOLATION"] *)
Definition runpf_qlim (qlim : nat) (viol : K) (alg : pf_alg) (tol : K) (max_it : nat) (baseMVA : K)
    (bus gen branch : list (list K))
  : result (list (list K) * list (list K) * list (list K) * bool) :=
  '(bus', gen', branch', success) <-
    runpf_ac cis cabs cang solve splu alg tol max_it baseMVA bus gen branch ;;
  if qlim =? 0 then Ok (bus', gen', branch', success)
  else mx <- over_max viol gen' ;;
       mn <- under_min viol gen' ;;
       if (0 <? length mx) || (0 <? length mn)
       then Err (if float_index then TypeError else IndexError)
       else Ok (bus', gen', branch', success).
End Qlim.
