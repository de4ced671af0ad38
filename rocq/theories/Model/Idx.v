(** Column constants.  Cited files: pypower/idx_bus.py, idx_gen.py, idx_brch.py, idx_cost.py,
    idx_area.py, idx_dcline.py (the [define_constants] values). *)

(* pypower/idx_bus.py:46-75 *)
Definition BUS_I := 0.      Definition BUS_TYPE := 1.  Definition PD := 2.
Definition QD := 3.         Definition GS := 4.        Definition BS := 5.
Definition BUS_AREA := 6.   Definition VM := 7.        Definition VA := 8.
Definition BASE_KV := 9.    Definition ZONE := 10.     Definition VMAX := 11.
Definition VMIN := 12.      Definition LAM_P := 13.    Definition LAM_Q := 14.
Definition MU_VMAX := 15.   Definition MU_VMIN := 16.
(* pypower/idx_gen.py *)
Definition GEN_BUS := 0.    Definition PG := 1.        Definition QG := 2.
Definition QMAX := 3.       Definition QMIN := 4.      Definition VG := 5.
Definition MBASE := 6.      Definition GEN_STATUS := 7. Definition PMAX := 8.
Definition PMIN := 9.       Definition PC1 := 10.      Definition PC2 := 11.
Definition QC1MIN := 12.    Definition QC1MAX := 13.   Definition QC2MIN := 14.
Definition QC2MAX := 15.    Definition RAMP_AGC := 16. Definition RAMP_10 := 17.
Definition RAMP_30 := 18.   Definition RAMP_Q := 19.   Definition APF := 20.
Definition MU_PMAX := 21.   Definition MU_PMIN := 22.  Definition MU_QMAX := 23.
Definition MU_QMIN := 24.
(* pypower/idx_brch.py *)
Definition F_BUS := 0.      Definition T_BUS := 1.     Definition BR_R := 2.
Definition BR_X := 3.       Definition BR_B := 4.      Definition RATE_A := 5.
Definition RATE_B := 6.     Definition RATE_C := 7.    Definition TAP := 8.
Definition SHIFT := 9.      Definition BR_STATUS := 10. Definition ANGMIN := 11.
Definition ANGMAX := 12.    Definition PF := 13.       Definition QF := 14.
Definition PT := 15.        Definition QT := 16.       Definition MU_SF := 17.
Definition MU_ST := 18.     Definition MU_ANGMIN := 19. Definition MU_ANGMAX := 20.
(* pypower/idx_cost.py *)
Definition MODEL := 0.      Definition STARTUP := 1.   Definition SHUTDOWN := 2.
Definition NCOST := 3.      Definition COST := 4.
(* pypower/idx_area.py *)
Definition AREA_I := 0.     Definition PRICE_REF_BUS := 1.
