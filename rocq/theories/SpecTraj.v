(** * Specification in exact arithmetic: gas content of a running engine *)
From Coq Require Import ZArith NArith List Reals.
From Verif Require Import Num ModelTypes ModelWs ModelHx ModelStateEq ModelEngine RNum SpecGas SpecKin.
Local Open Scope R_scope.

(** mass and internal energy of the gas in the engine at time [t], in state [c] *)
Definition gas_mass (r : Run R) (t : R) (c : Conditions R) : R :=
  let rho T := fl_dens (ru_fluid r) T (cd_P c) in
  v_value (fst (ru_ws_vol_fn r t)) * rho (cd_T_c c)
  + ru_vol_chx r * rho (te_chx (ru_temp r))
  + ru_vol_regen r * rho (rt_avg (te_regen (ru_temp r)))
  + ru_vol_hhx r * rho (te_hhx (ru_temp r))
  + v_value (snd (ru_ws_vol_fn r t)) * rho (cd_T_e c).
Definition gas_energy (r : Run R) (t : R) (c : Conditions R) : R :=
  let rho_u T := fl_dens (ru_fluid r) T (cd_P c) * fl_inte (ru_fluid r) T (cd_P c) in
  v_value (fst (ru_ws_vol_fn r t)) * rho_u (cd_T_c c)
  + ru_vol_chx r * rho_u (te_chx (ru_temp r))
  + ru_vol_regen r * rho_u (rt_avg (te_regen (ru_temp r)))
  + ru_vol_hhx r * rho_u (te_hhx (ru_temp r))
  + v_value (snd (ru_ws_vol_fn r t)) * rho_u (cd_T_e c).

Definition positive_temps (r : Run R) (c : Conditions R) : Prop :=
  0 < cd_T_c c /\ 0 < cd_T_e c /\ 0 < te_chx (ru_temp r) /\ 0 < te_hhx (ru_temp r) /\
  0 < rt_avg (te_regen (ru_temp r)).

(** [c] follows the derivatives [s] at time [t] *)
Definition follows (c : R -> Conditions R) (s : Solution R) (t : R) : Prop :=
  has_deriv (fun u => cd_P (c u)) t (so_dP_dt s) /\
  has_deriv (fun u => cd_T_c (c u)) t (so_dTc_dt s) /\
  has_deriv (fun u => cd_T_e (c u)) t (so_dTe_dt s).

(** [c] is an exact trajectory of the run [r] at time [t]: it moves along some
    accepted solution of the state equations *)
Definition on_trajectory (D : Decomp R) (r : Run R) (c : R -> Conditions R) (t : R) : Prop :=
  positive_temps r (c t) /\ true_derivatives (ru_ws_vol_fn r) t /\
  exists hint s, solve D (Run_calculate_inputs r t (c t)) hint = Ok s /\ follows c s t.
