(** * Specification in exact arithmetic: hydrogen engine conditions *)
From Coq Require Import Reals.
From Verif Require Import Num ModelTypes ModelWs ModelHx ModelStateEq ModelEngine RNum.
Local Open Scope R_scope.

(** The coldest gas temperature covered: 100 K *)
Definition T_cold : R := 100.

(** Positive pressure, working volumes that are positive, gas temperatures that
    are at least [T_cold] *)
Definition hydrogen_conditions (r : @Run R) (t : R) (c : Conditions R) : Prop :=
  0 < cd_P c /\ T_cold <= cd_T_c c /\ T_cold <= cd_T_e c /\
  T_cold <= te_chx (ru_temp r) /\ T_cold <= te_hhx (ru_temp r) /\ 0 < rt_avg (te_regen (ru_temp r)) /\
  0 < v_value (fst (ru_ws_vol_fn r t)) /\ 0 < v_value (snd (ru_ws_vol_fn r t)) /\
  0 <= ru_vol_chx r /\ 0 <= ru_vol_regen r /\ 0 <= ru_vol_hhx r.

(** The derivative in T of the internal energy the hydrogen model reports,
    u(T) = (T - 250) (a + b/2 T + ... + f/6 T^5) - R (T - 250) *)
Definition h2_true_du (T : R) : R :=
  let a := 12471.4839 in let b := 13.3194432 in let c := - 0.0347782806 in
  let d := 0.0000431784838 in let e := - 0.0000000242883335 in let f := 0.00000000000514289838 in
  a + b * T + c * T^2 + d * T^3 + e * T^4 + f * T^5 - 4124.2
  - 250 * (b / 2 + c / 3 * 2 * T + d / 4 * 3 * T^2 + e / 5 * 4 * T^3 + f / 6 * 5 * T^4).

(** what the heat capacity [fl_du_dT_P] used by the state equations leaves out
    of the change of internal energy, [du] being the true derivative *)
Definition energy_leak (r : @Run R) (t : R) (c : Conditions R) (du : R -> R) (s : Solution R) : R :=
  let m_c := v_value (fst (ru_ws_vol_fn r t)) * fl_dens (ru_fluid r) (cd_T_c c) (cd_P c) in
  let m_e := v_value (snd (ru_ws_vol_fn r t)) * fl_dens (ru_fluid r) (cd_T_e c) (cd_P c) in
  m_c * (fl_du_dT_P (ru_fluid r) (cd_T_c c) (cd_P c) - du (cd_T_c c)) * so_dTc_dt s
  + m_e * (fl_du_dT_P (ru_fluid r) (cd_T_e c) (cd_P c) - du (cd_T_e c)) * so_dTe_dt s.
