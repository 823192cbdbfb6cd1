(** * Specification in exact arithmetic: ranges of temperature and pressure in a hydrogen engine *)
From Coq Require Import ZArith NArith List Reals.
From Verif Require Import Num ModelTypes ModelWs ModelHx ModelStateEq ModelEngine RNum SpecGas SpecTraj SpecUnique SpecSpaces SpecExist
  SpecHydro SpecBounds.
Local Open Scope R_scope.

(** hydrogen as the program describes it: gas constant, heat capacity at constant volume, enthalpy,
    internal energy *)
Definition R_h2 : R := 4124.2.
Definition cv_h2 (T : R) : R :=
  12471.4839 + 13.3194432 * T - 0.0347782806 * T^2 + 0.0000431784838 * T^3
  - 0.0000000242883335 * T^4 + 0.00000000000514289838 * T^5 - R_h2.
Definition h_h2 (T : R) : R :=
  (T - T_ref) * (12471.4839 + 13.3194432 / 2 * T - 0.0347782806 / 3 * T^2 + 0.0000431784838 / 4 * T^3
                 - 0.0000000242883335 / 5 * T^4 + 0.00000000000514289838 / 6 * T^5).
Definition u_h2 (T : R) : R := h_h2 T - R_h2 * (T - T_ref).
(** entropy of hydrogen that fills the volume [V], per kilogram, up to a constant for a fixed amount:
    its derivatives are [cv_h2 T / T] and [R_h2 / V] *)
Definition s_h2 (V T : R) : R :=
  (12471.4839 - R_h2) * ln T + 13.3194432 * T - 0.0347782806 / 2 * T^2 + 0.0000431784838 / 3 * T^3
  - 0.0000000242883335 / 4 * T^4 + 0.00000000000514289838 / 5 * T^5 + R_h2 * ln V.

(** [z] is a temperature that a space does not leave downwards (upwards) if it starts with volume [V0] and
    temperature [T0], keeps its volume between [V_lo] and [V_hi], and lies next to an exchanger of temperature [T_in] *)
Definition floor (V0 T0 V_lo V_hi T_in z : R) : Prop :=
  exists y, 0 < y <= T_ref /\ u_h2 y <= h_h2 T_in /\ s_h2 V_hi z <= s_h2 V0 T0 /\ s_h2 V_hi z <= s_h2 V_lo y.
Definition ceiling (V0 T0 V_lo V_hi T_in z : R) : Prop :=
  exists x, T_ref <= x /\ h_h2 T_in <= u_h2 x /\ s_h2 V0 T0 <= s_h2 V_lo z /\ s_h2 V_hi x <= s_h2 V_lo z.

Section Engine.
  Variable r : Run R.
  (** how gas warms and cools *)
  Definition h2_temperature_equations (c : R -> Conditions R) (t : R) (s : Solution R) : Prop :=
    let P := cd_P (c t) in let Tc := cd_T_c (c t) in let Te := cd_T_e (c t) in
    stored_mass r (V_comp r t) Tc P * cv_h2 Tc * so_dTc_dt s + P * v_deriv (fst (ru_ws_vol_fn r t)) =
      Rmax (so_m_dot_ck s) 0 * R_h2 * (T_ref - Tc)
      + Rmax (- so_m_dot_ck s) 0 * (h_h2 (te_chx (ru_temp r)) - u_h2 Tc) - heat_lost_comp r /\
    stored_mass r (V_exp r t) Te P * cv_h2 Te * so_dTe_dt s + P * v_deriv (snd (ru_ws_vol_fn r t)) =
      Rmax (- so_m_dot_le s) 0 * R_h2 * (T_ref - Te)
      + Rmax (so_m_dot_le s) 0 * (h_h2 (te_hhx (ru_temp r)) - u_h2 Te) - heat_lost_exp r.
  (** ranges of a start [c0] at time 0, for volumes within [cl], [ch] and [el], [eh] *)
  Variables (c0 : Conditions R) (cl ch el eh : R).
  Definition h2_lowest (tc te : R) : Prop :=
    floor (V_comp r 0) (cd_T_c c0) cl ch (te_chx (ru_temp r)) tc /\ floor (V_exp r 0) (cd_T_e c0) el eh (te_hhx (ru_temp r)) te.
  Definition h2_highest (tc te : R) : Prop :=
    ceiling (V_comp r 0) (cd_T_c c0) cl ch (te_chx (ru_temp r)) tc /\ ceiling (V_exp r 0) (cd_T_e c0) el eh (te_hhx (ru_temp r)) te.
  Definition h2_range_lo (tcl tel : R) : Conditions R :=
    mkCond (cd_P c0 * ratio r 0 c0 / (ch / tcl + fixed_ratio r + eh / tel)) tcl tel.
  Definition h2_range_hi (tch teh : R) : Conditions R :=
    mkCond (cd_P c0 * ratio r 0 c0 / (cl / tch + fixed_ratio r + el / teh)) tch teh.
End Engine.

(** the same without a start: gas that has filled a space from an exchanger at [T_in] *)
Definition rest_floor (V_lo V_hi T_in z : R) : Prop :=
  exists y, 0 < y <= T_ref /\ u_h2 y <= h_h2 T_in /\ s_h2 V_hi z <= s_h2 V_lo y.
Definition rest_ceiling (V_lo V_hi T_in z : R) : Prop :=
  exists x, T_ref <= x /\ h_h2 T_in <= u_h2 x /\ s_h2 V_hi x <= s_h2 V_lo z.
(** exchangers that are warm enough for hydrogen and have volumes that make sense *)
Definition h2_exchangers (r : Run R) : Prop :=
  T_cold <= te_chx (ru_temp r) /\ T_cold <= te_hhx (ru_temp r) /\ 0 < rt_avg (te_regen (ru_temp r)) /\
  0 <= ru_vol_chx r /\ 0 <= ru_vol_regen r /\ 0 <= ru_vol_hhx r.
