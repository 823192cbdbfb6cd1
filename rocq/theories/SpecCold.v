(** * Specification in exact arithmetic: helium engines with a cold exchanger below 100 K *)
From Coq Require Import ZArith NArith List Reals.
From Verif Require Import Num ModelTypes ModelWs ModelHx ModelStateEq ModelEngine RNum SpecGas SpecTraj SpecSpaces SpecBounds.
Local Open Scope R_scope.

(** below 99.998 K *)
Definition cold (T : R) : Prop := cp_he * T < R_he * T_ref.
(** the derivative of [P V^(cp/cv)], over [V^(cp/cv - 1)]: 0 if gas is compressed without flow and heat *)
Definition adiabatic_rate (P V dP dV : R) : R := V * dP + cp_he / cv_he * P * dV.

Section Engine.
  Variable r : Run R.
  Variable t : R.
  Let V_c' : R := v_deriv (fst (ru_ws_vol_fn r t)).
  Let V_e' : R := v_deriv (snd (ru_ws_vol_fn r t)).
  Definition rate_comp (c : Conditions R) (s : Solution R) : R := adiabatic_rate (cd_P c) (V_comp r t) (so_dP_dt s) V_c'.
  Definition rate_exp (c : Conditions R) (s : Solution R) : R := adiabatic_rate (cd_P c) (V_exp r t) (so_dP_dt s) V_e'.

  (** how flows change the pressure of the working spaces *)
  Definition pressure_equations (c : Conditions R) (s : Solution R) : Prop :=
    rate_comp c s = R_he * (Rmax (- so_m_dot_ck s) 0 * filling (te_chx (ru_temp r))
                            - Rmax (so_m_dot_ck s) 0 * filling (cd_T_c c)) - R_he / cv_he * heat_lost_comp r /\
    rate_exp c s = R_he * (Rmax (so_m_dot_le s) 0 * filling (te_hhx (ru_temp r))
                           - Rmax (- so_m_dot_le s) 0 * filling (cd_T_e c)) - R_he / cv_he * heat_lost_exp r.

  (** a compression space of warm gas that expands, no slower in proportion than the expansion space,
      next to a cold exchanger of sufficient volume *)
  Definition trap (c : Conditions R) : Prop :=
    0 < cd_P c /\ warm (cd_T_c c) /\ warm (cd_T_e c) /\ cold (te_chx (ru_temp r)) /\
    0 < te_chx (ru_temp r) /\ warm (te_hhx (ru_temp r)) /\ 0 < rt_avg (te_regen (ru_temp r)) /\
    0 < V_comp r t /\ 0 < V_exp r t /\ 0 < V_c' /\ V_e' * V_comp r t <= V_c' * V_exp r t /\
    heat_lost_comp r = 0 /\ heat_lost_exp r = 0 /\
    V_comp r t <= - filling (te_chx (ru_temp r)) * fixed_ratio r.
End Engine.
