(** * Specification: heat and work of hydrogen engines *)
From Coq Require Import ZArith NArith List Reals.
From Verif Require Import Num ModelTypes ModelWs ModelHx ModelStateEq ModelEngine RNum Spec SpecR SpecGas SpecKin SpecTraj SpecUnique.
Local Open Scope R_scope.

(** mean heat capacity of hydrogen between 250 K and [T] as the model has it: the enthalpy over [T - 250] *)
Definition mean_cp (T : R) : R :=
  12471.4839 + 13.3194432 / 2 * T + - 0.0347782806 / 3 * T^2 + 0.0000431784838 / 4 * T^3
  + - 0.0000000242883335 / 5 * T^4 + 0.00000000000514289838 / 6 * T^5.

(** totals up to each time of heat taken up by the gas, work done by it, and of 250 times
    the mean heat capacity carried out of the working spaces *)
Definition h2_books (D : Decomp R) (r : Run R) (c : R -> Conditions R) (heat work carried : R -> R) (t : R) : Prop :=
  exists hint s, solve D (Run_calculate_inputs r t (c t)) hint = Ok s /\ follows c s t /\
    has_deriv heat t
      (so_Q_dot_l s - so_Q_dot_k s - so_Q_dot_r s
       - pp_thermal (par_comp (ru_ws_parasitics r)) - pp_thermal (par_exp (ru_ws_parasitics r))) /\
    has_deriv work t
      (cd_P (c t) * (v_deriv (fst (ru_ws_vol_fn r t)) + v_deriv (snd (ru_ws_vol_fn r t)))) /\
    has_deriv carried t
      (250 * (mean_cp (cd_T_c (c t)) * so_m_dot_ck s - mean_cp (cd_T_e (c t)) * so_m_dot_le s)).

(** 250 times the mean heat capacity of the gas in the working spaces *)
Definition held (r : Run R) (t : R) (c : Conditions R) : R :=
  250 * (v_value (fst (ru_ws_vol_fn r t)) * fl_dens (ru_fluid r) (cd_T_c c) (cd_P c) * mean_cp (cd_T_c c)
         + v_value (snd (ru_ws_vol_fn r t)) * fl_dens (ru_fluid r) (cd_T_e c) (cd_P c) * mean_cp (cd_T_e c)).
