(** * Theorems about helium engines with a cold exchanger below 100 K *)
From Coq Require Import ZArith NArith List Reals.
From Verif Require Import Num ModelTypes ModelWs ModelHx ModelStateEq ModelEngine RNum Spec SpecR SpecGas
  SpecTraj SpecSpaces SpecBounds SpecCold Fixture RGauss RFluid RBounds RCold.
Local Open Scope R_scope.

(** C98: below 100 K flows change the pressure in the wrong direction, and the search for flow directions fails *)
Theorem C98_pressure (r : Run R) (D : Decomp R) (t : R) (c : Conditions R) (hint : FlowDirection) (s : Solution R) :
  ru_fluid r = IdealGas_Fluid he -> ru_enth_norm r <> 0 -> sound D ->
  solve D (Run_calculate_inputs r t c) hint = Ok s -> positive_temps r c -> pressure_equations r t c s.
Proof. exact (fun Hf Hn HD => pressures r Hf Hn D HD t c hint s). Qed.
Print Assumptions C98_pressure.
Theorem C98_sign (r : Run R) (D : Decomp R) (t : R) (c : Conditions R) (hint : FlowDirection) (s : Solution R) :
  ru_fluid r = IdealGas_Fluid he -> ru_enth_norm r <> 0 -> sound D ->
  solve D (Run_calculate_inputs r t c) hint = Ok s -> positive_temps r c -> heat_lost_comp r = 0 ->
  (0 < so_m_dot_ck s -> (warm (cd_T_c c) -> rate_comp r t c s < 0) /\ (cold (cd_T_c c) -> 0 < rate_comp r t c s)) /\
  (so_m_dot_ck s < 0 -> (warm (te_chx (ru_temp r)) -> 0 < rate_comp r t c s) /\
                        (cold (te_chx (ru_temp r)) -> rate_comp r t c s < 0)).
Proof. exact (fun Hf Hn HD => signs_comp r Hf Hn D HD t c hint s). Qed.
Print Assumptions C98_sign.
Theorem C98_solvable_refuted (r : Run R) (D : Decomp R) (t : R) (c : Conditions R) (hint : FlowDirection) :
  ru_fluid r = IdealGas_Fluid he -> ru_enth_norm r <> 0 -> sound D -> trap r t c ->
  exists e, solve D (Run_calculate_inputs r t c) hint = Err e.
Proof. exact (trapped r D t c hint). Qed.
Print Assumptions C98_solvable_refuted.
Theorem C98_panics (r : Run R) (E : Env R) (D : Decomp R) (ic : Conditions R) (n k : N) (tol : OdeTolerance R)
    (t : R) (c : Conditions R) (q : vec3 R -> ode_prog R) :
  ru_fluid r = IdealGas_Fluid he -> ru_enth_norm r <> 0 -> sound D -> trap r t c -> u32_pred E n = Ret k ->
  env_ode E (ode_args (Run_Cycle r) ic k tol) = OAsk t (cd_P c, cd_T_c c, cd_T_e c) q ->
  try_from E D (Run_Cycle r) ic n tol = Panic PSolveFailed.
Proof. exact (trapped_integration r E D ic n k tol t c q). Qed.
Print Assumptions C98_panics.
Example C98_case : Run_new ln_comps ln_state = Ret ln_run /\ ru_enth_norm ln_run <> 0 /\ trap ln_run ln_time ln_conditions.
Proof. exact (conj ln_new (conj ln_norm_nonzero ln_trap)). Qed.
