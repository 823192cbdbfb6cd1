(** * C10-C15, C54-C57: the state equations in exact arithmetic *)
From Coq Require Import ZArith NArith List Reals.
From Verif Require Import Num ModelTypes ModelWs ModelHx ModelStateEq ModelEngine ModelApi RNum
  Spec SpecLoop SpecApi SpecR SpecGas SpecKin SpecTraj
  PolySolve Fixture RSolve RGauss RFluid RKin RMass RCase RState.
Import ListNotations.
Local Open Scope R_scope.

(** Cases used below.  [gauss] is Gaussian elimination with row pivoting, a
    sound and complete decomposition over the reals.  [case_inputs t] are the
    inputs of a helium engine with sinusoidal drive at time [t]; they are
    physical at every time and gas moves at some. *)
Example decomposition_case : sound gauss /\ complete gauss.
Proof. exact (conj gauss_sound gauss_complete). Qed.
Example engine_case : Run_new case_comps case_state = Ret case_run.
Proof. exact case_run_new. Qed.
Example physical_case (t : R) : physical (case_inputs t).
Proof. exact (case_physical t). Qed.
Example moving_case : exists t s,
  solve gauss (case_inputs t) FlowDirection_default = Ok s /\
  (so_m_dot_ck s <> 0 \/ so_m_dot_le s <> 0).
Proof. exact case_moves. Qed.

(** C10: mass is conserved, in every control volume and in total *)
Theorem C10_mass_conserved (D : Decomp R) (i : Inputs R) (hint : FlowDirection) (s : Solution R) :
  sound D -> solve D i hint = Ok s -> mass_balances i s /\ total_mass_rate i s = 0.
Proof. exact (mass_conserved D i hint s). Qed.
Print Assumptions C10_mass_conserved.

(** C11: energy is conserved, with the enthalpies of the donor volumes *)
Theorem C11_energy_conserved (D : Decomp R) (i : Inputs R) (hint : FlowDirection) (s : Solution R) :
  sound D -> in_enth_norm i <> 0 -> solve D i hint = Ok s ->
  conserves i s /\
  total_energy_rate i s =
    so_Q_dot_l s - so_Q_dot_k s - so_Q_dot_r s - wi_Q_dot (in_comp i) - wi_Q_dot (in_exp i)
    - in_pres i * (wi_dV_dt (in_comp i) + wi_dV_dt (in_exp i)).
Proof. exact (energy_conserved D i hint s). Qed.
Print Assumptions C11_energy_conserved.

(** C12: the normalising enthalpy is only a scaling *)
Theorem C12_norm_is_scaling (i : Inputs R) (d : FlowDirection) (hn : R) (x : Vector R) :
  in_enth_norm i <> 0 -> hn <> 0 -> (solves_code_system (with_norm i hn) d x <-> solves_code_system i d x).
Proof. exact (code_norm_is_scaling i d hn x). Qed.
Print Assumptions C12_norm_is_scaling.

Theorem C12_solve (D : Decomp R) (i : Inputs R) (hint : FlowDirection) (hn : R) (s : Solution R) :
  sound D -> complete D -> physical i -> hn <> 0 ->
  (solve D (with_norm i hn) hint = Ok s <-> solve D i hint = Ok s).
Proof. exact (norm_solve D i hint hn s). Qed.
Print Assumptions C12_solve.

(** C13: exactly one solution for every assignment of flow directions *)
Theorem C13_unique_solution (i : Inputs R) (d : FlowDirection) :
  physical i -> exists! x, solves_code_system i d x.
Proof. exact (code_unique_solution i d). Qed.
Print Assumptions C13_unique_solution.

(** C14: the search for flow directions succeeds, from every hint; integrations
    and state values of physical points do not panic *)
Theorem C14_solve_succeeds (D : Decomp R) (i : Inputs R) (hint : FlowDirection) :
  sound D -> complete D -> physical i -> exists s, solve D i hint = Ok s.
Proof. exact (fun HS HC HP => solve_succeeds i HP D hint HS HC). Qed.
Print Assumptions C14_solve_succeeds.

Theorem C14_integration (E : Env R) (D : Decomp R) (c : Cycle R) (ic : Conditions R) (n : N)
    (tol : OdeTolerance R) :
  sound D -> complete D ->
  (forall k, intervals_for E n k -> asks_physical D c (env_ode E (period_args c ic k tol))) ->
  try_from E D c ic n tol <> Panic PSolveFailed.
Proof. exact (physical_integration E D c ic n tol). Qed.
Print Assumptions C14_integration.

Theorem C14_state_values (D : Decomp R) (c : Cycle R) (pts : list (Point R)) :
  sound D -> complete D ->
  Forall (fun p => physical (cy_calculate_inputs c (pt_time p) (pt_conditions p))) pts ->
  exists vs, into_state_values D c pts = Ret vs.
Proof. exact (physical_values D c pts). Qed.
Print Assumptions C14_state_values.

(** an integrator that asks twice per integration *)
Example C14_case (n k : N) (tol : OdeTolerance R) : intervals_for probing_env n k ->
  asks_physical gauss case_cycle (env_ode probing_env (period_args case_cycle case_conditions k tol)).
Proof. exact (case_asks_physical n k tol). Qed.

(** C15: neither the hint nor the decomposition influences the solution *)
Theorem C15_solve_unique (D D' : Decomp R) (i : Inputs R) (hint hint' : FlowDirection) (s s' : Solution R) :
  sound D -> sound D' -> physical i ->
  solve D i hint = Ok s -> solve D' i hint' = Ok s' -> s = s'.
Proof. exact (fun HD HD' HP => solve_unique i HP D D' hint hint' s s' HD HD'). Qed.
Print Assumptions C15_solve_unique.

Theorem C15_derivative_unique (D D' : Decomp R) (c : Cycle R) (t : R) (y dy dy' : vec3 R) :
  sound D -> sound D' ->
  physical (cy_calculate_inputs c t (mkCond (fst (fst y)) (snd (fst y)) (snd y))) ->
  derivative_at D c t y dy -> derivative_at D' c t y dy' -> dy = dy'.
Proof. exact (derivative_unique D D' c t y dy dy'). Qed.
Print Assumptions C15_derivative_unique.

(** C54: helium engines *)
Theorem C54_helium_solves (D : Decomp R) (comps : Components R) (s : State R) (r : Run R) (t : R)
    (c : Conditions R) (hint : FlowDirection) :
  sound D -> complete D -> s_fluid s = IdealGas_Fluid he -> Run_new comps s = Ret r ->
  te_sink (s_temp s) + te_source (s_temp s) <> 500 -> helium_conditions r t c ->
  exists sol, solve D (Run_calculate_inputs r t c) hint = Ok sol /\
    conserves (Run_calculate_inputs r t c) sol /\
    forall D' hint' sol', sound D' -> solve D' (Run_calculate_inputs r t c) hint' = Ok sol' -> sol' = sol.
Proof. exact (helium_solves D comps s r t c hint). Qed.
Print Assumptions C54_helium_solves.

Example C54_case (t : R) : helium_conditions case_run t case_conditions.
Proof. exact (case_helium t). Qed.

(** C55: the mass of gas is constant along exact trajectories, both gases *)
Theorem C55_gas_mass_constant (name : GasName) (r : Run R) (D : Decomp R) (c : R -> Conditions R) (a b : R) :
  ru_fluid r = IdealGas_Fluid (IdealGas_new name) -> sound D -> a <= b ->
  (forall t, a <= t <= b -> on_trajectory D r c t) ->
  gas_mass r b (c b) = gas_mass r a (c a).
Proof. exact (fun Hf => gas_mass_constant _ (gas_R_pos name) r Hf D c a b). Qed.
Print Assumptions C55_gas_mass_constant.

(** gas heated at constant volume: pressure and temperatures rise *)
Example C55_C56_case (t : R) : 0 <= t -> on_trajectory gauss heat_run heat_traj t.
Proof. exact (heat_on_trajectory t). Qed.

(** C56: the energy of helium changes by heat and work only *)
Theorem C56_gas_energy (r : Run R) (D : Decomp R) (c : R -> Conditions R) (t : R)
    (hint : FlowDirection) (s : Solution R) :
  ru_fluid r = IdealGas_Fluid he -> sound D -> ru_enth_norm r <> 0 ->
  positive_temps r (c t) -> true_derivatives (ru_ws_vol_fn r) t ->
  solve D (Run_calculate_inputs r t (c t)) hint = Ok s -> follows c s t ->
  has_deriv (fun u => gas_energy r u (c u)) t
    (so_Q_dot_l s - so_Q_dot_k s - so_Q_dot_r s
     - pp_thermal (par_comp (ru_ws_parasitics r)) - pp_thermal (par_exp (ru_ws_parasitics r))
     - cd_P (c t) * (v_deriv (fst (ru_ws_vol_fn r t)) + v_deriv (snd (ru_ws_vol_fn r t)))).
Proof.
  exact (fun Hf => gas_energy_deriv he (gas_R_pos Helium) r Hf he_du_deriv D c t hint s).
Qed.
Print Assumptions C56_gas_energy.

(** C57: the solver computes exactly the solution of the balances *)
Theorem C57_solve_iff_conserves (D : Decomp R) (i : Inputs R) (hint : FlowDirection) (s : Solution R) :
  sound D -> complete D -> physical i -> (solve D i hint = Ok s <-> conserves i s).
Proof. exact (solve_iff_conserves D i hint s). Qed.
Print Assumptions C57_solve_iff_conserves.
