{
 "claims": [
  {
   "property": "C01",
   "status": "proved",
   "theorems": [
    "C01_real",
    "C01_f64",
    "C01_exact_change",
    "C01_exact_ratio"
   ],
   "note": ""
  },
  {
   "property": "C02",
   "status": "proved",
   "theorems": [
    "C02_special",
    "C02_same"
   ],
   "note": ""
  },
  {
   "property": "C03",
   "status": "proved",
   "theorems": [
    "C03_run_fixed_point"
   ],
   "note": ""
  },
  {
   "property": "C04",
   "status": "proved",
   "theorems": [
    "C04_run_steady_state"
   ],
   "note": ""
  },
  {
   "property": "C05",
   "status": "proved",
   "theorems": [
    "C05_run_error",
    "C05_outer_zero",
    "C05_inner_zero"
   ],
   "note": ""
  },
  {
   "property": "C06",
   "status": "proved",
   "theorems": [
    "C06_boundary",
    "C06_pres_zero"
   ],
   "note": ""
  },
  {
   "property": "C07",
   "status": "proved",
   "theorems": [
    "C07_averages_lag",
    "C07_fixed_approach",
    "C07_averages_refuted",
    "C07_zero_flow_refuted"
   ],
   "note": "finding: the expectation is refuted; the theorems give the counterexample and the exact behaviour"
  },
  {
   "property": "C08",
   "status": "proved",
   "theorems": [
    "C08_solve_upwind",
    "C08_solve_accepts"
   ],
   "note": "any number type, any decomposition"
  },
  {
   "property": "C09",
   "status": "proved",
   "theorems": [
    "C09_solve_search",
    "C09_traced_is_solve"
   ],
   "note": ""
  },
  {
   "property": "C10",
   "status": "proved",
   "theorems": [
    "C10_mass_conserved"
   ],
   "note": ""
  },
  {
   "property": "C11",
   "status": "proved",
   "theorems": [
    "C11_energy_conserved"
   ],
   "note": ""
  },
  {
   "property": "C12",
   "status": "proved",
   "theorems": [
    "C12_norm_is_scaling",
    "C12_solve"
   ],
   "note": ""
  },
  {
   "property": "C13",
   "status": "proved",
   "theorems": [
    "C13_unique_solution"
   ],
   "note": ""
  },
  {
   "property": "C14",
   "status": "proved",
   "theorems": [
    "C14_solve_succeeds",
    "C14_integration",
    "C14_state_values"
   ],
   "note": ""
  },
  {
   "property": "C15",
   "status": "proved",
   "theorems": [
    "C15_solve_unique",
    "C15_derivative_unique"
   ],
   "note": ""
  },
  {
   "property": "C16",
   "status": "proved",
   "theorems": [
    "C16_integration"
   ],
   "note": ""
  },
  {
   "property": "C17",
   "status": "proved",
   "theorems": [
    "C17_state_values"
   ],
   "note": ""
  },
  {
   "property": "C18",
   "status": "proved",
   "theorems": [
    "C18_run_aligned",
    "C18_series",
    "C18_results_aligned"
   ],
   "note": ""
  },
  {
   "property": "C19",
   "status": "proved",
   "theorems": [
    "C19_trapezoid",
    "C19_trapezoid_report",
    "C19_linear",
    "C19_split",
    "C19_affine_exact",
    "C19_monotone",
    "C19_short",
    "C19_excess_ignored"
   ],
   "note": ""
  },
  {
   "property": "C20",
   "status": "proved",
   "theorems": [
    "C20_f64",
    "C20_extrema",
    "C20_average"
   ],
   "note": ""
  },
  {
   "property": "C21",
   "status": "proved",
   "theorems": [
    "C21_mass_flows",
    "C21_non_negative",
    "C21_reversed",
    "C21_cancel"
   ],
   "note": ""
  },
  {
   "property": "C22",
   "status": "proved",
   "theorems": [
    "C22_adiabatic_state",
    "C22_adiabatic_report",
    "C22_heat_flows",
    "C22_report",
    "C22_agreement"
   ],
   "note": ""
  },
  {
   "property": "C23",
   "status": "proved",
   "theorems": [
    "C23_regen_temperatures"
   ],
   "note": ""
  },
  {
   "property": "C24",
   "status": "proved",
   "theorems": [
    "C24_log_mean"
   ],
   "note": ""
  },
  {
   "property": "C25",
   "status": "proved",
   "theorems": [
    "C25_temperatures"
   ],
   "note": ""
  },
  {
   "property": "C26",
   "status": "proved",
   "theorems": [
    "C26_derivatives",
    "C26_periodic",
    "C26_bounds",
    "C26_attained",
    "C26_phase"
   ],
   "note": ""
  },
  {
   "property": "C27",
   "status": "proved",
   "theorems": [
    "C27_derivatives",
    "C27_periodic",
    "C27_exp_clearance",
    "C27_comp_clearance",
    "C27_comp_below"
   ],
   "note": ""
  },
  {
   "property": "C28",
   "status": "proved",
   "theorems": [
    "C28_rhombic_ignores_D_d",
    "C28_rhombic_refuted",
    "C28_effect",
    "C28_volumes_differ"
   ],
   "note": "finding: the expectation is refuted; the theorems give the counterexample and the exact behaviour"
  },
  {
   "property": "C29",
   "status": "proved",
   "theorems": [
    "C29_gas_law",
    "C29_dd_dP_T",
    "C29_dd_dT_P",
    "C29_du_dP_T"
   ],
   "note": ""
  },
  {
   "property": "C30",
   "status": "proved",
   "theorems": [
    "C30_helium_cp",
    "C30_hydrogen_cp_refuted",
    "C30_hydrogen_enth"
   ],
   "note": "finding: the expectation is refuted; the theorems give the counterexample and the exact behaviour"
  },
  {
   "property": "C31",
   "status": "proved",
   "theorems": [
    "C31_h_u",
    "C31_h_u_refuted",
    "C31_zero"
   ],
   "note": "finding: the expectation is refuted; the theorems give the counterexample and the exact behaviour"
  },
  {
   "property": "C32",
   "status": "proved",
   "theorems": [
    "C32_effectiveness",
    "C32_decreasing",
    "C32_vanishes",
    "C32_same_function"
   ],
   "note": ""
  },
  {
   "property": "C33",
   "status": "proved",
   "theorems": [
    "C33_regenerator",
    "C33_decreasing"
   ],
   "note": ""
  },
  {
   "property": "C34",
   "status": "proved",
   "theorems": [
    "C34_chx",
    "C34_hhx",
    "C34_regen"
   ],
   "note": "NaN for +0 flow needs exp(-inf) = +0 of the platform's exp; without it (and for -0) the temperature is still non-finite"
  },
  {
   "property": "C35",
   "status": "proved",
   "theorems": [
    "C35_split",
    "C35_no_resistance"
   ],
   "note": ""
  },
  {
   "property": "C36",
   "status": "proved",
   "theorems": [
    "C36_answered",
    "C36_power_chain"
   ],
   "note": ""
  },
  {
   "property": "C37",
   "status": "proved",
   "theorems": [
    "C37_first_law",
    "C37_no_wall_heat",
    "C37_runs_are_solved"
   ],
   "note": ""
  },
  {
   "property": "C38",
   "status": "proved",
   "theorems": [
    "C38_results_panic",
    "C38_results_total"
   ],
   "note": ""
  },
  {
   "property": "C39",
   "status": "proved",
   "theorems": [
    "C39_legacy",
    "C39_legacy_injective"
   ],
   "note": ""
  },
  {
   "property": "C40",
   "status": "proved",
   "theorems": [
    "C40_unsupported",
    "C40_supported",
    "C40_supported_panics"
   ],
   "note": ""
  },
  {
   "property": "C41",
   "status": "proved",
   "theorems": [
    "C41_failing_solver_panics",
    "C41_error_refuted"
   ],
   "note": "finding: the expectation is refuted; the theorems give the counterexample and the exact behaviour"
  },
  {
   "property": "C42",
   "status": "proved",
   "theorems": [
    "C42_step_infinite",
    "C42_resolution_zero",
    "C42_integration_zero",
    "C16_integration"
   ],
   "note": "the step for n >= 1 points is the dx of period_args in C16_integration"
  },
  {
   "property": "C43",
   "status": "proved",
   "theorems": [
    "C43_norm_zero",
    "C43_matrix",
    "C43_norm"
   ],
   "note": "finding: the normalising enthalpy of helium vanishes whenever sink and source temperatures add up to 500 K"
  },
  {
   "property": "C44",
   "status": "proved",
   "theorems": [
    "C44_results_repeat"
   ],
   "note": ""
  },
  {
   "property": "C45",
   "status": "proved",
   "theorems": [
    "C45_overall_zero",
    "C45_electrical_ignored",
    "C45_overall_refuted"
   ],
   "note": "finding: the expectation is refuted; the theorems give the counterexample and the exact behaviour"
  },
  {
   "property": "C46",
   "status": "proved",
   "theorems": [
    "C46_cycle_ignores_resistance",
    "C46_run_ignores_resistance",
    "C46_walls_refuted",
    "C46_no_heat_refuted"
   ],
   "note": "finding: the expectation is refuted; the theorems give the counterexample and the exact behaviour"
  },
  {
   "property": "C47",
   "status": "proved",
   "theorems": [
    "C47_real",
    "C47_f64"
   ],
   "note": ""
  },
  {
   "property": "C48",
   "status": "proved",
   "theorems": [
    "C48_work_bound",
    "C48_counted_is_run"
   ],
   "note": ""
  },
  {
   "property": "C49",
   "status": "proved",
   "theorems": [
    "C49_direction",
    "C49_nan_accepted"
   ],
   "note": "finding: a NaN solution is accepted"
  },
  {
   "property": "C50",
   "status": "proved",
   "theorems": [
    "C50_guard_moves",
    "C50_guard_absorbed"
   ],
   "note": "finding: the guard has no effect from 128 s on"
  },
  {
   "property": "C51",
   "status": "proved",
   "theorems": [
    "C51_run_panic"
   ],
   "note": ""
  },
  {
   "property": "C52",
   "status": "proved",
   "theorems": [
    "C52_run_ok"
   ],
   "note": ""
  },
  {
   "property": "C53",
   "status": "proved",
   "theorems": [
    "C53_run_from_config"
   ],
   "note": ""
  },
  {
   "property": "C54",
   "status": "proved",
   "theorems": [
    "C54_helium_solves"
   ],
   "note": ""
  },
  {
   "property": "C55",
   "status": "proved",
   "theorems": [
    "C55_gas_mass_constant"
   ],
   "note": ""
  },
  {
   "property": "C56",
   "status": "proved",
   "theorems": [
    "C56_gas_energy"
   ],
   "note": ""
  },
  {
   "property": "C57",
   "status": "proved",
   "theorems": [
    "C57_solve_iff_conserves"
   ],
   "note": ""
  },
  {
   "property": "C58",
   "status": "proved",
   "theorems": [
    "C58_faster",
    "C58_run",
    "C58_sinusoidal",
    "C58_rhombic"
   ],
   "note": ""
  },
  {
   "property": "C59",
   "status": "proved",
   "theorems": [
    "C59_at_rest"
   ],
   "note": ""
  },
  {
   "property": "C60",
   "status": "proved",
   "theorems": [
    "C60_mirror",
    "C60_run"
   ],
   "note": ""
  },
  {
   "property": "C61",
   "status": "proved",
   "theorems": [
    "C61_charged"
   ],
   "note": ""
  },
  {
   "property": "C62",
   "status": "proved",
   "theorems": [
    "C62_shifted"
   ],
   "note": ""
  },
  {
   "property": "C63",
   "status": "proved",
   "theorems": [
    "C63_pressure_law",
    "C63_pressure_returns",
    "C63_pressure_positive"
   ],
   "note": "exact arithmetic; helium and hydrogen"
  },
  {
   "property": "C64",
   "status": "proved",
   "theorems": [
    "C64_interval",
    "C64_cycle"
   ],
   "note": "exact arithmetic; helium (for hydrogen see C68)"
  },
  {
   "property": "C65",
   "status": "proved",
   "theorems": [
    "C65_solve",
    "C65_run",
    "C65_sinusoidal",
    "C65_rhombic"
   ],
   "note": "sequential continuity, exact arithmetic"
  },
  {
   "property": "C66",
   "status": "proved",
   "theorems": [
    "C66_same_run",
    "C66_exchangers",
    "C66_sinusoidal",
    "C66_rhombic"
   ],
   "note": "any number type; a wrong pressure drop or parasitic power in a component can only show in the performance report"
  },
  {
   "property": "C67",
   "status": "proved",
   "theorems": [
    "C67_physical",
    "C67_hydrogen_solves"
   ],
   "note": "exact arithmetic; polynomial bounds proved by Bernstein and shifted coefficients"
  },
  {
   "property": "C68",
   "status": "proved",
   "theorems": [
    "C68_hydrogen_leak",
    "C68_true_derivative",
    "C68_hydrogen_energy_refuted"
   ],
   "note": "finding: the expectation that hydrogen obeys the energy balance of C56 is refuted with a witness; the exact discrepancy is proved for all trajectories"
  },
  {
   "property": "C69",
   "status": "proved",
   "theorems": [
    "C69_settings",
    "C69_inputs",
    "C69_gas",
    "C69_run",
    "C69_unique"
   ],
   "note": "any number type"
  },
  {
   "property": "C70",
   "status": "proved",
   "theorems": [
    "C70_sinusoidal",
    "C70_rhombic",
    "C70_rhombic_intended",
    "C70_clearance_attained"
   ],
   "note": "exact arithmetic; finding, with C28: the displacer diameter is not used"
  },
  {
   "property": "C71",
   "status": "proved",
   "theorems": [
    "C71_mixing",
    "C71_balance",
    "C71_second_law",
    "C71_helium",
    "C71_helium_refuted"
   ],
   "note": "exact arithmetic; finding: C71_helium_refuted, the code's helium violates the second law; C71_balance gives the exact excess and C71_second_law shows a consistent gas would satisfy it"
  },
  {
   "property": "C72",
   "status": "proved",
   "theorems": [
    "C72_integral",
    "C72_integral_kinks",
    "C72_pressure",
    "C72_regen_heat",
    "C72_hhx_heat",
    "C72_chx_flow"
   ],
   "note": "exact arithmetic"
  },
  {
   "property": "C73",
   "status": "proved",
   "theorems": [
    "C73_spelled",
    "C73_run",
    "C73_names",
    "C73_extra",
    "C73_gpu3_refuted"
   ],
   "note": "any number type; finding: C73_gpu3_refuted, the snake case names of the GPU-3 and nuclear isomer variants"
  },
  {
   "property": "C74",
   "status": "proved",
   "theorems": [
    "C74_spelled",
    "C74_run"
   ],
   "note": "any number type"
  },
  {
   "property": "C75",
   "status": "proved",
   "theorems": [
    "C75_order",
    "C75_legacy_order",
    "C75_legacy_order_refuted"
   ],
   "note": "finding: C75_legacy_order_refuted, for readers that follow the documentation of config 0.13.3 and serde's buffer, which are not available in the sandbox"
  },
  {
   "property": "C76",
   "status": "proved",
   "theorems": [
    "C76_methods",
    "C76_exchangers",
    "C76_working_spaces"
   ],
   "note": "any number type"
  },
  {
   "property": "C77",
   "status": "proved",
   "theorems": [
    "C77_inputs",
    "C77_gas"
   ],
   "note": "f64"
  },
  {
   "property": "C78",
   "status": "proved",
   "theorems": [
    "C78_unique",
    "C78_engine"
   ],
   "note": "Exact arithmetic, both gases. The right-hand side is Lipschitz on the compact set of states two trajectories pass through although the donor enthalpies switch (RClose.solved_close); Gronwall's inequality does the rest. Existence is C80; the cases are explicit exact trajectories."
  },
  {
   "property": "C79",
   "status": "proved",
   "theorems": [
    "C79_run",
    "C79_engine"
   ],
   "note": "Exact return of the two temperatures, exact arithmetic: the code compares up to a tolerance. The period is the one Run::new computes (1 / frequency). The case is an engine with sinusoidal drive whose trajectory is given in closed form."
  },
  {
   "property": "C80",
   "status": "proved",
   "theorems": [
    "C80_starts",
    "C80_lasts",
    "C80_helium",
    "C80_hydrogen"
   ],
   "note": "Exact arithmetic, both gases. Picard's iteration is carried out in Rocq for three unknowns (RPicard.picard); the rates are bounded and Lipschitz near every physical state (RLocal, RExist). `lasts` says: until the given time, or until the state has left the given ranges of pressure and temperatures. That a trajectory never leaves them is not claimed."
  },
  {
   "property": "C81",
   "status": "proved",
   "theorems": [
    "C81_integral",
    "C81_pressure",
    "C81_regenerator_heat",
    "C81_mass_flows",
    "C81_relative",
    "C81_figures",
    "C81_growth",
    "C81_non_negative"
   ],
   "note": "f64. Standard forward error analysis on Flocq's lemmas for one operation (F64Err, F64Avg); overflow is excluded by the hypothesis that the result is finite. The hot and cold heat flows add a wall term and are not covered."
  },
  {
   "property": "C82",
   "status": "proved",
   "theorems": [
    "C82_between_refuted",
    "C82_nearly_between"
   ],
   "note": "Finding: C82_between_refuted is the witness (atmosphere in F64Mean), C82_nearly_between the bound that does hold."
  },
  {
   "property": "C83",
   "status": "proved",
   "theorems": [
    "C83_ordered",
    "C83_run",
    "C83_fixed_approach"
   ],
   "note": "f64. approaches_forward is a hypothesis on the components, proved of fixed approaches; fixed conductances compute theirs from the heat flow, whose sign is the cycle's."
  },
  {
   "property": "C84",
   "status": "proved",
   "theorems": [
    "C84_volumes"
   ],
   "note": "f64. The bound on the cosine is a hypothesis on the mathematical library. The swept volume must be zero or not subnormal so that halving is exact."
  },
  {
   "property": "C85",
   "status": "proved",
   "theorems": [
    "C85_between",
    "C85_tolerance",
    "C85_converged"
   ],
   "note": "Exact trajectories over the reals (the integrator is an oracle of the model). Proof: gas mass is conserved (C56/C63), so the pressure is inversely proportional to the sum of volume over temperature."
  },
  {
   "property": "C86",
   "status": "proved",
   "theorems": [
    "C86_depends",
    "C86_helium",
    "C86_hydrogen"
   ],
   "note": "Reals. C86_helium and C86_hydrogen prove the two hypotheses (smooth volumes, box of physical states) of driven engines."
  },
  {
   "property": "C87",
   "status": "proved",
   "theorems": [
    "C87_errors",
    "C87_exact"
   ],
   "note": "Reals. The integrator itself (ode_solvers) is not modelled; this is the stability half of its error estimate. C87_exact: exact trajectories are courses with error 0."
  },
  {
   "property": "C88",
   "status": "proved",
   "theorems": [
    "C88_nearly_steady"
   ],
   "note": "Reals; from C85 and C86."
  },
  {
   "property": "C89",
   "status": "proved",
   "theorems": [
    "C89_exchangers",
    "C89_regenerator",
    "C89_rhombic",
    "C89_rhombic_refuted",
    "C89_lossless",
    "C89_turning",
    "C89_approach_built",
    "C89_conductance_built",
    "C89_ws_defaults",
    "C89_simple_engine"
   ],
   "note": "Any number type, reals and f64. Finding: C89_rhombic_refuted; the default configuration of the rhombic drive does not give the default drive (see C28)."
  },
  {
   "property": "C90",
   "status": "proved",
   "theorems": [
    "C90_cold",
    "C90_hot",
    "C90_regenerator",
    "C90_flows"
   ],
   "note": "f64."
  },
  {
   "property": "C91",
   "status": "proved",
   "theorems": [
    "C91_masses",
    "C91_exchangers",
    "C91_spaces"
   ],
   "note": "Reals, exact trajectories. Mass and exchanger energy for both built-in gases; working-space energy for helium (for hydrogen see C68)."
  },
  {
   "property": "C92",
   "status": "proved",
   "theorems": [
    "C92_balances",
    "C92_totals",
    "C92_state_values"
   ],
   "note": "f64. The accuracy of the matrix solver (nalgebra's LU) is a hypothesis of the theorem, as a componentwise residual bound on the systems it is asked; the case uses an elimination that checks its answers in exact arithmetic."
  },
  {
   "property": "C93",
   "status": "proved",
   "theorems": [
    "C93_same_search"
   ],
   "note": "f64 against the reals. The accuracy of the linear solver is a hypothesis; see C94 for what happens without it."
  },
  {
   "property": "C94",
   "status": "proved",
   "theorems": [
    "C94_search_settles_refuted"
   ],
   "note": "finding: the expectation is refuted. The linear solver of the counterexample is a Gaussian elimination with partial pivoting that checks its own residuals, not nalgebra's LU, whose source is not in the sandbox; a transcription from memory of nalgebra's order of operations failed on the same inputs in a simulation outside Coq."
  },
  {
   "property": "C95",
   "status": "proved",
   "theorems": [
    "C95_equations",
    "C95_direction",
    "C95_comp",
    "C95_exp",
    "C95_pressure"
   ],
   "note": "C95_equations is the temperature equation, C95_direction the direction of change; C95_comp and C95_exp are the ranges; C95_pressure the pressure. C95_case is an engine with a trajectory for all time to which they apply."
  },
  {
   "property": "C96",
   "status": "proved",
   "theorems": [
    "C96_forever",
    "C96_in_range"
   ],
   "note": "C96_forever: existence for all time; C96_in_range: the ranges; C96_case: an engine with sinusoidal drive and volume ratio 2 that meets every hypothesis. C80 needs the state to stay in a box, which is proved here."
  },
  {
   "property": "C97",
   "status": "proved",
   "theorems": [
    "C97_exists",
    "C97_accepted"
   ],
   "note": "C97_exists: existence for every pressure, with ranges; C97_accepted: integration_is_converged answers true; C97_case: the sinusoidal engine of C96 meets every hypothesis. Says nothing of whether repeated revolutions tend to the cycle."
  },
  {
   "property": "C98",
   "status": "proved",
   "theorems": [
    "C98_pressure",
    "C98_sign",
    "C98_solvable_refuted",
    "C98_panics"
   ],
   "note": "C98_pressure: the equation; C98_sign: its sign in both regimes; C98_solvable_refuted, C98_panics: the failure; C98_case: an engine with exchanger at 77 K."
  },
  {
   "property": "C99",
   "status": "proved",
   "theorems": [
    "C99_properties",
    "C99_drive",
    "C99_run",
    "C99_engine",
    "C99_balances",
    "C99_norm",
    "C99_helium_norm"
   ],
   "note": "f64. Drives other than the sinusoidal one: C99_run asks for the size of the volumes. The linear solver's answer must be finite and accurate (`careful`), as in C92; sine and cosine of the system's library are only assumed to stay within -1 and 1."
  },
  {
   "property": "C100",
   "status": "proved",
   "theorems": [
    "C100_continuous",
    "C100_meters",
    "C100_balance",
    "C100_run",
    "C100_helium",
    "C100_sink",
    "C100_gives_back_refuted"
   ],
   "note": "Refuted expectation: heat of the regenerator over a steady cycle is not 0. C100_balance gives the exact amount, C100_sink a class of engines with a loss, C100_gives_back_refuted a witness whose state is the one the engine starts from."
  },
  {
   "property": "C101",
   "status": "proved",
   "theorems": [
    "C101_reports",
    "C101_replied",
    "C101_solved",
    "C101_pressures",
    "C101_powers",
    "C101_heats",
    "C101_ratios",
    "C101_first_law"
   ],
   "note": "f64. The figures must be finite; densities at the samples must be nonzero and wall resistances nonzero (an infinite one conducts nothing). The heat of the walls does not act on the gas (C46), so it stays as a separate term in the first law."
  },
  {
   "property": "C102",
   "status": "proved",
   "theorems": [
    "C102_raised",
    "C102_outer",
    "C102_inner",
    "C102_inner_fails",
    "C102_outer_fails",
    "C102_fixed"
   ],
   "note": "Any number type. The failures named are the two RunError values; an integration failure inside the search counts as InnerLoop, as in the code."
  },
  {
   "property": "C103",
   "status": "proved",
   "theorems": [
    "C103_rates",
    "C103_totals",
    "C103_report",
    "C103_first_law",
    "C103_driven"
   ],
   "note": "Exact arithmetic. The constant depends on the trajectory, the component replies and the temperatures, not on the samples. C101 adds the rounding of the report from its samples in f64."
  },
  {
   "property": "C104",
   "status": "proved",
   "theorems": [
    "C104_stays",
    "C104_samples",
    "C104_report"
   ],
   "note": "The ODE solver itself (ode_solvers) is not modelled; its accuracy per step is the hypothesis accurate_steps."
  },
  {
   "property": "C105",
   "status": "proved",
   "theorems": [
    "C105_nearby",
    "C105_engine"
   ],
   "note": ""
  },
  {
   "property": "C106",
   "status": "proved",
   "theorems": [
    "C106_main",
    "C106_temps",
    "C106_config",
    "C106_legacy",
    "C106_sweep"
   ],
   "note": "documents as in SerdeDocs.v; the text parsing is not modelled; solvability of each step in exact arithmetic, for the named gas hydrogen"
  },
  {
   "property": "C107",
   "status": "proved",
   "theorems": [
    "C107_larger",
    "C107_sinusoidal",
    "C107_rhombic",
    "C107_solution",
    "C107_trajectory",
    "C107_steady",
    "C107_engine",
    "C107_report",
    "C107_fixed"
   ],
   "note": "similar_* in SpecSimilar.v state what the other engine is. The law is about exact trajectories and cycles and about reports of corresponding series; the loop's absolute tolerances and the integrator's guard past the period do not scale, so it is not claimed of whole runs."
  },
  {
   "property": "C108",
   "status": "proved",
   "theorems": [
    "C108_revolution",
    "C108_unique",
    "C108_engine",
    "C108_starts"
   ],
   "note": "The factor is a sufficient bound: it is below 1 only when the exchangers hold much more gas than the working spaces, as in the case (0.70 bounded by 3/4); nothing is claimed about engines that miss it. Exact arithmetic."
  },
  {
   "property": "C109",
   "status": "proved",
   "theorems": [
    "C109_accepted",
    "C109_search",
    "C109_limit",
    "C109_run"
   ],
   "note": "Exact arithmetic. Built on C108. The reliability of the integrator is a hypothesis about its results, with its error as a parameter; the concrete case meets it with an exact integrator for a concrete engine, for all tolerances."
  },
  {
   "property": "C110",
   "status": "proved",
   "theorems": [
    "C110_run",
    "C110_limit"
   ],
   "note": "C110_run gives the bound with constants that depend on the engine only, C110_limit says that every accuracy can be reached; C110_case has an engine and an exact integrator for which it is reached. The hypotheses on the integrator are hypotheses on an outside library (ode_solvers)."
  },
  {
   "property": "C111",
   "status": "proved",
   "theorems": [
    "C111_run",
    "C111_bound"
   ],
   "note": "C111_run is the limit statement, C111_bound gives the size of the error, C111_case has an engine and an exact integrator. Unlike C109 and C110, the integrator is only assumed to be close to exact trajectories."
  },
  {
   "property": "C112",
   "status": "proved",
   "theorems": [
    "C112_revolution",
    "C112_run",
    "C112_euler"
   ],
   "note": "C112_revolution covers how the program calls the solver: the right-hand side, the start, the end time, the step and the tolerances. C112_run is the limit statement, C112_euler shows that Euler's method keeps the promise, C112_case has an engine with Euler's method. Unlike C111, nothing about engines is assumed of the solver. That the solver of the ode_solvers library keeps the promise is not proved."
  },
  {
   "property": "C113",
   "status": "proved",
   "theorems": [
    "C113_out",
    "C113_in",
    "C113_along",
    "C113_means",
    "C113_sinusoidal",
    "C113_rhombic"
   ],
   "note": "C113_out and C113_in are about one instant, C113_along about trajectories, C113_means about the means over a revolution. C113_sinusoidal and C113_rhombic are about the drives, with drives that meet their conditions in C113_drives_case. C113_case is an engine with a sinusoidal drive a quarter of a revolution after the start."
  },
  {
   "property": "C114",
   "status": "proved",
   "theorems": [
    "C114_report",
    "C114_means",
    "C114_exist"
   ],
   "note": "C114_report is about the report, C114_means about the averages in the last test of the outer loop, C114_exist shows that the means exist. C114_case is a run with a regenerator of fixed conductance that succeeds. C110 and C111 are the same for fixed approaches, where the state never changes."
  },
  {
   "property": "C115",
   "status": "proved",
   "theorems": [
    "C115_returned",
    "C115_run",
    "C115_conducting",
    "C115_keeping"
   ],
   "note": "C115_returned is the first direction, C115_run the converse, C115_conducting and C115_keeping give the approaches. The concrete case is C114_case: an engine with a regenerator of fixed conductance. That the outer loop finds a consistent state from elsewhere is not proved."
  },
  {
   "property": "C116",
   "status": "proved",
   "theorems": [
    "C116_solver",
    "C116_euler"
   ],
   "note": "C116_solver for every dependable solver, C116_euler for Euler's method, C116_case for a sinusoidal engine, C116_rhombic for a rhombic one and C116_mixed for one with a regenerator that keeps an approach. That U is large: exchangers that conduct poorly may make the outer loop wander, which is not excluded."
  },
  {
   "property": "C117",
   "status": "proved",
   "theorems": [
    "C117_solver",
    "C117_euler"
   ],
   "note": "C117_solver for every dependable solver, C117_euler for Euler's method, C117_case for a sinusoidal engine and C117_mixed for one with a regenerator that keeps an approach. T depends on the engine and on the number of points. Unlike C116, U does not depend on the outer tolerance. For conductances below U nothing is claimed."
  },
  {
   "property": "C118",
   "status": "proved",
   "theorems": [
    "C118_solver",
    "C118_euler"
   ],
   "note": "C118_solver for every dependable solver, C118_euler for Euler's method, C118_case for a sinusoidal engine and C118_mixed for one with a regenerator that keeps an approach. C117 says that runs approach some temperatures; C118 says which ones, without reference to runs."
  },
  {
   "property": "C119",
   "status": "proved",
   "theorems": [
    "C119_solver",
    "C119_euler"
   ],
   "note": "C119_solver for every dependable solver, C119_euler for Euler's method, C119_case for a sinusoidal engine, C119_mixed for one with a regenerator that keeps an approach and C119_rhombic for a rhombic engine. The number of points is no longer fixed first as in C117 and C118. Spacings must exceed the 1e-14 s by which the code overshoots the period, so margins that would need finer points than that are not covered."
  },
  {
   "property": "C120",
   "status": "proved",
   "theorems": [
    "C120_solver",
    "C120_euler",
    "C120_efficiency"
   ],
   "note": "C120_solver for every dependable solver, C120_euler for Euler's method, C120_case for a sinusoidal engine, C120_mixed for one with a regenerator that keeps an approach and C120_rhombic for a rhombic engine. The exact figures are those of every steady cycle that stays warm (steady_totals), so they are unique. C120_efficiency bounds the error of the efficiency where the heat input exceeds the error of the figures. Spacings must exceed 1e-14 s as in C119."
  },
  {
   "property": "C121",
   "status": "proved",
   "theorems": [
    "C121_points",
    "C121_two",
    "C121_refuted",
    "C121_guard_needed"
   ],
   "note": "C121_points for runs, C121_two for the integration of a single interval, C121_refuted with the run of C121_slow, C121_guard_needed. How the solver places its points is a hypothesis (adds_times in SpecPoints): the solver library is not part of /repo. C121_case meets all hypotheses with the speed and the number of points of examples/run_simple_engine.rs."
  },
  {
   "property": "C122",
   "status": "proved",
   "theorems": [
    "C122_once",
    "C122_never_outer",
    "C122_needs_sane",
    "C122_covers",
    "C122_configured"
   ],
   "note": "C122_once for any number type, C122_never_outer and C122_needs_sane for f64; C122_covers and C122_configured say that FixedApproach exchangers, however built, are meant; C07_fixed_approach says which averages such a run reports."
  },
  {
   "property": "C123",
   "status": "proved",
   "theorems": [
    "C123_solution",
    "C123_trajectory",
    "C123_steady",
    "C123_sinusoidal",
    "C123_initial",
    "C123_engine",
    "C123_report",
    "C123_replies"
   ],
   "note": "Lifts C60 from single evaluations to trajectories, steady cycles, components and reports. A regenerator imbalance is not mirrored by the code: C123_initial is about the state a run starts from."
  },
  {
   "property": "C124",
   "status": "proved",
   "theorems": [
    "C124_books",
    "C124_heats"
   ],
   "note": "The exact integrals behind the reported heats. C125 and C126 rest on it."
  },
  {
   "property": "C125",
   "status": "proved",
   "theorems": [
    "C125_balance",
    "C125_mixing",
    "C125_bound"
   ],
   "note": "C125_bound is the second law with the excess in place of 0; C126 shows that the excess can be positive and large enough to break Carnot's bound."
  },
  {
   "property": "C126",
   "status": "proved",
   "theorems": [
    "C126_carnot_refuted",
    "C126_runs_refuted"
   ],
   "note": "Witness for a false expectation. The engine is built from State_new_hint and Run_new (C126_case). Cause: h - u = R (T - T_ref), see C31, C71 and C125."
  },
  {
   "property": "C127",
   "status": "proved",
   "theorems": [
    "C127_volumes",
    "C127_rates",
    "C127_short"
   ],
   "note": "The f64 counterpart of C27, as C84 is for the sinusoidal drive. C127_short shows what the missing check of the geometry costs."
  },
  {
   "property": "C128",
   "status": "proved",
   "theorems": [
    "C128_equations",
    "C128_entropy",
    "C128_comp",
    "C128_exp",
    "C128_pressure",
    "C128_in_range",
    "C128_forever"
   ],
   "note": "The hydrogen counterpart of C95 and C96. With heat capacities that depend on temperature there is no power law for an adiabat, so bounds are stated with the entropy."
  },
  {
   "property": "C129",
   "status": "proved",
   "theorems": [
    "C129_exists"
   ],
   "note": "The hydrogen counterpart of C97. The convergence test accepts such a cycle by C97_accepted, which holds for all fluids."
  },
  {
   "property": "C130",
   "status": "proved",
   "theorems": [
    "C130_accuracy",
    "C130_case"
   ],
   "note": "The size of the enthalpy's error is |T - 250| times the terms of the mean heat capacity, so the enthalpy is accurate relative to its terms also near the reference temperature."
  },
  {
   "property": "C131",
   "status": "proved",
   "theorems": [
    "C131_volumes",
    "C131_turn",
    "C131_case"
   ],
   "note": "pi is bounded by Machin's series of the standard library; the concrete case uses sine and cosine rounded down to multiples of 2^-52, for which the hypotheses are proved."
  },
  {
   "property": "C132",
   "status": "proved",
   "theorems": [
    "C132_mean",
    "C132_books",
    "C132_interval",
    "C132_cycle",
    "C132_steady",
    "C132_case"
   ],
   "note": "mean_cp is tied to the modelled enthalpy by C132_mean: (T - 250) mean_cp(T) is the enthalpy the code computes. C68 gives the instantaneous leak."
  },
  {
   "property": "C133",
   "status": "proved",
   "theorems": [
    "C133_volumes",
    "C133_linkage",
    "C133_case"
   ],
   "note": "The linkage is specified by the lengths of its rods (SpecDrive), not by the square roots the code computes; C133_linkage shows that it can be assembled at every angle. For the default drive at a quarter turn both volumes are right within 2e-16 m^3."
  },
  {
   "property": "C134",
   "status": "proved",
   "theorems": [
    "C134_rates",
    "C134_case"
   ],
   "note": "The exact rates are given as derivatives of the volumes between yokes that obey the lengths of the rods, not by a formula; the case shows that such yokes exist and are differentiable. For the default drive at a quarter turn both rates are right within 5e-14 m^3/s. The rate of the expansion space divides by the piston area, so the theorem asks for a piston at least 1 mm wide."
  },
  {
   "property": "C135",
   "status": "proved",
   "theorems": [
    "C135_temperatures",
    "C135_case"
   ],
   "note": "Complements C24 (exact log mean) and C25 (zero difference). With 300 K, 800 K, approach 10 K and imbalance 2 K the error is below 2e-10 K."
  },
  {
   "property": "C136",
   "status": "proved",
   "theorems": [
    "C136_chx",
    "C136_hhx",
    "C136_case",
    "C136_vanishes",
    "C136_positive_refuted"
   ],
   "note": "For one transfer unit and a change of 1 K the approach is right within 1e-13 K. C136_positive_refuted: with 40 transfer units the approach is exactly 0 although heat flows."
  },
  {
   "property": "C137",
   "status": "proved",
   "theorems": [
    "C137_regen",
    "C137_case"
   ],
   "note": "For one transfer unit between 300 K and 900 K the approach is 400 K within 2e-12 K."
  }
 ]
}