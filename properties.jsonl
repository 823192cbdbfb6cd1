{"id": "C01", "title": "Convergence test is sound and complete against its documented meaning", "statement": "ConvergenceTolerance::is_converged(old,new) is true exactly when the change is strictly smaller than the absolute tolerance and, relative to a non-zero old value, strictly smaller than the relative tolerance; in f64 a positive answer implies the exact (unrounded) change is below the absolute tolerance and, up to one rounding of the subtraction, below rel*|old|.", "quantifier": "all tolerances, all old/new values (every real number, and every f64 bit pattern)", "why_tests_cant": "Two float subtractions/divisions and two strict comparisons over 2^256 input combinations; unit tests only sample them.", "anchors": ["src/types.rs: ConvergenceTolerance::is_converged"]}
{"id": "C02", "title": "Non-finite or zero values never count as converged", "statement": "In f64, is_converged(old,new) is false whenever old or new is NaN or infinite, whenever old is zero, and whenever a tolerance is NaN or not positive; is_converged(x,x) is true exactly for finite non-zero x and positive tolerances.", "quantifier": "all f64 values including NaN, infinities, subnormals and signed zeros", "why_tests_cant": "The special-value space (NaN payload, infinities, overflow of the subtraction, division by zero) cannot be enumerated by tests.", "anchors": ["src/types.rs: ConvergenceTolerance::is_converged"]}
{"id": "C03", "title": "A successful run is an outer-loop fixed point within tolerance", "statement": "If Engine::run returns Ok(engine), then recomputing the approach temperatures of all three heat exchangers from the returned values (and returned temperatures) yields new temperatures for chx, hhx, regen cold/avg/hot that are each within the outer tolerance of the temperatures in the returned engine.", "quantifier": "all components, fluids, inputs, settings, ODE integrators and matrix solvers", "why_tests_cant": "Depends on an arbitrary number of outer iterations with arbitrary user components; tests run one configuration.", "anchors": ["src/engine.rs: Engine::run", "src/engine/state.rs: State::update, Temperatures::is_converged"]}
{"id": "C04", "title": "A successful run returns a cyclic steady state of the returned state", "statement": "If Engine::run returns Ok(engine), the returned values are the state values of an integration over one period, started at (pres_zero of the state, T_c, T_e), of exactly the cycle built from the returned components and state, and a two-point integration from the same initial conditions ends with T_c and T_e within the inner tolerance of where they started.", "quantifier": "all components, fluids, inputs, settings, ODE integrators and matrix solvers", "why_tests_cant": "Any number of inner iterations of successive substitution; tests cannot cover all histories.", "anchors": ["src/engine.rs: Engine::run", "src/state_equations/cycle.rs: Cycle::find_steady_state", "src/state_equations/integrator.rs: Integration"]}
{"id": "C05", "title": "Errors mean what they say", "statement": "Engine::run returns Err(OuterLoop) only after exactly max_iters.outer outer iterations each of which found a steady state but did not converge, and Err(InnerLoop) only when some steady-state search failed (an ODE error, or max_iters.inner unconverged integrations) after fewer than max_iters.outer unconverged outer iterations; with max_iters.outer = 0 the result is always Err(OuterLoop) and with max_iters.inner = 0 (outer > 0) always Err(InnerLoop).", "quantifier": "all iteration limits, components, fluids, inputs, integrators and solvers", "why_tests_cant": "Quantifies over all loop histories.", "anchors": ["src/engine.rs: Engine::run", "src/state_equations/cycle.rs: Cycle::find_steady_state"]}
{"id": "C06", "title": "Boundary conditions are preserved through every iteration", "statement": "Whatever the number of outer iterations, the engine returned by a successful run has exactly the sink temperature, source temperature, fluid and components it was given and a zero regenerator imbalance; if the ODE integrator reports its initial point first, the pressure at time zero is exactly the requested pres_zero, both in the state and in the first entry of the returned pressure series.", "quantifier": "all runs of any length with any components, fluid, solver; integrators that report their start point", "why_tests_cant": "Invariant over an unbounded number of state updates.", "anchors": ["src/engine.rs: Engine::run", "src/engine/state.rs: State::new_hint, State::update, Pressure::from_values"]}
{"id": "C07", "title": "Reported averages lag by one outer iteration", "statement": "Users expect pressure, mass_flow and heat_flow in the results to be the averages of the time series in the same results. What the code guarantees: they are the averages of the time series of the *previous* outer iteration, or the initial hint (zero flows, constant pressure) if the run converged in its first outer iteration - which is what happens whenever all three heat exchangers are fixed-approach.", "quantifier": "all successful runs; all fixed-approach engines", "why_tests_cant": "Relates two consecutive iterations of a loop of unknown length for every configuration.", "anchors": ["src/engine/state.rs: State::update", "src/api.rs: From<Engine<T>> for RunResults", "src/engine.rs: Engine::run"]}
{"id": "C08", "title": "Accepted state-equation solutions are upwind-consistent", "statement": "Whenever the state-equation solve succeeds, the solution it returns solves the linear system whose interface enthalpies are selected by the signs of that very solution's mass flows (non-negative: upstream volume on the cold side, negative or NaN: the other), for every hint; no solution built from averaged (Unknown) enthalpies is ever returned.", "quantifier": "all inputs, hints and matrix solvers", "why_tests_cant": "Fixed-point property of an iteration for all inputs; tests check two JSON files.", "anchors": ["src/state_equations/solver.rs: solve, System, MatrixStencil::create_matrix", "src/state_equations/flow_direction.rs"]}
{"id": "C09", "title": "Bounded flow-direction search", "statement": "A state-equation solve performs at most four linear solves, at least two when it succeeds from the default (Unknown) hint, tries each time the directions of the previous solution, stops at the first consistent one, fails with a solver error exactly when its last linear solve failed, and with 'unable to determine flow directions' exactly when four linear solves were all inconsistent.", "quantifier": "all inputs, hints and matrix solvers (including adversarial ones)", "why_tests_cant": "Quantifies over all solver behaviours, including oscillating ones.", "anchors": ["src/state_equations/solver.rs: solve, ALLOWED_FLOW_UPDATES"]}
{"id": "C10", "title": "Mass is conserved", "statement": "In exact arithmetic, every successful state-equation solve with a correct linear solver satisfies the mass balance of each of the five control volumes, and the total mass of working fluid in the engine has zero time derivative.", "quantifier": "all inputs (any fluid, any volumes), all hints, all correct linear solvers", "why_tests_cant": "Universal algebraic identity over about forty real inputs.", "anchors": ["src/state_equations/solver.rs: System::new, System::solve, MatrixStencil::create_matrix"]}
{"id": "C11", "title": "Energy is conserved", "statement": "In exact arithmetic, every successful state-equation solve with a correct linear solver and non-zero normalising enthalpy satisfies the energy balance of each control volume with donor-cell enthalpies, and the total internal energy changes at the rate Q_l - Q_k - Q_r - (parasitic heat) - P dV/dt; all interface enthalpy flows cancel.", "quantifier": "all inputs, hints and correct linear solvers", "why_tests_cant": "Universal algebraic identity over about forty real inputs.", "anchors": ["src/state_equations/solver.rs: System::new, System::solve, MatrixStencil::create_matrix"]}
{"id": "C12", "title": "The enthalpy normalisation is only a scaling", "statement": "In exact arithmetic the solution set of the state equations does not depend on the value of enth_norm as long as it is non-zero.", "quantifier": "all inputs, flow directions and pairs of non-zero normalisation values", "why_tests_cant": "Equivalence of two linear systems for all coefficients.", "anchors": ["src/state_equations/solver.rs: System::new", "src/engine/run.rs: Run::new"]}
{"id": "C13", "title": "The state equations are non-singular for physical inputs", "statement": "In exact arithmetic, for inputs with positive volumes and densities, positive compressibility terms and positive donor pivots, the linear system has exactly one solution for every assignment of flow directions.", "quantifier": "all physical inputs, all 81 flow-direction combinations", "why_tests_cant": "Non-singularity of a 10x10 parametric matrix.", "anchors": ["src/state_equations/solver.rs: System::new, MatrixStencil::create_matrix"]}
{"id": "C14", "title": "The flow-direction search always succeeds for physical inputs", "statement": "In exact arithmetic, for physical inputs (C13), a correct linear solver, and any hint the code can produce (all Unknown, or the directions of some earlier solution), the state-equation solve always returns Ok: three direction updates always suffice, so integration never panics on such points.", "quantifier": "all physical inputs and all reachable hints", "why_tests_cant": "Termination/convergence argument for a nonlinear iteration; a sampled test can miss cycling inputs.", "anchors": ["src/state_equations/solver.rs: solve, ALLOWED_FLOW_UPDATES"]}
{"id": "C15", "title": "The derivative does not depend on evaluation history or on the decomposition", "statement": "In exact arithmetic and for physical inputs, any two successful state-equation solves of the same inputs return the same solution, whatever hint each started from and whichever correct matrix decomposition each used; hence the derivative seen by the ODE integrator is a function of time and conditions only although a flow-direction hint is remembered between calls.", "quantifier": "all physical inputs, pairs of hints, pairs of solvers", "why_tests_cant": "Uniqueness over all histories of evaluations.", "anchors": ["src/state_equations/solver.rs: solve, MatrixDecomposition", "src/state_equations/integrator.rs: IntegrationState::system"]}
{"id": "C16", "title": "The integrator is fed exactly the state-equation derivatives", "statement": "Every derivative the ODE integrator receives during an integration is (dP/dt, dT_c/dt, dT_e/dt) - in the order of the state vector - of a successful state-equation solve of the inputs at exactly the queried time and conditions; the integration covers [0, period + 1e-14] with output step period/(num_points-1) starting from the given initial conditions and uses the configured relative and absolute tolerances.", "quantifier": "all integrators (any adaptive strategy, any number of evaluations), cycles and solvers", "why_tests_cant": "Quantifies over all adaptive query sequences.", "anchors": ["src/state_equations/integrator.rs: Integration::try_from, IntegrationState::system"]}
{"id": "C17", "title": "One state value per reported point", "statement": "Converting an integration into state values yields exactly one value per integration point, in order, with the point's time and conditions unchanged and a solution that is an upwind-consistent solution at that point; it panics exactly when one of these solves fails.", "quantifier": "integrations with any number of points", "why_tests_cant": "Unbounded list lengths and threaded hint.", "anchors": ["src/state_equations/integrator.rs: Integration::into_state_values"]}
{"id": "C18", "title": "All time series in the result are aligned", "statement": "The eleven series of engine values have the same length as the list of state values and the i-th entries all come from the i-th state value; in a successful run_engine result all thirteen series (including P_c and P_e) have equal length.", "quantifier": "any number of points; all successful runs", "why_tests_cant": "Unbounded lengths.", "anchors": ["src/engine/state.rs: From<Vec<state_equations::Values>> for Values", "src/api.rs: RunResults", "src/performance.rs: PressuresWithDrops::new"]}
{"id": "C19", "title": "Trapezoidal integration laws", "statement": "The integrate function equals the sum over consecutive samples of the mean ordinate times the abscissa difference; it is linear in y, additive when a grid is split at a sample, exact for affine functions, monotone on non-decreasing grids, zero for fewer than two samples, and ignores excess samples of the longer input.", "quantifier": "all lists of reals of any length", "why_tests_cant": "Unbounded lists, universally quantified reals.", "anchors": ["src/engine/state.rs: integrate", "src/performance.rs: integrate"]}
{"id": "C20", "title": "Pressure statistics are correct", "statement": "Pressure::from_values returns max and min that are attained and bound every sample, t_zero equal to the first sample, and - for a non-decreasing time grid starting at zero and ending later - an average between min and max that equals the trapezoidal time average; in f64 max and min are attained and bound every sample as long as no sample is NaN.", "quantifier": "all value series of any length", "why_tests_cant": "Unbounded lists; f64 ordering corner cases (signed zeros, infinities).", "anchors": ["src/engine/state.rs: Pressure::from_values"]}
{"id": "C21", "title": "Average mass flows are non-negative net averages", "statement": "MassFlows::from_values gives for each exchanger the trapezoidal time average of half the absolute value of the sum of the flows at its two interfaces; it is non-negative on every non-decreasing grid with positive final time, invariant under reversing all flows, and zero when the interface flows cancel at every sample.", "quantifier": "all value series of any length", "why_tests_cant": "Unbounded lists of reals.", "anchors": ["src/engine/state.rs: MassFlows::from_values, Values::m_dot_avg"]}
{"id": "C22", "title": "Average heat flows account for wall heat transfer, and agree between the state and the performance report", "statement": "HeatFlows::from_values gives the time averages of Q_dot_k, Q_dot_r, Q_dot_l, plus (T_c - T_chx)/R_c and (T_hhx - T_e)/R_e averages for finite resistances; with infinite resistances (adiabatic, the default) the wall terms vanish even in f64 for finite temperatures; the performance report's heat input and rejection use the same wall terms with the same signs.", "quantifier": "all value series, temperatures and resistances, including infinite ones", "why_tests_cant": "Unbounded lists and the infinite-resistance special case.", "anchors": ["src/engine/state.rs: HeatFlows::from_values", "src/performance.rs: Heats::new"]}
{"id": "C23", "title": "Regenerator temperatures honour approach and imbalance", "statement": "RegenImbalance::regen_temp places the cold side warmer than the chx by the approach (plus -imbalance if negative) and the hot side colder than the hhx by the approach (plus imbalance if non-negative): the smaller of the two temperature differences is the approach and hot minus cold difference is the imbalance.", "quantifier": "all temperatures, approaches and imbalances", "why_tests_cant": "Case split over sign with universally quantified reals.", "anchors": ["src/engine/state.rs: RegenImbalance::regen_temp, Temperatures::from_approach"]}
{"id": "C24", "title": "The effective regenerator temperature is a true log-mean", "statement": "Whenever the two end temperatures T_chx + approach_c/2 and T_hhx - approach_h/2 are positive and different, the effective regenerator temperature lies strictly between them and between their geometric and arithmetic means.", "quantifier": "all positive, distinct end temperatures", "why_tests_cant": "Transcendental inequality over a continuum.", "anchors": ["src/engine/state.rs: RegenImbalance::regen_temp"]}
{"id": "C25", "title": "Zero temperature difference across the regenerator is never reported as a converged engine", "statement": "In f64, if at some outer iteration any engine temperature is NaN, infinite or zero (for example the 0/0 log-mean that arises when the two regenerator end temperatures coincide), the run does not return Ok with it: every temperature (chx, hhx, regen cold/avg/hot) of an Ok engine is finite and non-zero.", "quantifier": "all f64 runs", "why_tests_cant": "Special values over all runs.", "anchors": ["src/engine/state.rs: RegenImbalance::regen_temp, Temperatures::is_converged", "src/engine.rs: Engine::run"]}
{"id": "C26", "title": "Sinusoidal drive kinematics", "statement": "For a sinusoidal drive the reported derivative is the true time derivative of the reported volume for both spaces; volumes repeat after one period 1/frequency, stay within [clearance, clearance + swept], and both bounds are attained; the expansion space leads the compression space by the phase angle in degrees.", "quantifier": "all times, frequencies, phase angles and non-negative geometries", "why_tests_cant": "Calculus statement over a continuum of times and parameters.", "anchors": ["src/ws/sinusoidal_drive.rs: SinusoidalDrive::volumes"]}
{"id": "C27", "title": "Rhombic drive kinematics", "statement": "For a rhombic drive with connecting rod longer than crank plus eccentricity and non-zero piston diameter the reported derivative is the true time derivative of the reported volume for both spaces and the volumes are periodic with period 1/frequency; the expansion volume never falls below its clearance volume; the compression volume never falls below its clearance volume if the eccentricity is at least the crank radius (and can otherwise).", "quantifier": "all times and admissible geometries", "why_tests_cant": "Calculus and geometric inequality over a continuum.", "anchors": ["src/ws/rhombic_drive.rs: RhombicDrive::volumes"]}
{"id": "C28", "title": "Rhombic drive ignores the displacer diameter", "statement": "Users expect every field of the rhombic drive configuration to be copied to the drive. The displacer diameter D_d is not: the drive built from a configuration uses D_p for both diameters, so D_d has no effect.", "quantifier": "all configurations", "why_tests_cant": "Statement about every configuration field.", "anchors": ["src/ws/rhombic_drive.rs: From<Config> for RhombicDrive"]}
{"id": "C29", "title": "Ideal-gas density and its derivatives are consistent", "statement": "For the ideal-gas fluids, pressure = density * gas constant * temperature, and the reported dd_dP_T, dd_dT_P and du_dP_T are the true partial derivatives of the reported density and internal energy.", "quantifier": "all positive temperatures and all pressures, both gases", "why_tests_cant": "Calculus statement over a continuum.", "anchors": ["src/fluid/ideal_gas.rs: IdealGas dens, dd_dP_T, dd_dT_P, du_dP_T"]}
{"id": "C30", "title": "Specific heat is the derivative of enthalpy for helium only", "statement": "Users expect cp to be the temperature derivative of enth and du_dT_P that of inte. This holds for helium; for hydrogen it fails: enth multiplies the integrated polynomial by (T - T_ref) instead of subtracting its value at T_ref.", "quantifier": "all temperatures, both gases", "why_tests_cant": "Calculus statement over a continuum.", "anchors": ["src/fluid/ideal_gas.rs: IdealGas::enth, cp, inte, du_dT_P"]}
{"id": "C31", "title": "Enthalpy and internal energy differ by P/rho minus a constant", "statement": "Users expect h = u + P/rho. The code's values satisfy h = u + P/rho - R*T_ref: enthalpy and internal energy are both zero at T_ref, so the identity fails by the constant R*T_ref at every temperature.", "quantifier": "all positive temperatures and non-zero pressures, both gases", "why_tests_cant": "Identity over a continuum.", "anchors": ["src/fluid/ideal_gas.rs: IdealGas::inte, enth, dens"]}
{"id": "C32", "title": "Fixed-conductance cold and hot heat exchangers obey the effectiveness-NTU relation", "statement": "For positive heat capacity rate and conductance the approach A of a fixed-conductance chx or hhx satisfies Q = effectiveness * C * (A + Q/C) with effectiveness = 1 - exp(-UA/C), has the sign of Q, decreases strictly with growing UA for positive Q, and tends to zero; both exchangers compute the same function.", "quantifier": "all positive conductances and capacity rates, all heat flows", "why_tests_cant": "Transcendental relation over a continuum.", "anchors": ["src/chx/fixed_conductance.rs", "src/hhx/fixed_conductance.rs"]}
{"id": "C33", "title": "Fixed-conductance regenerator approach", "statement": "For positive heat capacity rate and conductance the regenerator approach is (T_hhx - T_chx)/(1 + UA/(2C)); it lies strictly between zero and the temperature difference and decreases strictly as UA grows.", "quantifier": "all positive conductances and capacity rates, T_hhx > T_chx", "why_tests_cant": "Inequality over a continuum.", "anchors": ["src/regen/fixed_conductance.rs"]}
{"id": "C34", "title": "Zero mass flow through a fixed-conductance exchanger cannot be reported as converged", "statement": "In f64, if the average mass flow through a fixed-conductance exchanger evaluates to zero, the update never accepts the new temperatures as converged and yields a state with a non-finite temperature of that exchanger (NaN for the regenerator and, for a flow of +0 and a platform exp with exp(-inf) = +0, also for the two other exchangers): no silent wrong answer.", "quantifier": "all f64 states with zero mass flow and finite positive conductance and heat capacity", "why_tests_cant": "f64 special values.", "anchors": ["src/chx/fixed_conductance.rs", "src/hhx/fixed_conductance.rs", "src/regen/fixed_conductance.rs", "src/engine/state.rs: State::update"]}
{"id": "C35", "title": "Pressure drops split symmetrically around the common pressure", "statement": "At each sample the compression- and expansion-space pressures average to the common pressure and differ by the sum over the three exchangers of hydraulic resistance times mean volumetric flow; with zero hydraulic resistances both equal the common pressure and the indicated power equals the ideal indicated power.", "quantifier": "all engines, any number of samples", "why_tests_cant": "Pointwise identity over unbounded series.", "anchors": ["src/performance.rs: PressuresWithDrops::new, calculate_hx_pressure_drop, Powers::new"]}
{"id": "C36", "title": "The power chain adds up", "statement": "In every result: indicated - shaft equals the mechanical parasitics of the two working spaces, shaft - net equals the mechanical parasitics of chx and hhx, torque times 2*pi*frequency equals shaft power, and mechanical efficiency times heat input equals net power; indicated powers are frequency times the cycle integral of pressure times volume derivative.", "quantifier": "all engines and results (exact arithmetic, non-zero frequency and heat input)", "why_tests_cant": "Identity over all engines and unbounded series.", "anchors": ["src/performance.rs: Powers::new, Performance::from", "src/api.rs"]}
{"id": "C37", "title": "First-law closure of the performance report", "statement": "In exact arithmetic, for an engine whose values come from successful state-equation solves, heat input - heat rejection - shaft power equals frequency times the trapezoidal cycle integral of (dU/dt + Q_dot_r + working-space thermal parasitics) plus the wall heat terms; when the wall terms vanish (as for adiabatic walls) and there are no thermal parasitics it is exactly the cycle change of internal energy plus the net regenerator heat.", "quantifier": "all engines, any number of samples", "why_tests_cant": "Identity combining ten balance equations per sample over unbounded series.", "anchors": ["src/performance.rs: Heats::new, Powers::new", "src/state_equations/solver.rs"]}
{"id": "C38", "title": "Performance calculation never hits mismatched vector dimensions", "statement": "For every engine returned by a successful run, computing RunResults raises no dimension-mismatch panic; panics can only come from user component methods.", "quantifier": "all successful runs", "why_tests_cant": "Panic-freedom over all runs and lengths.", "anchors": ["src/performance.rs", "src/api.rs: From<Engine<T>> for RunResults"]}
{"id": "C39", "title": "Legacy configurations convert faithfully", "statement": "Converting a legacy configuration preserves component choice and parameters, maps T_cold/T_hot/P_0 to sink/source/pres_zero, keeps every tolerance in its own role, uses time_resolution as number of timesteps and 20 as both iteration limits; the run settings and inputs derived from it carry the same values.", "quantifier": "all legacy configurations", "why_tests_cant": "Statement about every field of every configuration.", "anchors": ["src/config.rs: From<Legacy> for Config", "src/types.rs: From impls", "src/fluid.rs: LegacyConfig::into", "src/ws.rs, src/chx.rs, src/regen.rs, src/hhx.rs: LegacyConfig::into"]}
{"id": "C40", "title": "Supported configurations are exactly those that can be constructed", "statement": "run_engine panics as 'not implemented' before running whenever the fluid model is not ideal gas or any component is GPU3, Mod2 or a nuclear-isomer exchanger; for all other configurations construction succeeds, the built components never panic, and carry the configured parameters (volume, approach or conductance, initial approach, hydraulic resistance, parasitics in their right slots).", "quantifier": "all configurations", "why_tests_cant": "Exhaustive case analysis over configurations with universally quantified parameters.", "anchors": ["src/api.rs: run_engine", "src/engine.rs: From<ComponentsConfig> for Components", "src/*/gpu3.rs, src/*/mod2.rs, src/hhx/ni_*.rs"]}
{"id": "C41", "title": "A run whose state equations cannot be solved panics", "statement": "Users expect (as documented) Err(RunError) when a converged engine cannot be created. The code panics instead when a state-equation solve fails during integration: with a matrix solver that fails, every run whose integrator evaluates the system panics.", "quantifier": "all runs; failing solvers", "why_tests_cant": "Absence of panics over all runs is not testable.", "anchors": ["src/state_equations/integrator.rs: IntegrationState::system, Integration::into_state_values", "src/engine.rs: Engine::run"]}
{"id": "C42", "title": "Resolution lower bound", "statement": "With resolution 0, every integration of that resolution panics in builds with overflow checks (and is treated as 2^32-1 intervals otherwise); with resolution n >= 1 the requested step is period/(n-1) (infinite in f64 for n = 1 and positive finite period).", "quantifier": "all cycles and u32 resolutions", "why_tests_cant": "All u32 values and integrators.", "anchors": ["src/state_equations/integrator.rs: Integration::try_from"]}
{"id": "C43", "title": "The enthalpy normalisation can vanish", "statement": "Users expect a run between two positive temperatures to be well-posed. The normalising enthalpy is the mean of the sink and source enthalpies relative to 250 K; for helium it is zero in f64 whenever the two temperatures add up to 500 K (e.g. 200 K and 300 K), which puts non-finite entries into the f64 state matrix at every time and for every flow direction.", "quantifier": "all sink/source temperatures", "why_tests_cant": "Degenerate set of measure zero that random tests never hit.", "anchors": ["src/engine/run.rs: Run::new", "src/state_equations/solver.rs: System::new"]}
{"id": "C44", "title": "Results are a faithful copy of the engine", "statement": "RunResults contains exactly the state temperatures, pressures, flows and series of the engine under their own names and the computed performance figures under theirs.", "quantifier": "all engines", "why_tests_cant": "Field-by-field statement for all engines.", "anchors": ["src/api.rs: From<Engine<T>> for RunResults"]}
{"id": "C45", "title": "Overall efficiency is the constant zero", "statement": "Users expect efficiency.overall to be an efficiency accounting for electrical parasitics. It is the constant zero, and electrical parasitics affect no result at all.", "quantifier": "all engines", "why_tests_cant": "Statement about all engines.", "anchors": ["src/api.rs: From<Engine<T>> for RunResults", "src/performance.rs"]}
{"id": "C46", "title": "Wall heat transfer does not act on the gas", "statement": "Users expect a finite working-space thermal resistance to influence gas temperatures. The state equations do not depend on it: two drives that differ only in thermal resistance produce identical state-equation inputs at every time and condition, hence identical steady-state values.", "quantifier": "all pairs of drives, times and conditions", "why_tests_cant": "Independence statement over all runs.", "anchors": ["src/engine/run.rs: Run::comp_inputs, exp_inputs", "src/engine/state.rs: HeatFlows::from_values"]}
{"id": "C47", "title": "Looser tolerances accept more", "statement": "Raising the absolute or relative tolerance never turns a converged comparison into an unconverged one.", "quantifier": "all tolerances and values, in exact arithmetic and in f64", "why_tests_cant": "Monotonicity over all values.", "anchors": ["src/types.rs: ConvergenceTolerance::is_converged"]}
{"id": "C48", "title": "Work bound", "statement": "A run performs at most max_iters.outer * (max_iters.inner + 1) integrations and always terminates if each integration does.", "quantifier": "all runs", "why_tests_cant": "Bound over all histories.", "anchors": ["src/engine.rs: Engine::run", "src/state_equations/cycle.rs: Cycle::find_steady_state"]}
{"id": "C49", "title": "Flow direction of special values", "statement": "In f64, a mass flow of +0 or -0 or any positive value (including infinity) counts as positive; negative values and NaN count as negative, so a NaN solution is accepted by the flow-direction test rather than rejected.", "quantifier": "all f64 values", "why_tests_cant": "f64 special values.", "anchors": ["src/state_equations/flow_direction.rs: Direction::from_value", "src/state_equations/solver.rs: solve"]}
{"id": "C50", "title": "End-of-cycle guard", "statement": "The 1e-14 s added to the integration end time is effective only for short periods: in f64 it strictly increases the end time for every positive period below 128 s and is absorbed completely by rounding for every finite period of at least 128 s.", "quantifier": "all f64 periods", "why_tests_cant": "Rounding statement over all f64 values.", "anchors": ["src/state_equations/integrator.rs: Integration::try_from"]}
{"id": "C51", "title": "Every panic of a run has one of the known causes", "statement": "If Engine::run panics, then some component method panicked with that reason, or at some outer iteration the state equations of that iteration's cycle could not be solved at some time and condition, or the integrator reported no point at all, or no output points were requested in a build with overflow checks.", "quantifier": "all components, fluids, integrators, matrix solvers, inputs and settings", "why_tests_cant": "Quantifies over all panicking and non-panicking executions.", "anchors": ["src/engine.rs: Engine::run", "src/engine/run.rs", "src/state_equations.rs"]}
{"id": "C52", "title": "A successful run is a chain of unconverged iterations followed by a converged one", "statement": "If Engine::run returns Ok(engine), the returned state is reached from the initial hint by fewer than max_iters.outer unconverged outer iterations, each of which found a steady state and replaced pressures, flows and temperatures by those recomputed from it, and the returned values are a steady state of the returned state that reproduces its temperatures within the outer tolerance.", "quantifier": "all components, fluids, integrators, matrix solvers, inputs and settings", "why_tests_cant": "Describes all executions of any length.", "anchors": ["src/engine.rs: Engine::run", "src/engine/state.rs: State::update"]}
{"id": "C53", "title": "run_from_config agrees with run_engine", "statement": "run_from_config returns exactly the results of run_engine, panics with its panic, and turns every run error into a panic.", "quantifier": "all configurations, integrators and matrix solvers", "why_tests_cant": "Equality of two entry points for all configurations.", "anchors": ["src/lib.rs", "src/api.rs: run_engine"]}
{"id": "C54", "title": "Helium engines can always be evaluated", "statement": "In exact arithmetic, for every engine filled with helium whose sink and source temperatures do not average 250 K, at every time at which both working-space volumes are positive and at all conditions with positive pressure and temperatures above R*250/cp (about 100 K), the state-equation solve succeeds from every hint, conserves mass and energy, and every other correct solver and hint gives the same solution.", "quantifier": "all helium engines, times, conditions, hints and correct matrix solvers", "why_tests_cant": "the hypotheses are an infinite set of conditions and every pairing of hints; a test visits finitely many points with one solver", "anchors": ["src/state_equations/solver.rs: solve, System::new, System::solve", "src/engine/run.rs: Run::calculate_inputs", "src/fluid/ideal_gas.rs"]}
{"id": "C55", "title": "The amount of gas in the engine is constant along exact trajectories", "statement": "In exact arithmetic, along every trajectory of pressure and temperatures that moves with the derivatives the state equations give, with volumes whose reported derivatives are true, the total mass of gas in the five control volumes is the same at the end as at the start.", "quantifier": "both gases, all trajectories on all intervals, all engines and correct solvers", "why_tests_cant": "a statement about exact solutions of the differential equation; numerical runs only show it up to integration error", "anchors": ["src/state_equations/solver.rs: solve", "src/engine/run.rs: Run::calculate_inputs", "src/fluid/ideal_gas.rs"]}
{"id": "C56", "title": "The energy of the helium in the engine changes by heat and work only", "statement": "In exact arithmetic, along every trajectory that moves with the derivatives the state equations give, the internal energy of the helium in the engine changes at the rate Q_l - Q_k - Q_r - (thermal parasitics) - P dV/dt.", "quantifier": "all helium engines with non-zero normalising enthalpy, trajectories, times and correct solvers", "why_tests_cant": "needs derivatives of exact trajectories; a numerical run shows it only up to integration error", "anchors": ["src/state_equations/solver.rs: solve", "src/engine/run.rs: Run::calculate_inputs", "src/fluid/ideal_gas.rs"]}
{"id": "C57", "title": "The solver computes exactly the solution of the balances", "statement": "In exact arithmetic and for physical inputs, the state-equation solve returns s from a hint if and only if s satisfies the ten mass and energy balances with the enthalpies of the volumes the gas comes from; in particular such an s exists, is unique, and is found from every hint.", "quantifier": "all physical inputs, hints and correct matrix solvers", "why_tests_cant": "the converse direction says that no other solution of the non-linear upwind balances exists, which no number of runs shows", "anchors": ["src/state_equations/solver.rs: solve, System::new, System::solve", "src/state_equations/flow_direction.rs"]}
{"id": "C58", "title": "Running k times as fast scales every flow, heat and derivative by k", "statement": "In exact arithmetic and for physical inputs, when the volume derivatives and thermal losses of both working spaces are multiplied by k >= 0, the state-equation solve returns exactly k times the previous mass flows, heat flows and derivatives of temperatures and pressure, from every hint. Both drives at k times their frequency have the volumes of the original drive at k times the time, with k times the volume derivatives; so an engine run at k times the speed passes through the same pressures and temperatures k times as fast.", "quantifier": "all physical inputs, factors k >= 0, hints and correct matrix solvers; both drives, all geometries and times", "why_tests_cant": "a relation between infinitely many pairs of solves, in which the discrete choice of flow directions must come out the same", "anchors": ["src/state_equations/solver.rs: solve, System::new, System::solve", "src/state_equations/flow_direction.rs", "src/engine/run.rs: Run::calculate_inputs", "src/ws/sinusoidal_drive.rs", "src/ws/rhombic_drive.rs"]}
{"id": "C59", "title": "An engine at rest stays at rest", "statement": "In exact arithmetic and for physical inputs, when no volume changes and no working space loses heat, the solve returns all flows, heats and derivatives zero, whatever the temperature differences between the five volumes and whatever the hint.", "quantifier": "all physical inputs without motion and losses, all hints and correct matrix solvers", "why_tests_cant": "with zero flows the flow directions are undetermined, so all 81 direction cases have to lead to the same answer", "anchors": ["src/state_equations/solver.rs: solve, System::new, System::solve", "src/state_equations/flow_direction.rs"]}
{"id": "C60", "title": "The two ends of the engine are interchangeable", "statement": "In exact arithmetic and for physical inputs, exchanging compression space and cold exchanger with expansion space and hot exchanger gives the mirrored solution: flows in the reverse order with opposite sign, cold and hot heat exchanged with opposite sign, temperature derivatives exchanged, pressure derivative and regenerator heat unchanged. The same holds for the inputs an engine run computes.", "quantifier": "all physical inputs, hints and correct matrix solvers; all runs, times and conditions", "why_tests_cant": "catches any sign or index error in the ten equations that affects one side only; a test compares single numbers", "anchors": ["src/state_equations/solver.rs: solve, System::new, System::solve", "src/state_equations/flow_direction.rs", "src/engine/run.rs: Run::calculate_inputs"]}
{"id": "C61", "title": "Charge pressure scales flows and heats, not temperatures", "statement": "In exact arithmetic, at k times the pressure and k times the thermal losses of the working spaces an engine filled with helium or hydrogen has k times the mass flows, heat flows and pressure derivative, and the same temperature derivatives.", "quantifier": "both gases, all runs with physical inputs, times, conditions, k > 0, hints and correct matrix solvers", "why_tests_cant": "an exact scaling law over all engines; runs at two pressures show it for one engine up to rounding", "anchors": ["src/state_equations/solver.rs: solve, System::new, System::solve", "src/state_equations/flow_direction.rs", "src/engine/run.rs: Run::calculate_inputs", "src/fluid/ideal_gas.rs"]}
{"id": "C62", "title": "The zero of the enthalpy scale and the normalising enthalpy do not matter", "statement": "In exact arithmetic and for physical inputs, adding the same amount to all enthalpies and internal energies and using any non-zero normalising enthalpy leaves the solution unchanged.", "quantifier": "all physical inputs, shifts, non-zero norms, hints and correct matrix solvers", "why_tests_cant": "the reference temperature of the gas is a constant of the program, so no test varies it", "anchors": ["src/state_equations/solver.rs: solve, System::new, System::solve", "src/state_equations/flow_direction.rs", "src/fluid/ideal_gas.rs: enth, inte"]}
{"id": "C63", "title": "Pressure is determined by volumes and temperatures, so it returns when they return", "statement": "In exact arithmetic, along every trajectory of the state equations pressure times the sum of volume over temperature is constant; hence if over an interval the working-space volumes and temperatures return to their initial values, so does the pressure. This is why the steady-state test of the inner loop may look at the two temperatures only.", "quantifier": "both gases, all engines, trajectories, intervals and correct matrix solvers", "why_tests_cant": "a statement about exact solutions of the differential equation", "anchors": ["src/state_equations/solver.rs: solve, System::new, System::solve", "src/state_equations/flow_direction.rs", "src/engine/run.rs: Run::calculate_inputs", "src/state_equations/cycle.rs: is_cyclic"]}
{"id": "C64", "title": "Over a cycle the heat taken up equals the work done (helium)", "statement": "In exact arithmetic, along every trajectory of a helium engine the change of internal energy over an interval is the heat taken up (hot exchanger minus cold exchanger minus regenerator minus thermal losses) minus the work P dV done; over an interval at whose end volumes and temperatures return, heat and work are equal.", "quantifier": "all helium engines with non-zero normalising enthalpy, all trajectories, intervals and correct matrix solvers", "why_tests_cant": "energy balance over a cycle holds exactly only for exact trajectories; numerical runs show it up to integration error", "anchors": ["src/state_equations/solver.rs: solve, System::new, System::solve", "src/state_equations/flow_direction.rs", "src/engine/run.rs: Run::calculate_inputs"]}
{"id": "C65", "title": "Flows, heats and derivatives depend continuously on the inputs", "statement": "In exact arithmetic, when physical inputs converge to physical inputs, the solutions converge to the solution, also where a flow changes direction and also when different hints are used. For an engine run with either gas this holds for converging times, pressures and temperatures, and both drives' volumes and volume derivatives are continuous in time; so the right-hand side handed to the ODE solver is continuous.", "quantifier": "all sequences of physical inputs, hints and correct matrix solvers; both gases and drives", "why_tests_cant": "the right-hand side is defined by 81 cases of flow direction; continuity across all case boundaries is not a finite check", "anchors": ["src/state_equations/solver.rs: solve, System::new, System::solve", "src/state_equations/flow_direction.rs", "src/engine/run.rs: Run::calculate_inputs", "src/ws/sinusoidal_drive.rs", "src/ws/rhombic_drive.rs"]}
{"id": "C66", "title": "Hydraulic resistances and exchanger parasitics do not influence a run", "statement": "If two sets of components agree on volumes, approaches, drive motion, wall resistances and thermal losses of the working spaces, the run makes the same number of integrations and panics, fails or succeeds alike with the same state and the same values. Hydraulic resistances, all parasitics of the three exchangers and mechanical and electrical parasitics of the working spaces are not among these: in the fixed-approach and fixed-conductance exchangers and in both drives they can be changed freely. They enter the performance report only.", "quantifier": "all components (also user-defined), fluids, inputs, settings, ODE and matrix solvers, and number types", "why_tests_cant": "non-interference over all pairs of engines", "anchors": ["src/engine.rs: Engine::run", "src/engine/state.rs: State::update, State::new", "src/engine/run.rs: Run::new"]}
{"id": "C67", "title": "Hydrogen engines can be evaluated at every temperature from 100 K up", "statement": "In exact arithmetic, for a hydrogen engine with sink at 250 K or above and source above 250 K, positive pressure and working volumes, gas temperatures of at least 100 K and non-negative exchanger volumes, the state-equation solve succeeds from every hint, conserves mass and energy and gives the same solution from every hint and matrix solver.", "quantifier": "all hydrogen engines, times and conditions as described, hints and correct matrix solvers", "why_tests_cant": "needs bounds on fifth and sixth degree polynomials over an unbounded temperature range", "anchors": ["src/state_equations/solver.rs: solve, System::new, System::solve", "src/state_equations/flow_direction.rs", "src/engine/run.rs: Run::calculate_inputs", "src/fluid/ideal_gas.rs: IdealGas::hydrogen"]}
{"id": "C68", "title": "The energy of hydrogen is not conserved: its heat capacity is not the derivative of its internal energy", "statement": "Expected: along trajectories the internal energy of hydrogen in the engine changes by heat and work only, as for helium. Refuted: it changes at that rate minus m (du_dT_P - u'(T)) dT/dt of each working space, where u' is the derivative of the internal energy the gas model reports; for two charges of hydrogen heated at constant volume the difference is not zero.", "quantifier": "all hydrogen engines, trajectories, times and correct matrix solvers; one concrete trajectory for the refutation", "why_tests_cant": "the tests compare gas properties with snapshots at one temperature and with zero at the reference, and never form derivatives", "anchors": ["src/fluid/ideal_gas.rs: enth, inte, du_dT_P", "src/state_equations/solver.rs"]}
{"id": "C69", "title": "A run is made of exactly what the configuration asks for", "statement": "Running a supported configuration is the engine run with the named gas, the components built from the component configurations, sink and source temperatures and pressure of the conditions, and for each loop its own tolerances and iteration limit, for the ODE solver its own tolerances and number of steps. Panics, errors and results of that run are passed on unchanged. The settings and inputs are determined uniquely by the configuration.", "quantifier": "all supported configurations, ODE and matrix solvers, and number types", "why_tests_cant": "a swapped tolerance or limit usually changes results only slightly; the one test that runs an engine only checks that it converges", "anchors": ["src/lib.rs: run_engine", "src/config.rs: Config", "src/types.rs: RunInputs, RunSettings From impls", "src/fluid.rs: from_config"]}
{"id": "C70", "title": "The drives' volumes are those of the configured geometry", "statement": "In exact arithmetic, the sinusoidal drive has the configured clearance plus swept volumes, the expansion space leading by the phase angle in degrees. The rhombic drive's volumes are those of a crank and two rods of the configured dimensions whose ends slide on the axis, with the piston diameter used for the displacer (C28); with the displacer diameter in its place the volumes are those of the geometry. Both clearance volumes are reached within a turn, and the volume derivatives are the derivatives of the volumes.", "quantifier": "all drive configurations (rhombic: rods longer than eccentricity plus crank radius), states and times", "why_tests_cant": "the tests check the sinusoidal drive at quarter turns and the rhombic drive not at all; agreement with the linkage at all angles is a trigonometric identity", "anchors": ["src/ws/sinusoidal_drive.rs", "src/ws/rhombic_drive.rs", "src/ws.rs: from_config"]}
{"id": "C71", "title": "The second law fails: helium of uniform temperature separates into cold and warm gas", "statement": "Expected: along trajectories no volume destroys entropy. In exact arithmetic the entropy made in compression space, expansion space and both exchangers is the entropy of mixing of inflowing gas, which is not negative, plus k m/T for the streams, where k is the difference between internal energy as the gas model has it and enthalpy minus R T. For a gas with k = 0 the second law holds. The code's helium has k = R times 250 K, because inte subtracts R (T - T_ref); refuted for it: gas at 300 K throughout, pushed at constant pressure from one space to the other without heat and net work, cools in one and warms in the other.", "quantifier": "all engines with ideal gas of constant heat capacity, trajectories, times and correct matrix solvers; one concrete engine for the refutation", "why_tests_cant": "entropy is not computed by the code; the tests of gas properties compare single values and cannot see an inconsistency between enthalpy and internal energy", "anchors": ["src/fluid/ideal_gas.rs: inte, enth", "src/state_equations/solver.rs: System::new", "src/engine/run.rs: Run::calculate_inputs"]}
{"id": "C72", "title": "Reported averages are accurate to second order in the time step", "statement": "In exact arithmetic, the code's integration of samples of a function differs from its integral by at most M/12 times the sum of cubed steps if the second derivative is bounded by M, and by at most K/4 times the sum of squared steps if the function changes at most K times as fast as its argument. Hence reported average pressure, regenerator imbalance and heat input are within M h^2/12 of the true averages and the average exchanger mass flow within K h/4. The bound is attained.", "quantifier": "all functions, grids and series", "why_tests_cant": "an error bound over all functions is not a finite check", "anchors": ["src/engine/state.rs: integrate", "src/types.rs: integrate", "src/engine/state.rs: pressure, mass flow and heat averages"]}
{"id": "C73", "title": "A configuration file is read as spelled", "statement": "A configuration is read from a document if and only if the document has, at the path of every field, one value of the right kind, and the configuration holds these values; component choices are given by the variant's name. Entries of a struct's table that are not named like a field are ignored. The solver settings and operating conditions of the run are the numbers of the document. Finding: serde's snake case turns GPU3, GPU3NI and Mod2NI into g_p_u3, g_p_u3_n_i and mod2_n_i, a document with gpu3 is rejected.", "quantifier": "all documents, configurations and ways to read scalars that tell the variant names apart", "why_tests_cant": "one document is tested; the statement is about every field of every variant", "anchors": ["src/config.rs: Config", "src/engine.rs: Config, ComponentsConfig", "src/types.rs: SolverConfig, ConditionsConfig", "src/fluid.rs: Config, ModelConfig", "src/ws.rs, src/chx.rs, src/regen.rs, src/hhx.rs: Config"]}
{"id": "C74", "title": "A legacy file is read as spelled", "statement": "The same for legacy documents: the variant is named by model and its values are in params; tolerances, time resolution and operating conditions of the run are the numbers of the document, and both loops have 20 iterations at most.", "quantifier": "all documents, legacy configurations and pairs of ways to read scalars, direct and from serde's buffer", "why_tests_cant": "one document is tested; the statement is about every field of every variant", "anchors": ["src/config.rs: Legacy", "src/types.rs: LegacySolverConfig, LegacyConditionsConfig", "src/fluid.rs, src/ws.rs, src/chx.rs, src/regen.rs, src/hhx.rs: LegacyConfig"]}
{"id": "C75", "title": "The order of entries does not matter in a configuration file, but does in a legacy file", "statement": "Reordering the entries of a document does not change the configuration read. For legacy documents this holds if scalars in serde's buffer are read like others. Finding: the buffer takes no string for a float, so that the legacy example, which gives thermal resistances as the string inf, is read with model before params and rejected the other way round.", "quantifier": "all documents and reorderings; one document for the refutation", "why_tests_cant": "the order in which a hash map is iterated differs between runs, a test passes or fails by chance", "anchors": ["src/ws.rs: LegacyConfig", "examples/run_from_legacy_config.rs", "src/config.rs: tests"]}
{"id": "C76", "title": "An engine with an unfinished component panics", "statement": "Every method of the GPU3, Mod2 and nuclear-isomer components panics with todo. The GPU3, Mod2 and nuclear-isomer structs are public and have no fields, so they can be put into an engine without a configuration. With such an exchanger or regenerator every run panics with todo, whatever the inputs and even if no iteration is allowed; with such working spaces every run panics with todo, except that no allowed outer iteration gives the outer-loop error.", "quantifier": "all components, fluids, inputs, settings, integrators and decompositions", "why_tests_cant": "the statement is about every combination with other components and settings", "anchors": ["src/ws/gpu3.rs", "src/ws/mod2.rs", "src/chx/gpu3.rs", "src/chx/mod2.rs", "src/regen/gpu3.rs", "src/regen/mod2.rs", "src/hhx/gpu3.rs", "src/hhx/mod2.rs", "src/hhx/ni_gpu3.rs", "src/hhx/ni_mod2.rs"]}
{"id": "C77", "title": "A successful run has sane inputs and settings", "statement": "In f64, a run that succeeds has finite sink and source temperatures, all four tolerances of the loops are greater than zero and neither iteration limit is zero; the first gas temperatures it reports are finite and not zero. So NaN, infinite or zero settings are never answered with a result.", "quantifier": "all f64 inputs and settings, components, fluids, decompositions and integrators (that report the start, for the gas temperatures)", "why_tests_cant": "the statement is about every engine and every bad setting", "anchors": ["src/engine.rs: run", "src/types.rs: ConvergenceTolerance::is_converged", "src/engine/state.rs: Temperatures::is_converged", "src/state_equations.rs: find_steady_state"]}
{"id": "C78", "title": "An exact trajectory is determined by one of its states", "statement": "Two exact trajectories of the same engine through physical states (each with its own sound matrix decomposition) that agree at one time of an interval agree at all times of the interval, earlier and later. The state equations switch enthalpies when a flow changes direction, so this is not automatic; it holds for both gases, any volume functions with continuous rates, and so for both drives.", "quantifier": "all runs with either gas, all pairs of trajectories, intervals and sound decompositions; exact arithmetic", "why_tests_cant": "the statement is about all trajectories of a differential equation with switching right-hand side", "anchors": ["src/state_equations.rs: solve", "src/state_equations/solver.rs", "src/engine/run.rs: calculate_inputs"]}
{"id": "C79", "title": "Comparing the two gas temperatures after one cycle is the right test for a steady cycle", "statement": "If along an exact trajectory of a driven engine the compression and expansion temperatures have returned after one period, then pressure, both temperatures and so the whole state repeat in every later cycle for ever. The inner loop compares only these two temperatures; nothing more needs to be compared.", "quantifier": "all engines with sinusoidal or rhombic drive and either gas, all trajectories, times and numbers of cycles; exact arithmetic", "why_tests_cant": "a test observes finitely many cycles of finitely many engines", "anchors": ["src/state_equations.rs: find_steady_state", "src/types.rs: ConvergenceTolerance::is_converged", "src/ws/sinusoidal_drive.rs", "src/ws/rhombic_drive.rs"]}
{"id": "C80", "title": "The initial value problem posed to the integrator is solvable", "statement": "From every physical state (positive pressure, volumes and temperatures in the range of the gas model) an exact trajectory of the state equations starts, through every accepted solution of a sound and complete decomposition. It lasts for the whole requested time span, or until pressure or a gas temperature has left the ranges given beforehand. Together with C78 there is exactly one such trajectory: the integrator is asked a well-posed question.", "quantifier": "all ideal-gas engines with sinusoidal or rhombic drive, all physical starting states, time spans and ranges; all sound and complete decompositions; exact arithmetic", "why_tests_cant": "existence of exact solutions cannot be observed by running a numerical integrator", "anchors": ["src/state_equations.rs: find_steady_state, solve", "src/engine/run.rs: Run::calculate_inputs", "src/ws/sinusoidal_drive.rs", "src/ws/rhombic_drive.rs"]}
{"id": "C81", "title": "Averages over a cycle are accurate to the number of samples times the unit roundoff", "statement": "When no operation overflows, the integral and the averages computed in f64 (pressure, mass flows, regenerator heat) differ from the exact trapezoidal values of the same samples by at most (1+u)^(n+4..7) - 1 times the integral of the magnitudes, u = 2^-53 and n panels, plus a bound below 1e-300 for underflow. For up to 1000 panels and periods of a microsecond or more that is a relative error of at most 1.2e-13 for pressures and mass flows. Computed average mass flows are never negative.", "quantifier": "all sample lists and all f64 values for which the result is finite; every number of panels", "why_tests_cant": "a test compares a few sums; the bound holds for all samples, lengths and orders of magnitude", "anchors": ["src/engine/state.rs: integrate, Values::m_dot_avg, Pressure::from_values, HeatFlows::from_values"]}
{"id": "C82", "title": "In f64 the average pressure can leave the range of the pressures, but hardly (finding)", "statement": "In exact arithmetic the average pressure lies between the least and the greatest sample (C20). In f64 it does not: eight samples of exactly 101325 Pa over 7 ms give an average above all of them. The excess is bounded: the average lies between (1-g) times the minimum and (1+g) times the maximum, up to underflow, with g = (1+u)^(n+5) - 1.", "quantifier": "the witness: one series; the bound: all finite non-negative samples on all ordered time grids", "why_tests_cant": "assertions with a tolerance hide it, and no finite set of series bounds the excess", "anchors": ["src/engine/state.rs: Pressure::from_values, integrate"]}
{"id": "C83", "title": "Rounding does not reorder the temperatures of an engine", "statement": "With approach temperature differences that are not negative, the f64 temperatures satisfy sink <= chx <= regenerator cold end and regenerator hot end <= hhx <= source, for every imbalance of the regenerator. Every successful run with such exchangers (all fixed approaches not below zero among them) reports temperatures in this order.", "quantifier": "all f64 temperatures, approaches and imbalances with finite results; all runs, environments, decompositions, gases and settings", "why_tests_cant": "a test sees finitely many rounding patterns", "anchors": ["src/engine/state.rs: Temperatures::from_approach, regen_temp", "src/engine.rs: Engine::run", "src/chx/fixed_approach.rs", "src/regen/fixed_approach.rs", "src/hhx/fixed_approach.rs"]}
{"id": "C84", "title": "Rounded volumes of the sinusoidal drive stay between clearance and clearance plus swept volume", "statement": "If the system's cosine never leaves [-1, 1], both f64 volumes are finite, at least the clearance volume, and at most the f64 sum of clearance and swept volume, at all times for which the crank angle is finite. So a drive with positive clearances never hands a zero or negative volume to the state equations.", "quantifier": "all drives with finite non-negative volumes (swept zero or at least 2^-1021), all times with finite angle, all mathematical libraries with bounded cosine", "why_tests_cant": "a test evaluates finitely many angles", "anchors": ["src/ws/sinusoidal_drive.rs: volumes"]}
{"id": "C85", "title": "Comparing two temperatures is enough: the pressure returns within the same tolerance", "statement": "Along an exact trajectory of an engine with an ideal gas whose volumes repeat after a time, the pressure changes over that time by no larger factor than the two gas temperatures do. In particular, if the convergence test of the inner loop accepts the first and last point of a cycle (it compares the two temperatures only), the pressure has also returned within the same relative tolerance.", "quantifier": "all engines with the built-in gases, all exact trajectories through physical states, all tolerances, any number of points between", "why_tests_cant": "a test integrates one engine; the claim covers all of them and all tolerances", "anchors": ["src/state_equations/integrator.rs: Integration::is_converged", "src/state_equations/cycle.rs: find_steady_state"]}
{"id": "C86", "title": "Exact trajectories depend continuously on where they start", "statement": "For every box of physical states and every time interval there is one constant L such that any two exact trajectories inside the box, at distance d at time a, are at most 2 exp(L (t-a)) d apart at time t. With C78 and C80 the initial value problem the code integrates is well posed. Driven engines with helium (and with hydrogen above 250 K) have such boxes.", "quantifier": "all engines with the built-in gases and smooth volumes, all boxes of physical states, all pairs of trajectories and start times", "why_tests_cant": "a constant for all pairs of trajectories cannot be established by runs", "anchors": ["src/engine/run.rs: calculate_inputs", "src/state_equations/solver.rs: solve", "src/state_equations/integrator.rs"]}
{"id": "C87", "title": "Small errors of the rates make small errors of the states", "statement": "With the same constant: two differentiable courses inside the box whose rates differ from accepted solutions of the state equations by at most e and e' are at most 2 exp(L (t-a)) (d + e + e') apart. So whatever integrator is used, one that keeps its residual below e stays that close to the exact trajectory.", "quantifier": "as C86, all error bounds e, e' >= 0", "why_tests_cant": "no run compares with the exact solution", "anchors": ["src/state_equations/integrator.rs: system", "src/state_equations/solver.rs: solve"]}
{"id": "C88", "title": "An accepted cycle is nearly the steady one", "statement": "For every engine and box of physical states there is a constant K such that, if after one period both gas temperatures are back within the tolerance of the inner loop, then the whole following cycle differs from the accepted one by at most K times the relative tolerance at every moment.", "quantifier": "all engines with the built-in gases and repeating smooth volumes, all boxes, all exact trajectories in them over two periods, all tolerances", "why_tests_cant": "a test sees one engine and one tolerance; the bound is linear in every tolerance", "anchors": ["src/state_equations/cycle.rs: find_steady_state", "src/state_equations/integrator.rs: Integration::is_converged"]}
{"id": "C89", "title": "Default components are lossless and agree with the default configurations, except the rhombic drive (finding)", "statement": "Converting the default configuration of each of the six implemented heat exchangers gives its default component; for the rhombic drive it gives the default drive with the displacer as wide as the piston, which is not the default drive. All default components take no power, resist no flow and exchange no heat with the walls; the default drives turn. The constructors put every argument in its place. In exact arithmetic the engine of the crate's end-to-end test poses a well-defined initial value problem: from every state with pressure and temperatures in range a solution exists and lasts while it stays in range.", "quantifier": "all number types (real numbers and f64 for the regenerator), all constructor arguments, all boxes, initial states and sound complete decompositions", "why_tests_cant": "the unit tests construct defaults but never compare the two ways to obtain them; solvability is a statement about all initial states", "anchors": ["src/chx/fixed_approach.rs: Default, From<Config>, new", "src/regen/fixed_approach.rs", "src/hhx/fixed_approach.rs", "src/chx/fixed_conductance.rs", "src/regen/fixed_conductance.rs", "src/hhx/fixed_conductance.rs", "src/ws.rs: ThermalResistance::default, Parasitics", "src/ws/rhombic_drive.rs: Default, From<Config>", "src/ws/sinusoidal_drive.rs: Default for Config", "src/engine.rs: run_simple_engine"]}
{"id": "C90", "title": "Rounding does not change the sign of an approach temperature difference", "statement": "In f64, the approach temperature difference of a fixed-conductance cold or hot exchanger is NaN or carries exactly the sign of the heat, and that of a fixed-conductance regenerator is NaN or carries the sign of the temperature difference across it, whatever over- or underflow happens on the way. The average mass flows that enter are NaN or not negative.", "quantifier": "all f64 conductances, heat capacities, flows (sign bit clear) and heats, all mathematical libraries whose exponential of a negative number lies between 0 and 1, all time series with non-decreasing times", "why_tests_cant": "the guarantee has to hold for every rounding, overflow and underflow pattern", "anchors": ["src/chx/fixed_conductance.rs: approach", "src/hhx/fixed_conductance.rs: approach", "src/regen/fixed_conductance.rs: approach", "src/engine/state.rs: MassFlows::from_values"]}
{"id": "C91", "title": "Every gas space balances its own mass and energy along exact trajectories", "statement": "Along an exact trajectory of the solved state equations, in each of the five gas spaces (compression space, cold exchanger, regenerator, hot exchanger, expansion space) the stored mass changes at exactly the net rate of the streams at its interfaces. Each exchanger's stored energy changes at the rate its heat and its streams bring, where every stream carries the enthalpy of the gas on the side it comes from (for the regenerator the gas at its cold or hot end). For helium the working spaces balance energy in the same way, with the work done on the piston and the thermal parasitics.", "quantifier": "all runs with a built-in gas and any volume function with true derivatives, all exact trajectories with positive temperatures, all sound matrix solvers, all flow-direction hints", "why_tests_cant": "sums over the whole engine hide errors that cancel between neighbouring spaces; the balance has to hold in every space at every time of a continuous motion", "anchors": ["src/engine/run.rs: Run::calculate_inputs", "src/state_equations/solver.rs: solve"]}
{"id": "C92", "title": "In f64 every accepted solution balances mass and energy up to rounding and the accuracy of the linear solver", "statement": "If the linear solver answers each state equation with a residual of at most e times the sum of the magnitudes of its terms, then an f64 solution accepted by solve leaves in each of the five gas spaces a mass imbalance of at most ((1+e)(1+u)-1) times the sum of the magnitudes of the terms of that balance and an energy imbalance of at most ((1+e)(1+u)^5-1) times the sum of the magnitudes, with u = 2^-53, plus explicit underflow terms; the enthalpies are those of the volumes the computed flows come from. The same holds for the gas as a whole and for all state values of an integration.", "quantifier": "all f64 inputs with a non-zero normalising enthalpy whose state equations and solution do not overflow, all matrix solvers accurate to some e >= 0, all flow-direction hints, all mathematical libraries", "why_tests_cant": "a bound on rounding errors has to hold for every combination of magnitudes, including cancellation and underflow", "anchors": ["src/state_equations/solver.rs: solve", "src/state_equations/solver.rs: System::new", "src/state_equations/solver.rs: MatrixStencil::create_matrix", "src/state_equations/integrator.rs: into_state_values"]}
{"id": "C93", "title": "Where the computed flows are resolved, the f64 search for flow directions follows the exact one", "statement": "If, for every set of assumed flow directions, the f64 linear solver computes the four mass flows of the state equations with an error smaller than the flow itself, then for physical inputs solve in f64 tries exactly the flow directions the exact search tries, succeeds, and returns flows that agree with the exact consistent solution to that accuracy.", "quantifier": "all f64 inputs whose values are physical, all f64 matrix solvers that resolve the flows, all exact sound and complete solvers, all flow-direction hints, all mathematical libraries", "why_tests_cant": "the claim covers all inputs and solvers and compares with exact arithmetic", "anchors": ["src/state_equations/solver.rs: solve", "src/state_equations/flow_direction.rs: FlowDirection::from_solution"]}
{"id": "C94", "title": "When a flow is about to turn, rounding alone makes solve fail and its caller panic (finding)", "statement": "Expected: a linear solver whose answers satisfy every equation to a relative residual of 2^-40 always leads solve to a solution for physical inputs, as exact arithmetic does. It does not: for helium at 10 MPa in a state where the flow between compression space and cold exchanger is about to turn, elimination with partial pivoting in f64 gives a slightly negative flow when it is assumed positive and a slightly positive one when it is assumed negative; from every hint solve runs out of updates with `unable to determine flow directions`, and into_state_values panics. Exact solvers find the solution of the same inputs from every hint.", "quantifier": "one concrete f64 input; all 81 flow-direction hints; all exact sound and complete solvers", "why_tests_cant": "the failing inputs are a set of a few consecutive floating-point numbers", "anchors": ["src/state_equations/solver.rs: solve", "src/state_equations/integrator.rs: into_state_values"]}
{"id": "C95", "title": "Gas temperatures of a helium engine stay in a range given by volumes and exchanger temperatures", "statement": "In exact arithmetic, along every exact trajectory of a helium engine, T V^(R/cv) of a working space cannot rise while T exceeds both 250 K and the temperature that gas from the adjacent exchanger reaches when it fills a volume, and cannot fall while T is below both. So while the volume stays between two bounds, the temperature stays between explicit bounds that follow from its first value, the volume bounds and the exchanger temperature. The upper bound needs a parasitic heat loss of the space that is not negative, the lower one a loss that is not positive. The pressure is the initial pressure times the initial sum of volume over temperature, divided by the current sum.", "quantifier": "all helium runs, sound matrix solvers, exact physical trajectories, intervals of time and volume bounds", "why_tests_cant": "Tests sample a few trajectories of a numerical integrator; the claim bounds every exact trajectory over any length of time.", "anchors": ["src/state_equations.rs", "src/state_equations/solver.rs", "src/engine/run.rs", "src/fluid/ideal_gas.rs"]}
{"id": "C96", "title": "A helium engine runs forever, within explicit ranges, if it cannot get too cold", "statement": "In exact arithmetic, a helium engine with a turning drive, no parasitic heat of the working spaces and volumes within given positive bounds has an exact trajectory for all time from an initial state whose explicit lower temperature bounds (C95) exceed 100 K, below which the state equations stop to be well posed. Every trajectory from that state keeps pressure and temperatures within explicit ranges.", "quantifier": "all components, states, volume bounds, initial conditions and correct matrix solvers that meet the stated conditions", "why_tests_cant": "No test can run forever or from all initial conditions.", "anchors": ["src/state_equations.rs", "src/state_equations/solver.rs", "src/engine/run.rs"]}
{"id": "C97", "title": "A helium engine has a steady cycle, and the convergence test accepts it", "statement": "In exact arithmetic, a helium engine with a turning drive, no parasitic heat of the working spaces, volumes within given positive bounds and exchangers warm enough has, for every pressure at the start of a revolution, an exact trajectory that repeats with every revolution, so the steady state which the engine solver looks for exists. The temperatures of the cycle lie in explicit ranges. A cycle sampled from such a trajectory passes the test for convergence with any positive tolerances.", "quantifier": "all components, states, volume bounds, initial pressures, tolerances and correct matrix solvers that meet the stated conditions", "why_tests_cant": "A test that converges shows a cycle for one input and one tolerance, not that an exact one exists.", "anchors": ["src/state_equations.rs", "src/engine/run.rs", "src/engine.rs"]}
{"id": "C98", "title": "Below 100 K helium flows change pressure the wrong way, and the search for flow directions fails", "statement": "In exact arithmetic, gas that flows into a working space of a helium engine raises P V^(cp/cv) in proportion to T_ref + cp/cv (T - T_ref), T the temperature of the exchanger, and gas that flows out lowers it in the same way with its own temperature; this is negative below R T_ref / cp, about 100 K, though it should be positive at all temperatures. As a consequence there are states, of an engine with a cold exchanger at the temperature of liquid nitrogen and positive temperatures, pressures and volumes, for which no flow directions are consistent: the search fails from every hint and with every correct matrix solver, and an integration that gets there panics.", "quantifier": "all helium runs, times, conditions, hints and correct matrix solvers; for the failure all states in which the compression space expands next to a cold exchanger of sufficient volume", "why_tests_cant": "Tests only have exchangers above 250 K; that no flow directions work is a statement about all of them.", "anchors": ["src/fluid/ideal_gas.rs", "src/state_equations/solver.rs", "src/state_equations/integrator.rs", "src/engine/run.rs"]}
{"id": "C99", "title": "Engines of ordinary size do not overflow in f64", "statement": "In f64, for both gases, temperatures from 1 K to 16384 K and pressures up to 2^40 Pa every gas property is finite; a sinusoidal drive of ordinary size has finite volumes and derivatives at all times up to 2^40 s; and no coefficient and no right-hand side of the state equations of such an engine overflows, whatever the flow directions, provided the norm of the enthalpies is at least 2^-20 J/kg in magnitude. The norm itself is finite, and for helium with sink and source at 251 K or more it is large enough. Hence a finite answer of a linear solver of known accuracy balances mass and energy up to rounding (C92) with no assumption about overflow.", "quantifier": "all f64 engines, states, times and conditions within the ranges, all mathematical libraries with sine and cosine between -1 and 1, all linear solvers of known accuracy", "why_tests_cant": "Tests evaluate a few states; the absence of overflow is needed at every state the integrator may ask about.", "anchors": ["src/fluid/ideal_gas.rs", "src/ws/sinusoidal_drive.rs", "src/engine/run.rs", "src/state_equations/solver.rs"]}
{"id": "C100", "title": "The regenerator does not give back in each cycle the heat that it stores", "statement": "In exact arithmetic, along every trajectory through physical states the solution of the state equations is a continuous function of time, so the heat of the regenerator and the gas that passes its two ends can be added up. Over a cycle twice the heat that stays in the regenerator is the gas that passes the hot end times the enthalpy step there, less the gas that passes the cold end times the enthalpy step there. In every run both steps of temperature are equal, because the imbalance is never changed from 0 (src/engine/state.rs:137). Next to an expansion space of constant volume more gas passes the cold end than the hot end, so the regenerator loses heat in every cycle: the expectation that it gives back what it stores is refuted by a helium engine with a steady cycle.", "quantifier": "all runs with one of the program's gases, all trajectories through physical states, all linear solvers that solve; all runs of the engine for the temperatures", "why_tests_cant": "A test sees sums over a few points of time series; the balance over a cycle is a statement about the exact trajectory, and holds for every engine.", "anchors": ["src/engine/state.rs", "src/engine/run.rs", "src/state_equations.rs"]}
{"id": "C101", "title": "The reported powers, heats and pressures are accurate to rounding, and the report closes the first law in f64", "statement": "In f64, for every engine whose components answer, the pressures of the spaces with pressure drops, the indicated, ideal, shaft and net power, the heat input and the heat rejected, torque and efficiency are those of the exact trapezoidal integrals over the engine's own time series, up to a stated number of roundings of the magnitudes involved and a stated underflow. Where the state equations were solved with a linear solver of known accuracy and nothing overflows, heat input less heat rejected less shaft power is the energy stored in gas and regenerator over the series, less the heat of the walls, up to rounding. The error grows with the number of panels and the magnitudes summed, not with the results: where panels cancel the relative error is not bounded.", "quantifier": "all f64 engines, components, gases, time series and mathematical libraries; all linear solvers of stated accuracy for the first law", "why_tests_cant": "Rounding errors depend on the data; the one test of the performance module checks a pressure drop, none a report.", "anchors": ["src/performance.rs", "src/types.rs", "src/state_equations.rs"]}
{"id": "C102", "title": "Iteration limits only decide when to give up", "statement": "Raising either iteration limit never changes the engine a run returns or the panic it ends in. For every run that returns an engine there is a smallest outer limit (positive, at most the configured one) and a smallest inner limit: below it the run ends with OuterLoop or InnerLoop respectively, and from it on it returns the very same engine. A run that fails with InnerLoop still does so under a larger outer limit, and one that fails with OuterLoop still does so under a larger inner limit. With fixed approach temperatures that are close to themselves under the outer tolerance the first pass of the outer loop decides: every positive outer limit gives the same outcome and never OuterLoop.", "quantifier": "for every number type, engine components, fluid, inputs, settings, limits and every behaviour of the solver and of the linear algebra", "why_tests_cant": "tests run one pair of limits; a limit that leaks into the iteration (into a tolerance, the number of points, the starting guess of the next pass, or which state is returned) changes results only for some limits", "anchors": ["src/engine.rs", "src/state_equations/cycle.rs"]}
{"id": "C103", "title": "The report converges to the powers and heats of the trajectory it samples", "statement": "Along an exact physical trajectory of an ideal-gas engine whose volume rates change at bounded speed, every mass flow, heat flow and rate returned by the state equations changes at bounded speed, so the cycle integrals of work, heats and wall losses exist. There are K and d > 0 such that, in exact arithmetic, a report made from samples whose steps are at most h and whose states are within delta <= d of the trajectory gives indicated, ideal, shaft and net power, heat input, heat rejection and torque within K(h + delta) of the exact ones. For a steady helium engine the reported heat input minus rejection minus shaft power is, up to the same error, the heat left in the regenerator minus the wall heats plus the thermal losses of the working spaces. Both drives have volume rates of bounded speed.", "quantifier": "all named gases, runs, exact trajectories, sound decompositions, component replies, sample sets, step sizes and deviations; first law: all steady helium engines with a turning drive", "why_tests_cant": "A test compares one report with one reference value; it cannot show that reports for every sufficiently fine and accurate sample set approach the exact figures of the cycle, nor at which order.", "anchors": ["src/api.rs", "src/performance.rs", "src/engine/state.rs", "src/state_equations.rs", "src/ws/sinusoidal_drive.rs", "src/ws/rhombic_drive.rs"]}
{"id": "C104", "title": "Errors of single integration steps bound the error of the whole cycle and of its report", "statement": "For an ideal-gas engine with an exact physical trajectory over a cycle there are K and d > 0 such that, in exact arithmetic: (1) every other trajectory that starts within d of it, at any time, stays within K times its initial distance for the rest of the cycle, without being assumed physical; (2) samples that start within e0 of the trajectory and of which each is followed by one within e per second of where its own exact trajectory leads are all within K(e0 + e) of the trajectory, whatever the number and size of the steps; (3) a report made from such samples with steps of at most h gives powers, heats and torque within K(h + e0 + e) of those of the exact cycle.", "quantifier": "all named gases, runs, exact trajectories, sound decompositions, numbers of samples, step sizes and errors per step up to d", "why_tests_cant": "A test sees one integration with one tolerance; it cannot show that local errors do not accumulate beyond a constant factor for every number of steps and every solver.", "anchors": ["src/state_equations/integrator.rs", "src/state_equations/cycle.rs", "src/engine/run.rs", "src/api.rs", "src/performance.rs"]}
{"id": "C105", "title": "Every start near one that completes a cycle completes it too", "statement": "If an ideal-gas engine has an exact physical trajectory over a stretch of time, there are K and d > 0 such that, in exact arithmetic, from every state within d of it, at any time in the stretch, there is a physical trajectory to the end of the stretch, for every sound and complete decomposition, and it stays within K times its initial distance. For an engine with a turning drive this holds over the whole period, and the nearby trajectory is the only one: the map from the state at the start of a cycle to the state at its end is defined around every start that completes a cycle, and changes at most K times as much as the start.", "quantifier": "all named gases, runs with smooth volumes, exact trajectories, decompositions, nearby states and starting times", "why_tests_cant": "A test tries finitely many starting temperatures; it cannot show that all starts around a working one work, as the fixed-point iteration over starting temperatures presupposes.", "anchors": ["src/engine/run.rs", "src/state_equations/cycle.rs", "src/state_equations.rs"]}
{"id": "C106", "title": "The example programs run the engines they describe", "statement": "For every integrator and decomposition, each line that examples/run_simple_engine.rs prints shows the series of a converged engine of its step, it prints all 101 lines unless some run fails or panics, and then it stops at the first such step. The source temperatures are computed without rounding: step k runs at exactly 500 + 5k K. The document of run_from_config.rs describes exactly the first step of the sweep, bit for bit in f64; the legacy document describes the same engine, conditions and settings except for a hundred times tighter absolute outer tolerance. In exact arithmetic the first integration of every step is a solvable problem: in every physical box above the cold limit the volumes are smooth and the trajectory exists and is unique until it leaves the box.", "quantifier": "all integrators, decompositions, math libraries and steps; all boxes and starting states", "why_tests_cant": "The examples are never run by the tests, and running them needs a converged run per step; a run cannot show what happens with another integrator or at a step that fails.", "anchors": ["examples/run_simple_engine.rs", "examples/run_from_config.rs", "examples/run_from_legacy_config.rs", "src/engine.rs", "src/lib.rs"]}
{"id": "C107", "title": "Similar engines: power is proportional to pressure, speed and size", "statement": "Take an ideal-gas engine and another whose pressure is p times, speed w times and volumes v times as large (a rhombic drive of k times the lengths for v = k^3), with the heat losses p w v times as large. Whenever the first solves at a state, the second solves at the state of p times the pressure and the same temperatures, with mass flows and heats p w v times as large. Trajectories and steady cycles of the first are those of the second at the same crank angle with the same temperatures. When friction, wall conductances and hydraulic resistances are in proportion, every power and heat flow of its report is p w v times as large, the shaft torque p v times, and the efficiency the same. Engines with fixed approach temperatures and parts in proportion meet these conditions.", "quantifier": "all positive p, w, v; all engines, gases, states, trajectories, sound and complete decompositions, series", "why_tests_cant": "The law relates runs of two different engines over every state and every pair of scales; the tests run one engine.", "anchors": ["src/state_equations.rs", "src/engine/run.rs", "src/ws/sinusoidal_drive.rs", "src/ws/rhombic_drive.rs", "src/lib.rs"]}
{"id": "C108", "title": "Helium engines with enough dead volume settle to one steady cycle", "statement": "Measure the difference of the gas temperatures of two states in 1/T. Take a helium engine that loses no heat from its cylinders, whose gas and exchangers are never colder than some T_low above 100 K, with given bounds on the volumes of the working spaces and their rates. From these, the volume held in the exchangers and how far each space expands, a factor is computed: over one revolution the difference between any two exact trajectories of the engine shrinks at least by this factor, and in between it grows at most by another one. If the factor is below 1, two steady cycles differ only in their pressure level. Such an engine has a steady cycle at every pressure, and every exact trajectory that stays warm approaches its temperatures geometrically. Starts that are warm enough lead to such trajectories.", "quantifier": "all helium engines with either drive that meet the bounds, all trajectories, starts, revolutions, times, sound and complete decompositions", "why_tests_cant": "Uniqueness and attraction concern all exact trajectories for all time, and the integrator only produces approximate ones for a few starts.", "anchors": ["src/state_equations.rs", "src/engine/run.rs", "src/state_equations/cycle.rs", "src/ws/sinusoidal_drive.rs", "src/ws/rhombic_drive.rs"]}
{"id": "C109", "title": "The search for a steady cycle succeeds and finds it", "statement": "Take a helium engine that settles (C108, factor q below 1) and an integrator that, from all conditions in some region, succeeds, gets the final temperatures right up to an error e in 1/T and leads back into the region. If a cycle passes the code's convergence test, the temperatures it started from differ from those of the exact steady cycle by at most (e + twice the tolerance in 1/T) / (1 - q). If e is small against the tolerances, the search started in the region finds a cycle: the number of integrations it needs is at most n + 2, where n revolutions bring the starting temperatures close enough, and the result starts within that error of the exact steady cycle. For engines with fixed approaches the whole run succeeds in the same number of integrations, returns the initial state and the samples of that cycle.", "quantifier": "all helium engines that settle, all integrators that are reliable in this sense, all tolerances, limits, starts, sound and complete decompositions", "why_tests_cant": "A test sees that one search ended. That every search ends, in how many steps, and how far its result is from the exact steady cycle, concerns all starts and an exact solution that is not known.", "anchors": ["src/state_equations/cycle.rs", "src/state_equations/integrator.rs", "src/engine.rs", "src/engine/state.rs", "src/engine/run.rs"]}
{"id": "C110", "title": "A run reports the powers and heats of the exact steady cycle", "statement": "Take a helium engine with fixed approaches that settles (C108) and an integrator that is reliable (C109) and covers a revolution in steps of at most h with errors of at most e1 per second. There are constants K and d that depend only on the engine such that, if the search error of C109 and e1 add up to at most d, the run succeeds and every power and heat in its report, and the shaft torque, differs by at most K (h + search error + e1) from that of the one exact steady cycle. In particular every accuracy is reached when the tolerance, the step and the errors of the integrator are small enough.", "quantifier": "all helium engines with fixed approaches that settle, all such integrators, all settings with enough iterations, sound and complete decompositions", "why_tests_cant": "The exact steady cycle is not known in closed form, so no test has it to compare with, and a test cannot let steps and tolerances go to zero.", "anchors": ["src/state_equations/cycle.rs", "src/state_equations/integrator.rs", "src/engine.rs", "src/engine/state.rs", "src/engine/run.rs", "src/performance.rs", "src/api.rs"]}
{"id": "C111", "title": "With an accurate integrator, runs succeed and report the exact steady cycle", "statement": "Take a helium engine with fixed approaches that settles (C108), with working-space volumes inside known bounds. It has one exact steady cycle. For every accuracy wanted there are a step and a tolerance, and for each such tolerance an integration error e0 and a number of iterations n, such that every run succeeds within n + 2 integrations, and reports every power and heat of that cycle and the shaft torque to that accuracy, whenever its integrator stays within e0 of the exact trajectories from all starts in a stated range of temperatures. Nothing else is assumed of the integrator: that the search never leaves the range, that all points it visits are physical, and that it passes the convergence test, are consequences.", "quantifier": "all helium engines with fixed approaches that settle, all accurate integrators, all settings with enough iterations, sound and complete decompositions", "why_tests_cant": "It is a statement about every integrator of a given accuracy and about limits; a test runs one integrator with one set of tolerances and has no exact cycle to compare with.", "anchors": ["src/state_equations/cycle.rs", "src/state_equations/integrator.rs", "src/state_equations/solver.rs", "src/engine.rs", "src/engine/state.rs", "src/engine/run.rs", "src/performance.rs", "src/api.rs"]}
{"id": "C112", "title": "With any dependable solver of differential equations, runs succeed and report the exact steady cycle", "statement": "The solver library is only assumed to keep a promise that mentions no engine: given a differential equation whose right-hand side is bounded by B and changes at most at the rate L within a distance d of a solution, and tolerances, it asks for derivatives only within d of that solution, and returns points within e of it at all times x, x + dx, ... up to the end. For every helium engine with known bounds on its volumes there are d, L and B such that, with such a solver, every integration over a revolution succeeds, returns exactly n evenly spaced points from 0 to the period, and stays within e of the exact trajectory. Hence runs of engines that settle (C108) succeed and report every power and heat of the exact steady cycle and the shaft torque to any wanted accuracy. Euler's method with enough steps keeps the promise.", "quantifier": "all solvers that keep the promise, all helium engines with fixed approaches that settle, all settings with enough iterations and a resolution of at least 2 whose step exceeds 1e-14 s, sound and complete decompositions", "why_tests_cant": "It is a statement about every solver and about limits; a test runs one solver with one set of tolerances and has no exact cycle to compare with.", "anchors": ["src/state_equations/integrator.rs", "src/state_equations/cycle.rs", "src/state_equations/solver.rs", "src/engine.rs", "src/engine/state.rs", "src/engine/run.rs", "src/performance.rs", "src/api.rs"]}
{"id": "C113", "title": "While one working space shrinks and the other does not, gas flows through the whole engine towards the other", "statement": "Take an instant at which the compression space shrinks and is not cooled by its surroundings, and the expansion space does not shrink and is not heated by its own. Whatever the exchangers, the flows at all four interfaces are then positive, that is gas leaves the compression space, passes both exchangers and the regenerator and enters the expansion space; with the roles of the spaces exchanged all four flows are negative. Hence along a physical trajectory of an engine with an ideal gas whose working spaces lose no heat, one instant of that kind within a revolution is enough for the mean flows through all three exchangers, which the fixed-conductance exchangers divide by, to be positive. Both drives have such an instant in every revolution: the sinusoidal one unless its phase angle moves the two volumes in step or exactly against each other, the rhombic one whenever its crank radius and its eccentricity are positive.", "quantifier": "all physical inputs of the state equations with fluids that expand when heated; all physical trajectories of engines with an ideal gas; sound decompositions", "why_tests_cant": "The direction of flow is the result of a 10-by-10 system that holds for every pressure, temperature and volume; the tests solve that system for one point.", "anchors": ["src/state_equations.rs", "src/state_equations/solver.rs", "src/engine/run.rs", "src/engine/state.rs", "src/chx/fixed_conductance.rs", "src/regen/fixed_conductance.rs", "src/hhx/fixed_conductance.rs", "src/ws/sinusoidal_drive.rs", "src/ws/rhombic_drive.rs"]}
{"id": "C114", "title": "With any exchangers, a run that succeeds reports the exact steady cycle of the state it returns", "statement": "For every helium engine with any exchangers, fixed or not, and every state whose steady cycle settles, there is a constant K such that a run that succeeds and returns this state, with an integrator accurate to e, reports every power and heat of the exact steady cycle at the temperatures, pressure and imbalance of the returned state, and the shaft torque, within K * (h + e + err), where h is the step and err bounds what the inner convergence test lets through. The averages of pressure, mass flows and heat flows with which the last test of the outer loop was made are within the same bound of the means of that exact cycle, and the temperatures recomputed from them are close to the returned ones.", "quantifier": "all helium engines whose steady cycle settles, all exchangers, all starting values and settings of runs that succeed, all accurate integrators, sound and complete decompositions", "why_tests_cant": "It compares the program with an exact solution that no test has, for every engine, state and integrator.", "anchors": ["src/engine.rs", "src/engine/state.rs", "src/engine/run.rs", "src/state_equations.rs", "src/state_equations/cycle.rs", "src/performance.rs", "src/api.rs"]}
{"id": "C115", "title": "A run settles exactly on the states at which the exchangers agree with the exact steady cycle", "statement": "The approaches of the exchangers at the means of the exact steady cycle of a state determine temperatures. If a run succeeds and returns a state, then these temperatures differ from the returned ones by at most the outer tolerance plus eps, for every eps when integrator, inner tolerance and step are fine enough. Conversely, if the exchangers agree exactly at the state a run starts with, then for every outer tolerance a run with a fine enough integrator, inner tolerance and step succeeds, returns this very state, and reports its exact steady cycle to any wanted accuracy. With fixed conductances UA the approaches are known in closed form: heat / C / (exp (UA / C) - 1) for the heat exchangers, and span / (1 + UA / (2 C)) for the regenerator, with C the heat capacity flow at the mean mass flow, which is positive (C113).", "quantifier": "all helium engines whose steady cycle settles, all exchangers whose approaches are continuous at the means (fixed approaches, and fixed conductances at positive mean flows), all tolerances, all accurate integrators, sound and complete decompositions", "why_tests_cant": "It is about the limit of the outer loop at an exact solution; a test sees one run with one tolerance and cannot tell a converged state from a state at which the loop merely stopped.", "anchors": ["src/engine.rs", "src/engine/state.rs", "src/engine/run.rs", "src/chx/fixed_conductance.rs", "src/regen/fixed_conductance.rs", "src/hhx/fixed_conductance.rs", "src/chx/fixed_approach.rs", "src/regen/fixed_approach.rs", "src/hhx/fixed_approach.rs", "src/performance.rs", "src/api.rs"]}
{"id": "C116", "title": "The outer loop finishes when the exchangers conduct well enough", "statement": "Take an engine of which every state with exchanger approaches of at most A settles: its gas stays in a range of temperatures, differences shrink by a fixed factor per revolution, and during some part of the revolution one working space shrinks while the other does not. Take a bound on the approaches that exchangers may be set to keep: at most A, at most a quarter of the temperature of the sink and at most an eighth of the difference between source and sink. Then for every outer tolerance there is a conductance U such that every run of this engine, with exchangers each of which has a fixed conductance of at least U or a fixed approach within that bound, succeeds within two outer iterations, for every inner tolerance, with every dependable solver of differential equations that is accurate enough and a fine enough sampling. The number of cycles integrated is bounded in advance, and the returned state has approaches of at most A. The accuracy and the bounds asked from the solver are the same for all states the outer loop may visit, so one solver serves the whole run; Euler's method with enough steps is one.", "quantifier": "all helium engines with either drive whose states near the hint settle, all combinations of exchangers with fixed conductances above U and fixed approaches within a bound, all tolerances, all resolutions fine enough, all dependable solvers, sound and complete decompositions", "why_tests_cant": "It covers all conductances above a threshold, all tolerances and all solvers; the tests run one engine with one solver.", "anchors": ["src/engine.rs", "src/engine/state.rs", "src/engine/run.rs", "src/chx/fixed_conductance.rs", "src/regen/fixed_conductance.rs", "src/hhx/fixed_conductance.rs", "src/ws/sinusoidal_drive.rs", "src/ws/rhombic_drive.rs", "src/chx/fixed_approach.rs", "src/regen/fixed_approach.rs", "src/hhx/fixed_approach.rs"]}
{"id": "C117", "title": "Runs approach one steady state as the tolerances shrink", "statement": "Take an engine of which every state with exchanger approaches of at most A settles, as in C116. Take a bound on the approaches that exchangers may be set to keep: at most A, at most a quarter of the temperature of the sink and at most an eighth of the difference between source and sink. There is one conductance U, for all tolerances, such that the following holds for every fine enough number of points and every such engine each of whose exchangers has a fixed conductance of at least U or a fixed approach within that bound. There are temperatures T of the exchangers such that, whatever the outer tolerance, a run with a small enough inner tolerance and an accurate enough solver of differential equations succeeds. The number of outer iterations has a bound that does not depend on the inner tolerance or on the solver. If the outer tolerance is below a fixed threshold, each temperature of the returned state differs from T by at most eleven absolute outer tolerances. So runs with different solvers and tolerances agree with each other, and tightening the tolerances changes the result less and less.", "quantifier": "all helium engines with either drive whose states near the hint settle, all combinations of exchangers with fixed conductances above U and fixed approaches within a bound, all outer tolerances, all small inner tolerances, all resolutions fine enough, all dependable solvers, sound and complete decompositions", "why_tests_cant": "It compares the results of all pairs of runs, for all tolerances and solvers, with a limit that no run computes; the one test that runs an engine only checks that it converges.", "anchors": ["src/engine.rs", "src/engine/state.rs", "src/engine/run.rs", "src/chx/fixed_conductance.rs", "src/regen/fixed_conductance.rs", "src/hhx/fixed_conductance.rs", "src/ws/sinusoidal_drive.rs", "src/ws/rhombic_drive.rs", "src/chx/fixed_approach.rs", "src/regen/fixed_approach.rs", "src/hhx/fixed_approach.rs"]}
{"id": "C118", "title": "Runs approach the only self-consistent state", "statement": "Take an engine as in C117, with exchangers that conduct well enough or keep an approach within the bound, and a fixed fine enough number of points. Call a state self-consistent if the exact steady cycle at its exchanger temperatures, sampled at evenly spaced times and fed to the exchanger equations, gives back the same temperatures. Such a state exists among those with exchanger approaches of at most A, and all such states have the same temperatures. With any outer tolerance, a run with a small enough inner tolerance and an accurate enough solver of differential equations succeeds, and if the outer tolerance is below a fixed threshold each temperature of its result is within eleven absolute outer tolerances of the self-consistent one.", "quantifier": "all helium engines with either drive whose states near the hint settle, all combinations of exchangers with fixed conductances above U and fixed approaches within a bound, all outer tolerances, all small inner tolerances, all resolutions fine enough, all dependable solvers, sound and complete decompositions, all self-consistent states", "why_tests_cant": "The self-consistent state is a fixed point over exact trajectories that no run computes; its existence and uniqueness quantify over all states.", "anchors": ["src/engine.rs", "src/engine/state.rs", "src/engine/run.rs", "src/chx/fixed_conductance.rs", "src/regen/fixed_conductance.rs", "src/hhx/fixed_conductance.rs", "src/ws/sinusoidal_drive.rs", "src/ws/rhombic_drive.rs", "src/chx/fixed_approach.rs", "src/regen/fixed_approach.rs", "src/hhx/fixed_approach.rs"]}
{"id": "C119", "title": "Runs approach the steady state of the engine as tolerances and spacing shrink", "statement": "Take an engine as in C118, with exchangers that conduct well enough or keep an approach within the bound. Call a state steady if the exact time averages over the exact steady cycle at its exchanger temperatures, fed to the exchanger equations, give back the same temperatures; this does not mention sample points. Exactly one choice of temperatures with exchanger approaches of at most A is steady. For every margin there is a spacing such that every run with points at most that far apart (and further apart than the slack of 1e-14 s that the code adds to the end of the period), a small enough inner tolerance and an accurate enough solver of differential equations succeeds, and if the outer tolerance is below a fixed threshold each temperature of its result is within eleven absolute outer tolerances plus the margin of the steady one.", "quantifier": "all helium engines with either drive whose states near the hint settle, all combinations of exchangers with fixed conductances above U and fixed approaches within a bound, all margins, all fine enough spacings, all outer tolerances, all small inner tolerances, all dependable solvers, sound and complete decompositions, all steady states", "why_tests_cant": "The steady state is defined by integrals of exact trajectories that no run computes; the limit of vanishing spacing and tolerances is an infinite family of runs.", "anchors": ["src/engine.rs", "src/engine/state.rs", "src/engine/run.rs", "src/chx/fixed_conductance.rs", "src/regen/fixed_conductance.rs", "src/hhx/fixed_conductance.rs", "src/ws/sinusoidal_drive.rs", "src/ws/rhombic_drive.rs", "src/chx/fixed_approach.rs", "src/regen/fixed_approach.rs", "src/hhx/fixed_approach.rs"]}
{"id": "C120", "title": "Reports of runs approach the powers and heats of the exact steady state", "statement": "Take an engine as in C119 with exchangers that conduct well enough or keep an approach within the bound, and its one steady choice of temperatures. At these temperatures the exact steady cycle has integrals of work and heat. There is a constant K, depending on the engine and its exchangers only, such that for every margin and every fine enough spacing of points, every run with an outer tolerance below a fixed threshold, a small enough inner tolerance and an accurate enough solver of differential equations succeeds, its report can be computed without panic, and the indicated, ideal, shaft and net powers, the heat input, the rejected heat and the torque in the report each differ from those of the exact steady cycle by at most K times the absolute outer tolerance plus the margin.", "quantifier": "all helium engines with either drive whose states near the hint settle, all combinations of exchangers with fixed conductances above U and fixed approaches within a bound, all margins, all fine enough spacings, all small outer and inner tolerances, all dependable solvers, sound and complete decompositions", "why_tests_cant": "The exact powers are integrals along a trajectory that no run computes, and the bound must hold for a whole family of runs as spacing and tolerances shrink.", "anchors": ["src/engine.rs", "src/engine/state.rs", "src/engine/run.rs", "src/performance.rs", "src/api.rs", "src/chx/fixed_conductance.rs", "src/regen/fixed_conductance.rs", "src/hhx/fixed_conductance.rs", "src/ws/sinusoidal_drive.rs", "src/ws/rhombic_drive.rs", "src/chx/fixed_approach.rs", "src/regen/fixed_approach.rs", "src/hhx/fixed_approach.rs"]}
{"id": "C121", "title": "A run reports exactly the points that were asked for", "statement": "Suppose the solver of differential equations places its output points by adding the step to the last time, in f64, until it has passed the end, and stops at that end up to rounding. Then a successful run with n points and period p, where (n + 9) p is at most 179 s and the spacing p / (n - 1) is at least 3e-14 s, reports exactly n points; the first is at time zero, and point k is within 1e-14 s of k p / (n - 1). The integration of a single interval, which decides about convergence, ends exactly after one period. The expectation without the bound on (n + 9) p is false: at one cycle in ten seconds a run that asks for 54 points reports 53. The guard of 1e-14 s is needed: at 50 cycles per second the last of 11 added times exceeds the period.", "quantifier": "all engines, fluids, inputs and settings in f64, all math libraries, all solvers that add up their output times, all decompositions, all numbers of points and periods in the range given", "why_tests_cant": "Whether the last point is lost depends on the accumulated rounding of every pair of period and number of points.", "anchors": ["src/state_equations/integrator.rs", "src/engine/run.rs", "src/engine.rs", "src/ws/sinusoidal_drive.rs"]}
{"id": "C122", "title": "Engines with fixed approaches pass the outer loop once", "statement": "If all three exchangers have fixed approaches, the outer iteration limit is not zero, the outer tolerances are positive and the five temperatures that follow from the approaches are finite and not zero, then in f64 a run performs one search for a steady cycle: it never reports that the outer loop did not converge, integrates at most max_iters.inner + 1 times, and its result is the result of that search, with the initial state. Conversely such an engine can only succeed if those temperatures are finite and not zero.", "quantifier": "all engines with fixed approaches, all fluids, inputs, settings, solvers, decompositions and math libraries; the first theorem for any number type", "why_tests_cant": "It is about all values an integration may produce, including those that are not numbers, for every engine of this kind.", "anchors": ["src/engine.rs", "src/engine/state.rs", "src/chx/fixed_approach.rs", "src/regen/fixed_approach.rs", "src/hhx/fixed_approach.rs"]}
{"id": "C123", "title": "An engine turned end for end does the same work and exchanges the heats", "statement": "Take an engine and another with hot and cold end exchanged: volumes, losses and temperatures of one end are those of the other, and its clock is ahead by a given time. Whenever the first solves at a state, the second solves at the mirrored state with the mirrored solution; its trajectories and steady cycles are those of the first seen from the other end, that time ahead. Its report has the same powers and shaft torque, and its gas takes up the heat that the other gives off and conversely. Exchanging the pistons of a sinusoidal drive and reversing the phase, with fixed approaches of the opposite sign and the two outer temperatures exchanged, gives such an engine.", "quantifier": "all engines, gases, times, states, trajectories, sound and complete decompositions, series; all sinusoidal drives and exchangers with fixed approaches", "why_tests_cant": "The law relates two different engines at every state, time and phase; the tests run one engine, not turned.", "anchors": ["src/state_equations/solver.rs", "src/engine/run.rs", "src/engine/state.rs", "src/ws/sinusoidal_drive.rs", "src/lib.rs", "src/performance.rs"]}
{"id": "C124", "title": "Heats of a cycle are the works of the pistons plus what the exchangers change in the passing gas", "statement": "Along every physical trajectory of a helium engine the heats, works and gas flows can be added up. If after some time the gas in both spaces and the pressure have returned, the heat taken up in the hot exchanger is the work of the gas on the expansion piston, plus the heat lost from the expansion space, plus half the temperature step at the hot end of the regenerator (as heat per kilogram) times all the gas that passed there in either direction. The heat given off in the cold exchanger is likewise the work received from the compression piston less the heat lost there, plus half the cold step times the gas that passed the cold end. The regenerator keeps the difference of the two terms.", "quantifier": "all helium engines with any drive, losses and temperatures, all physical trajectories, all time spans, all sound decompositions", "why_tests_cant": "The balance is over whole trajectories of arbitrary engines; tests solve the state equations at single points.", "anchors": ["src/state_equations/solver.rs", "src/state_equations/integrator.rs", "src/state_equations/inputs.rs", "src/engine/run.rs", "src/fluid/ideal_gas.rs"]}
{"id": "C125", "title": "Entropy over a cycle balances up to flow work measured from the reference temperature", "statement": "For helium engines without heat losses, over any span after which the spaces and the pressure have returned: compression work divided by the cold exchanger's temperature plus expansion work divided by the hot one's, plus the entropy made by mixing, which never decreases, is the excess R T_ref times the integral of the mass inflow of each space divided by its temperature. So the second law holds up to exactly this excess, which comes from h - u = R (T - T_ref).", "quantifier": "all helium engines without heat losses, all physical trajectories and time spans after which the spaces return, all sound decompositions", "why_tests_cant": "An inequality between integrals over a cycle for all engines; no test computes entropy.", "anchors": ["src/state_equations/solver.rs", "src/state_equations/integrator.rs", "src/state_equations/inputs.rs", "src/engine/run.rs", "src/fluid/ideal_gas.rs"]}
{"id": "C126", "title": "The modelled engine can be more efficient than Carnot allows (refuted)", "statement": "One expects that no engine turns more of the heat it takes up into work than 1 - T_sink/T_source. This is false of the program's equations: an engine with sinusoidal pistons, exchangers of one cubic metre with approach 0, 300 K and 900 K, and very small strokes has for every initial pressure a steady cycle in which the regenerator keeps nothing, the work is the heat taken up less the heat given off, and the work is more than 70 % of the heat, where Carnot allows two thirds. With walls of high enough thermal resistance and any accurate integrator, complete runs of this engine succeed and report a mechanical efficiency above 0.7.", "quantifier": "one engine, every initial pressure; for reports, every high wall resistance, all accurate integrators, all fine settings", "why_tests_cant": "The efficiency of an exact steady cycle is the ratio of two integrals along a solution of the differential equations; a simulation has errors of its own.", "anchors": ["src/state_equations/solver.rs", "src/state_equations/integrator.rs", "src/state_equations/inputs.rs", "src/engine/run.rs", "src/fluid/ideal_gas.rs"]}
{"id": "C127", "title": "Rounding keeps the rhombic drive's volumes in range and free of NaN while the rod reaches", "statement": "Over f64, for every mathematical library whose sines and cosines of finite angles lie between -1 and 1: if the crank is not longer than the eccentricity and the connecting rod at least as long as both together, and the extreme volumes do not overflow, then at every time both computed volumes are finite, the compression volume is at least its clearance volume and at most the volume computed with the crank outwards, and the expansion volume lies between the values computed for the extreme rod heights and crank positions. The computed derivatives are then finite too and bounded by slopes computed from the geometry, provided the least rod height is not zero. Where the rod does not reach (the computed square is negative) all four numbers are NaN.", "quantifier": "all f64 rhombic drives, all times, all bounded libm functions, both NaN orders", "why_tests_cant": "Quantifies over all geometries, times and libm implementations with every rounding error; the repository has no unit test of this drive.", "anchors": ["src/ws/rhombic_drive.rs"]}
{"id": "C128", "title": "Temperatures and pressure of a hydrogen engine stay in range, and it runs forever", "statement": "In exact arithmetic, with the program's polynomials for hydrogen: along every exact trajectory, the temperature of a working space does not rise above (fall below) any temperature whose entropy at the least (largest) volume exceeds (is below) that of the first state and that of gas which has filled the space from the exchanger next to it; the upper bound needs a parasitic heat loss that is not negative, the lower one a loss that is not positive. The entropy meant is the one whose derivatives are the program's heat capacity at constant volume over temperature and gas constant over volume. The pressure follows from the temperatures as in C95. A hydrogen engine with a turning drive, no parasitic heat of the working spaces, sink at least and source above 250 K, and lower bounds of at least 100 K runs forever within these ranges.", "quantifier": "all hydrogen runs, sound (and for existence complete) matrix solvers, exact physical trajectories, volume bounds, initial conditions and temperature bounds that meet the stated conditions", "why_tests_cant": "No test can run forever or from all initial conditions; the numerical integrator only samples trajectories.", "anchors": ["src/state_equations.rs", "src/state_equations/solver.rs", "src/engine/run.rs", "src/fluid/ideal_gas.rs"]}
{"id": "C129", "title": "A hydrogen engine has a steady cycle for every pressure", "statement": "In exact arithmetic, a hydrogen engine with a turning drive, no parasitic heat of the working spaces, volumes within given positive bounds, sink at least and source above 250 K, and exchangers so warm that expansion of gas they supply does not end below 100 K has, for every pressure at the start of a revolution, an exact trajectory that repeats with every revolution. Its temperatures lie in ranges given by expansion and compression of gas that the exchangers supply.", "quantifier": "all components, states, volume bounds, temperature bounds, initial pressures and correct matrix solvers that meet the stated conditions", "why_tests_cant": "A test that converges shows a cycle for one input and one tolerance, not that an exact one exists.", "anchors": ["src/state_equations.rs", "src/engine/run.rs", "src/engine.rs", "src/fluid/ideal_gas.rs"]}
{"id": "C130", "title": "In f64 the gas properties are right up to a few roundings", "statement": "Over f64, for helium and hydrogen, any temperature from 1 K to 16384 K and any pressure up to 2^40 Pa, every property the fluid model reports agrees with the exact decimal formula up to a stated number of roundings (relative error of one rounding is 2^-53) of the terms of the formula, plus 2^-900 for underflow: density P/(R T) and its pressure derivative 1/(R T) up to 5, its temperature derivative -P/(R T^2) up to 6, the heat capacity sum a_i T^i up to 11 of sum |a_i| T^i, the enthalpy (T - 250) sum a_i/(i+1) T^i up to 14 of its terms, the internal energy up to 15, du/dT up to 12; du/dP is exactly 0. The decimal constants are those of the source, not their roundings.", "quantifier": "for all finite f64 temperatures in [1, 16384], all f64 pressures of magnitude at most 2^40, both gases, any libm and NaN-sign convention", "why_tests_cant": "The tests compare each gas with a snapshot at one temperature and with zero at the reference; the claim bounds the rounding error of all of the roughly 2^56 representable temperatures and shows that no cancellation in the reordered polynomial (coefficients multiplied by T - 250 first) loses accuracy.", "anchors": ["src/fluid/ideal_gas.rs:32-74", "src/fluid/ideal_gas.rs:85-134"]}
{"id": "C131", "title": "In f64 the sinusoidal drive moves harmonically up to rounding and the accuracy of sine and cosine", "statement": "Over f64, for every ordinary sinusoidal drive (up to 2^20 Hz, leads up to 2^20 degrees, volumes up to 128 m^3) and every time up to 2^40 s: if the system's sine and cosine are within eps of the true ones and within [-1, 1], the volumes differ from clearance + swept/2 (1 + cos(2 pi f t + lead)) by at most 4 roundings of clearance + swept, plus swept/2 times the error of the cosine; the rates differ from -swept pi f sin(...) by at most 5 roundings of swept pi f plus swept pi f times the error of the sine. That error is eps plus 4 roundings of the total angle turned, so it grows with time; within the first turn it is at most eps + 4e-14.", "quantifier": "for all ordinary drives and all f64 times up to 2^40, all libm functions accurate to eps", "why_tests_cant": "The test samples quarter turns; the claim bounds the error at every time and shows how it grows with the angle turned, including the error of the f64 constant for pi.", "anchors": ["src/ws/sinusoidal_drive.rs:39-75"]}
{"id": "C132", "title": "Over a cycle of a hydrogen engine heat and work differ by 250 K times the mean heat capacity carried out of the working spaces", "statement": "Along every physical trajectory of a hydrogen engine, over any interval of time, the heat taken up by the gas minus the work it does equals the change of its true internal energy plus the change of 250 times the mean heat capacity held by the gas in the working spaces plus 250 times the mean heat capacity carried out of them. So over a cycle after which volumes, temperatures and pressure return, heat minus work is exactly the total of 250 (mean_cp(T_c) m_ck - mean_cp(T_e) m_le), which the model's du/dT loses by treating the mean heat capacity as constant. The totals exist along every such trajectory; every driven engine in a steady cycle has them, and steady cycles exist for a concrete engine at every pressure.", "quantifier": "for all runs with hydrogen, all sound decompositions, all physical trajectories and all intervals; all steady cycles of driven engines", "why_tests_cant": "The claim is an exact identity between integrals over every trajectory; a simulated cycle only shows an unexplained difference between heat and work.", "anchors": ["src/fluid/ideal_gas.rs", "src/state_equations/solver.rs", "src/state_equations.rs", "src/engine/run.rs"]}
{"id": "C133", "title": "In f64 the volumes of the rhombic drive are those of the linkage up to rounding and the accuracy of sine and cosine", "statement": "Over f64, for every ordinary rhombic drive (up to 2^20 Hz, lengths up to 128 m, crank and rod such that with both in one line the yoke is at least `low` away, low at least 2^-20 m) and every time up to 2^40 s: if the system's sine and cosine are within eps of the true ones and within [-1, 1], both computed volumes differ from those the linkage of rods and yokes describes at the crank angle 2 pi f t by at most the area of the piston times the errors of the rods, plus 8 roundings of clearance + 8 area * rod. The error of a rod of length l is (11 roundings of l^2 + 3 l r times the error of the cosine) / low; so it grows as the rod comes near to being flat.", "quantifier": "for all ordinary rhombic drives and all f64 times up to 2^40, all libm functions accurate to eps", "why_tests_cant": "The repository has no unit test of this drive, and one could only sample some angles of some geometries; the claim bounds the error at every time for every geometry, including the loss of digits in the square root of a difference of squares.", "anchors": ["src/ws/rhombic_drive.rs:91-126"]}
{"id": "C134", "title": "In f64 the rates of the rhombic drive are the derivatives of the linkage's volumes up to rounding and the accuracy of sine and cosine", "statement": "Over f64, for every ordinary rhombic drive (as in C133) whose piston is at least 2^-10 m wide and every time up to 2^40 s at which the error of the moving rod is at most half of `low`: if yokes follow the linkage at all times, then the computed rates differ from the derivatives of the volumes these yokes bound by at most, with w = 2 pi |f|, (12 roundings of 4 A_p r l / low + 2 A_p r S) w for the compression space and A_d (14 roundings of 2 r l / low + r, plus r S + r times the error of the cosine) w for the expansion space, where S is the error of the slope of a rod.", "quantifier": "for all ordinary rhombic drives, all f64 times up to 2^40, all motions of the yokes along the linkage, all libm functions accurate to eps", "why_tests_cant": "The repository has no unit test of this drive, and one could only compare rates with finite differences at some times of some geometries; the claim bounds the error against the true derivative at every time for every geometry.", "anchors": ["src/ws/rhombic_drive.rs:91-126"]}
{"id": "C135", "title": "In f64 the effective regenerator temperature is the log mean up to rounding and the accuracy of the logarithm", "statement": "Over f64, for all exchanger temperatures, approaches and imbalances up to 2^18 whose mid temperatures (halfway between exchanger and regenerator end) are lo >= 1 K and hi >= lo, with L = ln(hi/lo) at least twice the error D of the computed logarithm: both end temperatures are right within two roundings of the sum s of all sizes, and the effective temperature differs from the exact log mean (hi - lo)/L by at most 6 roundings of 2 s / L plus 2 * log mean * D / L. D is the error eps of the system's logarithm + 2 roundings + 4 * (4 roundings of s) / lo. So precision is lost like 1/L as hot and cold ends approach each other.", "quantifier": "for all f64 temperatures, approaches and imbalances within those sizes, all libm logarithms accurate to eps", "why_tests_cant": "The repository has no unit test of this temperature, and one could only check some values to a fixed number of digits; the claim bounds the error everywhere, including where numerator and logarithm both nearly cancel.", "anchors": ["src/engine/state.rs:502-525"]}
{"id": "C136", "title": "In f64 the approach of a fixed-conductance exchanger follows the effectiveness-NTU relation up to errors relative to the temperature change of the gas", "statement": "Over f64, for cold and hot fixed-conductance exchangers with conductance and gas data up to 2^40, capacity rate C at least 2^-40 W/K and effectiveness E = 1 - exp(-UA/C) at least twice its error: the computed approach differs from Q/C (1/E - 1) by at most |Q|/C (12 * (4 roundings) / E + 2 (eps + 12 roundings) / E^2), eps being the error of the system's exponential. The error does not shrink with the approach: where exp(-UA/C) is computed as at most 2^-55 (about 38 transfer units and more) the approach is exactly zero, so that it is positive whenever heat flows - true in exact arithmetic (C32) - is refuted in f64.", "quantifier": "for all exchangers and gas states within those sizes, all libm exponentials accurate to eps", "why_tests_cant": "The repository has no unit test of these approaches, and one could only check a few conductances to a fixed number of digits; the claim bounds the error for all, and shows where all digits of the approach are lost.", "anchors": ["src/chx/fixed_conductance.rs:61-67", "src/hhx/fixed_conductance.rs:54-60"]}
{"id": "C137", "title": "In f64 the approach of a fixed-conductance regenerator is that of a balanced counterflow exchanger up to errors relative to the temperature difference", "statement": "Over f64, for fixed-conductance regenerators with non-negative conductance, gas data and temperatures up to 2^40 and capacity rate C at least 2^-40 W/K: the computed approach differs from (T_hhx - T_chx) / (1 + n/2), n = UA/C, by at most 18 roundings of |T_hhx - T_chx| plus 2^-900 K. No condition on the number of transfer units is needed.", "quantifier": "for all regenerators, gas states and temperatures within those sizes", "why_tests_cant": "The repository has no unit test of this approach, and one could only check some conductances to a fixed number of digits; the claim bounds the error for all, including conductances so large that 1 - effectiveness cancels.", "anchors": ["src/regen/fixed_conductance.rs:52-58"]}
