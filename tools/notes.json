{
 "C07": {
  "note": "finding: the expectation is refuted; the theorems give the counterexample and the exact behaviour"
 },
 "C28": {
  "note": "finding: the expectation is refuted; the theorems give the counterexample and the exact behaviour"
 },
 "C41": {
  "note": "finding: the expectation is refuted; the theorems give the counterexample and the exact behaviour"
 },
 "C45": {
  "note": "finding: the expectation is refuted; the theorems give the counterexample and the exact behaviour"
 },
 "C46": {
  "note": "finding: the expectation is refuted; the theorems give the counterexample and the exact behaviour"
 },
 "C30": {
  "note": "finding: the expectation is refuted; the theorems give the counterexample and the exact behaviour"
 },
 "C31": {
  "note": "finding: the expectation is refuted; the theorems give the counterexample and the exact behaviour"
 },
 "C43": {
  "note": "finding: the normalising enthalpy of helium vanishes whenever sink and source temperatures add up to 500 K"
 },
 "C08": {
  "note": "any number type, any decomposition"
 },
 "C42": {
  "note": "the step for n >= 1 points is the dx of period_args in C16_integration",
  "extra": [
   "C16_integration"
  ]
 },
 "C49": {
  "note": "finding: a NaN solution is accepted"
 },
 "C50": {
  "note": "finding: the guard has no effect from 128 s on"
 },
 "C34": {
  "note": "NaN for +0 flow needs exp(-inf) = +0 of the platform's exp; without it (and for -0) the temperature is still non-finite"
 },
 "C68": {
  "note": "finding: the expectation that hydrogen obeys the energy balance of C56 is refuted with a witness; the exact discrepancy is proved for all trajectories"
 },
 "C66": {
  "note": "any number type; a wrong pressure drop or parasitic power in a component can only show in the performance report"
 },
 "C63": {
  "note": "exact arithmetic; helium and hydrogen"
 },
 "C64": {
  "note": "exact arithmetic; helium (for hydrogen see C68)"
 },
 "C65": {
  "note": "sequential continuity, exact arithmetic"
 },
 "C67": {
  "note": "exact arithmetic; polynomial bounds proved by Bernstein and shifted coefficients"
 },
 "C69": {
  "note": "any number type"
 },
 "C70": {
  "note": "exact arithmetic; finding, with C28: the displacer diameter is not used"
 },
 "C71": {
  "note": "exact arithmetic; finding: C71_helium_refuted, the code's helium violates the second law; C71_balance gives the exact excess and C71_second_law shows a consistent gas would satisfy it"
 },
 "C72": {
  "note": "exact arithmetic"
 },
 "C73": {
  "note": "any number type; finding: C73_gpu3_refuted, the snake case names of the GPU-3 and nuclear isomer variants"
 },
 "C74": {
  "note": "any number type"
 },
 "C75": {
  "note": "finding: C75_legacy_order_refuted, for readers that follow the documentation of config 0.13.3 and serde's buffer, which are not available in the sandbox"
 },
 "C76": {
  "note": "any number type"
 },
 "C77": {
  "note": "f64"
 },
 "C78": {
  "note": "Exact arithmetic, both gases. The right-hand side is Lipschitz on the compact set of states two trajectories pass through although the donor enthalpies switch (RClose.solved_close); Gronwall's inequality does the rest. Existence is C80; the cases are explicit exact trajectories."
 },
 "C79": {
  "note": "Exact return of the two temperatures, exact arithmetic: the code compares up to a tolerance. The period is the one Run::new computes (1 / frequency). The case is an engine with sinusoidal drive whose trajectory is given in closed form."
 },
 "C80": {
  "note": "Exact arithmetic, both gases. Picard's iteration is carried out in Rocq for three unknowns (RPicard.picard); the rates are bounded and Lipschitz near every physical state (RLocal, RExist). `lasts` says: until the given time, or until the state has left the given ranges of pressure and temperatures. That a trajectory never leaves them is not claimed."
 },
 "C81": {
  "note": "f64. Standard forward error analysis on Flocq's lemmas for one operation (F64Err, F64Avg); overflow is excluded by the hypothesis that the result is finite. The hot and cold heat flows add a wall term and are not covered."
 },
 "C82": {
  "note": "Finding: C82_between_refuted is the witness (atmosphere in F64Mean), C82_nearly_between the bound that does hold."
 },
 "C83": {
  "note": "f64. approaches_forward is a hypothesis on the components, proved of fixed approaches; fixed conductances compute theirs from the heat flow, whose sign is the cycle's."
 },
 "C84": {
  "note": "f64. The bound on the cosine is a hypothesis on the mathematical library. The swept volume must be zero or not subnormal so that halving is exact."
 },
 "C85": {
  "note": "Exact trajectories over the reals (the integrator is an oracle of the model). Proof: gas mass is conserved (C56/C63), so the pressure is inversely proportional to the sum of volume over temperature."
 },
 "C86": {
  "note": "Reals. C86_helium and C86_hydrogen prove the two hypotheses (smooth volumes, box of physical states) of driven engines."
 },
 "C87": {
  "note": "Reals. The integrator itself (ode_solvers) is not modelled; this is the stability half of its error estimate. C87_exact: exact trajectories are courses with error 0."
 },
 "C88": {
  "note": "Reals; from C85 and C86."
 },
 "C89": {
  "note": "Any number type, reals and f64. Finding: C89_rhombic_refuted; the default configuration of the rhombic drive does not give the default drive (see C28)."
 },
 "C90": {
  "note": "f64."
 },
 "C91": {
  "note": "Reals, exact trajectories. Mass and exchanger energy for both built-in gases; working-space energy for helium (for hydrogen see C68)."
 },
 "C92": {
  "note": "f64. The accuracy of the matrix solver (nalgebra's LU) is a hypothesis of the theorem, as a componentwise residual bound on the systems it is asked; the case uses an elimination that checks its answers in exact arithmetic."
 },
 "C93": {
  "note": "f64 against the reals. The accuracy of the linear solver is a hypothesis; see C94 for what happens without it."
 },
 "C94": {
  "note": "finding: the expectation is refuted. The linear solver of the counterexample is a Gaussian elimination with partial pivoting that checks its own residuals, not nalgebra's LU, whose source is not in the sandbox; a transcription from memory of nalgebra's order of operations failed on the same inputs in a simulation outside Coq."
 },
 "C95": {
  "note": "C95_equations is the temperature equation, C95_direction the direction of change; C95_comp and C95_exp are the ranges; C95_pressure the pressure. C95_case is an engine with a trajectory for all time to which they apply."
 },
 "C96": {
  "note": "C96_forever: existence for all time; C96_in_range: the ranges; C96_case: an engine with sinusoidal drive and volume ratio 2 that meets every hypothesis. C80 needs the state to stay in a box, which is proved here."
 },
 "C97": {
  "note": "C97_exists: existence for every pressure, with ranges; C97_accepted: integration_is_converged answers true; C97_case: the sinusoidal engine of C96 meets every hypothesis. Says nothing of whether repeated revolutions tend to the cycle."
 },
 "C98": {
  "note": "C98_pressure: the equation; C98_sign: its sign in both regimes; C98_solvable_refuted, C98_panics: the failure; C98_case: an engine with exchanger at 77 K."
 },
 "C99": {
  "note": "f64. Drives other than the sinusoidal one: C99_run asks for the size of the volumes. The linear solver's answer must be finite and accurate (`careful`), as in C92; sine and cosine of the system's library are only assumed to stay within -1 and 1."
 },
 "C100": {
  "note": "Refuted expectation: heat of the regenerator over a steady cycle is not 0. C100_balance gives the exact amount, C100_sink a class of engines with a loss, C100_gives_back_refuted a witness whose state is the one the engine starts from."
 },
 "C101": {
  "note": "f64. The figures must be finite; densities at the samples must be nonzero and wall resistances nonzero (an infinite one conducts nothing). The heat of the walls does not act on the gas (C46), so it stays as a separate term in the first law."
 },
 "C102": {
  "note": "Any number type. The failures named are the two RunError values; an integration failure inside the search counts as InnerLoop, as in the code."
 },
 "C103": {
  "note": "Exact arithmetic. The constant depends on the trajectory, the component replies and the temperatures, not on the samples. C101 adds the rounding of the report from its samples in f64."
 },
 "C104": {
  "note": "The ODE solver itself (ode_solvers) is not modelled; its accuracy per step is the hypothesis accurate_steps."
 },
 "C105": {
  "note": ""
 },
 "C106": {
  "note": "documents as in SerdeDocs.v; the text parsing is not modelled; solvability of each step in exact arithmetic, for the named gas hydrogen"
 },
 "C107": {
  "note": "similar_* in SpecSimilar.v state what the other engine is. The law is about exact trajectories and cycles and about reports of corresponding series; the loop's absolute tolerances and the integrator's guard past the period do not scale, so it is not claimed of whole runs."
 },
 "C108": {
  "note": "The factor is a sufficient bound: it is below 1 only when the exchangers hold much more gas than the working spaces, as in the case (0.70 bounded by 3/4); nothing is claimed about engines that miss it. Exact arithmetic."
 },
 "C109": {
  "note": "Exact arithmetic. Built on C108. The reliability of the integrator is a hypothesis about its results, with its error as a parameter; the concrete case meets it with an exact integrator for a concrete engine, for all tolerances."
 },
 "C110": {
  "note": "C110_run gives the bound with constants that depend on the engine only, C110_limit says that every accuracy can be reached; C110_case has an engine and an exact integrator for which it is reached. The hypotheses on the integrator are hypotheses on an outside library (ode_solvers)."
 },
 "C111": {
  "note": "C111_run is the limit statement, C111_bound gives the size of the error, C111_case has an engine and an exact integrator. Unlike C109 and C110, the integrator is only assumed to be close to exact trajectories."
 },
 "C112": {
  "note": "C112_revolution covers how the program calls the solver: the right-hand side, the start, the end time, the step and the tolerances. C112_run is the limit statement, C112_euler shows that Euler's method keeps the promise, C112_case has an engine with Euler's method. Unlike C111, nothing about engines is assumed of the solver. That the solver of the ode_solvers library keeps the promise is not proved."
 },
 "C113": {
  "note": "C113_out and C113_in are about one instant, C113_along about trajectories, C113_means about the means over a revolution. C113_sinusoidal and C113_rhombic are about the drives, with drives that meet their conditions in C113_drives_case. C113_case is an engine with a sinusoidal drive a quarter of a revolution after the start."
 },
 "C114": {
  "note": "C114_report is about the report, C114_means about the averages in the last test of the outer loop, C114_exist shows that the means exist. C114_case is a run with a regenerator of fixed conductance that succeeds. C110 and C111 are the same for fixed approaches, where the state never changes."
 },
 "C115": {
  "note": "C115_returned is the first direction, C115_run the converse, C115_conducting and C115_keeping give the approaches. The concrete case is C114_case: an engine with a regenerator of fixed conductance. That the outer loop finds a consistent state from elsewhere is not proved."
 },
 "C116": {
  "note": "C116_solver for every dependable solver, C116_euler for Euler's method, C116_case for a sinusoidal engine, C116_rhombic for a rhombic one and C116_mixed for one with a regenerator that keeps an approach. That U is large: exchangers that conduct poorly may make the outer loop wander, which is not excluded."
 },
 "C117": {
  "note": "C117_solver for every dependable solver, C117_euler for Euler's method, C117_case for a sinusoidal engine and C117_mixed for one with a regenerator that keeps an approach. T depends on the engine and on the number of points. Unlike C116, U does not depend on the outer tolerance. For conductances below U nothing is claimed."
 },
 "C118": {
  "note": "C118_solver for every dependable solver, C118_euler for Euler's method, C118_case for a sinusoidal engine and C118_mixed for one with a regenerator that keeps an approach. C117 says that runs approach some temperatures; C118 says which ones, without reference to runs."
 },
 "C119": {
  "note": "C119_solver for every dependable solver, C119_euler for Euler's method, C119_case for a sinusoidal engine, C119_mixed for one with a regenerator that keeps an approach and C119_rhombic for a rhombic engine. The number of points is no longer fixed first as in C117 and C118. Spacings must exceed the 1e-14 s by which the code overshoots the period, so margins that would need finer points than that are not covered."
 },
 "C120": {
  "note": "C120_solver for every dependable solver, C120_euler for Euler's method, C120_case for a sinusoidal engine, C120_mixed for one with a regenerator that keeps an approach and C120_rhombic for a rhombic engine. The exact figures are those of every steady cycle that stays warm (steady_totals), so they are unique. C120_efficiency bounds the error of the efficiency where the heat input exceeds the error of the figures. Spacings must exceed 1e-14 s as in C119."
 },
 "C121": {
  "note": "C121_points for runs, C121_two for the integration of a single interval, C121_refuted with the run of C121_slow, C121_guard_needed. How the solver places its points is a hypothesis (adds_times in SpecPoints): the solver library is not part of /repo. C121_case meets all hypotheses with the speed and the number of points of examples/run_simple_engine.rs."
 },
 "C122": {
  "note": "C122_once for any number type, C122_never_outer and C122_needs_sane for f64; C122_covers and C122_configured say that FixedApproach exchangers, however built, are meant; C07_fixed_approach says which averages such a run reports."
 },
 "C123": {
  "note": "Lifts C60 from single evaluations to trajectories, steady cycles, components and reports. A regenerator imbalance is not mirrored by the code: C123_initial is about the state a run starts from."
 },
 "C124": {
  "note": "The exact integrals behind the reported heats. C125 and C126 rest on it."
 },
 "C125": {
  "note": "C125_bound is the second law with the excess in place of 0; C126 shows that the excess can be positive and large enough to break Carnot's bound."
 },
 "C126": {
  "note": "Witness for a false expectation. The engine is built from State_new_hint and Run_new (C126_case). Cause: h - u = R (T - T_ref), see C31, C71 and C125."
 },
 "C127": {
  "note": "The f64 counterpart of C27, as C84 is for the sinusoidal drive. C127_short shows what the missing check of the geometry costs."
 },
 "C128": {
  "note": "The hydrogen counterpart of C95 and C96. With heat capacities that depend on temperature there is no power law for an adiabat, so bounds are stated with the entropy."
 },
 "C129": {
  "note": "The hydrogen counterpart of C97. The convergence test accepts such a cycle by C97_accepted, which holds for all fluids."
 },
 "C130": {
  "note": "The size of the enthalpy's error is |T - 250| times the terms of the mean heat capacity, so the enthalpy is accurate relative to its terms also near the reference temperature."
 },
 "C131": {
  "note": "pi is bounded by Machin's series of the standard library; the concrete case uses sine and cosine rounded down to multiples of 2^-52, for which the hypotheses are proved."
 },
 "C132": {
  "note": "mean_cp is tied to the modelled enthalpy by C132_mean: (T - 250) mean_cp(T) is the enthalpy the code computes. C68 gives the instantaneous leak."
 },
 "C133": {
  "note": "The linkage is specified by the lengths of its rods (SpecDrive), not by the square roots the code computes; C133_linkage shows that it can be assembled at every angle. For the default drive at a quarter turn both volumes are right within 2e-16 m^3."
 },
 "C134": {
  "note": "The exact rates are given as derivatives of the volumes between yokes that obey the lengths of the rods, not by a formula; the case shows that such yokes exist and are differentiable. For the default drive at a quarter turn both rates are right within 5e-14 m^3/s. The rate of the expansion space divides by the piston area, so the theorem asks for a piston at least 1 mm wide."
 },
 "C135": {
  "note": "Complements C24 (exact log mean) and C25 (zero difference). With 300 K, 800 K, approach 10 K and imbalance 2 K the error is below 2e-10 K."
 },
 "C136": {
  "note": "For one transfer unit and a change of 1 K the approach is right within 1e-13 K. C136_positive_refuted: with 40 transfer units the approach is exactly 0 although heat flows."
 },
 "C137": {
  "note": "For one transfer unit between 300 K and 900 K the approach is 400 K within 2e-12 K."
 }
}
