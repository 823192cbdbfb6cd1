# Design: a Rocq model of sett-rs

## Shape of the model

Everything in `/repo/src` that computes is modelled function by function, as
total Gallina functions **polymorphic in the number type**: every f64 operation
the code performs is an operation of the class `NumOps F` (`theories/Num.v`).
One model is therefore read three ways:

* **any number type** - control-flow properties (loops, errors, panics, data
  movement) are proved for every `F` and every `NumOps F`, hence in particular
  for machine floats with whatever libm;
* **exact arithmetic** - `F := R` (`theories/RNum.v`): algebra and calculus;
* **f64** - `F := binary_float 53 1024` of Flocq (`theories/B64.v`), IEEE-754
  double precision with round-to-nearest-even, signed zeros, infinities, NaN
  (a single NaN; its place in `total_cmp` is a parameter). `exp/ln/sin/cos`
  are parameters (libm).

Panics are explicit (`outcome := Ret a | Panic reason`), `Result` stays data.

External code is represented by *oracles* the theorems quantify over:

* `MatrixDecomposition` (nalgebra LU/QR/SVD): any function
  `Matrix -> Vector -> option Vector` (`Decomp F`); exact-arithmetic theorems
  assume the contract `sound` (a returned x solves Ax=b) and, where something
  has to succeed, `complete` (a regular system is solved). Gaussian elimination
  (`Fixture.gauss`) is proved to meet both (`RGauss.v`).
* `ode_solvers::Dopri5`: any *strategy tree* - a finite adaptive program that
  queries the derivative (each query may depend on all earlier answers) and
  finally returns output points or an error (`Env F`). The environment also
  says whether integer overflow checks are on.
* user components and fluids: arbitrary records of functions that may panic.

## File map

* model: `Num`, `ModelTypes`, `ModelWs`, `ModelHx`, `ModelStateEq`,
  `ModelStubs`, `ModelEngine`, `ModelApi`, `ModelSerde`, `ModelExamples`; every definition cites
  file and lines in /repo and says where it simplifies. No proofs in these files.
* specifications, independent of the model's helpers: `Spec`, `SpecLoop`,
  `SpecApi`, `SpecCfg`, `SpecSerde`, `SpecInfl`, `SpecLimits`, `SpecExamples` (any number type), `SpecR`, `SpecGas`,
  `SpecKin`, `SpecDrive`, `SpecTraj`, `SpecLaws`, `SpecHydro`, `SpecSecond`,
  `SpecSeries`, `SpecQuad`, `SpecPerf`, `SpecHx`, `SpecUnique`, `SpecExist`,
  `SpecDepend`, `SpecDefault`, `SpecSpaces`,
  `SpecBounds`, `SpecSteady`, `SpecCold`, `SpecRegen`, `SpecSample`, `SpecGlobal`, `SpecSimilar`, `SpecTurn`, `SpecCarnot`, `SpecContract`, `SpecSearch`,
  `SpecConverge`, `SpecAccurate`, `SpecSolver`, `SpecMeans`, `SpecPush`, `SpecEffective`, `SpecMixed`, `SpecOuter`, `SpecH2`, `SpecH2Cycle` (reals),
  `SpecF64`, `SpecRound`, `SpecSign`, `SpecBalance`,
  `SpecMargin`, `SpecRange`, `SpecReport`, `SpecPoints`, `SpecCrank`, `SpecProps`, `SpecAngle`, `SpecLink`,
  `SpecLogMean`, `SpecNtu` (f64).
* proofs: `Poly*` (any number type), `R*` (reals), `F64*` (f64).
* concrete cases: `Fixture` (oracles), `Replay` (the unit tests of the
  repository whose data are in the source, replayed on the model in f64),
  `Demo`, `Witness`, `F64Case`, `F64BalanceCase`, `F64MarginCase`, `F64Fragile`, `F64RangeCase`, `F64ReportCase`, `F64PointsCase`, `F64RhombicCase`, `F64PropsCase`, `F64AngleCase`, `F64LinkCase`, `F64LogMeanCase`, `F64NtuCase`, `F64NtuRegen` (with its proof), `LimitsCase` (f64), `RSampleCase`, `RCase`, `RCase2`, `RCase3`,
  `RCase4`, `RRegenCase`, `RSimilarCase`, `RTurnCase`, `RCarnotCase`, `RCarnotRun`, `RSettleCase`, `RSearchCase`,
  `RConvergeCase`, `RAccurateCase`, `RSolverCase`, `RConsistentCase`, `REffectiveCase`, `RMixedCase`, `ROuterCase`, `ROuterExactCase`, `ROuterSteadyCase`, `ROuterPowerCase`, `RRhombicCase`, `RRhombicRuns`, `RH2Case` (reals),
  `SerdeDocs` (configuration documents of the tests and examples).
* theorems: `Properties_*`; each file contains only theorems `Cnn_...`, the
  concrete cases beside them and `Print Assumptions`, every one closed by
  `exact`. Each part of a property is a theorem `Cnn_...`; MANIFEST.json lists
  them per property.

## Properties: what is modelled, how it is proved

(see properties.jsonl for the statements)

* C01, C02, C47 - `is_converged`; R: algebra; f64: Flocq rounding monotonicity,
  case analysis on special values.
* C03-C06, C48, C51, C52 - `Engine::run` / `find_steady_state` as structural
  recursion on the iteration limits; induction; polymorphic.
* C07 - polymorphic characterisation plus refutation witness (f64 run).
* C08, C09 - `solve` loop; relation-style spec of the direction search; induction.
* C10-C12 - symbolic expansion of the 10x10 matrix over R; ring/linear arithmetic
  against a separate physical spec (`SpecR.v`).
* C13-C15, C57 - elimination to a scalar, strictly increasing piecewise-linear
  equation for dP/dt; semismooth-Newton argument over its three pieces.
* C16 - interpretation of the strategy tree; induction on the tree.
* C17, C18, C38 - induction on point lists; DVector operations are
  dimension-checked (panic on mismatch) in the model.
* C19-C23 - list induction over R; f64 part of C20 by total order reasoning.
* C24 - mean value / derivative arguments for the log-mean.
* C25, C34, C42, C43, C49, C50 - f64 instance, Flocq.
* C26, C27, C29, C30, C31 - stdlib derivatives over R, geometric inequality.
* C28, C30, C31, C41, C43, C45, C46, C68 - the code violates the expectation; a
  `_refuted` theorem with witness plus the exact characterisation.
* C32, C33 - real analysis of exp.
* C35-C37 - list algebra over R using C10/C11 pointwise.
* C39, C40, C44, C53 - data conversions, polymorphic.
* C54, C67 - gas data give physical inputs; polynomial bounds for hydrogen by
  Bernstein coefficients on two intervals and shifted coefficients above.
* C55, C56, C63, C64, C68 - derivatives along exact trajectories, mean value
  theorem over intervals.
* C58-C62 - transformations of the balances of C57, which determine the solution.
* C65 - limits of the explicit solution formulas for each flow direction, and
  uniqueness at the boundaries.
* C66 - two runs side by side, induction on the iteration limit; polymorphic.
* C69 - unfolding of `run_engine`; polymorphic.
* C70 - trigonometry of the linkage over R.
* C71 - derivative of the entropy of each volume along a trajectory, with the
  mass and energy balances of C57; ln x <= x - 1. Refuted for helium by an
  explicit engine.
* C72 - mean value theorem per panel, list induction over R.
* C73-C75 - serde's derived decoders as functions on documents, against a
  specification that looks values up by path; polymorphic in scalars and in how
  they are read.
* C76 - the stubs as panicking components; unfolding; polymorphic.
* C78, C79 - Lipschitz estimate for the eliminated system (a piecewise linear,
  strictly increasing equation), closure of "bounded and close" pairs of
  functions under arithmetic, Gronwall's inequality; C79 shifts a trajectory by a
  period and uses C63.
* C80 - Picard's iteration for three unknowns (stdlib primitives of continuous
  functions, uniform Cauchy limits), functions that are Lipschitz near a point
  closed under arithmetic, joining of trajectories, compactness of a box by
  creeping along intervals.
* C77 - C02 applied to what C52 says about a successful run.
* C81, C82 - forward error analysis: one operation by Flocq's relative error
  lemmas, induction along the running sum; C82 also a computed witness.
* C83, C84, C127 - rounding is monotone and fixes f64 values.
* C85 - conservation of gas mass along a trajectory and monotonicity of quotients.
* C86-C88 - local Lipschitz bounds of C80 made uniform over a box by compactness,
  Gronwall's inequality for the squared distance; C88 shifts by a period and
  uses C85.
* C89 - computation, and C80/C86 for the engine of src/engine.rs's test.
* C90 - sign rules of Flocq's operations with monotone rounding.
* C91 - C55/C56 per gas space, with the donor enthalpies of C10/C11.
* C92 - a calculus of rounding errors for the coefficients of the state equations,
  and the residual bound of the linear solver, row by row.
* C93 - induction along the search of C09. C94 - computation for all 81 hints, with
  C14 for exact solvers.
* C95 - the temperature equation of C91's balances for helium; a function that cannot
  rise above a level (square of its positive part). C96 - C80 with C95's ranges,
  one trajectory from arbitrarily long ones by uniqueness (C78).
* C97 - the map of a revolution on a rectangle of temperatures which C95 makes
  invariant, Lipschitz by C86; Brouwer's theorem for such maps of the plane from
  Sperner's lemma (`RBrouwer`, standard library only); the pressure follows from conservation of mass.
* C128, C129 - as C95 to C97, with the entropy of a space in place of `T V^(R/cv)`; the corners of
  the rectangle solve equations for the entropy by the intermediate value theorem (`RH2`, `RH2Steady`).
* C130 - each property is followed operation by operation as in C92 (`F64Balance`); the literals of
  the parameter table are compared with their decimals by computation (`F64Props`).
* C131 - the angle likewise, with bounds for pi from Machin's series (`F64Pi`); sine and cosine change
  no faster than their argument (`F64Angle`).
* C98 - the balances of a working space solved for the pressure; signs.
* C99 - powers of two that bound the magnitude of every intermediate result.
* C100 - C91's balances of the regenerator, mean and half difference of the enthalpies
  at each end; continuity from the Lipschitz bounds of C80; a function that never
  falls and returns is at rest.
* C101 - the report as an expression in the samples and the answers of the components
  (`PolyReport`, any number type), then the error calculus of C92 along it.
* C102 - induction over both loops: a pass that ends does so under every larger limit (`PolyLimits`).
* C103 - the solution of the state equations is a bounded function of the seven numbers it depends on, of bounded
  slope near every physical state (`RSmooth`); a covering argument makes the bounds uniform along the trajectory
  (`RSample`); the trapezoid error of C72 and the deviation of the samples add up (`RSampleReport`); the rates of
  both drives are of bounded slope (`RMotion`).
* C104 - near the trajectory the rates differ by at most a constant times the distance, so the squared distance grows
  at most exponentially while it is small, and real induction shows that it stays small (`RGlobal`); a weighted
  triangle inequality for squares adds up the errors of the steps; with C103 this gives the report
  (`RGlobalReport`).
* C105 - a covering argument gives local trajectories of the same length from all states around the trajectory; C104
  keeps them near, so they can be continued (`RNearby`).
* C106 - induction over the steps of the sweep; the documents by computation, equal
  literals by their digits; solvability as in C89.
* C107 - the solution is determined by the conservation laws (C57), which the scaled solution satisfies for the
  scaled inputs; pressure and speed as in C61 and C58, size is new (`RSimilar`); the report term by term.
* C108 - in 1/T the equation of each space is linear in its own temperature and pulls two solutions together when gas
  flows in; the temperatures act on each other only through the pressure, which the fixed volumes steady. Comparison
  of differential inequalities bounds both (`RContract`); the equations come from the balances of C91 and C95
  (`RContractEngine`), existence from C97, the rest by iteration over revolutions (`RSettle`).
* C109 - induction over the rounds of the loop with C108 for each round; the test bounds the change over a round, and
  the factor turns that into a distance from the steady cycle (`RSearch`). The exact integrator of the case names the
  states along each exact trajectory, which is unique (C78) (`RSearchCase`).
* C110 joins C109, which bounds the distance of the first sample from the steady cycle in 1/T, to C104, which bounds
  the error of the report by that distance, the step and the errors of the steps (`RConverge`). Reciprocals that are
  close belong to temperatures that are close, with a constant that depends on the steady cycle only.
* C111 shows that an integrator that is merely close to exact trajectories is reliable in the sense of C109. Exact
  revolutions map the temperatures between two levels into themselves. An integration with a small error leaves that
  range, but not by much: the distance to the range shrinks by the factor of C108 and grows by the error, so it never
  exceeds error / (1 - factor). A slightly wider range holds all starts of the search (`RAccurate`).
* C112 replaces the accurate integrator of C111 by a promise of the ODE solver that mentions no engine. The solver
  is a program that asks for derivatives; `served` relates it to a right-hand side. The rates of change of the
  engine are bounded and Lipschitz in time and state on a compact range of physical states (`RSolver`), so the
  promise applies to them, and every derivative the solver asks for is an accepted solution of the state equations.
  That the promise can be kept is shown for Euler's method (`REuler`).
* C113: the balances are added up from one end: gas that is squeezed at constant mass must leave or raise the
  pressure, and a rising pressure compresses every exchanger, so no flow can turn before the other end (`RPush`).
  A flow that is positive at one instant and never changes abruptly has a positive mean.
* C114 repeats the argument of C110 for the state that a run returns instead of the one it starts with (`RReturned`).
  The averages are trapezoidal sums of Lipschitz functions of the sampled solutions, as the powers and heats are (`RMeans`).
* C115: the temperatures that the outer loop recomputes are continuous in the averages at the exact means
  (`RApproach` for the exchangers, `RConsistent` for the regenerator temperatures); the averages approach the means by
  C114. Conversely a continuous map accepts its fixed point under every tolerance once its argument is near enough.
  The concrete conductance is found by solving the closed form backwards from the exact mean flow (`RConsistentCase`).
* C116: while gas is pushed, the flows have a lower bound that is the same for all states with approaches of at most A
  (`RFlowBound`), and heats have an upper bound. So each approach after one update is the one that its exchanger keeps (`RMixed`),
  or at most a constant over the conductance (`REffective`), and the second update changes the temperatures by less than the outer tolerance (`RFamily`).
  The rates of change are bounded, and change at a bounded rate, uniformly over these states (`RTame`, `RUniform`),
  so that a solver that keeps one promise is accurate for all of them.
* C117: trajectories of two states of the engine stay close when the states are close (`RVary`, `RVaryRun`: Gronwall with
  different right-hand sides), and so do their steady cycles because differences shrink (`RShadow`). So the sampled
  averages of two runs differ by a constant times the distance of the states plus the errors of integration, and the
  recomputed temperatures by that constant over the conductance (`RApart`, `ROuter`); exchangers that keep an approach add
  nothing to the difference (`RMixed`). With a large conductance the outer loop
  halves distances, up to the errors. Converged states of any two runs are then as close as their tolerances, and the sets of
  converged states for smaller and smaller tolerances close in on one point (`ROuterLimit`).
* C118: the map from temperatures to the temperatures that samples of the exact steady cycle lead to is total on the
  states near the hint (`RInside` gives the cycle, `ROuter.fixed_exists` the samples and the recomputed temperatures)
  and contracts, so iterating it closes in on a fixed point (`RClosing`). A self-consistent state is a converged state for
  every tolerance, so the comparison of C117 applies to it (`ROuterExact`).
* C119: the map with exact time averages is the limit of the maps with samples as the spacing shrinks, so it contracts
  as they do and has one fixed point, and the fixed points with samples approach it (`ROuterMean`, `ROuterSteady`).
* C120: reports from samples at nearby temperatures differ in proportion to the distance (`ROuterReport`), exact samples
  at the steady temperatures report the exact integrals up to the spacing (C103), and C119 brings the two together (`ROuterPower`).
* C121: adding a step k times loses at most k(k + 1)/2 half units of rounding of the step, so the sum stays within the
  guard as long as (n + 9) p is at most 179 s (`F64Points`). That the solver adds up its output times is a hypothesis of the
  theorem (`adds_times`).
* C122: with fixed approaches every recomputation gives the initial temperatures again (`PolyFixed`), and a value counts as
  converged against itself exactly if it is finite and not zero and the tolerances are positive (`F64Fixed`).
* C123: the inputs of the turned engine are the mirror image of those of the other at the later time, so C60 applies at every
  moment; a sinusoidal drive with exchanged pistons and opposite phase is the same drive, turned by whole revolutions less
  the phase (`RTurn`).
* C124, C125: energy and mass balances of the two spaces and the exchangers are added up with antiderivatives (`RBook`, where
  `books_exist` gives the antiderivatives); entropy is added up as c_p ln T - R ln P, and x - 1 - ln x >= 0 is what mixing makes.
* C126: with a small stroke and large exchangers temperatures stay in a narrow range; on average gas leaves a space at the
  temperature at which it came, so over a cycle it flows as if each space had the temperature of its exchanger, and the
  work is bounded from below with explicit error terms
  (`RCarnot` on functions alone, `RCarnotCase`). The engine settles, so C111 carries this over to reports of runs (`RCarnotRun`).
* C132 - the leak of C68 is 250 times the mass times the rate of the mean heat capacity; by parts with the
  mass balances of C91 it is the rate of what the spaces hold minus what flows carry, and the mean value
  theorem gives the totals; primitives come from the continuity of the solution along a trajectory.
* C133 - the error of a square root is that of its argument divided by the root (`F64Link`); the arm never exceeds the
  rod even after rounding, so no root of a negative number is taken; the rest as C131.
* C134 - the slope of a rod is the sine times the arm over the height; its error follows from those three (C133).
  The expansion rate is tracked relative to the rounded piston area, which the code multiplies and divides by.
* C135 - the logarithm changes by at most the change of its argument over the argument; numerator and logarithm are
  bounded separately, the quotient as in C133 (`F64LogMean`).
* C136 - the error of the exponential is that of its argument n times exp(-n), and n exp(-n) <= 1; 1 - e rounds to 1
  for e <= 2^-55 because it does for e = 2^-55 (`F64Ntu`, `F64NtuCase`).
* C137 - h/(1+h) has slope at most 1/(1+h), so the relative error of the transfer units (C136) does not grow;
  every later rounding is relative to a number of at most about 1 (`F64NtuRegen`).

## Findings

Places where the program does not do what its names or documentation suggest,
each with theorem:

* rhombic drive: `From<Config>` sets the displacer diameter to the piston
  diameter, `D_d` is ignored (C28), so its default configuration does not give its
  default (C89); compression volume below its clearance when
  the eccentricity is smaller than the crank radius (C27_comp_below); a connecting rod
  that is too short is not rejected, and both volumes are NaN where it does not reach (C127_short).
* `State::update` returns the old state on convergence, so the averages reported
  with a converged engine lag by one iteration (C07).
* the fixed-conductance approach is computed as 1/effectiveness - 1, which is exactly 0 from about 38 transfer units
  on although heat flows (C136_positive_refuted); `exp_m1` would keep its digits.
* in f64 the average of a constant pressure can exceed it by rounding, so
  `avg` need not lie between `min` and `max` (C82).
* hydrogen: `cp` is not the derivative of `enth` (C30), so the state equations
  do not conserve the internal energy the gas model reports (C68).
* `enth - inte = R (T - Tref)`, not P/rho (C31). Gas streams carry `enth` and the
  volumes store `inte`, so every stream does R * 250 K too little flow work per
  kilogram: helium of uniform temperature that is pushed from one space to the
  other cools in one and warms in the other, against the second law (C71). Below
  100 K inflow even lowers the pressure of a space, and an engine with a cold
  exchanger at 77 K can reach states where the solver panics (C98). Entropy over a
  cycle balances only up to R * 250 K times the integral of the mass inflow over the
  temperature (C125), and an engine between 300 K and 900 K turns more than 70 % of
  the heat it takes up into work, where Carnot allows two thirds, and is reported
  to do so (C126).
* wall resistances never act on the gas, only on the reported heats (C46).
* a failing state-equation solve panics instead of returning an error (C41);
  flow directions of NaN solutions count as consistent (C49). Rounding alone can
  cause this: when a flow is about to turn, it can come out negative if assumed
  positive and positive if assumed negative, and the search never ends (C94).
* the normalising enthalpy is zero for helium when T_sink + T_source = 500 K,
  and every run then panics or fails (C43).
* resolution 0 underflows (C42); a cycle period of 128 s or more absorbs the
  guard of 1e-14 at the end of the integration (C50). If the solver adds up its
  output times, the last point of a cycle is lost for some slow engines already
  below that, for instance with 54 points at 0.1 Hz (C121).
* the regenerator is a net source or sink of heat over a cycle, since its imbalance
  stays 0 (C100); reported heat in, heat out and power do not add up by this
  amount (C37).
* `efficiency.overall` is the constant 0 (C45).
* equal end temperatures of the regenerator and zero mass flow through a
  fixed-conductance exchanger give NaN (C25, C34).

* configuration files: serde's snake case gives the GPU-3 components the name
  `g_p_u3` and the nuclear isomer heaters `g_p_u3_n_i` and `mod2_n_i` (C73).
  Legacy files that give a resistance as the string "inf", as
  examples/run_from_legacy_config.rs does, load or not depending on whether
  "model" is iterated before "params" (C75). This rests on how config 0.13.3 and
  serde's buffer read floats, which cannot be checked in the sandbox; the test in
  src/config.rs, unlike the example, writes 1e300.

## Not modelled

Of configuration files: parsing of TOML and JSON text, merging of sources, the
reading of scalars (a parameter of the theorems), arrays, error messages.
Printing (`Display`, `Debug`),
the bodies of nalgebra and ode_solvers, memory, performance;
tests that read data files outside the source.

Simplifications, also stated at the definitions: trait methods are pure
functions that may panic; `usize`/`u32` are unbounded `N` except where
arithmetic on them can overflow; NaN has no payload; `f64::powi(2)` is a
product.

## Testing the theorems against wrong programs

`tools/mutate.py` edits a scratch copy of the model (a wrong index, a swapped
argument, a dropped update, a wrong constant, ...), rebuilds, replaces every
proof that no longer checks by `Admitted` and asks `Print Assumptions` which
property theorems rest on such a proof. One line per edit is in
`seeded/LOG.jsonl`.

## Trusted base

* Coq's kernel (8.16.1), including its VM, which is used by `vm_compute` /
  `vm_cast_no_check` for concrete f64 runs.
* The reading of the Rust source into the model (each definition cites file and
  lines), the reading of IEEE-754 in Flocq's `BinarySingleNaN`, and the
  specifications.
* The axioms listed by `Print Assumptions`, all from the standard library:
  `ClassicalDedekindReals.sig_forall_dec`, `ClassicalDedekindReals.sig_not_dec`
  and `FunctionalExtensionality.functional_extensionality_dep` (the real
  numbers), `Classical_Prop.classic` (used by Flocq and by real analysis).
  No axioms of our own, no `Admitted`, no functors or module types.

What `Print Assumptions` lists for each theorem (`tools/assumptions.py`):

<!-- assumptions -->
| axioms | theorems |
|---|---|
| (none: closed under the global context) | C08_solve_upwind, C08_solve_accepts, C09_solve_search, C09_traced_is_solve, C16_integration, C17_state_values, C03_run_fixed_point, C04_run_steady_state, C05_run_error, C05_outer_zero, C05_inner_zero, C06_boundary, C06_pres_zero, C07_averages_lag, C07_fixed_approach, C41_failing_solver_panics, C42_resolution_zero, C42_integration_zero, C48_work_bound, C48_counted_is_run, C51_run_panic, C52_run_ok, C18_run_aligned, C18_series, C18_results_aligned, C28_rhombic_ignores_D_d, C38_results_panic, C38_results_total, C39_legacy, C39_legacy_injective, C40_unsupported, C40_supported, C40_supported_panics, C44_results_repeat, C45_overall_zero, C45_electrical_ignored, C46_cycle_ignores_resistance, C46_run_ignores_resistance, C53_run_from_config, C69_settings, C69_inputs, C69_gas, C69_run, C69_unique, C76_methods, C76_exchangers, C76_working_spaces, C66_same_run, C66_exchangers, C66_sinusoidal, C66_rhombic, C73_spelled, C73_run, C73_names, C73_extra, C73_gpu3_refuted, C74_spelled, C74_run, C75_order, C75_legacy_order, C75_legacy_order_refuted, C89_exchangers, C89_rhombic, C89_lossless, C89_approach_built, C89_conductance_built, C89_ws_defaults, C101_reports, C101_replied, C101_solved, C102_raised, C102_outer, C102_inner, C102_inner_fails, C102_outer_fails, C102_fixed, C106_main, C122_once, C122_covers, C122_configured |
| `ClassicalDedekindReals.sig_forall_dec`, `FunctionalExtensionality.functional_extensionality_dep` | C81_figures, C81_growth, C83_fixed_approach, C109_limit, C115_keeping |
| `ClassicalDedekindReals.sig_forall_dec`, `ClassicalDedekindReals.sig_not_dec`, `FunctionalExtensionality.functional_extensionality_dep` | C113_drives_case, C133_linkage |
| `ClassicalDedekindReals.sig_forall_dec`, `ClassicalDedekindReals.sig_not_dec`, `Classical_Prop.classic`, `FunctionalExtensionality.functional_extensionality_dep` | C07_averages_refuted, C07_zero_flow_refuted, C41_error_refuted, C28_rhombic_refuted, C45_overall_refuted, C46_walls_refuted, C46_no_heat_refuted, C10_mass_conserved, C11_energy_conserved, C12_norm_is_scaling, C12_solve, C13_unique_solution, C14_solve_succeeds, C14_integration, C14_state_values, C15_solve_unique, C15_derivative_unique, C54_helium_solves, C55_gas_mass_constant, C56_gas_energy, C57_solve_iff_conserves, C26_derivatives, C26_periodic, C26_bounds, C26_attained, C26_phase, C27_derivatives, C27_periodic, C27_exp_clearance, C27_comp_clearance, C27_comp_below, C28_effect, C28_volumes_differ, C29_gas_law, C29_dd_dP_T, C29_dd_dT_P, C29_du_dP_T, C30_helium_cp, C30_hydrogen_cp_refuted, C30_hydrogen_enth, C31_h_u, C31_h_u_refuted, C31_zero, C43_norm, C70_sinusoidal, C70_rhombic, C70_rhombic_intended, C70_clearance_attained, C58_faster, C58_run, C58_sinusoidal, C58_rhombic, C59_at_rest, C60_mirror, C60_run, C61_charged, C62_shifted, C63_pressure_law, C63_pressure_returns, C63_pressure_positive, C64_interval, C64_cycle, C65_solve, C65_run, C65_sinusoidal, C65_rhombic, C67_physical, C67_hydrogen_solves, C68_hydrogen_leak, C68_true_derivative, C68_hydrogen_energy_refuted, C71_mixing, C71_balance, C71_second_law, C71_helium, C71_helium_refuted, C19_trapezoid, C19_trapezoid_report, C19_linear, C19_split, C19_affine_exact, C19_monotone, C19_short, C19_excess_ignored, C20_extrema, C20_average, C21_mass_flows, C21_non_negative, C21_reversed, C21_cancel, C22_heat_flows, C22_report, C22_agreement, C23_regen_temperatures, C24_log_mean, C72_integral, C72_integral_kinks, C72_pressure, C72_regen_heat, C72_hhx_heat, C72_chx_flow, C32_effectiveness, C32_decreasing, C32_vanishes, C32_same_function, C33_regenerator, C33_decreasing, C36_answered, C35_split, C35_no_resistance, C36_power_chain, C37_first_law, C37_no_wall_heat, C37_runs_are_solved, C01_real, C01_f64, C01_exact_change, C01_exact_ratio, C02_special, C02_same, C47_real, C47_f64, C20_f64, C22_adiabatic_state, C22_adiabatic_report, C25_temperatures, C34_chx, C34_hhx, C34_regen, C42_step_infinite, C43_norm_zero, C43_matrix, C49_direction, C49_nan_accepted, C50_guard_moves, C50_guard_absorbed, C77_inputs, C77_gas, C81_integral, C81_pressure, C81_regenerator_heat, C81_mass_flows, C81_relative, C81_non_negative, C82_between_refuted, C82_nearly_between, C83_ordered, C83_run, C84_volumes, C78_unique, C78_engine, C79_run, C79_engine, C80_starts, C80_lasts, C80_helium, C80_hydrogen, C85_between, C85_tolerance, C85_converged, C86_depends, C86_helium, C86_hydrogen, C87_errors, C87_exact, C88_nearly_steady, C89_regenerator, C89_rhombic_refuted, C89_turning, C89_simple_engine, C90_cold, C90_hot, C90_regenerator, C90_flows, C91_masses, C91_exchangers, C91_spaces, C92_balances, C92_totals, C92_state_values, C93_same_search, C94_search_settles_refuted, C95_equations, C95_direction, C95_comp, C95_exp, C95_pressure, C96_forever, C96_in_range, C97_exists, C97_accepted, C98_pressure, C98_sign, C98_solvable_refuted, C98_panics, C99_properties, C99_drive, C99_run, C99_engine, C99_balances, C99_norm, C99_helium_norm, C100_continuous, C100_meters, C100_balance, C100_run, C100_helium, C100_sink, C100_gives_back_refuted, C101_pressures, C101_powers, C101_heats, C101_ratios, C101_first_law, C101_case, C103_rates, C103_totals, C103_report, C103_first_law, C103_driven, C104_stays, C104_samples, C104_report, C105_nearby, C105_engine, C106_temps, C106_config, C106_legacy, C106_sweep, C107_larger, C107_sinusoidal, C107_rhombic, C107_solution, C107_trajectory, C107_steady, C107_engine, C107_report, C107_fixed, C108_revolution, C108_unique, C108_engine, C108_starts, C110_run, C110_limit, C111_run, C111_bound, C112_revolution, C112_run, C112_euler, C109_accepted, C109_search, C109_run, C113_out, C113_in, C113_along, C113_means, C113_sinusoidal, C113_rhombic, C114_report, C114_means, C114_exist, C115_returned, C115_run, C115_conducting, C116_solver, C116_euler, C116_case, C116_rhombic, C116_mixed, C117_solver, C117_euler, C117_case, C117_mixed, C118_solver, C118_euler, C118_case, C118_mixed, C119_solver, C119_euler, C119_case, C119_mixed, C119_rhombic, C120_solver, C120_euler, C120_case, C120_mixed, C120_efficiency, C120_efficiency_case, C120_rhombic, C121_points, C121_two, C121_refuted, C121_guard_needed, C122_never_outer, C122_needs_sane, C123_solution, C123_trajectory, C123_steady, C123_sinusoidal, C123_initial, C123_engine, C123_report, C123_replies, C124_books, C124_heats, C125_balance, C125_mixing, C125_bound, C126_carnot_refuted, C126_runs_refuted, C126_run, C127_volumes, C127_rates, C127_short, C128_equations, C128_entropy, C128_comp, C128_exp, C128_pressure, C128_in_range, C128_forever, C129_exists, C130_accuracy, C130_case, C131_volumes, C131_turn, C131_case, C132_mean, C132_books, C132_interval, C132_cycle, C132_steady, C132_case, C133_volumes, C133_case, C134_rates, C134_case, C135_temperatures, C135_case, C136_chx, C136_hhx, C136_case, C136_vanishes, C136_positive_refuted, C137_regen, C137_case |
<!-- end assumptions -->
