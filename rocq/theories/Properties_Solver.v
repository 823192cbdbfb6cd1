(** * Theorems about runs with a solver of differential equations *)
From Coq Require Import ZArith NArith List Reals.
From Verif Require Import Num ModelTypes ModelWs ModelHx ModelStateEq ModelEngine ModelApi RNum Spec SpecR SpecGas
  SpecUnique SpecReport SpecQuad SpecBounds SpecSteady SpecContract SpecSample SpecSearch SpecAccurate SpecSolver Fixture RGauss RFluid RSearchCase
  RConvergeCase REuler RSolverRun RSolverCase.
Import ListNotations.
Local Open Scope R_scope.

(** C112: the program hands its state equations to the solver so that a solver which follows the
    solutions of smooth differential equations follows the engine over one revolution *)
Theorem C112_revolution (comps : Components R) (s0 : State R) (r : Run R) (D : Decomp R) (P0 cl ch el eh : R) :
  s_fluid s0 = IdealGas_Fluid he -> driven (co_ws comps) -> Run_new comps s0 = Ret r ->
  te_sink (s_temp s0) + te_source (s_temp s0) <> 500 -> sound D -> complete D ->
  (forall T, between (V_comp r) cl ch 0 T) -> (forall T, between (V_exp r) el eh 0 T) ->
  heat_lost_comp r = 0 -> heat_lost_exp r = 0 -> sane_exchangers r -> 0 < P0 ->
  warm (expanded cl ch (te_chx (ru_temp r))) -> warm (expanded el eh (te_hhx (ru_temp r))) ->
  exists d L B, 0 < d /\ 0 <= L /\ 0 <= B /\
  forall (E : Env R) (tol : OdeTolerance R) (n : N) (e : R),
  let h := ru_period r / IZR (Z.of_N (N.pred n)) in
  (2 <= n)%N -> / 10 ^ 14 < h ->
  solver_within E (ot_rel tol) (ot_abs tol) (ru_period r + / 10 ^ 14) d L B e ->
  accurate E D r (within_levels r P0 cl ch el eh) tol n h e.
Proof. exact (kept_promise comps s0 r D P0 cl ch el eh). Qed.
Print Assumptions C112_revolution.
(** with such a solver, runs succeed and report the exact steady cycle *)
Theorem C112_run (comps : Components R) (s0 : State R) (r : Run R) (D : Decomp R) (cl ch el eh cl' ch' el' eh' : R)
    (T_low V_hi v_hi rho rv : R) (a : Replies R) :
  let q := left_over r T_low V_hi v_hi rho rv in
  let P0 := pr_t_zero (s_pres s0) in
  fixed_approach (co_chx comps) -> fixed_approach (co_regen comps) -> fixed_approach (co_hhx comps) ->
  s_fluid s0 = IdealGas_Fluid he -> driven (co_ws comps) -> Run_new comps s0 = Ret r ->
  te_sink (s_temp s0) + te_source (s_temp s0) <> 500 -> sound D -> complete D -> sane_exchangers r -> 0 < P0 ->
  (forall T, between (V_comp r) cl ch 0 T) -> (forall T, between (V_exp r) el eh 0 T) ->
  0 < cl' < cl -> ch < ch' -> 0 < el' < el -> eh < eh' ->
  settles r T_low V_hi v_hi rho rv -> q < 1 ->
  T_low < expanded cl' ch' (te_chx (ru_temp r)) -> T_low < expanded el' eh' (te_hhx (ru_temp r)) ->
  (forall vals, replies (mkEngine comps s0 vals) a) ->
  exists d L B c' s X, 0 < d /\ 0 <= L /\ 0 <= B /\
  steady_cycle D r c' /\ warm_trajectory D r T_low c' /\ cd_P (c' 0) = P0 /\
  (forall t, 0 <= t <= ru_period r -> solved_at D r t (c' t) (s t)) /\
  totals (IdealGas_Fluid he) (s_temp s0) a c' s (ru_period r) X /\
  forall eps, 0 < eps -> exists dl, 0 < dl /\
  forall tol, 0 < ct_abs tol -> 0 < ct_rel tol <= dl -> exists e0 n, 0 < e0 /\
  forall (E : Env R) (fl : Fluid R) (inputs : RunInputs R) (settings : RunSettings R),
  let ode := rs_ode_tol settings in
  let h := ru_period r / IZR (Z.of_N (N.pred (rs_resolution settings))) in
  State_new_hint comps fl inputs = Ret s0 ->
  lt_inner (rs_loop_tol settings) = tol ->
  0 < ct_abs (lt_outer (rs_loop_tol settings)) -> 0 < ct_rel (lt_outer (rs_loop_tol settings)) ->
  solver_within E (ot_rel ode) (ot_abs ode) (ru_period r + / 10 ^ 14) d L B e0 ->
  (2 <= rs_resolution settings)%N -> / 10 ^ 14 < h -> h <= dl ->
  (n < N.to_nat (mi_inner (rs_max_iters settings)))%nat -> (0 < mi_outer (rs_max_iters settings))%N ->
  exists k en rep, Engine_run_counted E D comps fl inputs settings = (k, Ret (Ok en)) /\ (k <= n + 2)%nat /\
    RunResults_from en = Ret rep /\ report_within a X eps rep.
Proof. exact (solver_limit comps s0 r D cl ch el eh cl' ch' el' eh' T_low V_hi v_hi rho rv a). Qed.
Print Assumptions C112_run.
(** Euler's method is such a solver, for all differential equations *)
Theorem C112_euler (H rho L B e : R) : 0 < H -> 0 < rho -> 0 <= L -> 0 <= B -> 0 < e ->
  exists N0, forall N rtol atol, (N0 <= N)%nat -> solver_within (euler_env N) rtol atol H rho L B e.
Proof. exact (euler_keeps H rho L B e). Qed.
Print Assumptions C112_euler.
(** an engine with Euler's method *)
Example C112_case : exists X, forall eps, 0 < eps -> exists dl, 0 < dl /\
  forall tol, 0 < ct_abs tol -> 0 < ct_rel tol <= dl ->
  exists n N0, forall N tol' ode points inner outer,
  let h := 1 / 60 / IZR (Z.of_N (N.pred points)) in
  (N0 <= N)%nat -> 0 < ct_abs tol' -> 0 < ct_rel tol' -> (2 <= points)%N -> / 10 ^ 14 < h -> h <= dl ->
  (n < N.to_nat inner)%nat -> (0 < outer)%N ->
  exists k en rep,
    Engine_run_counted (euler_env N) gauss st_comps (IdealGas_Fluid he) st_inputs (st_settings tol tol' ode points inner outer) = (k, Ret (Ok en)) /\
    (k <= n + 2)%nat /\ RunResults_from en = Ret rep /\ report_within st_replies X eps rep.
Proof. exact st_euler. Qed.
