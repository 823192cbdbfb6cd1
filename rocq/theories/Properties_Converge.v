(** * Theorems about the accuracy of a whole run *)
From Coq Require Import ZArith NArith List Reals.
From Verif Require Import Num ModelTypes ModelWs ModelHx ModelStateEq ModelEngine ModelApi RNum Spec SpecR SpecGas
  SpecUnique SpecReport SpecSteady SpecContract SpecSample SpecSearch SpecConverge Fixture RGauss RFluid RSearch RSearchCase RConverge RConvergeCase.
Import ListNotations.
Local Open Scope R_scope.

(** C110: a run reports the powers and heats of the exact steady cycle, up to the errors of its method *)
Theorem C110_run (comps : Components R) (s0 : State R) (r : Run R) (D : Decomp R) (T_low V_hi v_hi rho rv : R)
    (c' : R -> Conditions R) (a : Replies R) :
  let q := left_over r T_low V_hi v_hi rho rv in
  let P0 := pr_t_zero (s_pres s0) in
  let ic := mkCond P0 (te_chx (s_temp s0)) (te_hhx (s_temp s0)) in
  fixed_approach (co_chx comps) -> fixed_approach (co_regen comps) -> fixed_approach (co_hhx comps) ->
  s_fluid s0 = IdealGas_Fluid he -> driven (co_ws comps) -> Run_new comps s0 = Ret r ->
  settles r T_low V_hi v_hi rho rv -> q < 1 -> sound D -> complete D ->
  steady_cycle D r c' -> warm_trajectory D r T_low c' -> cd_P (c' 0) = P0 ->
  (forall vals, replies (mkEngine comps s0 vals) a) ->
  exists K d, 0 <= K /\ 0 < d /\
  forall (E : Env R) (fl : Fluid R) (inputs : RunInputs R) (settings : RunSettings R) (region : Conditions R -> Prop)
    (e e1 h T_hi : R) (n : nat) (s : R -> Solution R) (X : Totals),
  let tol := lt_inner (rs_loop_tol settings) in
  State_new_hint comps fl inputs = Ret s0 ->
  0 < ct_abs (lt_outer (rs_loop_tol settings)) -> 0 < ct_rel (lt_outer (rs_loop_tol settings)) ->
  0 <= e -> reliable E D r T_low e P0 region (rs_ode_tol settings) (rs_resolution settings) ->
  (forall c, region c -> cd_P c = P0 /\ cd_T_c c <= T_hi /\ cd_T_e c <= T_hi) -> region ic ->
  passes_test tol T_hi (change_after q e (spread ic (c' 0)) n) ->
  (n < N.to_nat (mi_inner (rs_max_iters settings)))%nat -> (0 < mi_outer (rs_max_iters settings))%N ->
  0 <= e1 -> resolves E D r region (rs_ode_tol settings) (rs_resolution settings) h e1 ->
  test_error T_low q e tol + e1 <= d ->
  (forall t, 0 <= t <= ru_period r -> solved_at D r t (c' t) (s t)) ->
  totals (IdealGas_Fluid he) (s_temp s0) a c' s (ru_period r) X ->
  exists k en rep, Engine_run_counted E D comps fl inputs settings = (k, Ret (Ok en)) /\ (k <= n + 2)%nat /\
    RunResults_from en = Ret rep /\ report_within a X (K * (h + test_error T_low q e tol + e1)) rep.
Proof. exact (run_converges comps s0 r D T_low V_hi v_hi rho rv c' a). Qed.
Print Assumptions C110_run.
Theorem C110_limit (comps : Components R) (s0 : State R) (r : Run R) (D : Decomp R) (T_low V_hi v_hi rho rv : R)
    (c' : R -> Conditions R) (a : Replies R) :
  let q := left_over r T_low V_hi v_hi rho rv in
  let P0 := pr_t_zero (s_pres s0) in
  let ic := mkCond P0 (te_chx (s_temp s0)) (te_hhx (s_temp s0)) in
  fixed_approach (co_chx comps) -> fixed_approach (co_regen comps) -> fixed_approach (co_hhx comps) ->
  s_fluid s0 = IdealGas_Fluid he -> driven (co_ws comps) -> Run_new comps s0 = Ret r ->
  settles r T_low V_hi v_hi rho rv -> q < 1 -> sound D -> complete D ->
  steady_cycle D r c' -> warm_trajectory D r T_low c' -> cd_P (c' 0) = P0 ->
  (forall vals, replies (mkEngine comps s0 vals) a) ->
  forall eps, 0 < eps -> exists dl, 0 < dl /\
  forall (E : Env R) (fl : Fluid R) (inputs : RunInputs R) (settings : RunSettings R) (region : Conditions R -> Prop)
    (e e1 h T_hi : R) (n : nat) (s : R -> Solution R) (X : Totals),
  let tol := lt_inner (rs_loop_tol settings) in
  State_new_hint comps fl inputs = Ret s0 ->
  0 < ct_abs (lt_outer (rs_loop_tol settings)) -> 0 < ct_rel (lt_outer (rs_loop_tol settings)) ->
  0 <= e -> reliable E D r T_low e P0 region (rs_ode_tol settings) (rs_resolution settings) ->
  (forall c, region c -> cd_P c = P0 /\ cd_T_c c <= T_hi /\ cd_T_e c <= T_hi) -> region ic ->
  passes_test tol T_hi (change_after q e (spread ic (c' 0)) n) ->
  (n < N.to_nat (mi_inner (rs_max_iters settings)))%nat -> (0 < mi_outer (rs_max_iters settings))%N ->
  0 <= e1 -> resolves E D r region (rs_ode_tol settings) (rs_resolution settings) h e1 ->
  e <= dl -> e1 <= dl -> h <= dl -> ct_rel tol <= dl ->
  (forall t, 0 <= t <= ru_period r -> solved_at D r t (c' t) (s t)) ->
  totals (IdealGas_Fluid he) (s_temp s0) a c' s (ru_period r) X ->
  exists k en rep, Engine_run_counted E D comps fl inputs settings = (k, Ret (Ok en)) /\ (k <= n + 2)%nat /\
    RunResults_from en = Ret rep /\ report_within a X eps rep.
Proof. exact (run_limit comps s0 r D T_low V_hi v_hi rho rv c' a). Qed.
Print Assumptions C110_limit.
(** an engine with an exact integrator: with enough points and a small enough tolerance, the report is
    as accurate as desired *)
Example C110_case : exists c' s X, steady_cycle gauss st_run c' /\ warm_trajectory gauss st_run 125 c' /\ cd_P (c' 0) = 1000000 /\
  (forall t, 0 <= t <= ru_period st_run -> solved_at gauss st_run t (c' t) (s t)) /\
  totals (IdealGas_Fluid he) st_temps st_replies c' s (ru_period st_run) X /\
  forall eps, 0 < eps -> exists dl, 0 < dl /\ forall m tol, (0 < m)%nat -> 1 / 60 / INR m <= dl -> 0 < ct_abs tol -> 0 < ct_rel tol <= dl ->
  exists n, forall tol' ode points inner outer, 0 < ct_abs tol' -> 0 < ct_rel tol' -> (n < N.to_nat inner)%nat -> (0 < outer)%N ->
  exists k en rep,
    Engine_run_counted (st_env m) gauss st_comps (IdealGas_Fluid he) st_inputs (st_settings tol tol' ode points inner outer) = (k, Ret (Ok en)) /\
    (k <= n + 2)%nat /\ RunResults_from en = Ret rep /\ report_within st_replies X eps rep.
Proof. exact st_converges. Qed.
