(** * Theorems about runs with an accurate integrator *)
From Coq Require Import ZArith NArith List Reals.
From Verif Require Import Num ModelTypes ModelWs ModelHx ModelStateEq ModelEngine ModelApi RNum Spec SpecR SpecGas
  SpecUnique SpecReport SpecQuad SpecBounds SpecSteady SpecContract SpecSample SpecSearch SpecAccurate Fixture RGauss RFluid RSearchCase
  RConvergeCase RAccurate RAccurateCase.
Import ListNotations.
Local Open Scope R_scope.

(** C111: helium engines with enough dead volume: with an accurate integrator, runs succeed and report
    the exact steady cycle *)
Theorem C111_run (comps : Components R) (s0 : State R) (r : Run R) (D : Decomp R) (cl ch el eh cl' ch' el' eh' : R)
    (T_low V_hi v_hi rho rv : R) (a : Replies R) :
  let q := left_over r T_low V_hi v_hi rho rv in
  let P0 := pr_t_zero (s_pres s0) in
  let region := within_levels r P0 cl' ch' el' eh' in
  fixed_approach (co_chx comps) -> fixed_approach (co_regen comps) -> fixed_approach (co_hhx comps) ->
  s_fluid s0 = IdealGas_Fluid he -> driven (co_ws comps) -> Run_new comps s0 = Ret r ->
  te_sink (s_temp s0) + te_source (s_temp s0) <> 500 -> sound D -> complete D -> sane_exchangers r -> 0 < P0 ->
  (forall T, between (V_comp r) cl ch 0 T) -> (forall T, between (V_exp r) el eh 0 T) ->
  0 < cl' < cl -> ch < ch' -> 0 < el' < el -> eh < eh' ->
  settles r T_low V_hi v_hi rho rv -> q < 1 ->
  T_low < expanded cl' ch' (te_chx (ru_temp r)) -> T_low < expanded el' eh' (te_hhx (ru_temp r)) ->
  (forall vals, replies (mkEngine comps s0 vals) a) ->
  exists c' s X, steady_cycle D r c' /\ warm_trajectory D r T_low c' /\ cd_P (c' 0) = P0 /\
  (forall t, 0 <= t <= ru_period r -> solved_at D r t (c' t) (s t)) /\
  totals (IdealGas_Fluid he) (s_temp s0) a c' s (ru_period r) X /\
  forall eps, 0 < eps -> exists dl, 0 < dl /\
  forall tol, 0 < ct_abs tol -> 0 < ct_rel tol <= dl -> exists e0 n, 0 < e0 /\
  forall (E : Env R) (fl : Fluid R) (inputs : RunInputs R) (settings : RunSettings R) (h : R),
  State_new_hint comps fl inputs = Ret s0 ->
  lt_inner (rs_loop_tol settings) = tol ->
  0 < ct_abs (lt_outer (rs_loop_tol settings)) -> 0 < ct_rel (lt_outer (rs_loop_tol settings)) ->
  accurate E D r region (rs_ode_tol settings) 2 (ru_period r) e0 ->
  accurate E D r region (rs_ode_tol settings) (rs_resolution settings) h e0 -> h <= dl ->
  (n < N.to_nat (mi_inner (rs_max_iters settings)))%nat -> (0 < mi_outer (rs_max_iters settings))%N ->
  exists k en rep, Engine_run_counted E D comps fl inputs settings = (k, Ret (Ok en)) /\ (k <= n + 2)%nat /\
    RunResults_from en = Ret rep /\ report_within a X eps rep.
Proof. exact (accurate_limit comps s0 r D cl ch el eh cl' ch' el' eh' T_low V_hi v_hi rho rv a). Qed.
Print Assumptions C111_run.
(** how far the report is from the steady cycle *)
Theorem C111_bound (comps : Components R) (s0 : State R) (r : Run R) (D : Decomp R) (cl ch el eh cl' ch' el' eh' : R)
    (T_low V_hi v_hi rho rv : R) (c' : R -> Conditions R) (a : Replies R) :
  let q := left_over r T_low V_hi v_hi rho rv in
  let P0 := pr_t_zero (s_pres s0) in
  let ic := mkCond P0 (te_chx (s_temp s0)) (te_hhx (s_temp s0)) in
  let region := within_levels r P0 cl' ch' el' eh' in
  fixed_approach (co_chx comps) -> fixed_approach (co_regen comps) -> fixed_approach (co_hhx comps) ->
  s_fluid s0 = IdealGas_Fluid he -> driven (co_ws comps) -> Run_new comps s0 = Ret r ->
  te_sink (s_temp s0) + te_source (s_temp s0) <> 500 -> sound D -> complete D -> sane_exchangers r -> 0 < P0 ->
  (forall T, between (V_comp r) cl ch 0 T) -> (forall T, between (V_exp r) el eh 0 T) ->
  0 < cl' < cl -> ch < ch' -> 0 < el' < el -> eh < eh' ->
  settles r T_low V_hi v_hi rho rv -> q < 1 ->
  T_low < expanded cl' ch' (te_chx (ru_temp r)) -> T_low < expanded el' eh' (te_hhx (ru_temp r)) ->
  steady_cycle D r c' -> warm_trajectory D r T_low c' -> cd_P (c' 0) = P0 ->
  (forall vals, replies (mkEngine comps s0 vals) a) ->
  exists K d, 0 <= K /\ 0 < d /\
  forall (E : Env R) (fl : Fluid R) (inputs : RunInputs R) (settings : RunSettings R) (e h T_hi : R) (n : nat) (s : R -> Solution R) (X : Totals),
  let tol := lt_inner (rs_loop_tol settings) in
  let e' := e / (T_low * T_low) in
  State_new_hint comps fl inputs = Ret s0 ->
  0 < ct_abs (lt_outer (rs_loop_tol settings)) -> 0 < ct_rel (lt_outer (rs_loop_tol settings)) ->
  0 <= e -> accurate E D r region (rs_ode_tol settings) 2 (ru_period r) e ->
  accurate E D r region (rs_ode_tol settings) (rs_resolution settings) h e ->
  (forall c, region c -> cd_T_c c <= T_hi /\ cd_T_e c <= T_hi) -> within_levels r P0 cl ch el eh ic ->
  passes_test tol T_hi (change_after q e' (spread ic (c' 0)) n) ->
  (n < N.to_nat (mi_inner (rs_max_iters settings)))%nat -> (0 < mi_outer (rs_max_iters settings))%N ->
  e <= d -> test_error T_low q e' tol <= d ->
  (forall t, 0 <= t <= ru_period r -> solved_at D r t (c' t) (s t)) ->
  totals (IdealGas_Fluid he) (s_temp s0) a c' s (ru_period r) X ->
  exists k en rep, Engine_run_counted E D comps fl inputs settings = (k, Ret (Ok en)) /\ (k <= n + 2)%nat /\
    RunResults_from en = Ret rep /\ report_within a X (K * (h + e + test_error T_low q e' tol)) rep.
Proof. exact (accurate_run comps s0 r D cl ch el eh cl' ch' el' eh' T_low V_hi v_hi rho rv c' a). Qed.
Print Assumptions C111_bound.
(** an engine with an exact integrator *)
Example C111_case : exists X, forall eps, 0 < eps -> exists dl, 0 < dl /\
  forall m tol, (0 < m)%nat -> 1 / 60 / INR m <= dl -> 0 < ct_abs tol -> 0 < ct_rel tol <= dl ->
  exists n, forall tol' ode points inner outer, 0 < ct_abs tol' -> 0 < ct_rel tol' -> (n < N.to_nat inner)%nat -> (0 < outer)%N ->
  exists k en rep,
    Engine_run_counted (wide_env m) gauss st_comps (IdealGas_Fluid he) st_inputs (st_settings tol tol' ode points inner outer) = (k, Ret (Ok en)) /\
    (k <= n + 2)%nat /\ RunResults_from en = Ret rep /\ report_within st_replies X eps rep.
Proof. exact st_accurate. Qed.
