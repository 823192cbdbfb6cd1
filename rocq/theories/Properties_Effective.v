(** * Theorems about engines with effective heat exchangers *)
From Coq Require Import ZArith NArith List Reals.
From Verif Require Import Num ModelTypes ModelWs ModelHx ModelStateEq ModelEngine ModelApi RNum Spec SpecLoop SpecR SpecGas
  SpecKin SpecTraj SpecLaws SpecUnique SpecExist SpecDepend SpecSeries SpecQuad SpecReport SpecSpaces SpecBounds SpecSteady SpecContract
  SpecSample SpecGlobal SpecSearch SpecConverge SpecAccurate SpecSolver SpecApi SpecMeans SpecPush SpecEffective SpecMixed Fixture RSolve RGauss RFluid RKin RPeriod
  RBounds RSearchCase RAccurate RConsistent REuler RFamily RUniform REffectiveCase RMixedCase RRhombicCase RRhombicRuns.
Import ListNotations.
Local Open Scope R_scope.

(** C116: an engine of which all states with approaches of at most [A] settle.  Whatever the outer
    tolerance, if each of its exchangers conducts well enough or keeps an approach of at most
    [kept] then a run with a dependable solver of differential equations succeeds within two outer
    iterations *)
Theorem C116_solver (comps0 : Components R) (b : State R) (rb : Run R) (D : Decomp R) (A cl ch el eh cl' ch' el' eh' T_low T_top V_hi v_hi rho rv q mg x y kept : R) :
  s_fluid b = IdealGas_Fluid he -> driven (co_ws comps0) -> Run_new comps0 b = Ret rb ->
  te_sink (s_temp b) + te_source (s_temp b) <> 500 -> 0 < te_sink (s_temp b) < te_source (s_temp b) -> s_regen_imbalance b = 0 ->
  sound D -> complete D -> 0 < pr_t_zero (s_pres b) -> 0 < A -> 0 < cl' < cl -> ch < ch' -> 0 < el' < el -> eh < eh' -> q < 1 -> 0 < mg -> 0 <= x < y ->
  approaches_within b A b ->
  (forall s, approaches_within b A s -> exists r, Run_new comps0 s = Ret r /\
    settles_between r cl ch el eh cl' ch' el' eh' T_low T_top V_hi v_hi rho rv q mg /\
    y <= ru_period r /\ forall t, x < t < y -> pushes_at r t) ->
  small_approach kept (te_sink (s_temp b)) (te_source (s_temp b)) -> kept <= A ->
  forall tol', 0 < ct_abs tol' -> 0 < ct_rel tol' ->
  exists U d L B, 0 < U /\ 0 < d /\ 0 <= L /\ 0 <= B /\
    forall tol, 0 < ct_abs tol -> 0 < ct_rel tol -> exists e0 n, 0 < e0 /\
    forall (E : Env R) (comps : Components R) (fl : Fluid R) (inputs : RunInputs R) (settings : RunSettings R),
    let ode := rs_ode_tol settings in
    let h := ru_period rb / IZR (Z.of_N (N.pred (rs_resolution settings))) in
    same_build comps0 comps -> mixed comps U kept ->
    State_new_hint comps fl inputs = Ret b ->
    lt_outer (rs_loop_tol settings) = tol' -> lt_inner (rs_loop_tol settings) = tol ->
    solver_within E (ot_rel ode) (ot_abs ode) (ru_period rb + / 10 ^ 14) d L B e0 ->
    (2 <= rs_resolution settings)%N -> / 10 ^ 14 < h -> h < (y - x) / 2 ->
    (n < N.to_nat (mi_inner (rs_max_iters settings)))%nat -> (2 <= mi_outer (rs_max_iters settings))%N ->
    exists k en, Engine_run_counted E D comps fl inputs settings = (k, Ret (Ok en)) /\ (k <= 2 * (n + 2))%nat /\ approaches_within b A (en_state en).
Proof. exact (fun H1 H2 H3 H4 H5 H6 H7 H8 H9 H10 H11 H12 H13 H14 H15 H16 H17 H18 H19 HK HA =>
  effective_solver comps0 b rb D A kept cl ch el eh cl' ch' el' eh' T_low T_top V_hi v_hi rho rv q mg x y H1 H2 H3 H4 H5 H6 H7 H8 H9 H10 HK HA H11 H12 H13 H14 H15 H16 H17 H18 H19). Qed.
Print Assumptions C116_solver.
(** Euler's method with enough steps is such a solver *)
Theorem C116_euler (comps0 : Components R) (b : State R) (rb : Run R) (D : Decomp R) (A cl ch el eh cl' ch' el' eh' T_low T_top V_hi v_hi rho rv q mg x y kept : R) :
  s_fluid b = IdealGas_Fluid he -> driven (co_ws comps0) -> Run_new comps0 b = Ret rb ->
  te_sink (s_temp b) + te_source (s_temp b) <> 500 -> 0 < te_sink (s_temp b) < te_source (s_temp b) -> s_regen_imbalance b = 0 ->
  sound D -> complete D -> 0 < pr_t_zero (s_pres b) -> 0 < A -> 0 < cl' < cl -> ch < ch' -> 0 < el' < el -> eh < eh' -> q < 1 -> 0 < mg -> 0 <= x < y ->
  approaches_within b A b ->
  (forall s, approaches_within b A s -> exists r, Run_new comps0 s = Ret r /\
    settles_between r cl ch el eh cl' ch' el' eh' T_low T_top V_hi v_hi rho rv q mg /\
    y <= ru_period r /\ forall t, x < t < y -> pushes_at r t) ->
  small_approach kept (te_sink (s_temp b)) (te_source (s_temp b)) -> kept <= A ->
  forall tol', 0 < ct_abs tol' -> 0 < ct_rel tol' ->
  exists U, 0 < U /\
    forall tol, 0 < ct_abs tol -> 0 < ct_rel tol -> exists n N0,
    forall (N : nat) (comps : Components R) (fl : Fluid R) (inputs : RunInputs R) (settings : RunSettings R),
    let h := ru_period rb / IZR (Z.of_N (N.pred (rs_resolution settings))) in
    (N0 <= N)%nat -> same_build comps0 comps -> mixed comps U kept ->
    State_new_hint comps fl inputs = Ret b ->
    lt_outer (rs_loop_tol settings) = tol' -> lt_inner (rs_loop_tol settings) = tol ->
    (2 <= rs_resolution settings)%N -> / 10 ^ 14 < h -> h < (y - x) / 2 ->
    (n < N.to_nat (mi_inner (rs_max_iters settings)))%nat -> (2 <= mi_outer (rs_max_iters settings))%N ->
    exists k en, Engine_run_counted (euler_env N) D comps fl inputs settings = (k, Ret (Ok en)) /\ (k <= 2 * (n + 2))%nat /\ approaches_within b A (en_state en).
Proof. exact (fun H1 H2 H3 H4 H5 H6 H7 H8 H9 H10 H11 H12 H13 H14 H15 H16 H17 H18 H19 HK HA =>
  effective_euler comps0 b rb D A kept cl ch el eh cl' ch' el' eh' T_low T_top V_hi v_hi rho rv q mg x y H1 H2 H3 H4 H5 H6 H7 H8 H9 H10 HK HA H11 H12 H13 H14 H15 H16 H17 H18 H19). Qed.
Print Assumptions C116_euler.
(** an engine with a sinusoidal drive and exchangers of conductance [u] *)
Example C116_case tol' : 0 < ct_abs tol' -> 0 < ct_rel tol' -> exists U, 0 < U /\
  forall tol, 0 < ct_abs tol -> 0 < ct_rel tol -> exists n N0,
  forall N u ode points inner outer,
  let h := 1 / 60 / IZR (Z.of_N (N.pred points)) in
  (N0 <= N)%nat -> U <= u -> (2 <= points)%N -> / 10 ^ 14 < h -> h < 1 / 480 -> (n < N.to_nat inner)%nat -> (2 <= outer)%N ->
  exists k en, Engine_run_counted (euler_env N) gauss (ef_comps u) (IdealGas_Fluid he) st_inputs (st_settings tol tol' ode points inner outer) = (k, Ret (Ok en)) /\
    (k <= 2 * (n + 2))%nat /\ approaches_within st_state 10 (en_state en).
Proof. exact (ef_runs tol'). Qed.
Print Assumptions C116_case.
(** an engine with a rhombic drive *)
Example C116_rhombic tol' : 0 < ct_abs tol' -> 0 < ct_rel tol' -> exists U, 0 < U /\
  forall tol, 0 < ct_abs tol -> 0 < ct_rel tol -> exists n N0,
  forall N u ode points inner outer,
  let h := 1 / 60 / IZR (Z.of_N (N.pred points)) in
  (N0 <= N)%nat -> U <= u -> (2 <= points)%N -> / 10 ^ 14 < h -> h < 1 / 480 -> (n < N.to_nat inner)%nat -> (2 <= outer)%N ->
  exists k en, Engine_run_counted (euler_env N) gauss (rb_comps u) (IdealGas_Fluid he) st_inputs (st_settings tol tol' ode points inner outer) = (k, Ret (Ok en)) /\
    (k <= 2 * (n + 2))%nat /\ approaches_within st_state 10 (en_state en).
Proof. exact (rb_runs tol'). Qed.
Print Assumptions C116_rhombic.
(** an engine whose regenerator keeps an approach of 10 K *)
Example C116_mixed tol' : 0 < ct_abs tol' -> 0 < ct_rel tol' -> exists U, 0 < U /\
  forall tol, 0 < ct_abs tol -> 0 < ct_rel tol -> exists n N0,
  forall N u ode points inner outer,
  let h := 1 / 60 / IZR (Z.of_N (N.pred points)) in
  (N0 <= N)%nat -> U <= u -> (2 <= points)%N -> / 10 ^ 14 < h -> h < 1 / 480 -> (n < N.to_nat inner)%nat -> (2 <= outer)%N ->
  exists k en, Engine_run_counted (euler_env N) gauss (mx_comps u) (IdealGas_Fluid he) st_inputs (st_settings tol tol' ode points inner outer) = (k, Ret (Ok en)) /\
    (k <= 2 * (n + 2))%nat /\ approaches_within st_state 10 (en_state en).
Proof. exact (mx_runs tol'). Qed.
Print Assumptions C116_mixed.
