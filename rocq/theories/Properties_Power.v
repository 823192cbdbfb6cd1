(** * Theorems about the powers and heats of the steady state of an engine *)
From Coq Require Import ZArith NArith List Reals Lra Lia.
From Verif Require Import Num ModelTypes ModelWs ModelHx ModelStateEq ModelEngine ModelApi RNum Spec SpecLoop SpecR SpecGas
  SpecKin SpecTraj SpecLaws SpecUnique SpecExist SpecDepend SpecSeries SpecQuad SpecReport SpecSpaces SpecBounds SpecSteady SpecContract
  SpecSample SpecGlobal SpecSearch SpecConverge SpecAccurate SpecSolver SpecApi SpecMeans SpecPush SpecEffective SpecMixed SpecOuter Fixture RSolve RGauss RFluid RKin RHx RPeriod
  RBounds RSteady RSampleReport RSettle RSettleCase RContractEngine RSearchCase RAccurate RAccurateCase RConsistentCase REffective RFamily REuler RUniform REffectiveCase RMixedCase ROuterLimit ROuterExact ROuterSteady ROuterSteadyCase ROuterReport ROuterPower ROuterPowerCase RRhombicCase RRhombicRuns.
Import ListNotations.
Local Open Scope R_scope.

(** C120: the engine of C119.  The integrals over the exact steady cycle at the steady temperatures are
    [X].  Reports of runs with enough points, small enough tolerances and a dependable solver state the
    powers and heats of [X] up to an error in proportion to the outer tolerance, and as little as
    desired beyond it *)
Theorem C120_solver (comps0 : Components R) (b : State R) (rb : Run R) (D : Decomp R) (A cl ch el eh cl' ch' el' eh' T_low T_top V_hi v_hi rho rv q mg x y kept : R) :
  s_fluid b = IdealGas_Fluid he -> driven (co_ws comps0) -> Run_new comps0 b = Ret rb ->
  te_sink (s_temp b) + te_source (s_temp b) <> 500 -> 0 < te_sink (s_temp b) < te_source (s_temp b) -> s_regen_imbalance b = 0 ->
  sound D -> complete D -> 0 < pr_t_zero (s_pres b) -> 0 < A -> 0 < cl' < cl -> ch < ch' -> 0 < el' < el -> eh < eh' -> q < 1 -> 0 < mg -> 0 <= x < y ->
  approaches_within b A b ->
  (forall s, approaches_within b A s -> exists r, Run_new comps0 s = Ret r /\
    settles_between r cl ch el eh cl' ch' el' eh' T_low T_top V_hi v_hi rho rv q mg /\
    y <= ru_period r /\ forall t, x < t < y -> pushes_at r t) ->
  small_approach kept (te_sink (s_temp b)) (te_source (s_temp b)) -> kept <= A ->
  exists U t1 d L B, 0 < U /\ 0 < t1 /\ 0 < d /\ 0 <= L /\ 0 <= B /\
  forall (comps : Components R) (fl : Fluid R) (inputs : RunInputs R),
  same_build comps0 comps -> mixed comps U kept -> State_new_hint comps fl inputs = Ret b ->
  exists s a K, approaches_within b A s /\ steady_state D comps T_low s /\ (exists X, steady_totals D comps T_low s a X) /\ 0 <= K /\
  (forall s', approaches_within b A s' -> steady_state D comps T_low s' -> s_temp s' = s_temp s) /\
  forall X eps, steady_totals D comps T_low s a X -> 0 < eps -> exists h0, 0 < h0 /\ forall points : N, let h := ru_period rb / IZR (Z.of_N (N.pred points)) in
  (2 <= points)%N -> / 10 ^ 14 < h -> h <= h0 ->
  forall tol', 0 < ct_abs tol' <= t1 -> 0 < ct_rel tol' -> exists t0 m, 0 < t0 /\
  forall tol, 0 < ct_abs tol <= t0 -> 0 < ct_rel tol -> exists e0 n, 0 < e0 /\
  forall (E : Env R) (settings : RunSettings R), let ode := rs_ode_tol settings in
  lt_outer (rs_loop_tol settings) = tol' -> lt_inner (rs_loop_tol settings) = tol -> rs_resolution settings = points ->
  solver_within E (ot_rel ode) (ot_abs ode) (ru_period rb + / 10 ^ 14) d L B e0 ->
  (n < N.to_nat (mi_inner (rs_max_iters settings)))%nat -> (m <= N.to_nat (mi_outer (rs_max_iters settings)))%nat ->
  exists en rep, Engine_run E D comps fl inputs settings = Ret (Ok en) /\ RunResults_from en = Ret rep /\
    report_within a X (K * ct_abs tol' + eps) rep.
Proof. exact (fun H1 H2 H3 H4 H5 H6 H7 H8 H9 H10 H11 H12 H13 H14 H15 H16 H17 H18 H19 =>
  powers_solver comps0 b rb D A cl ch el eh cl' ch' el' eh' T_low T_top V_hi v_hi rho rv q mg x y H1 H2 H3 H4 H5 H6 H7 H8 H9 H10 H11 H12 H13 H14 H15 H16 H17 H18 H19 kept). Qed.
Print Assumptions C120_solver.
(** Euler's method with enough steps is such a solver *)
Theorem C120_euler (comps0 : Components R) (b : State R) (rb : Run R) (D : Decomp R) (A cl ch el eh cl' ch' el' eh' T_low T_top V_hi v_hi rho rv q mg x y kept : R) :
  s_fluid b = IdealGas_Fluid he -> driven (co_ws comps0) -> Run_new comps0 b = Ret rb ->
  te_sink (s_temp b) + te_source (s_temp b) <> 500 -> 0 < te_sink (s_temp b) < te_source (s_temp b) -> s_regen_imbalance b = 0 ->
  sound D -> complete D -> 0 < pr_t_zero (s_pres b) -> 0 < A -> 0 < cl' < cl -> ch < ch' -> 0 < el' < el -> eh < eh' -> q < 1 -> 0 < mg -> 0 <= x < y ->
  approaches_within b A b ->
  (forall s, approaches_within b A s -> exists r, Run_new comps0 s = Ret r /\
    settles_between r cl ch el eh cl' ch' el' eh' T_low T_top V_hi v_hi rho rv q mg /\
    y <= ru_period r /\ forall t, x < t < y -> pushes_at r t) ->
  small_approach kept (te_sink (s_temp b)) (te_source (s_temp b)) -> kept <= A ->
  exists U t1, 0 < U /\ 0 < t1 /\
  forall (comps : Components R) (fl : Fluid R) (inputs : RunInputs R),
  same_build comps0 comps -> mixed comps U kept -> State_new_hint comps fl inputs = Ret b ->
  exists s a K, approaches_within b A s /\ steady_state D comps T_low s /\ (exists X, steady_totals D comps T_low s a X) /\ 0 <= K /\
  (forall s', approaches_within b A s' -> steady_state D comps T_low s' -> s_temp s' = s_temp s) /\
  forall X eps, steady_totals D comps T_low s a X -> 0 < eps -> exists h0, 0 < h0 /\ forall points : N, let h := ru_period rb / IZR (Z.of_N (N.pred points)) in
  (2 <= points)%N -> / 10 ^ 14 < h -> h <= h0 ->
  forall tol', 0 < ct_abs tol' <= t1 -> 0 < ct_rel tol' -> exists t0 m, 0 < t0 /\
  forall tol, 0 < ct_abs tol <= t0 -> 0 < ct_rel tol -> exists n N0,
  forall (N : nat) (settings : RunSettings R), (N0 <= N)%nat ->
  lt_outer (rs_loop_tol settings) = tol' -> lt_inner (rs_loop_tol settings) = tol -> rs_resolution settings = points ->
  (n < N.to_nat (mi_inner (rs_max_iters settings)))%nat -> (m <= N.to_nat (mi_outer (rs_max_iters settings)))%nat ->
  exists en rep, Engine_run (euler_env N) D comps fl inputs settings = Ret (Ok en) /\ RunResults_from en = Ret rep /\
    report_within a X (K * ct_abs tol' + eps) rep.
Proof. exact (fun H1 H2 H3 H4 H5 H6 H7 H8 H9 H10 H11 H12 H13 H14 H15 H16 H17 H18 H19 =>
  powers_euler comps0 b rb D A cl ch el eh cl' ch' el' eh' T_low T_top V_hi v_hi rho rv q mg x y H1 H2 H3 H4 H5 H6 H7 H8 H9 H10 H11 H12 H13 H14 H15 H16 H17 H18 H19 kept). Qed.
Print Assumptions C120_euler.
(** an engine with a sinusoidal drive and exchangers of conductance [u] *)
Example C120_case : exists U t1, 0 < U /\ 0 < t1 /\ forall u, U <= u ->
  exists s a K, approaches_within st_state 10 s /\ steady_state gauss (ef_comps u) 125 s /\ (exists X, steady_totals gauss (ef_comps u) 125 s a X) /\ 0 <= K /\
  (forall s', approaches_within st_state 10 s' -> steady_state gauss (ef_comps u) 125 s' -> s_temp s' = s_temp s) /\
  forall X eps, steady_totals gauss (ef_comps u) 125 s a X -> 0 < eps -> exists h0, 0 < h0 /\ forall points, let h := 1 / 60 / IZR (Z.of_N (N.pred points)) in
  (2 <= points)%N -> / 10 ^ 14 < h -> h <= h0 ->
  forall tol', 0 < ct_abs tol' <= t1 -> 0 < ct_rel tol' -> exists t0 m, 0 < t0 /\
  forall tol, 0 < ct_abs tol <= t0 -> 0 < ct_rel tol -> exists n N0,
  forall N ode inner outer, (N0 <= N)%nat -> (n < N.to_nat inner)%nat -> (m <= N.to_nat outer)%nat ->
  exists en rep, Engine_run (euler_env N) gauss (ef_comps u) (IdealGas_Fluid he) st_inputs (st_settings tol tol' ode points inner outer) = Ret (Ok en) /\
    RunResults_from en = Ret rep /\ report_within a X (K * ct_abs tol' + eps) rep.
Proof. exact ef_powers. Qed.
Print Assumptions C120_case.
(** the same engine with a regenerator that keeps an approach of 10 K *)
Example C120_mixed : exists U t1, 0 < U /\ 0 < t1 /\ forall u, U <= u ->
  exists s a K, approaches_within st_state 10 s /\ steady_state gauss (mx_comps u) 125 s /\ (exists X, steady_totals gauss (mx_comps u) 125 s a X) /\ 0 <= K /\
  (forall s', approaches_within st_state 10 s' -> steady_state gauss (mx_comps u) 125 s' -> s_temp s' = s_temp s) /\
  forall X eps, steady_totals gauss (mx_comps u) 125 s a X -> 0 < eps -> exists h0, 0 < h0 /\ forall points, let h := 1 / 60 / IZR (Z.of_N (N.pred points)) in
  (2 <= points)%N -> / 10 ^ 14 < h -> h <= h0 ->
  forall tol', 0 < ct_abs tol' <= t1 -> 0 < ct_rel tol' -> exists t0 m, 0 < t0 /\
  forall tol, 0 < ct_abs tol <= t0 -> 0 < ct_rel tol -> exists n N0,
  forall N ode inner outer, (N0 <= N)%nat -> (n < N.to_nat inner)%nat -> (m <= N.to_nat outer)%nat ->
  exists en rep, Engine_run (euler_env N) gauss (mx_comps u) (IdealGas_Fluid he) st_inputs (st_settings tol tol' ode points inner outer) = Ret (Ok en) /\
    RunResults_from en = Ret rep /\ report_within a X (K * ct_abs tol' + eps) rep.
Proof. exact mx_powers. Qed.
Print Assumptions C120_mixed.
(** the efficiency is a quotient of two figures of the report *)
Theorem C120_efficiency (en : Engine R) rep a X e : RunResults_from en = Ret rep -> report_within a X e rep -> e < Rabs (true_input a X) ->
  Rabs (rre_mechanical (rr_efficiency rep) - true_net a X / true_input a X) <=
    e * (Rabs (true_input a X) + Rabs (true_net a X)) / (Rabs (true_input a X) * (Rabs (true_input a X) - e)).
Proof. exact (efficiency_near en rep a X e). Qed.
Print Assumptions C120_efficiency.
Example C120_efficiency_case : exists (e : Engine R) rep a X, RunResults_from e = Ret rep /\ report_within a X 0 rep /\ true_input a X = 1 /\ rp_freq a = 60.
Proof. exact efficiency_case. Qed.
Print Assumptions C120_efficiency_case.
(** an engine with a rhombic drive *)
Example C120_rhombic : exists U t1, 0 < U /\ 0 < t1 /\ forall u, U <= u ->
  exists s a K, approaches_within st_state 10 s /\ steady_state gauss (rb_comps u) 125 s /\ (exists X, steady_totals gauss (rb_comps u) 125 s a X) /\ 0 <= K /\
  (forall s', approaches_within st_state 10 s' -> steady_state gauss (rb_comps u) 125 s' -> s_temp s' = s_temp s) /\
  forall X eps, steady_totals gauss (rb_comps u) 125 s a X -> 0 < eps -> exists h0, 0 < h0 /\ forall points, let h := 1 / 60 / IZR (Z.of_N (N.pred points)) in
  (2 <= points)%N -> / 10 ^ 14 < h -> h <= h0 ->
  forall tol', 0 < ct_abs tol' <= t1 -> 0 < ct_rel tol' -> exists t0 m, 0 < t0 /\
  forall tol, 0 < ct_abs tol <= t0 -> 0 < ct_rel tol -> exists n N0,
  forall N ode inner outer, (N0 <= N)%nat -> (n < N.to_nat inner)%nat -> (m <= N.to_nat outer)%nat ->
  exists en rep, Engine_run (euler_env N) gauss (rb_comps u) (IdealGas_Fluid he) st_inputs (st_settings tol tol' ode points inner outer) = Ret (Ok en) /\
    RunResults_from en = Ret rep /\ report_within a X (K * ct_abs tol' + eps) rep.
Proof. exact rb_powers. Qed.
Print Assumptions C120_rhombic.
