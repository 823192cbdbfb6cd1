(** * A run with Euler's method *)
From Coq Require Import ZArith NArith List Reals Lra Lia.
From Verif Require Import Num ModelTypes ModelWs ModelHx ModelStateEq ModelEngine ModelApi RNum Spec SpecR SpecGas
  SpecKin SpecTraj SpecLaws SpecUnique SpecExist SpecDepend SpecSeries SpecQuad SpecReport SpecSpaces SpecBounds SpecSteady SpecContract
  SpecSample SpecGlobal SpecSearch SpecConverge SpecAccurate SpecSolver Fixture RSolve RGauss RFluid RPeriod RBounds RSteady RSampleReport RSampleCase
  RContractEngine RSettle RSettleCase RGlobalReport RSearch RSearchCase RConverge RConvergeCase RAccurate RAccurateCase REuler RSolverRun.
Import ListNotations.
Local Open Scope R_scope.

Lemma st_euler : exists X, forall eps, 0 < eps -> exists dl, 0 < dl /\
  forall tol, 0 < ct_abs tol -> 0 < ct_rel tol <= dl ->
  exists n N0, forall N tol' ode points inner outer,
  let h := 1 / 60 / IZR (Z.of_N (N.pred points)) in
  (N0 <= N)%nat -> 0 < ct_abs tol' -> 0 < ct_rel tol' -> (2 <= points)%N -> / 10 ^ 14 < h -> h <= dl ->
  (n < N.to_nat inner)%nat -> (0 < outer)%N ->
  exists k en rep,
    Engine_run_counted (euler_env N) gauss st_comps (IdealGas_Fluid he) st_inputs (st_settings tol tol' ode points inner outer) = (k, Ret (Ok en)) /\
    (k <= n + 2)%nat /\ RunResults_from en = Ret rep /\ report_within st_replies X eps rep.
Proof.
  pose proof st_left_over as HQ. destruct wide_ok as (O1 & O2).
  destruct (euler_limit st_comps st_state st_run gauss 0.0001 0.0002 0.0001 0.0002 wide_lo wide_hi wide_lo wide_hi 125 0.0002 0.024 (/ 2) 1 st_replies
    (fun _ => eq_refl) (fun _ => eq_refl) (fun _ => eq_refl) eq_refl gl_driven st_new st_norm gauss_sound gauss_complete st_sane ltac:(cbn; lra)
    (fun T => proj1 (st_volumes T)) (fun T => proj2 (st_volumes T)) O1 O2 O1 O2 st_settles ltac:(lra) (proj1 wide_expanded) (proj2 wide_expanded)
    st_replied) as (c' & s & X & _ & _ & _ & _ & _ & H).
  exists X. intros eps He. destruct (H eps He) as (dl & D0 & H1). exists dl. split; [exact D0|]. intros tol A1 A2.
  destruct (H1 tol A1 A2) as (n & N0 & H2). exists n, N0. intros N tol' ode points inner outer h HN A4 A5 P2 Q1 Q2 A6 A7.
  exact (H2 N (IdealGas_Fluid he) st_inputs (st_settings tol tol' ode points inner outer) HN st_hint eq_refl A4 A5 P2 Q1 Q2 A6 A7).
Qed.
