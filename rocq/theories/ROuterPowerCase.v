(** * Reports of an engine with a sinusoidal drive approach those of its steady state *)
From Coq Require Import ZArith NArith List Reals Lra Lia.
From Verif Require Import Num ModelTypes ModelWs ModelHx ModelStateEq ModelEngine ModelApi RNum Spec SpecLoop SpecR SpecGas
  SpecKin SpecTraj SpecLaws SpecUnique SpecExist SpecDepend SpecSeries SpecQuad SpecReport SpecSpaces SpecBounds SpecSteady SpecContract
  SpecSample SpecGlobal SpecSearch SpecConverge SpecAccurate SpecSolver SpecApi SpecMeans SpecPush SpecEffective SpecMixed SpecOuter Fixture RSolve RGauss RFluid RKin RHx RPeriod
  RBounds RSteady RSampleReport RSettle RSettleCase RContractEngine RSearchCase RAccurate RAccurateCase RConsistentCase REffective RFamily REuler RUniform REffectiveCase RMixed RMixedCase ROuterLimit ROuterExact ROuterSteady ROuterReport ROuterPower RCase RCase2 RSeries PolyReport.
Import ListNotations.
Local Open Scope R_scope.

Lemma any_powers : exists U t1, 0 < U /\ 0 < t1 /\ forall comps, same_build (ef_comps 1) comps -> mixed comps U 10 -> State_new_hint comps (IdealGas_Fluid he) st_inputs = Ret st_state ->
  exists s a K, approaches_within st_state 10 s /\ steady_state gauss comps 125 s /\ (exists X, steady_totals gauss comps 125 s a X) /\ 0 <= K /\
  (forall s', approaches_within st_state 10 s' -> steady_state gauss comps 125 s' -> s_temp s' = s_temp s) /\
  forall X eps, steady_totals gauss comps 125 s a X -> 0 < eps -> exists h0, 0 < h0 /\ forall points, let h := 1 / 60 / IZR (Z.of_N (N.pred points)) in
  (2 <= points)%N -> / 10 ^ 14 < h -> h <= h0 ->
  forall tol', 0 < ct_abs tol' <= t1 -> 0 < ct_rel tol' -> exists t0 m, 0 < t0 /\
  forall tol, 0 < ct_abs tol <= t0 -> 0 < ct_rel tol -> exists n N0,
  forall N ode inner outer, (N0 <= N)%nat -> (n < N.to_nat inner)%nat -> (m <= N.to_nat outer)%nat ->
  exists en rep, Engine_run (euler_env N) gauss comps (IdealGas_Fluid he) st_inputs (st_settings tol tol' ode points inner outer) = Ret (Ok en) /\
    RunResults_from en = Ret rep /\ report_within a X (K * ct_abs tol' + eps) rep.
Proof.
  destruct wide_ok as (O1 & O2).
  destruct (powers_euler (ef_comps 1) st_state (ef_run st_state) gauss 10 0.0001 0.0002 0.0001 0.0002 wide_lo wide_hi wide_lo wide_hi 125 2800 0.0002 0.024 (/ 2) 1
    (3 / 4) ef_margin (1 / 240) (1 / 120) eq_refl gl_driven (ef_new 1 st_state) st_norm) with (kept := 10) as (U & t1 & U0 & T1 & HU).
  - destruct st_ends as (_ & _ & E1 & E2). change (s_temp st_state) with st_temps. lra.
  - reflexivity.
  - exact gauss_sound.
  - exact gauss_complete.
  - cbn. lra.
  - lra.
  - exact O1.
  - exact O2.
  - exact O1.
  - exact O2.
  - lra.
  - exact ef_margin_pos.
  - lra.
  - exact ef_start.
  - intros s Hs. exists (ef_run s). split; [apply ef_new|]. split; [exact (ef_between s Hs)|]. split; [cbn; lra|]. intros t Ht. apply ef_pushes. exact Ht.
  - exact st_small.
  - lra.
  - exists U, t1. split; [exact U0|]. split; [exact T1|]. intros comps SB HM Hst.
    destruct (HU comps (IdealGas_Fluid he) st_inputs) as (s & a & K & W & SC & TO & K0 & UQ & HT); try assumption.
      exists s, a, K. split; [exact W|]. split; [exact SC|]. split; [exact TO|]. split; [exact K0|]. split; [exact UQ|]. intros X eps ST He. destruct (HT X eps ST He) as (h0 & H0 & HT0). exists h0. split; [exact H0|].
      intros points h H3 H4 H5 tol' TA TR. destruct (HT0 points H3 H4 H5 tol' TA TR) as (t0 & m & T0 & HT1). exists t0, m. split; [exact T0|].
      intros tol ta tr. destruct (HT1 tol ta tr) as (n & N0 & HT2). exists n, N0. intros N ode inner outer H6 H7 H8.
      apply (HT2 N (st_settings tol tol' ode points inner outer)); try assumption; reflexivity.
Qed.
(** with three exchangers of conductance [u] *)
Lemma ef_powers : exists U t1, 0 < U /\ 0 < t1 /\ forall u, U <= u ->
  exists s a K, approaches_within st_state 10 s /\ steady_state gauss (ef_comps u) 125 s /\ (exists X, steady_totals gauss (ef_comps u) 125 s a X) /\ 0 <= K /\
  (forall s', approaches_within st_state 10 s' -> steady_state gauss (ef_comps u) 125 s' -> s_temp s' = s_temp s) /\
  forall X eps, steady_totals gauss (ef_comps u) 125 s a X -> 0 < eps -> exists h0, 0 < h0 /\ forall points, let h := 1 / 60 / IZR (Z.of_N (N.pred points)) in
  (2 <= points)%N -> / 10 ^ 14 < h -> h <= h0 ->
  forall tol', 0 < ct_abs tol' <= t1 -> 0 < ct_rel tol' -> exists t0 m, 0 < t0 /\
  forall tol, 0 < ct_abs tol <= t0 -> 0 < ct_rel tol -> exists n N0,
  forall N ode inner outer, (N0 <= N)%nat -> (n < N.to_nat inner)%nat -> (m <= N.to_nat outer)%nat ->
  exists en rep, Engine_run (euler_env N) gauss (ef_comps u) (IdealGas_Fluid he) st_inputs (st_settings tol tol' ode points inner outer) = Ret (Ok en) /\
    RunResults_from en = Ret rep /\ report_within a X (K * ct_abs tol' + eps) rep.
Proof.
  destruct any_powers as (U & t1 & U0 & T1 & HU). exists U, t1. split; [exact U0|]. split; [exact T1|]. intros u Hu.
  apply HU; [apply ef_same|apply ef_mixed; lra|apply ef_hint; lra].
Qed.
(** with a regenerator that keeps an approach *)
Lemma mx_powers : exists U t1, 0 < U /\ 0 < t1 /\ forall u, U <= u ->
  exists s a K, approaches_within st_state 10 s /\ steady_state gauss (mx_comps u) 125 s /\ (exists X, steady_totals gauss (mx_comps u) 125 s a X) /\ 0 <= K /\
  (forall s', approaches_within st_state 10 s' -> steady_state gauss (mx_comps u) 125 s' -> s_temp s' = s_temp s) /\
  forall X eps, steady_totals gauss (mx_comps u) 125 s a X -> 0 < eps -> exists h0, 0 < h0 /\ forall points, let h := 1 / 60 / IZR (Z.of_N (N.pred points)) in
  (2 <= points)%N -> / 10 ^ 14 < h -> h <= h0 ->
  forall tol', 0 < ct_abs tol' <= t1 -> 0 < ct_rel tol' -> exists t0 m, 0 < t0 /\
  forall tol, 0 < ct_abs tol <= t0 -> 0 < ct_rel tol -> exists n N0,
  forall N ode inner outer, (N0 <= N)%nat -> (n < N.to_nat inner)%nat -> (m <= N.to_nat outer)%nat ->
  exists en rep, Engine_run (euler_env N) gauss (mx_comps u) (IdealGas_Fluid he) st_inputs (st_settings tol tol' ode points inner outer) = Ret (Ok en) /\
    RunResults_from en = Ret rep /\ report_within a X (K * ct_abs tol' + eps) rep.
Proof.
  destruct any_powers as (U & t1 & U0 & T1 & HU). exists U, t1. split; [exact U0|]. split; [exact T1|]. intros u Hu.
  apply HU; [apply mx_same|apply mx_mixed; lra|apply mx_hint; lra].
Qed.
(** a report with a heat input *)
Lemma efficiency_case : exists (e : Engine R) rep a X, RunResults_from e = Ret rep /\ report_within a X 0 rep /\ true_input a X = 1 /\ rp_freq a = 60.
Proof.
  set (a := mkReplies 60 (sin_volumes case_drive) (sd_parasitics case_drive) (mkTR 1 1) 1 2 3 (mkPP 0 1 0) (mkPP 5 0 0) (mkPP 6 2 0)).
  set (losses := pp_thermal (rp_hhx a) + pp_thermal (rp_regen a) + pp_thermal (par_exp (rp_par a))).
  set (e0 := case_engine []). set (W := integrate (map (@sv_time R) (sampled (mkSolution 0 0 0 0 0 0 0 0 0 0) (mkSolution 0 0 0 0 0 0 0 0 0 0) (mkSolution 0 0 0 0 0 0 0 0 0 0)))
    (map (wall_e_num e0 a) (sampled (mkSolution 0 0 0 0 0 0 0 0 0 0) (mkSolution 0 0 0 0 0 0 0 0 0 0) (mkSolution 0 0 0 0 0 0 0 0 0 0)))).
  set (q := 60 * ((1 + 60 * W - losses) / 60)). set (sl := mkSolution 0 0 0 0 0 0 q 0 0 0).
  set (vs := sampled sl sl sl). set (en := case_engine vs).
  set (I := fun g => integrate (map (@sv_time R) vs) (map g vs)).
  set (X := mkTotals (I (work_num en a)) (I (ideal_num a)) (I (fun v => so_Q_dot_k (sv_solution v))) 0 (I (fun v => so_Q_dot_l (sv_solution v))) (I (wall_c_num en a)) (I (wall_e_num en a))).
  assert (RP : replies en a) by (unfold replies; cbv zeta; repeat split).
  destruct (report_figures en a vs X 0 (values_series vs) RP (Rle_refl 0)) as (rep & ER & RW);
    try (rewrite Rminus_diag_eq, Rabs_R0 by reflexivity; apply Rle_refl).
  rewrite Rmult_0_r in RW. exists en, rep, a, X. split; [exact ER|]. split; [exact RW|]. split; [|reflexivity].
  unfold true_input. fold losses. change (rp_freq a) with 60.
  assert (EQ : to_Q_l X = q / 60).
  { change (to_Q_l X) with (integrate [0; 1 / 240; 1 / 60] [q; q; q]). rewrite integrate_trapezoid. unfold trapezoid. cbn. field. }
  change (to_wall_e X) with W. rewrite EQ. unfold q. field.
Qed.
