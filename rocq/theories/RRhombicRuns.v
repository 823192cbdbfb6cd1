(** * Runs and reports of an engine with a rhombic drive *)
From Coq Require Import ZArith NArith List Reals Lra Lia.
From Verif Require Import Num ModelTypes ModelWs ModelHx ModelStateEq ModelEngine ModelApi RNum Spec SpecLoop SpecR SpecGas
  SpecKin SpecTraj SpecLaws SpecUnique SpecExist SpecDepend SpecSeries SpecQuad SpecReport SpecSpaces SpecBounds SpecSteady SpecContract
  SpecSample SpecGlobal SpecSearch SpecConverge SpecAccurate SpecSolver SpecApi SpecMeans SpecPush SpecEffective SpecMixed SpecOuter Fixture RSolve RGauss RFluid RKin RHx RPeriod
  RBounds RSteady RSampleReport RSettle RSettleCase RContractEngine RSearchCase RAccurate RAccurateCase RConsistentCase REffective RFamily REuler RUniform REffectiveCase RMixed RMixedCase ROuterLimit ROuterExact ROuterSteady ROuterReport ROuterPower RRhombicCase.
Import ListNotations.
Local Open Scope R_scope.

Lemma rb_runs tol' : 0 < ct_abs tol' -> 0 < ct_rel tol' -> exists U, 0 < U /\
  forall tol, 0 < ct_abs tol -> 0 < ct_rel tol -> exists n N0,
  forall N u ode points inner outer,
  let h := 1 / 60 / IZR (Z.of_N (N.pred points)) in
  (N0 <= N)%nat -> U <= u -> (2 <= points)%N -> / 10 ^ 14 < h -> h < 1 / 480 -> (n < N.to_nat inner)%nat -> (2 <= outer)%N ->
  exists k en, Engine_run_counted (euler_env N) gauss (rb_comps u) (IdealGas_Fluid he) st_inputs (st_settings tol tol' ode points inner outer) = (k, Ret (Ok en)) /\
    (k <= 2 * (n + 2))%nat /\ approaches_within st_state 10 (en_state en).
Proof.
  intros TA TR. destruct wide_ok as (O1 & O2).
  destruct (effective_euler (rb_comps 1) st_state (rb_run st_state) gauss 10 10 0.0001 0.0002 0.0001 0.0002 wide_lo wide_hi wide_lo wide_hi 125 2800 0.0002 0.04 0.7 1.4
    (4 / 5) ef_margin (1 / 240) (1 / 120) eq_refl (rb_driven 1) (rb_new 1 st_state) st_norm) with (tol' := tol') as (U & U0 & HU).
  - destruct st_ends as (_ & _ & E1 & E2). change (s_temp st_state) with st_temps. lra.
  - reflexivity.
  - exact gauss_sound.
  - exact gauss_complete.
  - cbn. lra.
  - lra.
  - exact st_small.
  - lra.
  - exact O1.
  - exact O2.
  - exact O1.
  - exact O2.
  - lra.
  - exact ef_margin_pos.
  - lra.
  - exact ef_start.
  - intros s Hs. exists (rb_run s). split; [apply rb_new|]. split; [exact (rb_between s Hs)|]. split; [cbn; lra|]. intros t Ht. apply rb_pushes. exact Ht.
  - exact TA.
  - exact TR.
  - exists U. split; [exact U0|]. intros tol ta tr. destruct (HU tol ta tr) as (n & N0 & HN). exists n, N0.
    intros N u ode points inner outer h H1 H2 H3 H4 H5 H6 H7.
    apply (HN N (rb_comps u) (IdealGas_Fluid he) st_inputs (st_settings tol tol' ode points inner outer)); try assumption; try reflexivity.
    + apply rb_same.
    + apply (conducting_mixed _ _ _ u u u); try assumption. apply rb_conducting. lra.
    + apply rb_hint. lra.
    + change (h < (1 / 120 - 1 / 240) / 2). lra.
Qed.

Lemma rb_steady : exists U t1, 0 < U /\ 0 < t1 /\ forall u, U <= u ->
  exists s, approaches_within st_state 10 s /\ steady_state gauss (rb_comps u) 125 s /\
  (forall s', approaches_within st_state 10 s' -> steady_state gauss (rb_comps u) 125 s' -> s_temp s' = s_temp s) /\
  forall eps, 0 < eps -> exists h0, 0 < h0 /\ forall points, let h := 1 / 60 / IZR (Z.of_N (N.pred points)) in
  (2 <= points)%N -> / 10 ^ 14 < h -> h <= h0 ->
  forall tol', 0 < ct_abs tol' -> 0 < ct_rel tol' -> exists t0 m, 0 < t0 /\
  forall tol, 0 < ct_abs tol <= t0 -> 0 < ct_rel tol -> exists n N0,
  forall N ode inner outer, (N0 <= N)%nat -> (n < N.to_nat inner)%nat -> (m <= N.to_nat outer)%nat ->
  exists k en, Engine_run_counted (euler_env N) gauss (rb_comps u) (IdealGas_Fluid he) st_inputs (st_settings tol tol' ode points inner outer) = (k, Ret (Ok en)) /\
    (k <= m * (n + 2))%nat /\ approaches_within st_state 10 (en_state en) /\
    (ct_abs tol' <= t1 -> temperatures_within (11 * ct_abs tol' + eps) (s_temp (en_state en)) (s_temp s)).
Proof.
  destruct wide_ok as (O1 & O2).
  destruct (steady_euler (rb_comps 1) st_state (rb_run st_state) gauss 10 0.0001 0.0002 0.0001 0.0002 wide_lo wide_hi wide_lo wide_hi 125 2800 0.0002 0.04 0.7 1.4
    (4 / 5) ef_margin (1 / 240) (1 / 120) eq_refl (rb_driven 1) (rb_new 1 st_state) st_norm) with (kept := 10) as (U & t1 & U0 & T1 & HU).
  - destruct st_ends as (_ & _ & E1 & E2). change (s_temp st_state) with st_temps. lra.
  - reflexivity.
  - exact gauss_sound.
  - exact gauss_complete.
  - cbn. lra.
  - lra.
  - exact O1.
  - exact O2.
  - exact O1.
  - exact O2.
  - lra.
  - exact ef_margin_pos.
  - lra.
  - exact ef_start.
  - intros s Hs. exists (rb_run s). split; [apply rb_new|]. split; [exact (rb_between s Hs)|]. split; [cbn; lra|]. intros t Ht. apply rb_pushes. exact Ht.
  - exact st_small.
  - lra.
  - exists U, t1. split; [exact U0|]. split; [exact T1|]. intros u H2.
    destruct (HU (rb_comps u) (IdealGas_Fluid he) st_inputs) as (s & W & SC & UQ & HT); try assumption.
    + apply rb_same.
    + apply (conducting_mixed _ _ _ u u u); try assumption. apply rb_conducting. lra.
    + apply rb_hint. lra.
    + exists s. split; [exact W|]. split; [exact SC|]. split; [exact UQ|]. intros eps He. destruct (HT eps He) as (h0 & H0 & HT0). exists h0. split; [exact H0|].
      intros points h H3 H4 H5 tol' TA TR. destruct (HT0 points H3 H4 H5 tol' TA TR) as (t0 & m & T0 & HT1). exists t0, m. split; [exact T0|].
      intros tol ta tr. destruct (HT1 tol ta tr) as (n & N0 & HT2). exists n, N0. intros N ode inner outer H6 H7 H8.
      apply (HT2 N (st_settings tol tol' ode points inner outer)); try assumption; reflexivity.
Qed.

Lemma rb_powers : exists U t1, 0 < U /\ 0 < t1 /\ forall u, U <= u ->
  exists s a K, approaches_within st_state 10 s /\ steady_state gauss (rb_comps u) 125 s /\ (exists X, steady_totals gauss (rb_comps u) 125 s a X) /\ 0 <= K /\
  (forall s', approaches_within st_state 10 s' -> steady_state gauss (rb_comps u) 125 s' -> s_temp s' = s_temp s) /\
  forall X eps, steady_totals gauss (rb_comps u) 125 s a X -> 0 < eps -> exists h0, 0 < h0 /\ forall points, let h := 1 / 60 / IZR (Z.of_N (N.pred points)) in
  (2 <= points)%N -> / 10 ^ 14 < h -> h <= h0 ->
  forall tol', 0 < ct_abs tol' <= t1 -> 0 < ct_rel tol' -> exists t0 m, 0 < t0 /\
  forall tol, 0 < ct_abs tol <= t0 -> 0 < ct_rel tol -> exists n N0,
  forall N ode inner outer, (N0 <= N)%nat -> (n < N.to_nat inner)%nat -> (m <= N.to_nat outer)%nat ->
  exists en rep, Engine_run (euler_env N) gauss (rb_comps u) (IdealGas_Fluid he) st_inputs (st_settings tol tol' ode points inner outer) = Ret (Ok en) /\
    RunResults_from en = Ret rep /\ report_within a X (K * ct_abs tol' + eps) rep.
Proof.
  destruct wide_ok as (O1 & O2).
  destruct (powers_euler (rb_comps 1) st_state (rb_run st_state) gauss 10 0.0001 0.0002 0.0001 0.0002 wide_lo wide_hi wide_lo wide_hi 125 2800 0.0002 0.04 0.7 1.4
    (4 / 5) ef_margin (1 / 240) (1 / 120) eq_refl (rb_driven 1) (rb_new 1 st_state) st_norm) with (kept := 10) as (U & t1 & U0 & T1 & HU).
  - destruct st_ends as (_ & _ & E1 & E2). change (s_temp st_state) with st_temps. lra.
  - reflexivity.
  - exact gauss_sound.
  - exact gauss_complete.
  - cbn. lra.
  - lra.
  - exact O1.
  - exact O2.
  - exact O1.
  - exact O2.
  - lra.
  - exact ef_margin_pos.
  - lra.
  - exact ef_start.
  - intros s Hs. exists (rb_run s). split; [apply rb_new|]. split; [exact (rb_between s Hs)|]. split; [cbn; lra|]. intros t Ht. apply rb_pushes. exact Ht.
  - exact st_small.
  - lra.
  - exists U, t1. split; [exact U0|]. split; [exact T1|]. intros u H2.
    destruct (HU (rb_comps u) (IdealGas_Fluid he) st_inputs) as (s & a & K & W & SC & TO & K0 & UQ & HT); try assumption.
    + apply rb_same.
    + apply (conducting_mixed _ _ _ u u u); try assumption. apply rb_conducting. lra.
    + apply rb_hint. lra.
    + exists s, a, K. split; [exact W|]. split; [exact SC|]. split; [exact TO|]. split; [exact K0|]. split; [exact UQ|]. intros X eps ST He. destruct (HT X eps ST He) as (h0 & H0 & HT0). exists h0. split; [exact H0|].
      intros points h H3 H4 H5 tol' TA TR. destruct (HT0 points H3 H4 H5 tol' TA TR) as (t0 & m & T0 & HT1). exists t0, m. split; [exact T0|].
      intros tol ta tr. destruct (HT1 tol ta tr) as (n & N0 & HT2). exists n, N0. intros N ode inner outer H6 H7 H8.
      apply (HT2 N (st_settings tol tol' ode points inner outer)); try assumption; reflexivity.
Qed.
