(** * An engine whose runs approach the state that it would keep *)
From Coq Require Import ZArith NArith List Reals Lra Lia.
From Verif Require Import Num ModelTypes ModelWs ModelHx ModelStateEq ModelEngine ModelApi RNum Spec SpecLoop SpecR SpecGas
  SpecKin SpecTraj SpecLaws SpecUnique SpecExist SpecDepend SpecSeries SpecQuad SpecReport SpecSpaces SpecBounds SpecSteady SpecContract
  SpecSample SpecGlobal SpecSearch SpecConverge SpecAccurate SpecSolver SpecApi SpecMeans SpecPush SpecEffective SpecMixed SpecOuter Fixture RSolve RGauss RFluid RKin RHx RPeriod
  RBounds RSteady RSampleReport RSettle RSettleCase RContractEngine RSearchCase RAccurate RAccurateCase RConsistentCase REffective RFamily REuler RUniform REffectiveCase RMixed RMixedCase ROuterLimit ROuterExact.
Import ListNotations.
Local Open Scope R_scope.

Lemma any_consistent : exists U t1, 0 < U /\ 0 < t1 /\ forall comps points,
  let h := 1 / 60 / IZR (Z.of_N (N.pred points)) in let ts := even_times (1 / 60) points in
  same_build (ef_comps 1) comps -> mixed comps U 10 -> State_new_hint comps (IdealGas_Fluid he) st_inputs = Ret st_state -> (2 <= points)%N -> / 10 ^ 14 < h -> h < 1 / 480 ->
  exists s, approaches_within st_state 10 s /\ self_consistent gauss comps 125 ts s /\
  (forall s', approaches_within st_state 10 s' -> self_consistent gauss comps 125 ts s' -> s_temp s' = s_temp s) /\
  forall tol', 0 < ct_abs tol' -> 0 < ct_rel tol' -> exists t0 m, 0 < t0 /\
  forall tol, 0 < ct_abs tol <= t0 -> 0 < ct_rel tol -> exists n N0,
  forall N ode inner outer, (N0 <= N)%nat -> (n < N.to_nat inner)%nat -> (m <= N.to_nat outer)%nat ->
  exists k en, Engine_run_counted (euler_env N) gauss comps (IdealGas_Fluid he) st_inputs (st_settings tol tol' ode points inner outer) = (k, Ret (Ok en)) /\
    (k <= m * (n + 2))%nat /\ approaches_within st_state 10 (en_state en) /\
    (ct_abs tol' <= t1 -> temperatures_within (11 * ct_abs tol') (s_temp (en_state en)) (s_temp s)).
Proof.
  destruct wide_ok as (O1 & O2).
  destruct (consistent_euler (ef_comps 1) st_state (ef_run st_state) gauss 10 0.0001 0.0002 0.0001 0.0002 wide_lo wide_hi wide_lo wide_hi 125 2800 0.0002 0.024 (/ 2) 1
    (3 / 4) ef_margin (1 / 240) (1 / 120) eq_refl gl_driven (ef_new 1 st_state) st_norm) with (kept := 10) as (U & t1 & U0 & T1 & HU).
  - destruct st_ends as (_ & _ & E1 & E2). change (s_temp st_state) with st_temps. lra.
  - reflexivity.
  - exact gauss_sound.
  - exact gauss_complete.
  - cbn. lra.
  - lra.
  - exact O1.
  - exact O2.
  - exact O1.
  - exact O2.
  - lra.
  - exact ef_margin_pos.
  - lra.
  - exact ef_start.
  - intros s Hs. exists (ef_run s). split; [apply ef_new|]. split; [exact (ef_between s Hs)|]. split; [cbn; lra|]. intros t Ht. apply ef_pushes. exact Ht.
  - exact st_small.
  - lra.
  - exists U, t1. split; [exact U0|]. split; [exact T1|]. intros comps points h ts SB HM Hst H3 H4 H5.
    destruct (HU comps (IdealGas_Fluid he) st_inputs points) as (s & W & SC & UQ & HT); try assumption.
    + change (h < (1 / 120 - 1 / 240) / 2). lra.
    + exists s. split; [exact W|]. split; [exact SC|]. split; [exact UQ|]. intros tol' TA TR. destruct (HT tol' TA TR) as (t0 & m & T0 & HT1). exists t0, m. split; [exact T0|].
      intros tol ta tr. destruct (HT1 tol ta tr) as (n & N0 & HT2). exists n, N0. intros N ode inner outer H6 H7 H8.
      apply (HT2 N (st_settings tol tol' ode points inner outer)); try assumption; reflexivity.
Qed.
(** with three exchangers of conductance [u] *)
Lemma ef_consistent : exists U t1, 0 < U /\ 0 < t1 /\ forall u points,
  let h := 1 / 60 / IZR (Z.of_N (N.pred points)) in let ts := even_times (1 / 60) points in
  U <= u -> (2 <= points)%N -> / 10 ^ 14 < h -> h < 1 / 480 ->
  exists s, approaches_within st_state 10 s /\ self_consistent gauss (ef_comps u) 125 ts s /\
  (forall s', approaches_within st_state 10 s' -> self_consistent gauss (ef_comps u) 125 ts s' -> s_temp s' = s_temp s) /\
  forall tol', 0 < ct_abs tol' -> 0 < ct_rel tol' -> exists t0 m, 0 < t0 /\
  forall tol, 0 < ct_abs tol <= t0 -> 0 < ct_rel tol -> exists n N0,
  forall N ode inner outer, (N0 <= N)%nat -> (n < N.to_nat inner)%nat -> (m <= N.to_nat outer)%nat ->
  exists k en, Engine_run_counted (euler_env N) gauss (ef_comps u) (IdealGas_Fluid he) st_inputs (st_settings tol tol' ode points inner outer) = (k, Ret (Ok en)) /\
    (k <= m * (n + 2))%nat /\ approaches_within st_state 10 (en_state en) /\
    (ct_abs tol' <= t1 -> temperatures_within (11 * ct_abs tol') (s_temp (en_state en)) (s_temp s)).
Proof.
  destruct any_consistent as (U & t1 & U0 & T1 & HU). exists U, t1. split; [exact U0|]. split; [exact T1|]. intros u points h ts Hu H3 H4 H5.
  apply HU; [apply ef_same|apply ef_mixed; lra|apply ef_hint; lra|assumption..].
Qed.
(** with a regenerator that keeps an approach *)
Lemma mx_consistent : exists U t1, 0 < U /\ 0 < t1 /\ forall u points,
  let h := 1 / 60 / IZR (Z.of_N (N.pred points)) in let ts := even_times (1 / 60) points in
  U <= u -> (2 <= points)%N -> / 10 ^ 14 < h -> h < 1 / 480 ->
  exists s, approaches_within st_state 10 s /\ self_consistent gauss (mx_comps u) 125 ts s /\
  (forall s', approaches_within st_state 10 s' -> self_consistent gauss (mx_comps u) 125 ts s' -> s_temp s' = s_temp s) /\
  forall tol', 0 < ct_abs tol' -> 0 < ct_rel tol' -> exists t0 m, 0 < t0 /\
  forall tol, 0 < ct_abs tol <= t0 -> 0 < ct_rel tol -> exists n N0,
  forall N ode inner outer, (N0 <= N)%nat -> (n < N.to_nat inner)%nat -> (m <= N.to_nat outer)%nat ->
  exists k en, Engine_run_counted (euler_env N) gauss (mx_comps u) (IdealGas_Fluid he) st_inputs (st_settings tol tol' ode points inner outer) = (k, Ret (Ok en)) /\
    (k <= m * (n + 2))%nat /\ approaches_within st_state 10 (en_state en) /\
    (ct_abs tol' <= t1 -> temperatures_within (11 * ct_abs tol') (s_temp (en_state en)) (s_temp s)).
Proof.
  destruct any_consistent as (U & t1 & U0 & T1 & HU). exists U, t1. split; [exact U0|]. split; [exact T1|]. intros u points h ts Hu H3 H4 H5.
  apply HU; [apply mx_same|apply mx_mixed; lra|apply mx_hint; lra|assumption..].
Qed.
