(** * An engine whose regenerator keeps an approach while its other exchangers conduct *)
From Coq Require Import ZArith NArith List Reals Lra Lia.
From Verif Require Import Num ModelTypes ModelWs ModelHx ModelStateEq ModelEngine ModelApi RNum Spec SpecLoop SpecR SpecGas
  SpecKin SpecTraj SpecLaws SpecUnique SpecExist SpecDepend SpecSeries SpecQuad SpecReport SpecSpaces SpecBounds SpecSteady SpecContract
  SpecSample SpecGlobal SpecSearch SpecConverge SpecAccurate SpecSolver SpecApi SpecMeans SpecPush SpecEffective SpecMixed Fixture RSolve RGauss RFluid RKin RHx RPeriod
  RBounds RSteady RSampleReport RSettle RSettleCase RContractEngine RSearchCase RAccurate RAccurateCase RConsistentCase REffective RFamily REuler RUniform REffectiveCase RMixed.
Import ListNotations.
Local Open Scope R_scope.

Definition mx_comps (u : R) : Components R :=
  mkComponents (SinusoidalDrive_ws gl_drive)
    (chx_FixedConductance (mkFC 1 0.62 u (mkPP 0 1 0)))
    (regen_FixedApproach (mkFA 2 1 10 (mkPP 5 0 0)))
    (hhx_FixedConductance (mkFC 3 1.82 u (mkPP 6 2 0))).
Lemma mx_hint u : 0 < u -> State_new_hint (mx_comps u) (IdealGas_Fluid he) st_inputs = Ret st_state.
Proof.
  intros H. unfold State_new_hint, mx_comps.
  cbn [co_chx co_regen co_hhx chx_FixedConductance regen_FixedApproach hhx_FixedConductance ex_initial_approach obind fc_UA fa_approach].
  rewrite lit_ten, R_n0. destruct (n_lt u 0) eqn:E; [apply R_lt_iff in E; lra|]. reflexivity.
Qed.
Lemma mx_same u u' : same_build (ef_comps u) (mx_comps u').
Proof. repeat split; reflexivity. Qed.
Lemma mx_mixed U u : U <= u -> mixed (mx_comps u) U 10.
Proof.
  intros H. split; [left; eexists; split; [reflexivity|exact H]|]. split; [right; eexists; split; [reflexivity|]|left; eexists; split; [reflexivity|exact H]].
  cbn [fa_approach]. rewrite Rabs_pos_eq; lra.
Qed.

(** a run of the engine *)
Lemma mx_runs tol' : 0 < ct_abs tol' -> 0 < ct_rel tol' -> exists U, 0 < U /\
  forall tol, 0 < ct_abs tol -> 0 < ct_rel tol -> exists n N0,
  forall N u ode points inner outer,
  let h := 1 / 60 / IZR (Z.of_N (N.pred points)) in
  (N0 <= N)%nat -> U <= u -> (2 <= points)%N -> / 10 ^ 14 < h -> h < 1 / 480 -> (n < N.to_nat inner)%nat -> (2 <= outer)%N ->
  exists k en, Engine_run_counted (euler_env N) gauss (mx_comps u) (IdealGas_Fluid he) st_inputs (st_settings tol tol' ode points inner outer) = (k, Ret (Ok en)) /\
    (k <= 2 * (n + 2))%nat /\ approaches_within st_state 10 (en_state en).
Proof.
  intros TA TR. destruct wide_ok as (O1 & O2).
  destruct (effective_euler (ef_comps 1) st_state (ef_run st_state) gauss 10 10 0.0001 0.0002 0.0001 0.0002 wide_lo wide_hi wide_lo wide_hi 125 2800 0.0002 0.024 (/ 2) 1
    (3 / 4) ef_margin (1 / 240) (1 / 120) eq_refl gl_driven (ef_new 1 st_state) st_norm) with (tol' := tol') as (U & U0 & HU).
  - destruct st_ends as (_ & _ & E1 & E2). change (s_temp st_state) with st_temps. lra.
  - reflexivity.
  - exact gauss_sound.
  - exact gauss_complete.
  - cbn. lra.
  - lra.
  - exact st_small.
  - lra.
  - exact O1.
  - exact O2.
  - exact O1.
  - exact O2.
  - lra.
  - exact ef_margin_pos.
  - lra.
  - exact ef_start.
  - intros s Hs. exists (ef_run s). split; [apply ef_new|]. split; [exact (ef_between s Hs)|]. split; [cbn; lra|]. intros t Ht. apply ef_pushes. exact Ht.
  - exact TA.
  - exact TR.
  - exists U. split; [exact U0|]. intros tol ta tr. destruct (HU tol ta tr) as (n & N0 & HN). exists n, N0.
    intros N u ode points inner outer h H1 H2 H3 H4 H5 H6 H7.
    apply (HN N (mx_comps u) (IdealGas_Fluid he) st_inputs (st_settings tol tol' ode points inner outer)); try assumption; try reflexivity.
    + apply mx_same.
    + apply mx_mixed; lra.
    + apply mx_hint. lra.
    + change (h < (1 / 120 - 1 / 240) / 2). lra.
Qed.
