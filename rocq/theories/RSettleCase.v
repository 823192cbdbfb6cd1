(** * An engine that settles *)
From Coq Require Import ZArith NArith List Reals Lra Lia Psatz.
From Verif Require Import Num ModelTypes ModelWs ModelHx ModelStateEq ModelEngine RNum Spec SpecR SpecGas
  SpecKin SpecTraj SpecLaws SpecUnique SpecExist SpecSpaces SpecBounds SpecSteady SpecContract Fixture PolySolve RSolve RGauss RFluid
  RKin RMass RCase RLaws RClose RUnique RPeriod RSpaces RBounds RSteady RContract RContractEngine RSettle.
Import ListNotations.
Local Open Scope R_scope.

Definition se_comps : Components R :=
  mkComponents (SinusoidalDrive_ws gl_drive)
    (chx_FixedApproach (mkFA 1 0.31 10 (mkPP 0 1 0)))
    (regen_FixedApproach (mkFA 2 1.1 10 (mkPP 5 0 0)))
    (hhx_FixedApproach (mkFA 3 0.89 10 (mkPP 6 2 0))).
Definition se_run : Run R :=
  mkRun case_norm (IdealGas_Fluid he) (1 / 60) (s_pres case_state) case_temps 0.31 0.89 1.1
    (sd_parasitics gl_drive) (sin_volumes gl_drive).
Lemma se_new : Run_new se_comps case_state = Ret se_run.
Proof. reflexivity. Qed.
Lemma se_volumes T : between (V_comp se_run) 0.0001 0.0002 0 T /\ between (V_exp se_run) 0.0001 0.0002 0 T.
Proof. exact (gl_volumes T). Qed.
Lemma se_sane : sane_exchangers se_run.
Proof. unfold sane_exchangers. split; [apply gl_exchangers|]. split; [apply gl_exchangers|]. cbn. repeat split; lra. Qed.
Lemma se_fixed : fixed_ratio se_run = 0.004.
Proof. unfold fixed_ratio. cbn -[IZR]. lra. Qed.
Lemma cold_low V0 T0 T_in : 0.0001 <= V0 -> 250 <= T0 -> 250 <= T_in -> 125 <= coldest V0 T0 0.0001 0.0002 T_in.
Proof.
  intros HV HT HI. unfold coldest.
  assert (B : 250 * Rpower 0.0001 (R_he / cv_he) <= Rmin (adiabat V0 T0) (adiabat 0.0001 (Rmin T_ref (filling T_in)))).
  { apply Rmin_glb.
    - unfold adiabat. apply Rmult_le_compat; [lra|left; apply pw_gt|exact HT|]. apply Rpower_mono; lra.
    - unfold adiabat. apply Rmult_le_compat_r; [left; apply pw_gt|]. apply Rmin_glb; [unfold T_ref; lra|].
      unfold filling, T_ref. pose proof cv_pos.
      assert (0 <= cp_he / cv_he * (T_in - 250)).
      { apply Rmult_le_pos; [|lra]. left. apply Rdiv_lt_0_compat; [unfold cp_he; lra|exact cv_pos]. }
      lra. }
  assert (Q : Rpower 0.0001 (R_he / cv_he) = Rpower (/ 2) (R_he / cv_he) * Rpower 0.0002 (R_he / cv_he)).
  { rewrite Rpower_mult_distr by lra. f_equal. lra. }
  pose proof half_power as HP. pose proof (pw_gt 0.0002) as HG.
  revert B. set (m := Rmin _ _). intros B. apply (Rmult_le_reg_r (Rpower 0.0002 (R_he / cv_he))); [exact HG|].
  replace (m / Rpower 0.0002 (R_he / cv_he) * Rpower 0.0002 (R_he / cv_he)) with m
    by (unfold Rdiv at 1; rewrite Rmult_assoc, Rinv_l by lra; ring).
  apply Rle_trans with (2 := B). rewrite Q.
  assert (0 <= (Rpower (/ 2) (R_he / cv_he) - / 2) * Rpower 0.0002 (R_he / cv_he)) by (apply Rmult_le_pos; lra). lra.
Qed.
Lemma expanded_low T_in : 250 <= T_in -> 125 <= expanded 0.0001 0.0002 T_in.
Proof.
  intros H.
  assert (F : 250 <= filling T_in).
  { unfold filling, T_ref. pose proof cv_pos. assert (0 <= cp_he / cv_he * (T_in - 250)); [|lra].
    apply Rmult_le_pos; [|lra]. left. apply Rdiv_lt_0_compat; [unfold cp_he; lra|exact cv_pos]. }
  assert (E : expanded 0.0001 0.0002 T_in = coldest 0.0002 (Rmin T_ref (filling T_in)) 0.0001 0.0002 T_in).
  { unfold expanded, coldest. f_equal. symmetry. apply Rmin_right. apply level_le; [apply min_max; lra|lra|lra]. }
  rewrite E. apply cold_low; [lra| |exact H]. apply Rmin_glb; [unfold T_ref; lra|exact F].
Qed.
Lemma se_expanded : 125 <= expanded 0.0001 0.0002 (te_chx (ru_temp se_run)) /\ 125 <= expanded 0.0001 0.0002 (te_hhx (ru_temp se_run)).
Proof. split; apply expanded_low; cbn; lra. Qed.
Lemma se_moderate : moderate se_run 0.0002 0.024.
Proof.
  intros t Ht. destruct (se_volumes t) as ((_ & H1) & (_ & H2)). specialize (H1 t ltac:(lra)). specialize (H2 t ltac:(lra)).
  split; [lra|]. split; [lra|]. change (ru_ws_vol_fn se_run t) with (sin_volumes gl_drive t). rewrite sin_comp_deriv, sin_exp_deriv.
  cbn [gl_drive sd_comp_geometry sd_exp_geometry sg_swept_volume sd_frequency sd_phase_angle].
  assert (Q : forall x, Rabs (- / 2 * 0.0001 * sin x * (2 * PI * 60)) <= 0.024).
  { intros x. replace (- / 2 * 0.0001 * sin x * (2 * PI * 60)) with (0.006 * (PI * - sin x)) by lra.
    pose proof PI_4. pose proof PI_RGT_0. destruct (SIN_bound x) as (S1 & S2).
    apply Rabs_le. assert (PI * - sin x <= PI * 1) by (apply Rmult_le_compat_l; lra).
    assert (PI * -1 <= PI * - sin x) by (apply Rmult_le_compat_l; lra). lra. }
  split; apply Q.
Qed.
Lemma se_breathes : breathes (V_comp se_run) (1 / 60) 0.0002 (/ 2) 1 /\ breathes (V_exp se_run) (1 / 60) 0.0002 (/ 2) 1.
Proof.
  assert (C : forall t, V_comp se_run t = 0.0001 + / 2 * 0.0001 * (1 + cos (2 * PI * 60 * t))).
  { intros t. unfold V_comp. change (ru_ws_vol_fn se_run t) with (sin_volumes gl_drive t). rewrite sin_comp_value. reflexivity. }
  assert (X : forall t, V_exp se_run t = 0.0001 + / 2 * 0.0001 * (1 + cos (2 * PI * 60 * t + 90 * PI / 180))).
  { intros t. unfold V_exp. change (ru_ws_vol_fn se_run t) with (sin_volumes gl_drive t). rewrite sin_exp_value. reflexivity. }
  split.
  - exists (/ 120), (1 / 60). rewrite !C. replace (2 * PI * 60 * / 120) with PI by lra. replace (2 * PI * 60 * (1 / 60)) with (2 * PI) by lra.
    rewrite cos_PI, cos_2PI. lra.
  - exists (/ 240), (/ 80). rewrite !X. replace (2 * PI * 60 * / 240 + 90 * PI / 180) with PI by lra.
    replace (2 * PI * 60 * / 80 + 90 * PI / 180) with (2 * PI) by lra. rewrite cos_PI, cos_2PI. lra.
Qed.
Lemma nil_value : 99.99 <= T_nil <= 100.
Proof. unfold T_nil, R_he, T_ref, cp_he. lra. Qed.
Lemma small_exp x : 0 <= x -> x < 1 -> exp x <= / (1 - x).
Proof.
  intros H0 H1. rewrite <- (Rinv_inv (exp x)), <- exp_Ropp. apply Rinv_le_contravar; [lra|].
  pose proof (exp_ineq1_le (- x)). lra.
Qed.
Lemma se_numbers : 0 <= through_pressure se_run 125 0.0002 0.024 <= 0.17 /\
  0 <= exp (pressure_rate se_run 125 0.024 * ru_period se_run) <= 1.01.
Proof.
  pose proof nil_value as N. unfold through_pressure, volume_flow, steepness, pressure_rate. rewrite se_fixed.
  change (ru_period se_run) with (1 / 60). set (g := 125 - T_nil). assert (G : 25 <= g <= 25.01) by (unfold g; lra).
  assert (I : 0 < / g <= 0.04).
  { split; [apply Rinv_0_lt_compat; lra|]. replace 0.04 with (/ 25) by lra. apply Rinv_le_contravar; lra. }
  set (rate := 2 * 0.024 / (g * 0.004)). assert (RT : rate = 12 * / g) by (unfold rate, Rdiv at 1; rewrite Rinv_mult; lra).
  assert (A : cv_he / cp_he <= 0.6001 /\ 0 <= cv_he / cp_he) by (unfold cv_he, cp_he, R_he; lra). set (a := cv_he / cp_he) in *.
  assert (E : 0 <= exp (rate * (1 / 60)) <= 1.01).
  { split; [left; apply exp_pos|]. apply Rle_trans with (1 := small_exp (rate * (1 / 60)) ltac:(lra) ltac:(lra)).
    replace 1.01 with (/ (100 / 101)) by lra. apply Rinv_le_contravar; lra. }
  split; [|exact E]. set (e := exp _) in *. clearbody e.
  assert (S : 0 <= (125 / g) ^ 2 <= 25).
  { split; [apply pow2_ge_0|]. replace 25 with (5 ^ 2) by lra. apply pow_incr. unfold Rdiv. lra. }
  set (s := (125 / g) ^ 2) in *. clearbody s.
  assert (F : 0 <= a * 0.0002 * rate + 0.024 <= 0.0241).
  { assert (0 <= a * rate) by (apply Rmult_le_pos; lra). assert (a * rate <= 0.6001 * 0.48) by (apply Rmult_le_compat; lra). lra. }
  set (v := a * 0.0002 * rate + 0.024) in *. clearbody v.
  assert (X : 0 <= / 125 + a / g <= 0.0321).
  { assert (0 <= a * / g) by (apply Rmult_le_pos; lra). assert (a * / g <= 0.6001 * 0.04) by (apply Rmult_le_compat; lra). unfold Rdiv. lra. }
  set (x := / 125 + a / g) in *. clearbody x.
  assert (SV : 0 <= s * v <= 25 * 0.0241) by (split; [apply Rmult_le_pos; lra|apply Rmult_le_compat; lra]).
  assert (XS : 0 <= x * (s * v) <= 0.0321 * (25 * 0.0241)) by (split; [apply Rmult_le_pos; lra|apply Rmult_le_compat; lra]).
  assert (XE : 0 <= x * (s * v) * e <= 0.0321 * (25 * 0.0241) * 1.01) by (split; [apply Rmult_le_pos; lra|apply Rmult_le_compat; lra]).
  replace (2 * x * (s * v / 0.004) * (1 / 60) * e) with (x * (s * v) * e * (2 / 0.004 / 60)) by (unfold Rdiv; ring). lra.
Qed.
Lemma se_settles : settles se_run 125 0.0002 0.024 (/ 2) 1.
Proof.
  pose proof nil_value. unfold settles. rewrite se_fixed. split; [reflexivity|]. split; [reflexivity|]. split; [reflexivity|].
  split; [cbn; lra|]. split; [lra|]. split; [cbn; lra|]. split; [cbn; lra|]. split; [lra|]. split; [exact se_moderate|].
  split; [apply se_breathes|]. split; [apply se_breathes|]. pose proof se_numbers. lra.
Qed.
Lemma se_left_over : left_over se_run 125 0.0002 0.024 (/ 2) 1 < 3 / 4.
Proof.
  destruct se_numbers as (T & E). unfold left_over. set (e := exp _) in *. set (b := through_pressure _ _ _ _) in *. clearbody e b.
  assert (B : b / (1 - b) <= 0.205).
  { apply (Rmult_le_reg_r (1 - b)); [lra|]. replace (b / (1 - b) * (1 - b)) with b by (field; lra). lra. }
  assert (e * (/ 2 + 1 * (b / (1 - b))) <= 1.01 * (/ 2 + 1 * 0.205)).
  { apply Rmult_le_compat; try lra. assert (0 <= b / (1 - b)) by (apply Rle_mult_inv_pos; lra). lra. }
  lra.
Qed.
Lemma se_start : helium_conditions se_run 0 case_conditions.
Proof.
  destruct (se_volumes 0) as [(_ & H1) (_ & H2)]. specialize (H1 0 ltac:(lra)). specialize (H2 0 ltac:(lra)).
  unfold V_comp, V_exp in *. unfold helium_conditions, warm, R_he, T_ref, cp_he.
  cbn -[sin_volumes] in *. repeat split; lra.
Qed.
Lemma se_warm : 125 <= T_c_lo se_run case_conditions 0.0001 0.0002 /\ 125 <= T_e_lo se_run case_conditions 0.0001 0.0002.
Proof.
  destruct (se_volumes 0) as [(_ & H1) (_ & H2)]. specialize (H1 0 ltac:(lra)). specialize (H2 0 ltac:(lra)).
  split; apply cold_low; try (cbn; lra); [exact (proj1 H1)|exact (proj1 H2)].
Qed.
(** its temperatures approach those of a steady cycle from the given start, and there is no other one *)
Lemma se_case : exists c c', c 0 = case_conditions /\ warm_trajectory gauss se_run 125 c /\ steady_cycle gauss se_run c' /\
  warm_trajectory gauss se_run 125 c' /\
  approaches (1 / 60) (left_over se_run 125 0.0002 0.024 (/ 2) 1) (meanwhile se_run 125 0.0002 0.024) c c' /\
  left_over se_run 125 0.0002 0.024 (/ 2) 1 < 3 / 4.
Proof.
  destruct (engine_settles se_comps case_state se_run gauss 0.0001 0.0002 0.0001 0.0002 125 0.0002 0.024 (/ 2) 1) with (P0 := 1000000)
    as (c' & _ & SC & WT & HA).
  - reflexivity.
  - exact gl_driven.
  - exact se_new.
  - cbn. lra.
  - exact gauss_sound.
  - exact gauss_complete.
  - apply se_volumes.
  - apply se_volumes.
  - exact se_sane.
  - exact se_settles.
  - apply se_expanded.
  - apply se_expanded.
  - lra.
  - destruct (start_stays se_comps case_state se_run gauss 0.0001 0.0002 0.0001 0.0002 125 0.0002 0.024 (/ 2) 1) with (c0 := case_conditions)
      as (c & E & HW).
    + reflexivity.
    + exact gl_driven.
    + exact se_new.
    + cbn. lra.
    + exact gauss_sound.
    + exact gauss_complete.
    + apply se_volumes.
    + apply se_volumes.
    + exact se_settles.
    + exact se_start.
    + apply se_warm.
    + apply se_warm.
    + exists c, c'. split; [exact E|]. split; [exact HW|]. split; [exact SC|]. split; [exact WT|]. split; [apply HA, HW|exact se_left_over].
Qed.
