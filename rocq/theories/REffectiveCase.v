(** * An engine with exchangers of large conductance *)
From Coq Require Import ZArith NArith List Reals Lra Lia.
From Verif Require Import Num ModelTypes ModelWs ModelHx ModelStateEq ModelEngine ModelApi RNum Spec SpecLoop SpecR SpecGas
  SpecKin SpecTraj SpecLaws SpecUnique SpecExist SpecDepend SpecSeries SpecQuad SpecReport SpecSpaces SpecBounds SpecSteady SpecContract
  SpecSample SpecGlobal SpecSearch SpecConverge SpecAccurate SpecSolver SpecApi SpecMeans SpecPush SpecEffective SpecMixed Fixture RSolve RGauss RFluid RKin RHx RPeriod
  RBounds RSteady RSampleReport RSettle RSettleCase RContractEngine RSearchCase RAccurate RAccurateCase RConsistentCase RMixed REffective RFamily REuler RUniform.
Import ListNotations.
Local Open Scope R_scope.

Definition ef_comps (u : R) : Components R :=
  mkComponents (SinusoidalDrive_ws gl_drive)
    (chx_FixedConductance (mkFC 1 0.62 u (mkPP 0 1 0)))
    (regen_FixedConductance (mkFC 2 1 u (mkPP 5 0 0)))
    (hhx_FixedConductance (mkFC 3 1.82 u (mkPP 6 2 0))).
Lemma ef_hint u : 0 < u -> State_new_hint (ef_comps u) (IdealGas_Fluid he) st_inputs = Ret st_state.
Proof.
  intros H. unfold State_new_hint, ef_comps.
  cbn [co_chx co_regen co_hhx chx_FixedConductance regen_FixedConductance hhx_FixedConductance ex_initial_approach obind fc_UA].
  rewrite lit_ten, R_n0. destruct (n_lt u 0) eqn:E; [apply R_lt_iff in E; lra|]. reflexivity.
Qed.
Lemma ef_conducting u : 0 < u -> conducting (ef_comps u) u u u.
Proof. intros H. unfold conducting. do 3 eexists. repeat (split; [reflexivity|]). repeat split; assumption. Qed.
Lemma ef_same u u' : same_build (ef_comps u) (ef_comps u').
Proof. repeat split; reflexivity. Qed.
Definition ef_run (s : State R) : Run R :=
  mkRun (nhalf * (fl_enth (s_fluid s) (te_sink (s_temp s)) (pr_avg (s_pres s)) + fl_enth (s_fluid s) (te_source (s_temp s)) (pr_avg (s_pres s))))
    (s_fluid s) (1 / 60) (s_pres s) (s_temp s) 0.62 1.82 1 (sd_parasitics gl_drive) (sin_volumes gl_drive).
Lemma ef_new u s : Run_new (ef_comps u) s = Ret (ef_run s).
Proof. reflexivity. Qed.
(** ** Its temperatures *)
Lemma ef_temps s : approaches_within st_state 10 s -> let T := s_temp s in
  290 <= te_chx T <= 310 /\ 890 <= te_hhx T <= 910 /\ 280 <= rt_cold (te_regen T) <= 320 /\ 880 <= rt_hot (te_regen T) <= 920 /\
  285 <= rt_avg (te_regen T) <= 915.
Proof.
  intros (_ & _ & _ & a_k & a_r & a_l & A1 & A2 & A3 & _ & _ & F1 & F2 & F3 & F4 & F5). cbv zeta. apply abs_le_iff in A1, A2, A3.
  change (s_regen_imbalance st_state) with 0 in *.
  assert (IM : n_le n0 (0 : R) = true) by (rewrite R_n0; cbn [n_le R_ops]; destruct (Rle_dec 0 0); [reflexivity|lra]).
  rewrite IM in F3, F4, F5. rewrite R_nhalf in F5. change (@n_add R R_ops) with Rplus in *. change (@n_sub R R_ops) with Rminus in *.
  change (@n_mul R R_ops) with Rmult in *. change (@n_div R R_ops) with Rdiv in *. change (@n_ln R R_ops) with ln in *.
  destruct st_ends as (_ & _ & E1 & E2). change (s_temp st_state) with st_temps in *. rewrite E1 in F1. rewrite E2 in F2.
  set (T := s_temp s) in *. clearbody T.
  set (h := te_hhx T - / 2 * (a_r + 0)) in F5. set (k := te_chx T + / 2 * a_r) in F5.
  replace (h - te_chx T - / 2 * a_r) with (h - k) in F5 by (unfold k; ring).
  assert (K : 285 <= k <= 315) by (unfold k; lra). assert (Hh : 885 <= h <= 915) by (unfold h; lra).
  destruct (log_mean_ordered k h ltac:(lra) ltac:(lra)) as (L1 & L2). destruct (means_between k h ltac:(lra) ltac:(lra) ltac:(lra)) as (L3 & L4).
  rewrite Rmin_left in L3 by lra. rewrite Rmax_right in L4 by lra. rewrite <- F5 in L1, L2. lra.
Qed.

(** ** It settles *)
Lemma ef_fixed s : approaches_within st_state 10 s -> 0.004 <= fixed_ratio (ef_run s).
Proof.
  intros H. pose proof (ef_temps s H) as (T1 & T2 & _ & _ & T5). unfold fixed_ratio. cbn [ef_run ru_vol_chx ru_vol_hhx ru_vol_regen ru_temp].
  assert (I : forall v t u, 0 < v -> 0 < t <= u -> v / u <= v / t).
  { intros v t u Hv Ht. unfold Rdiv. apply Rmult_le_compat_l; [lra|]. apply Rinv_le_contravar; lra. }
  pose proof (I 0.62 (te_chx (s_temp s)) 310 ltac:(lra) ltac:(lra)). pose proof (I 1.82 (te_hhx (s_temp s)) 910 ltac:(lra) ltac:(lra)).
  assert (0 < 1 / rt_avg (te_regen (s_temp s))) by (apply Rdiv_lt_0_compat; lra). lra.
Qed.
(** an engine with more gas in its exchangers settles at least as fast *)
Lemma more_gas (r r' : Run R) T_low V_hi v_hi : T_nil < T_low -> 0 <= V_hi -> 0 <= v_hi -> ru_period r' = ru_period r -> 0 <= ru_period r ->
  0 < fixed_ratio r <= fixed_ratio r' ->
  0 <= through_pressure r' T_low V_hi v_hi <= through_pressure r T_low V_hi v_hi /\
  0 <= exp (pressure_rate r' T_low v_hi * ru_period r') <= exp (pressure_rate r T_low v_hi * ru_period r).
Proof.
  intros HT HV Hv EP HP HF. pose proof nil_pos as NP. destruct a_range as (A0 & _). unfold a_he in A0. rewrite EP. set (tau := ru_period r) in *.
  assert (G : 0 < T_low - T_nil) by lra. set (F := fixed_ratio r) in *. set (F' := fixed_ratio r') in *.
  assert (I : 0 < / F' <= / F) by (split; [apply Rinv_0_lt_compat; lra|apply Rinv_le_contravar; lra]).
  assert (PR : 0 <= pressure_rate r' T_low v_hi <= pressure_rate r T_low v_hi).
  { unfold pressure_rate. fold F F'. unfold Rdiv. rewrite !Rinv_mult.
    assert (IG : 0 < / (T_low - T_nil)) by (apply Rinv_0_lt_compat; exact G).
    split; [apply Rmult_le_pos; [lra|apply Rmult_le_pos; lra]|]. apply Rmult_le_compat_l; [lra|]. apply Rmult_le_compat_l; lra. }
  set (p := pressure_rate r T_low v_hi) in *. set (p' := pressure_rate r' T_low v_hi) in *.
  assert (EX : 0 <= exp (p' * tau) <= exp (p * tau)).
  { split; [left; apply exp_pos|]. apply RContract.exp_mono_le. apply Rmult_le_compat_r; lra. }
  split; [|exact EX].
  assert (VF : 0 <= volume_flow r' T_low V_hi v_hi <= volume_flow r T_low V_hi v_hi).
  { unfold volume_flow. fold p p'. assert (0 <= cv_he / cp_he * V_hi) by (apply Rmult_le_pos; lra).
    assert (0 <= cv_he / cp_he * V_hi * p') by (apply Rmult_le_pos; lra).
    assert (cv_he / cp_he * V_hi * p' <= cv_he / cp_he * V_hi * p) by (apply Rmult_le_compat_l; lra). lra. }
  unfold through_pressure. cbv zeta. rewrite ?EP. fold p p' F F' tau. set (vf := volume_flow r _ _ _) in *. set (vf' := volume_flow r' _ _ _) in *.
  set (c := 2 * (/ T_low + cv_he / cp_he / (T_low - T_nil))).
  assert (C0 : 0 <= c).
  { assert (0 < / T_low) by (apply Rinv_0_lt_compat; lra). assert (0 < cv_he / cp_he / (T_low - T_nil)) by (apply Rdiv_lt_0_compat; lra). unfold c. lra. }
  assert (S0 : 0 <= steepness T_low) by apply pow2_ge_0.
  assert (W : 0 <= steepness T_low * vf' / F' <= steepness T_low * vf / F).
  { assert (0 <= steepness T_low * vf') by (apply Rmult_le_pos; lra). unfold Rdiv. split; [apply Rmult_le_pos; lra|].
    apply Rmult_le_compat; try lra. apply Rmult_le_compat_l; lra. }
  assert (X : 0 <= c * (steepness T_low * vf' / F') * tau <= c * (steepness T_low * vf / F) * tau).
  { assert (0 <= c * (steepness T_low * vf' / F')) by (apply Rmult_le_pos; lra). split; [apply Rmult_le_pos; lra|].
    apply Rmult_le_compat_r; [exact HP|]. apply Rmult_le_compat_l; lra. }
  split; [apply Rmult_le_pos; lra|apply Rmult_le_compat; lra].
Qed.
Lemma ef_numbers s : approaches_within st_state 10 s -> 0 <= through_pressure (ef_run s) 125 0.0002 0.024 <= 0.17 /\
  0 <= exp (pressure_rate (ef_run s) 125 0.024 * ru_period (ef_run s)) <= 1.01.
Proof.
  intros H. pose proof (ef_fixed s H) as HF. pose proof nil_value as NV. rewrite <- se_fixed in HF.
  destruct (more_gas se_run (ef_run s) 125 0.0002 0.024 ltac:(lra) ltac:(lra) ltac:(lra) eq_refl ltac:(cbn; lra) ltac:(rewrite se_fixed in *; lra)) as (A & B).
  pose proof se_numbers as (C & E). lra.
Qed.
Lemma ef_settles s : approaches_within st_state 10 s -> settles (ef_run s) 125 0.0002 0.024 (/ 2) 1.
Proof.
  intros H. pose proof nil_value. pose proof (ef_temps s H) as (T1 & T2 & _). pose proof (ef_fixed s H). unfold settles. cbn [ef_run ru_temp].
  split; [exact (proj1 H)|]. split; [reflexivity|]. split; [reflexivity|]. split; [cbn; lra|]. split; [lra|]. split; [lra|]. split; [lra|].
  split; [lra|]. split; [exact se_moderate|]. split; [apply se_breathes|]. split; [apply se_breathes|]. pose proof (ef_numbers s H). lra.
Qed.
Lemma ef_left_over s : approaches_within st_state 10 s -> left_over (ef_run s) 125 0.0002 0.024 (/ 2) 1 <= 3 / 4.
Proof.
  intros H. destruct (ef_numbers s H) as (T & E). unfold left_over. set (e := exp _) in *. set (b := through_pressure _ _ _ _) in *. clearbody e b.
  assert (B : b / (1 - b) <= 0.205).
  { apply (Rmult_le_reg_r (1 - b)); [lra|]. replace (b / (1 - b) * (1 - b)) with b by (field; lra). lra. }
  assert (e * (/ 2 + 1 * (b / (1 - b))) <= 1.01 * (/ 2 + 1 * 0.205)).
  { apply Rmult_le_compat; try lra. assert (0 <= b / (1 - b)) by (apply Rle_mult_inv_pos; lra). lra. }
  lra.
Qed.
Definition ef_margin : R := Rmin 1 (expanded wide_lo wide_hi 250 - 125).
Lemma ef_margin_pos : 0 < ef_margin.
Proof. pose proof (wide_low 250 ltac:(lra)). apply Rmin_pos; lra. Qed.
Lemma fill_ge T : 250 <= T -> 250 <= filling T.
Proof.
  intros H. unfold filling, T_ref. pose proof cv_pos. assert (0 <= cp_he / cv_he * (T - 250)); [|lra].
  apply Rmult_le_pos; [|lra]. left. apply Rdiv_lt_0_compat; [unfold cp_he; lra|exact cv_pos].
Qed.
Lemma ef_expanded T : 250 <= T -> 125 + ef_margin <= expanded wide_lo wide_hi T.
Proof.
  intros H. assert (E : expanded wide_lo wide_hi T = expanded wide_lo wide_hi 250).
  { unfold expanded. pose proof (fill_ge T H). pose proof (fill_ge 250 ltac:(lra)). rewrite !Rmin_left by (unfold T_ref; lra). reflexivity. }
  rewrite E. pose proof (Rmin_r 1 (expanded wide_lo wide_hi 250 - 125)) as M. fold ef_margin in M. lra.
Qed.
Lemma ef_compressed T : 250 <= T <= 910 -> compressed wide_lo wide_hi T + ef_margin <= 2800.
Proof.
  intros H. pose proof (Rmin_l 1 (expanded wide_lo wide_hi 250 - 125)) as M. fold ef_margin in M.
  unfold compressed, adiabat. pose proof (fill_ge T ltac:(lra)) as F. rewrite Rmax_right by (unfold T_ref; lra).
  pose proof wide_power as W. pose proof (pw_gt wide_hi) as G. pose proof (pw_gt wide_lo) as G'.
  set (a := Rpower wide_hi _) in *. set (b := Rpower wide_lo _) in *.
  assert (FT : filling T <= 1390).
  { unfold filling, T_ref. pose proof cv_pos as CV. assert (Q : cp_he / cv_he <= 1.7) by (unfold cv_he, cp_he, R_he; lra).
    assert (Q0 : 0 < cp_he / cv_he) by (apply Rdiv_lt_0_compat; [exact cp_pos|exact CV]).
    assert (cp_he / cv_he * (T - 250) <= 1.7 * 660) by (apply Rmult_le_compat; lra). lra. }
  assert (Q : a / b <= 2).
  { apply (Rmult_le_reg_r b); [exact G'|]. replace (a / b * b) with a by (field; lra). lra. }
  assert (0 < a / b) by (apply Rdiv_lt_0_compat; assumption).
  replace (filling T * a / b) with (filling T * (a / b)) by (unfold Rdiv; ring).
  assert (filling T * (a / b) <= 1390 * 2) by (apply Rmult_le_compat; lra). lra.
Qed.
Lemma ef_between s : approaches_within st_state 10 s ->
  settles_between (ef_run s) 0.0001 0.0002 0.0001 0.0002 wide_lo wide_hi wide_lo wide_hi 125 2800 0.0002 0.024 (/ 2) 1 (3 / 4) ef_margin.
Proof.
  intros H. pose proof (ef_temps s H) as (T1 & T2 & T3 & T4 & T5). pose proof nil_value as NV. unfold settles_between. cbv zeta. cbn [ef_run ru_temp].
  split.
  { unfold sane_exchangers. cbn [ef_run ru_temp ru_vol_chx ru_vol_regen ru_vol_hhx]. split; [apply nil_warm; lra|]. split; [apply nil_warm; lra|]. lra. }
  split; [exact (fun T => proj1 (gl_volumes T))|]. split; [exact (fun T => proj2 (gl_volumes T))|]. split; [exact (ef_settles s H)|]. split; [exact (ef_left_over s H)|].
  split; [apply ef_expanded; lra|]. split; [apply ef_expanded; lra|]. split; [apply ef_compressed; lra|]. split; [apply ef_compressed; lra|]. lra.
Qed.
Lemma ef_pushes s t : 1 / 240 < t < 1 / 120 -> pushes_at (ef_run s) t.
Proof.
  intros Ht. unfold pushes_at. change (ru_ws_vol_fn (ef_run s) t) with (sin_volumes gl_drive t).
  assert (Q : v_deriv (fst (sin_volumes gl_drive t)) < 0 /\ 0 <= v_deriv (snd (sin_volumes gl_drive t))).
  { rewrite sin_comp_deriv, sin_exp_deriv. cbn [gl_drive sd_comp_geometry sd_exp_geometry sg_swept_volume sd_frequency sd_phase_angle].
    pose proof PI_RGT_0 as P. set (th := 2 * PI * 60 * t). assert (B : PI / 2 < th < PI).
    { assert (PI * (1 / 240) < PI * t) by (apply Rmult_lt_compat_l; lra). assert (PI * t < PI * (1 / 120)) by (apply Rmult_lt_compat_l; lra). unfold th. lra. }
    replace (th + 90 * PI / 180) with (PI / 2 + th) by field. rewrite <- cos_sin.
    assert (S : 0 < sin th) by (apply sin_gt_0; lra). assert (C : cos th <= 0) by (apply cos_le_0; lra).
    assert (0 < sin th * PI) by (apply Rmult_lt_0_compat; assumption). assert (0 <= - cos th * PI) by (apply Rmult_le_pos; lra). split; lra. }
  destruct (sin_volumes gl_drive t) as [v1 v2]. left. exact Q.
Qed.
Lemma ef_start : approaches_within st_state 10 st_state.
Proof.
  split; [reflexivity|]. split; [reflexivity|]. split; [reflexivity|]. exists 10, 10, 10. rewrite Rabs_right by lra.
  split; [lra|]. split; [lra|]. split; [lra|]. exact st_follow.
Qed.
Lemma ef_mixed U u kept : 0 < u -> U <= u -> mixed (ef_comps u) U kept.
Proof. intros H H1. apply (conducting_mixed _ _ _ u u u); try assumption. apply ef_conducting, H. Qed.
(** approaches of 10 K are small between 300 K and 900 K *)
Lemma st_small : small_approach 10 (te_sink (s_temp st_state)) (te_source (s_temp st_state)).
Proof. destruct st_ends as (_ & _ & E1 & E2). change (s_temp st_state) with st_temps. rewrite E1, E2. unfold small_approach. lra. Qed.
Lemma ef_runs tol' : 0 < ct_abs tol' -> 0 < ct_rel tol' -> exists U, 0 < U /\
  forall tol, 0 < ct_abs tol -> 0 < ct_rel tol -> exists n N0,
  forall N u ode points inner outer,
  let h := 1 / 60 / IZR (Z.of_N (N.pred points)) in
  (N0 <= N)%nat -> U <= u -> (2 <= points)%N -> / 10 ^ 14 < h -> h < 1 / 480 -> (n < N.to_nat inner)%nat -> (2 <= outer)%N ->
  exists k en, Engine_run_counted (euler_env N) gauss (ef_comps u) (IdealGas_Fluid he) st_inputs (st_settings tol tol' ode points inner outer) = (k, Ret (Ok en)) /\
    (k <= 2 * (n + 2))%nat /\ approaches_within st_state 10 (en_state en).
Proof.
  intros TA TR. destruct wide_ok as (O1 & O2).
  destruct (effective_euler (ef_comps 1) st_state (ef_run st_state) gauss 10 10 0.0001 0.0002 0.0001 0.0002 wide_lo wide_hi wide_lo wide_hi 125 2800 0.0002 0.024 (/ 2) 1
    (3 / 4) ef_margin (1 / 240) (1 / 120) eq_refl gl_driven (ef_new 1 st_state) st_norm) with (tol' := tol') as (U & U0 & HU).
  - destruct st_ends as (_ & _ & E1 & E2). change (s_temp st_state) with st_temps. lra.
  - reflexivity.
  - exact gauss_sound.
  - exact gauss_complete.
  - cbn. lra.
  - lra.
  - exact st_small.
  - lra.
  - exact O1.
  - exact O2.
  - exact O1.
  - exact O2.
  - lra.
  - exact ef_margin_pos.
  - lra.
  - exact ef_start.
  - intros s Hs. exists (ef_run s). split; [apply ef_new|]. split; [exact (ef_between s Hs)|]. split; [cbn; lra|]. intros t Ht. apply ef_pushes. exact Ht.
  - exact TA.
  - exact TR.
  - exists U. split; [exact U0|]. intros tol ta tr. destruct (HU tol ta tr) as (n & N0 & HN). exists n, N0.
    intros N u ode points inner outer h H1 H2 H3 H4 H5 H6 H7.
    apply (HN N (ef_comps u) (IdealGas_Fluid he) st_inputs (st_settings tol tol' ode points inner outer)); try assumption; try reflexivity.
    + apply ef_same.
    + apply ef_mixed; lra.
    + apply ef_hint. lra.
    + change (h < (1 / 120 - 1 / 240) / 2). lra.
Qed.
