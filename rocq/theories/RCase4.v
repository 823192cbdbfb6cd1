(** * Boxes of physical states for whole engines, and two trajectories of one engine *)
From Coq Require Import ZArith NArith List Reals Lra Lia.
From Verif Require Import Num ModelTypes ModelWs ModelHx ModelStateEq ModelEngine RNum Spec SpecR SpecGas
  SpecKin SpecTraj SpecLaws SpecUnique SpecHydro SpecExist SpecDepend Fixture PolySolve RSolve RGauss RFluid RKin RMass
  RCase RLaws RHydro RCase3 RPeriod RStart RReturn RDepend.
Local Open Scope R_scope.

Lemma helium_physical_box comps s r lo hi a b :
  s_fluid s = IdealGas_Fluid he -> driven (co_ws comps) -> Run_new comps s = Ret r ->
  te_sink (s_temp s) + te_source (s_temp s) <> 500 ->
  (forall t, a <= t <= b -> helium_conditions r t lo) -> physical_box r lo hi a b.
Proof.
  intros Hf Hd Hr Hn H t c Ht Hc.
  assert (Hfr : ru_fluid r = IdealGas_Fluid he) by (rewrite <- Hf; apply (driven_run comps s r Hd Hr)).
  assert (Hn' : ru_enth_norm r <> 0).
  { rewrite (norm_eq comps s r Hf Hr). intros E. apply Hn. apply Rmult_integral in E. destruct E as [E|E]; lra. }
  pose proof (helium_box r t lo hi c Hc (H t Ht)) as Q.
  split; [exact (helium_temps r t c Q)|exact (helium_physical r t c Hfr Hn' Q)].
Qed.
Lemma hydrogen_physical_box comps s r lo hi a b :
  s_fluid s = IdealGas_Fluid h2 -> driven (co_ws comps) -> Run_new comps s = Ret r ->
  250 <= te_sink (s_temp s) -> 250 < te_source (s_temp s) ->
  (forall t, a <= t <= b -> hydrogen_conditions r t lo) -> physical_box r lo hi a b.
Proof.
  intros Hf Hd Hr Hk Hl H t c Ht Hc.
  assert (Hfr : ru_fluid r = IdealGas_Fluid h2) by (rewrite <- Hf; apply (driven_run comps s r Hd Hr)).
  assert (Hn' : ru_enth_norm r <> 0) by (apply Rgt_not_eq; exact (hydrogen_norm comps s r Hf Hr Hk Hl)).
  pose proof (hydrogen_box r t lo hi c Hc (H t Ht)) as Q.
  split; [exact (hydrogen_temps r t c Q)|exact (hydrogen_physical r t c Hfr Hn' Q)].
Qed.
Lemma driven_smooth comps s r : driven (co_ws comps) -> Run_new comps s = Ret r ->
  smooth_volumes (ru_ws_vol_fn r).
Proof. exact (driven_volumes comps s r). Qed.

(** ** The breathing engine, at two charges *)
Lemma br_f_high t : br_f t <= 2.
Proof.
  unfold br_f. pose proof (br_V_range t) as HV. pose proof br_g1_range as Hg.
  assert (HL : - ln 2 <= ln (br_V t)).
  { rewrite <- ln_Rinv by lra. destruct (Rle_lt_or_eq_dec (/ 2) (br_V t)) as [H|H].
    - lra.
    - left. apply ln_increasing; lra.
    - rewrite H. lra. }
  assert (L2 : 0 < ln 2) by (rewrite <- ln_1; apply ln_increasing; lra).
  assert (HE : - br_g1 * ln (br_V t) <= ln 2).
  { assert (br_g1 * - ln (br_V t) <= br_g1 * ln 2) by (apply Rmult_le_compat_l; lra).
    assert (br_g1 * ln 2 <= 1 * ln 2) by (apply Rmult_le_compat_r; lra). lra. }
  rewrite <- (exp_ln 2) by lra. destruct (Rle_lt_or_eq_dec _ _ HE) as [H|H].
  - left. apply exp_increasing, H.
  - rewrite H. lra.
Qed.
Definition bd_lo : Conditions R := mkCond 400000 200 600.
Definition bd_hi : Conditions R := mkCond 8000000 600 1800.
Lemma bd_in_box k t : 1 <= k <= 2 -> in_box bd_lo bd_hi (charged k (bd_traj t)).
Proof.
  intros Hk. pose proof (br_V_range (t + PI / 2)) as HV. pose proof (br_f_low (t + PI / 2)) as H1.
  pose proof (br_f_high (t + PI / 2)) as H2.
  unfold in_box, charged, bd_traj, br_traj, bd_lo, bd_hi. cbn [cd_P cd_T_c cd_T_e].
  assert (P : 400000 <= br_P (t + PI / 2) <= 4000000).
  { unfold br_P. set (V := br_V (t + PI / 2)) in *. set (f := br_f (t + PI / 2)) in *.
    assert (I : 2 / 3 <= / V <= 2).
    { split; [replace (2 / 3) with (/ (3 / 2)) by field|replace 2 with (/ (1 / 2)) by field]; apply Rinv_le_contravar; lra. }
    unfold Rdiv. assert (2 / 3 * (2 / 3) <= f * / V) by (apply Rmult_le_compat; lra).
    assert (f * / V <= 2 * 2) by (apply Rmult_le_compat; lra). lra. }
  assert (1 * br_P (t + PI / 2) <= k * br_P (t + PI / 2)) by (apply Rmult_le_compat_r; lra).
  assert (k * br_P (t + PI / 2) <= 2 * br_P (t + PI / 2)) by (apply Rmult_le_compat_r; lra).
  split; [lra|]. split; lra.
Qed.
Lemma bd_low t : helium_conditions bd_run t bd_lo.
Proof.
  pose proof (br_V_range (t + PI / 2)) as HV.
  unfold helium_conditions, warm, R_he, T_ref, cp_he.
  change (ru_ws_vol_fn bd_run t) with (sin_volumes bd_drive t). rewrite bd_volumes.
  cbn in *. repeat split; lra.
Qed.
Lemma bd_norm : te_sink (s_temp case_state) + te_source (s_temp case_state) <> 500.
Proof. cbn. lra. Qed.
Lemma bd_physical_box a b : physical_box bd_run bd_lo bd_hi a b.
Proof.
  apply (helium_physical_box bd_comps case_state bd_run bd_lo bd_hi a b eq_refl bd_driven bd_new bd_norm).
  intros t _. apply bd_low.
Qed.
Lemma bd_smooth : smooth_volumes (ru_ws_vol_fn bd_run).
Proof. exact (driven_smooth bd_comps case_state bd_run bd_driven bd_new). Qed.
Lemma bd_charged_run k : charged_run k bd_run = bd_run.
Proof.
  unfold charged_run, charged_loss, bd_run.
  cbn [ru_enth_norm ru_fluid ru_period ru_pres ru_temp ru_vol_chx ru_vol_hhx ru_vol_regen ru_ws_parasitics ru_ws_vol_fn
    bd_drive sd_parasitics par_comp par_exp pp_thermal pp_mechanical pp_electrical]. rewrite Rmult_0_r. reflexivity.
Qed.
Lemma bd_charged k t : 1 <= k <= 2 -> on_trajectory gauss bd_run (fun u => charged k (bd_traj u)) t.
Proof.
  intros Hk. destruct (bd_on_trajectory t) as ((HT & HV & hint & s & Hs & F1 & F2 & F3) & Hp).
  split; [exact HT|]. split; [exact HV|]. exists hint, (scaled k 1 k s). split.
  - rewrite <- (bd_charged_run k) at 1.
    apply (run_charged he bd_run eq_refl gauss k t _ hint hint s gauss_sound gauss_complete Hp); [lra|exact Hs].
  - split; [|split].
    + change (has_deriv (fun u => k * cd_P (bd_traj u)) t (k * so_dP_dt s)). exact (derivable_pt_lim_scal (fun u => cd_P (bd_traj u)) k t _ F1).
    + change (has_deriv (fun u => cd_T_c (bd_traj u)) t (1 * so_dTc_dt s)). rewrite Rmult_1_l. exact F2.
    + change (has_deriv (fun u => cd_T_e (bd_traj u)) t (1 * so_dTe_dt s)). rewrite Rmult_1_l. exact F3.
Qed.
Lemma charged_1 c : charged 1 c = c.
Proof. unfold charged. rewrite Rmult_1_l. destruct c. reflexivity. Qed.
Lemma bd_two t : on_trajectory gauss bd_run bd_traj t /\ on_trajectory gauss bd_run (fun u => charged (11 / 10) (bd_traj u)) t /\
  in_box bd_lo bd_hi (bd_traj t) /\ in_box bd_lo bd_hi (charged (11 / 10) (bd_traj t)).
Proof.
  split; [apply bd_on_trajectory|]. split; [apply bd_charged; lra|]. split; [|apply bd_in_box; lra].
  rewrite <- charged_1. apply bd_in_box. lra.
Qed.
Lemma bd_apart : 0 < gap (bd_traj 0) (charged (11 / 10) (bd_traj 0)).
Proof.
  unfold gap, charged. cbn [cd_P cd_T_c cd_T_e].
  assert (P : 0 < cd_P (bd_traj 0)) by exact (br_P_pos (0 + PI / 2)).
  rewrite (Rabs_left (cd_P (bd_traj 0) - 11 / 10 * cd_P (bd_traj 0))) by lra.
  pose proof (Rabs_pos (cd_T_c (bd_traj 0) - cd_T_c (bd_traj 0))).
  pose proof (Rabs_pos (cd_T_e (bd_traj 0) - cd_T_e (bd_traj 0))). lra.
Qed.
Lemma close_self (tol : ConvergenceTolerance R) x y : 0 < ct_abs tol -> 0 < ct_rel tol -> x = y -> close tol x y.
Proof.
  intros Ha Hr ->. split; cbn.
  - rewrite Rminus_diag_eq, Rabs_R0 by reflexivity. destruct (Rlt_dec 0 (ct_abs tol)); [reflexivity|contradiction].
  - rewrite Rminus_diag_eq by reflexivity. unfold Rdiv. rewrite Rmult_0_l, Rabs_R0.
    destruct (Rlt_dec 0 (ct_rel tol)); [reflexivity|contradiction].
Qed.
Lemma bd_close tol : 0 < ct_abs tol -> 0 < ct_rel tol ->
  close tol (cd_T_c (bd_traj 0)) (cd_T_c (bd_traj (ru_period bd_run))) /\
  close tol (cd_T_e (bd_traj 0)) (cd_T_e (bd_traj (ru_period bd_run))).
Proof.
  intros Ha Hr. destruct bd_returns as (E1 & E2). split; apply close_self; try assumption; symmetry; assumption.
Qed.
