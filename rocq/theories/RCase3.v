(** * More concrete engines over the reals *)
From Coq Require Import ZArith NArith List Reals Lra Lia.
From Verif Require Import Num ModelTypes ModelWs ModelHx ModelStateEq ModelEngine RNum Spec SpecR SpecGas
  SpecKin SpecTraj SpecLaws SpecHydro PolySolve Fixture RSolve RGauss RFluid RKin RMass RCase RLaws RLimit RHydro.
Import ListNotations.
Local Open Scope R_scope.

(** ** Two charges of gas compressed and expanded without heat: an exact cycle *)
Definition br_V (t : R) : R := 1 + sin t / 2.
Definition br_g1 : R := 2077.23 / 3115.94.
Definition br_f (t : R) : R := exp (- br_g1 * ln (br_V t)).
Definition br_P (t : R) : R := 1000000 * br_f t / br_V t.
Definition br_run : Run R :=
  mkRun 1 (IdealGas_Fluid he) (2 * PI) (mkPressure 1000000 1000000 1000000 1000000) case_temps 0 0 0
    (mkPar (mkPP 0 0 0) (mkPP 0 0 0))
    (fun t => (mkVolume (br_V t) (cos t / 2), mkVolume (br_V t) (cos t / 2))).
Definition br_traj (t : R) : Conditions R := mkCond (br_P t) (300 * br_f t) (900 * br_f t).
Definition br_solution (t : R) : Solution R :=
  let x := cos t / 2 / br_V t in
  mkSolution 0 0 0 0 0 0 0 (300 * (- br_g1 * x * br_f t)) (900 * (- br_g1 * x * br_f t))
    (- (1 + br_g1) * x * br_P t).
Definition br_work (t : R) : R := - (2000000 / br_g1) * br_f t.

Lemma br_V_range t : 1 / 2 <= br_V t <= 3 / 2.
Proof. unfold br_V. pose proof (SIN_bound t). lra. Qed.
Lemma br_g1_range : 0 < br_g1 <= 2 / 3.
Proof. unfold br_g1. decimals. lra. Qed.
Lemma br_f_low t : 2 / 3 <= br_f t.
Proof.
  unfold br_f. pose proof (br_V_range t) as HV. pose proof br_g1_range as Hg.
  assert (HL : ln (br_V t) <= 1 / 2).
  { rewrite <- (ln_exp (1 / 2)). 
    destruct (Rle_lt_or_eq_dec (br_V t) (exp (1 / 2))) as [H|H].
    - pose proof (exp_ineq1 (1 / 2) ltac:(lra)). lra.
    - left. apply ln_increasing; lra.
    - rewrite H. apply Rle_refl. }
  assert (HE : - br_g1 * ln (br_V t) >= - (1 / 3)).
  { destruct (Rle_or_lt (ln (br_V t)) 0) as [H|H].
    - assert (0 <= br_g1 * - ln (br_V t)) by (apply Rmult_le_pos; lra). lra.
    - assert (br_g1 * ln (br_V t) <= 2 / 3 * (1 / 2)) by (apply Rmult_le_compat; lra). lra. }
  destruct (Req_dec (- br_g1 * ln (br_V t)) 0) as [E|N]; [rewrite E, exp_0; lra|].
  pose proof (exp_ineq1 _ N). lra.
Qed.
Lemma br_P_pos t : 0 < br_P t.
Proof.
  unfold br_P. pose proof (br_V_range t). pose proof (br_f_low t).
  apply Rdiv_lt_0_compat; lra.
Qed.
Lemma br_V_deriv t : derivable_pt_lim br_V t (cos t / 2).
Proof. unfold br_V. eapply deriv_eq; [deriv; lra|cbv beta; lra]. Qed.
Lemma br_f_deriv t : derivable_pt_lim br_f t (- br_g1 * (cos t / 2 / br_V t) * br_f t).
Proof.
  unfold br_f. pose proof (br_V_range t) as HV.
  eapply deriv_eq.
  - apply (deriv_comp (fun t => - br_g1 * ln (br_V t)) exp).
    + eapply deriv_mult; [apply deriv_const|].
      apply (deriv_comp br_V ln); [apply br_V_deriv|]. apply derivable_pt_lim_ln. lra.
    + apply derivable_pt_lim_exp.
  - cbv beta. field. lra.
Qed.
Lemma br_P_deriv t : derivable_pt_lim br_P t (- (1 + br_g1) * (cos t / 2 / br_V t) * br_P t).
Proof.
  unfold br_P. pose proof (br_V_range t) as HV.
  eapply deriv_eq.
  - eapply deriv_div; [eapply deriv_mult; [apply deriv_const|apply br_f_deriv]|apply br_V_deriv|lra].
  - cbv beta. field. lra.
Qed.

Lemma br_follows t : follows br_traj (br_solution t) t.
Proof.
  unfold follows, has_deriv, br_traj. cbn [cd_P cd_T_c cd_T_e br_solution so_dP_dt so_dTc_dt so_dTe_dt].
  split; [apply br_P_deriv|].
  split; (eapply deriv_eq; [eapply deriv_mult; [apply deriv_const|apply br_f_deriv]|cbv beta; ring]).
Qed.

Lemma br_mass T0 P V f x g1 : 0 < T0 -> 0 < f -> 0 < V ->
  V * (- P / (2077.23 * (T0 * f * (T0 * f))) * (T0 * (- g1 * (x / V) * f)) +
       1 / (2077.23 * (T0 * f)) * (- (1 + g1) * (x / V) * P)) + P / (2077.23 * (T0 * f)) * x = 0.
Proof. intros. decimals. field. lra. Qed.
Lemma br_energy T0 V f x : 0 < T0 -> 0 < f -> 0 < V ->
  V * (1000000 * f / V / (2077.23 * (T0 * f))) *
    ((5193.17 - 2077.23) * (T0 * (- br_g1 * (x / V) * f))) = - (1000000 * f / V * x).
Proof. intros. unfold br_g1. decimals. field. lra. Qed.

Lemma br_conserves t : conserves (Run_calculate_inputs br_run t (br_traj t)) (br_solution t).
Proof.
  pose proof (br_V_range t) as HV. pose proof (br_f_low t) as Hf.
  unfold Run_calculate_inputs. cbn [br_run ru_ws_vol_fn].
  unfold conserves, mass_balances, energy_balances. cbn zeta.
  unfold energy_rate_space, energy_rate_hx, energy_rate_regen, mass_rate_space, mass_rate_hx, mass_rate_regen.
  cbn [br_run in_comp in_chx in_regen in_hhx in_exp in_pres comp_inputs chx_inputs regen_inputs hhx_inputs exp_inputs
    wi_vol wi_dens wi_inte wi_enth wi_dd_dP_T wi_dd_dT_P wi_du_dP_T wi_du_dT_P wi_dV_dt wi_Q_dot
    hi_vol gi_vol ru_fluid ru_vol_chx ru_vol_regen ru_vol_hhx ru_ws_parasitics par_comp par_exp pp_thermal
    v_value v_deriv br_solution so_m_dot_ck so_m_dot_kr so_m_dot_rl so_m_dot_le
    so_Q_dot_k so_Q_dot_r so_Q_dot_l so_dTc_dt so_dTe_dt so_dP_dt br_traj cd_P cd_T_c cd_T_e
    IdealGas_Fluid fl_dens fl_inte fl_dd_dP_T fl_dd_dT_P fl_du_dP_T fl_du_dT_P].
  rewrite !dens_eq, !dd_dP_T_eq, !dd_dT_P_eq, !he_du_dT, !he_R.
  change (@ig_du_dP_T R R_ops he) with (fun _ _ : R => 0). cbv beta.
  rewrite !br_mass by lra.
  split; [repeat split; ring|].
  eexists _, _, _, _.
  do 4 (split; [split; [intros _; reflexivity|intros; lra]|]).
  repeat split; try ring.
  - pose proof (br_energy 300 (br_V t) (br_f t) (cos t / 2) ltac:(lra) ltac:(lra) ltac:(lra)) as E.
    unfold br_P in *. rewrite Rmult_0_l, Rplus_0_r. lra.
  - pose proof (br_energy 900 (br_V t) (br_f t) (cos t / 2) ltac:(lra) ltac:(lra) ltac:(lra)) as E.
    unfold br_P in *. rewrite Rmult_0_l, Rplus_0_r. lra.
Qed.
Lemma br_physical t : physical (Run_calculate_inputs br_run t (br_traj t)).
Proof.
  pose proof (br_V_range t). pose proof (br_f_low t). pose proof (br_P_pos t).
  apply helium_physical; [reflexivity|cbn; lra|].
  unfold helium_conditions, warm, R_he, T_ref, cp_he. cbn. repeat split; lra.
Qed.
Lemma br_true t : true_derivatives (ru_ws_vol_fn br_run) t.
Proof. split; exact (br_V_deriv t). Qed.
Lemma br_temps t : positive_temps br_run (br_traj t).
Proof. pose proof (br_f_low t). unfold positive_temps. cbn. repeat split; lra. Qed.
Lemma br_solves t : solve gauss (Run_calculate_inputs br_run t (br_traj t)) FlowDirection_default = Ok (br_solution t).
Proof.
  apply (solve_iff_conserves gauss _ _ _ gauss_sound gauss_complete (br_physical t)). exact (br_conserves t).
Qed.
Lemma br_accounts t : accounts gauss br_run br_traj (fun _ => 0) br_work t.
Proof.
  split; [apply br_temps|]. split; [apply br_true|].
  exists FlowDirection_default, (br_solution t).
  split; [apply br_solves|]. split; [apply br_follows|]. split.
  - eapply deriv_eq; [apply deriv_const|]. cbn. ring.
  - unfold has_deriv, br_work. pose proof (br_V_range t) as HV. pose proof br_g1_range as Hg.
    eapply deriv_eq; [eapply deriv_mult; [apply deriv_const|apply br_f_deriv]|].
    cbv beta. cbn [br_traj cd_P br_run ru_ws_vol_fn fst snd v_deriv]. unfold br_P. field. lra.
Qed.
Lemma br_on_trajectory t : on_trajectory gauss br_run br_traj t.
Proof. exact (accounts_trajectory br_run gauss br_traj _ _ t (br_accounts t)). Qed.
Lemma br_returns : spaces_return br_run br_traj 0 (2 * PI).
Proof.
  assert (E : br_V (2 * PI) = br_V 0) by (unfold br_V; rewrite sin_2PI, sin_0; reflexivity).
  assert (E' : br_f (2 * PI) = br_f 0) by (unfold br_f; rewrite E; reflexivity).
  unfold spaces_return. cbn [br_run ru_ws_vol_fn fst snd v_value br_traj cd_T_c cd_T_e].
  rewrite E, E'. repeat split.
Qed.
(** the pressure does change meanwhile *)
Lemma br_moves : br_P (PI / 2) < br_P 0.
Proof.
  assert (V0 : br_V 0 = 1) by (unfold br_V; rewrite sin_0; lra).
  assert (V1 : br_V (PI / 2) = 3 / 2) by (unfold br_V; rewrite sin_PI2; lra).
  assert (F0 : br_f 0 = 1) by (unfold br_f; rewrite V0, ln_1, Rmult_0_r; exact exp_0).
  assert (F1 : br_f (PI / 2) <= 1).
  { unfold br_f. rewrite V1. rewrite <- exp_0. 
    assert (0 < ln (3 / 2)) by (rewrite <- ln_1; apply ln_increasing; lra).
    left. apply exp_increasing. pose proof br_g1_range.
    assert (0 < br_g1 * ln (3 / 2)) by (apply Rmult_lt_0_compat; lra). lra. }
  unfold br_P. rewrite V0, V1, F0. pose proof (br_f_low (PI / 2)). lra.
Qed.
Lemma br_reduced : 0 < reduced_volume br_run 0 (br_traj 0).
Proof.
  pose proof (br_V_range 0). pose proof (br_f_low 0).
  unfold reduced_volume. cbn.
  assert (0 < br_V 0 / (300 * br_f 0)) by (apply Rdiv_lt_0_compat; lra).
  assert (0 < br_V 0 / (900 * br_f 0)) by (apply Rdiv_lt_0_compat; lra).
  unfold Rdiv in *. rewrite !Rmult_0_l. lra.
Qed.

(** ** A hydrogen engine with sinusoidal drive *)
Definition h2_state : State R :=
  mkState (IdealGas_Fluid h2) (mkPressure 1000000 1000000 1000000 1000000) case_temps
    (mkMassFlows 0 0 0) (mkHeatFlows 0 0 0) 0.
Definition h2_norm : R := nhalf * (ig_enth h2 300 1000000 + ig_enth h2 900 1000000).
Definition h2_run : Run R :=
  mkRun h2_norm (IdealGas_Fluid h2) (1 / 60) (s_pres h2_state) case_temps 0.00004 0.0001 0.0001
    (sd_parasitics case_drive) (sin_volumes case_drive).
Lemma h2_run_new : Run_new case_comps h2_state = Ret h2_run.
Proof. reflexivity. Qed.
Lemma h2_conditions t : hydrogen_conditions h2_run t case_conditions.
Proof.
  destruct (sin_bounds case_drive t) as [[H1 _] [H2 _]]; cbn; try lra.
  unfold hydrogen_conditions, T_cold.
  change (ru_ws_vol_fn h2_run t) with (sin_volumes case_drive t).
  cbn -[sin_volumes] in *. repeat split; lra.
Qed.

(** ** Limits *)
Lemma case_limit : Un_cv (fun n => / (INR n + 1)) 0 /\ conditions_limit (fun _ => case_conditions) case_conditions.
Proof.
  split; [|repeat split; apply lim_const].
  intros eps He. destruct (archimed_cor1 eps He) as [N [HN HN0]]. exists N. intros n Hn.
  unfold R_dist. rewrite Rminus_0_r.
  assert (0 < INR n + 1) by (pose proof (pos_INR n); lra).
  rewrite Rabs_right by (left; apply Rinv_0_lt_compat; assumption).
  apply Rle_lt_trans with (/ INR N); [|exact HN].
  apply Rinv_le_contravar; [apply lt_0_INR; exact HN0|].
  apply le_INR in Hn. lra.
Qed.
