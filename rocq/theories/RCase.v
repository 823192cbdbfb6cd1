(** * Concrete engines over the reals *)
From Coq Require Import ZArith NArith List Reals Lra Lia.
From Verif Require Import Num ModelTypes ModelWs ModelHx ModelStateEq ModelEngine RNum Spec SpecR SpecGas
  SpecKin SpecTraj PolySolve Fixture RSolve RGauss RFluid RKin RMass.
Import ListNotations.
Local Open Scope R_scope.

(** ** A helium engine with sinusoidal drive *)
Definition case_drive : SinusoidalDrive R :=
  mkSin 60 90 (mkSinGeo 0.00005 0.0001) (mkSinGeo 0.00002 0.0001) (mkTR 1 1)
    (mkPar (mkPP 0 10 0) (mkPP 20 10 0)).
Definition case_comps : Components R :=
  mkComponents (SinusoidalDrive_ws case_drive)
    (chx_FixedApproach (mkFA 1 0.00004 10 (mkPP 0 1 0)))
    (regen_FixedApproach (mkFA 2 0.0001 10 (mkPP 5 0 0)))
    (hhx_FixedApproach (mkFA 3 0.0001 10 (mkPP 6 2 0))).
Definition case_temps : Temperatures R := mkTemps 300 310 (mkRegenTemp 320 550 880) 890 900.
Definition case_state : State R :=
  mkState (IdealGas_Fluid he) (mkPressure 1000000 1000000 1000000 1000000) case_temps
    (mkMassFlows 0 0 0) (mkHeatFlows 0 0 0) 0.
Definition case_norm : R :=
  nhalf * (ig_enth he 300 1000000 + ig_enth he 900 1000000).
Definition case_run : Run R :=
  mkRun case_norm (IdealGas_Fluid he) (1 / 60) (s_pres case_state) case_temps 0.00004 0.0001 0.0001
    (sd_parasitics case_drive) (sin_volumes case_drive).
Lemma case_run_new : Run_new case_comps case_state = Ret case_run.
Proof. reflexivity. Qed.
Definition case_conditions : Conditions R := mkCond 1000000 320 880.

Lemma case_helium t : helium_conditions case_run t case_conditions.
Proof.
  destruct (sin_bounds case_drive t) as [[H1 _] [H2 _]]; cbn; try lra.
  unfold helium_conditions, warm, R_he, T_ref, cp_he.
  change (ru_ws_vol_fn case_run t) with (sin_volumes case_drive t).
  cbn -[sin_volumes] in *. repeat split; lra.
Qed.

Definition case_inputs (t : R) : Inputs R := Run_calculate_inputs case_run t case_conditions.
Lemma case_norm_nonzero : case_norm <> 0.
Proof. unfold case_norm. rewrite R_nhalf, !he_enth. cbn [n_mul n_add R_ops]. lra. Qed.
Lemma case_physical t : physical (case_inputs t).
Proof. apply helium_physical; [reflexivity|exact case_norm_nonzero|apply case_helium]. Qed.
Lemma case_solves t hint : exists s, solve gauss (case_inputs t) hint = Ok s.
Proof. exact (solve_succeeds _ (case_physical t) gauss hint gauss_sound gauss_complete). Qed.

(** gas is really moving at some times *)
Lemma case_moves : exists t s, solve gauss (case_inputs t) FlowDirection_default = Ok s /\
  (so_m_dot_ck s <> 0 \/ so_m_dot_le s <> 0).
Proof.
  exists (PI / 2 / (2 * PI * 60)).
  set (t := PI / 2 / (2 * PI * 60)).
  destruct (case_solves t FlowDirection_default) as [s Hs]. exists s. split; [exact Hs|].
  destruct (Req_dec (so_m_dot_ck s) 0) as [E1|N]; [|left; exact N].
  destruct (Req_dec (so_m_dot_le s) 0) as [E2|N]; [|right; exact N].
  exfalso.
  pose proof (mass_conserved gauss _ _ s gauss_sound Hs) as [(M1 & M2 & M3 & M4 & M5) _].
  pose proof (energy_conserved gauss _ _ s gauss_sound (norm_nonzero _ (case_physical t)) Hs) as [HC _].
  destruct HC as (_ & hck & hkr & hrl & hle & _ & _ & _ & _ & E & _ & _ & _ & E').
  assert (TH : 2 * PI * 60 * t = PI / 2) by (unfold t; field; pose proof PI_RGT_0; lra).
  assert (DC : v_deriv (fst (sin_volumes case_drive t)) = - / 2 * 0.0001 * (2 * PI * 60)).
  { rewrite sin_comp_deriv. cbn [case_drive sd_frequency sd_comp_geometry sg_swept_volume].
    rewrite TH, sin_PI2. ring. }
  assert (DE : v_deriv (snd (sin_volumes case_drive t)) = 0).
  { rewrite sin_exp_deriv. cbn [case_drive sd_frequency sd_exp_geometry sg_swept_volume sd_phase_angle].
    rewrite TH. replace (PI / 2 + 90 * PI / 180) with PI by field. rewrite sin_PI. ring. }
  assert (VC : v_value (fst (sin_volumes case_drive t)) = 0.00005 + / 2 * 0.0001).
  { rewrite sin_comp_value. cbn [case_drive sd_frequency sd_comp_geometry sg_swept_volume sg_clearance_volume].
    rewrite TH, cos_PI2. ring. }
  assert (VE : v_value (snd (sin_volumes case_drive t)) = 0.00002).
  { rewrite sin_exp_value. cbn [case_drive sd_frequency sd_exp_geometry sg_swept_volume sd_phase_angle sg_clearance_volume].
    rewrite TH. replace (PI / 2 + 90 * PI / 180) with PI by field. rewrite cos_PI. ring. }
  (* the fixed volumes force the pressure to stay while no gas moves *)
  assert (HK : mass_rate_hx (in_chx (case_inputs t)) (so_dP_dt s) +
               mass_rate_regen (in_regen (case_inputs t)) (so_dP_dt s) +
               mass_rate_hx (in_hhx (case_inputs t)) (so_dP_dt s) = 0).
  { fold (case_inputs t) in M2, M3, M4. lra. }
  assert (HP : so_dP_dt s = 0).
  { revert HK. unfold mass_rate_hx, mass_rate_regen.
    change (hi_vol (in_chx (case_inputs t))) with 0.00004.
    change (gi_vol (in_regen (case_inputs t))) with 0.0001.
    change (hi_vol (in_hhx (case_inputs t))) with 0.0001.
    change (hi_dd_dP_T (in_chx (case_inputs t))) with (1 / (2077.23 * 310)).
    change (gi_dd_dP_T (in_regen (case_inputs t))) with (1 / (2077.23 * 550)).
    change (hi_dd_dP_T (in_hhx (case_inputs t))) with (1 / (2077.23 * 890)).
    intros HK.
    assert (HK' : (0.00004 * (1 / (2077.23 * 310)) + 0.0001 * (1 / (2077.23 * 550)) +
      0.0001 * (1 / (2077.23 * 890))) * so_dP_dt s = 0) by lra.
    apply Rmult_integral in HK' as [K|K]; [exfalso|exact K]. lra. }
  rewrite HP in *. fold (case_inputs t) in M1, E.
  unfold energy_rate_space in E. rewrite M1, E1 in E.
  unfold mass_rate_space in M1. rewrite E1 in M1.
  change (wi_vol (in_comp (case_inputs t))) with (v_value (fst (sin_volumes case_drive t))) in *.
  change (wi_dV_dt (in_comp (case_inputs t))) with (v_deriv (fst (sin_volumes case_drive t))) in *.
  change (wi_Q_dot (in_comp (case_inputs t))) with 0 in *.
  change (in_pres (case_inputs t)) with 1000000 in *.
  change (wi_dens (in_comp (case_inputs t))) with (1000000 / (2077.23 * 320)) in *.
  change (wi_dd_dT_P (in_comp (case_inputs t))) with (- 1000000 / (2077.23 * (320 * 320))) in *.
  change (wi_du_dT_P (in_comp (case_inputs t))) with (ig_du_dT_P he 320 1000000) in *.
  rewrite he_du_dT in E. rewrite VC, DC in *.
  pose proof PI_RGT_0. lra.
Qed.

(** ** A charge of gas heated at constant volume: an exact trajectory *)
Definition heat_run : Run R :=
  mkRun 1 (IdealGas_Fluid he) 1 (mkPressure 1000000 1000000 1000000 1000000) case_temps 0 0 0
    (mkPar (mkPP (- 3115.94) 0 0) (mkPP (- 3115.94) 0 0)) (fun _ => (mkVolume 1 0, mkVolume 1 0)).
Definition heat_P (t : R) : R := 1000000 + 2077.23 * t.
Definition heat_traj (t : R) : Conditions R :=
  mkCond (heat_P t) (300 * heat_P t / 1000000) (900 * heat_P t / 1000000).
Definition heat_solution : Solution R :=
  mkSolution 0 0 0 0 0 0 0 (300 * 2077.23 / 1000000) (900 * 2077.23 / 1000000) 2077.23.

Lemma heat_follows t : follows heat_traj heat_solution t.
Proof.
  unfold follows, has_deriv, heat_traj, heat_P. cbn [cd_P cd_T_c cd_T_e heat_solution so_dP_dt so_dTc_dt so_dTe_dt].
  repeat split; (eapply deriv_eq; [deriv; lra|cbv beta; lra]).
Qed.
Lemma heat_conserves t : 0 <= t ->
  conserves (Run_calculate_inputs heat_run t (heat_traj t)) heat_solution.
Proof.
  intros Ht. assert (HP : 1000000 <= heat_P t) by (unfold heat_P; lra).
  unfold Run_calculate_inputs. cbn [heat_run ru_ws_vol_fn].
  unfold conserves, mass_balances, energy_balances. cbn zeta.
  unfold energy_rate_space, energy_rate_hx, energy_rate_regen, mass_rate_space, mass_rate_hx, mass_rate_regen.
  cbn [heat_run in_comp in_chx in_regen in_hhx in_exp in_pres comp_inputs chx_inputs regen_inputs hhx_inputs exp_inputs
    wi_vol wi_dens wi_inte wi_enth wi_dd_dP_T wi_dd_dT_P wi_du_dP_T wi_du_dT_P wi_dV_dt wi_Q_dot
    hi_vol gi_vol ru_fluid ru_vol_chx ru_vol_regen ru_vol_hhx ru_ws_parasitics par_comp par_exp pp_thermal
    v_value v_deriv heat_solution so_m_dot_ck so_m_dot_kr so_m_dot_rl so_m_dot_le
    so_Q_dot_k so_Q_dot_r so_Q_dot_l so_dTc_dt so_dTe_dt so_dP_dt heat_traj cd_P cd_T_c cd_T_e
    IdealGas_Fluid fl_dens fl_inte fl_dd_dP_T fl_dd_dT_P fl_du_dP_T fl_du_dT_P].
  rewrite !dens_eq, !dd_dP_T_eq, !dd_dT_P_eq, !he_du_dT, !he_R.
  change (@ig_du_dP_T R R_ops he) with (fun _ _ : R => 0). cbv beta.
  set (p := heat_P t) in *.
  assert (A1 : - p / (2077.23 * (300 * p / 1000000 * (300 * p / 1000000))) * (300 * 2077.23 / 1000000) +
     1 / (2077.23 * (300 * p / 1000000)) * 2077.23 = 0) by (decimals; field; lra).
  assert (A2 : - p / (2077.23 * (900 * p / 1000000 * (900 * p / 1000000))) * (900 * 2077.23 / 1000000) +
     1 / (2077.23 * (900 * p / 1000000)) * 2077.23 = 0) by (decimals; field; lra).
  assert (B1 : p / (2077.23 * (300 * p / 1000000)) * ((5193.17 - 2077.23) * (300 * 2077.23 / 1000000) + 0 * 2077.23)
     = 3115.94) by (decimals; field; lra).
  assert (B2 : p / (2077.23 * (900 * p / 1000000)) * ((5193.17 - 2077.23) * (900 * 2077.23 / 1000000) + 0 * 2077.23)
     = 3115.94) by (decimals; field; lra).
  rewrite A1, A2. split; [repeat split; ring|].
  eexists _, _, _, _.
  do 4 (split; [split; [intros _; reflexivity|intros; lra]|]).
  repeat split; try ring.
  - rewrite Rmult_1_l, B1. lra.
  - rewrite Rmult_1_l, B2. lra.
Qed.
Lemma heat_physical t : 0 <= t -> physical (Run_calculate_inputs heat_run t (heat_traj t)).
Proof.
  intros Ht. assert (HP : 1000000 <= heat_P t) by (unfold heat_P; lra).
  apply helium_physical; [reflexivity|cbn; lra|].
  unfold helium_conditions, warm, R_he, T_ref, cp_he. cbn. repeat split; lra.
Qed.
Lemma heat_on_trajectory t : 0 <= t -> on_trajectory gauss heat_run heat_traj t.
Proof.
  intros Ht. assert (HP : 1000000 <= heat_P t) by (unfold heat_P; lra). split; [|split].
  - unfold positive_temps. cbn. repeat split; lra.
  - split; exact (deriv_const _ t).
  - exists FlowDirection_default, heat_solution. split; [|apply heat_follows].
    apply (solve_iff_conserves gauss _ _ _ gauss_sound gauss_complete (heat_physical t Ht)).
    exact (heat_conserves t Ht).
Qed.
