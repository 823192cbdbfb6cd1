(** * Energy of a gas whose [du_dT_P] is not the derivative of its internal energy *)
From Coq Require Import ZArith NArith List Reals Lra Lia.
From Verif Require Import Num ModelTypes ModelWs ModelHx ModelStateEq ModelEngine ModelApi RNum
  Spec SpecR SpecGas SpecKin SpecTraj SpecHydro PolySolve Fixture RSolve RGauss RFluid RKin RMass RCase RHydro.
Local Open Scope R_scope.

Section Leak.
  Variable g : IdealGas R.
  Hypothesis HR : 0 < ig_gas_constant g.
  Variable r : Run R.
  Hypothesis Hf : ru_fluid r = IdealGas_Fluid g.
  Variable du : R -> R.
  Hypothesis Hu : forall T P, has_deriv (fun t => ig_inte g t P) T (du T).

  Lemma leak_inte_deriv (P T : R -> R) t dT : derivable_pt_lim T t dT ->
    derivable_pt_lim (fun u => ig_inte g (T u) (P u)) t (du (T t) * dT).
  Proof.
    intros HT. apply (deriv_ext (fun u => ig_inte g (T u) (P t))); [intros; apply inte_no_P|].
    exact (deriv_comp T (fun x => ig_inte g x (P t)) t dT _ HT (Hu (T t) (P t))).
  Qed.
  Lemma leak_space_deriv (V P T : R -> R) t dV dP dT :
    derivable_pt_lim V t dV -> derivable_pt_lim P t dP -> derivable_pt_lim T t dT -> 0 < T t ->
    derivable_pt_lim (fun u => V u * (ig_dens g (T u) (P u) * ig_inte g (T u) (P u))) t
      (V t * ig_dens g (T t) (P t) * (du (T t) * dT + ig_du_dP_T g (T t) (P t) * dP)
       + ig_inte g (T t) (P t) *
         (V t * (ig_dd_dT_P g (T t) (P t) * dT + ig_dd_dP_T g (T t) (P t) * dP)
          + ig_dens g (T t) (P t) * dV)).
  Proof.
    intros HV HP HT HT0. eapply deriv_eq.
    - eapply deriv_mult; [exact HV|]. eapply deriv_mult; [apply (dens_deriv g HR); eassumption|].
      apply leak_inte_deriv. exact HT.
    - cbv beta. change (ig_du_dP_T g (T t) (P t)) with 0. ring.
  Qed.
  Lemma leak_hx_deriv V (P : R -> R) T t dP :
    derivable_pt_lim P t dP -> 0 < T ->
    derivable_pt_lim (fun u => V * (ig_dens g T (P u) * ig_inte g T (P u))) t
      (V * ig_dens g T (P t) * (ig_du_dP_T g T (P t) * dP)
       + ig_inte g T (P t) * (V * ig_dd_dP_T g T (P t) * dP)).
  Proof.
    intros HP HT. eapply deriv_eq.
    - apply (leak_space_deriv (fun _ => V) P (fun _ => T)); [apply deriv_const|exact HP|apply deriv_const|exact HT].
    - cbv beta. change (ig_du_dP_T g T (P t)) with 0. ring.
  Qed.

  Lemma gas_energy_leak D c t hint s : sound D -> ru_enth_norm r <> 0 ->
    positive_temps r (c t) -> true_derivatives (ru_ws_vol_fn r) t ->
    solve D (Run_calculate_inputs r t (c t)) hint = Ok s -> follows c s t ->
    has_deriv (fun u => gas_energy r u (c u)) t
      (so_Q_dot_l s - so_Q_dot_k s - so_Q_dot_r s
       - pp_thermal (par_comp (ru_ws_parasitics r)) - pp_thermal (par_exp (ru_ws_parasitics r))
       - cd_P (c t) * (v_deriv (fst (ru_ws_vol_fn r t)) + v_deriv (snd (ru_ws_vol_fn r t)))
       - energy_leak r t (c t) du s).
  Proof.
    intros HD Hn (Tc & Te & Tk & Tl & Tr) (VC & VE) Hs (HP & HTc & HTe).
    assert (Hn' : in_enth_norm (Run_calculate_inputs r t (c t)) <> 0).
    { unfold Run_calculate_inputs. destruct (ru_ws_vol_fn r t). exact Hn. }
    destruct (energy_conserved D _ hint s HD Hn' Hs) as [_ Htot].
    unfold total_energy_rate, Run_calculate_inputs in Htot.
    unfold has_deriv, gas_energy, energy_leak. rewrite Hf. cbn [IdealGas_Fluid fl_dens fl_inte fl_du_dT_P].
    eapply deriv_eq.
    - repeat apply deriv_plus.
      + apply (leak_space_deriv (fun u => v_value (fst (ru_ws_vol_fn r u))) (fun u => cd_P (c u))
                 (fun u => cd_T_c (c u))); eassumption.
      + apply (leak_hx_deriv _ (fun u => cd_P (c u))); eassumption.
      + apply (leak_hx_deriv _ (fun u => cd_P (c u))); eassumption.
      + apply (leak_hx_deriv _ (fun u => cd_P (c u))); eassumption.
      + apply (leak_space_deriv (fun u => v_value (snd (ru_ws_vol_fn r u))) (fun u => cd_P (c u))
                 (fun u => cd_T_e (c u))); eassumption.
    - cbv beta.
      destruct (ru_ws_vol_fn r t) as [vc ve]. cbn [fst snd].
      cbn [in_comp in_chx in_regen in_hhx in_exp in_pres comp_inputs exp_inputs wi_dV_dt wi_Q_dot] in Htot.
      rewrite <- Htot.
      unfold energy_rate_space, energy_rate_hx, energy_rate_regen,
        mass_rate_space, mass_rate_hx, mass_rate_regen, comp_inputs, chx_inputs, regen_inputs,
        hhx_inputs, exp_inputs.
      rewrite Hf.
      cbn [IdealGas_Fluid fl_dens fl_inte fl_enth fl_dd_dP_T fl_dd_dT_P fl_du_dP_T fl_du_dT_P
        wi_vol wi_dens wi_inte wi_dd_dP_T wi_dd_dT_P wi_du_dP_T wi_du_dT_P wi_dV_dt
        hi_vol hi_dens hi_inte hi_dd_dP_T hi_du_dP_T gi_vol gi_dens gi_inte gi_dd_dP_T gi_du_dP_T].
      ring.
  Qed.
End Leak.

(** ** Hydrogen *)
Lemma h2_inte_true T P : has_deriv (fun t => ig_inte h2 t P) T (h2_true_du T).
Proof.
  eapply deriv_eq; [apply h2_inte_deriv|]. unfold h2_true_du. rewrite h2_du_dT, h2_cp. unfold h2_c. ring.
Qed.
Lemma hydrogen_leak (r : Run R) D c t hint s : ru_fluid r = IdealGas_Fluid h2 ->
  sound D -> ru_enth_norm r <> 0 ->
  positive_temps r (c t) -> true_derivatives (ru_ws_vol_fn r) t ->
  solve D (Run_calculate_inputs r t (c t)) hint = Ok s -> follows c s t ->
  has_deriv (fun u => gas_energy r u (c u)) t
    (so_Q_dot_l s - so_Q_dot_k s - so_Q_dot_r s
     - pp_thermal (par_comp (ru_ws_parasitics r)) - pp_thermal (par_exp (ru_ws_parasitics r))
     - cd_P (c t) * (v_deriv (fst (ru_ws_vol_fn r t)) + v_deriv (snd (ru_ws_vol_fn r t)))
     - energy_leak r t (c t) h2_true_du s).
Proof. exact (fun Hf => gas_energy_leak h2 (gas_R_pos Hydrogen) r Hf h2_true_du h2_inte_true D c t hint s). Qed.

(** two charges of hydrogen heated at constant volume *)
Definition h2_heat (T : R) : R := ig_cp h2 T 1000000 - 4124.2.
Definition h2_heat_run : Run R :=
  mkRun 1 (IdealGas_Fluid h2) 1 (mkPressure 1000000 1000000 1000000 1000000) case_temps 0 0 0
    (mkPar (mkPP (- h2_heat 300) 0 0) (mkPP (- h2_heat 900) 0 0)) (fun _ => (mkVolume 1 0, mkVolume 1 0)).
Definition h2_heat_solution : Solution R :=
  mkSolution 0 0 0 0 0 0 0 (300 * 4124.2 / 1000000) (900 * 4124.2 / 1000000) 4124.2.
Definition h2_heat_traj (t : R) : Conditions R :=
  mkCond (1000000 + 4124.2 * t) (300 + 300 * 4124.2 / 1000000 * t) (900 + 900 * 4124.2 / 1000000 * t).
Definition h2_heat_start : Conditions R := mkCond 1000000 300 900.

Lemma h2_heat_zero : h2_heat_traj 0 = h2_heat_start.
Proof. unfold h2_heat_traj, h2_heat_start. f_equal; lra. Qed.
Lemma h2_heat_follows : follows h2_heat_traj h2_heat_solution 0.
Proof.
  unfold follows, has_deriv, h2_heat_traj.
  cbn [cd_P cd_T_c cd_T_e h2_heat_solution so_dP_dt so_dTc_dt so_dTe_dt].
  repeat split; (eapply deriv_eq; [deriv|cbv beta; lra]).
Qed.
Lemma h2_heat_conserves : conserves (Run_calculate_inputs h2_heat_run 0 h2_heat_start) h2_heat_solution.
Proof.
  unfold Run_calculate_inputs. cbn [h2_heat_run ru_ws_vol_fn].
  unfold conserves, mass_balances, energy_balances. cbn zeta.
  unfold energy_rate_space, energy_rate_hx, energy_rate_regen, mass_rate_space, mass_rate_hx, mass_rate_regen.
  cbn [h2_heat_run in_comp in_chx in_regen in_hhx in_exp in_pres comp_inputs chx_inputs regen_inputs hhx_inputs exp_inputs
    wi_vol wi_dens wi_inte wi_enth wi_dd_dP_T wi_dd_dT_P wi_du_dP_T wi_du_dT_P wi_dV_dt wi_Q_dot
    hi_vol gi_vol ru_fluid ru_vol_chx ru_vol_regen ru_vol_hhx ru_ws_parasitics par_comp par_exp pp_thermal
    v_value v_deriv h2_heat_solution so_m_dot_ck so_m_dot_kr so_m_dot_rl so_m_dot_le
    so_Q_dot_k so_Q_dot_r so_Q_dot_l so_dTc_dt so_dTe_dt so_dP_dt h2_heat_start cd_P cd_T_c cd_T_e
    IdealGas_Fluid fl_dens fl_inte fl_dd_dP_T fl_dd_dT_P fl_du_dP_T fl_du_dT_P].
  rewrite !dens_eq, !dd_dP_T_eq, !dd_dT_P_eq, !h2_du_dT, !h2_R.
  change (@ig_du_dP_T R R_ops h2) with (fun _ _ : R => 0). cbv beta. unfold h2_heat.
  set (x := ig_cp h2 300 1000000). set (y := ig_cp h2 900 1000000).
  assert (A1 : - (1000000) / (4124.2 * (300 * 300)) * (300 * 4124.2 / 1000000) + 1 / (4124.2 * 300) * 4124.2 = 0)
    by (decimals; lra).
  assert (A2 : - (1000000) / (4124.2 * (900 * 900)) * (900 * 4124.2 / 1000000) + 1 / (4124.2 * 900) * 4124.2 = 0)
    by (decimals; lra).
  rewrite A1, A2.
  split; [repeat split; lra|].
  eexists _, _, _, _.
  do 4 (split; [split; [intros _; reflexivity|intros; lra]|]).
  repeat split; try lra.
Qed.
Lemma h2_heat_physical : physical (Run_calculate_inputs h2_heat_run 0 h2_heat_start).
Proof.
  apply hydrogen_physical; [reflexivity|cbn; lra|].
  unfold hydrogen_conditions, T_cold. cbn. repeat split; lra.
Qed.
Lemma h2_heat_solves : solve gauss (Run_calculate_inputs h2_heat_run 0 h2_heat_start) FlowDirection_default = Ok h2_heat_solution.
Proof.
  apply (solve_iff_conserves gauss _ _ _ gauss_sound gauss_complete h2_heat_physical). exact h2_heat_conserves.
Qed.
Lemma h2_heat_leaks : energy_leak h2_heat_run 0 h2_heat_start h2_true_du h2_heat_solution <> 0.
Proof.
  unfold energy_leak. cbn [h2_heat_run ru_ws_vol_fn fst snd v_value ru_fluid IdealGas_Fluid fl_dens fl_du_dT_P
    h2_heat_start cd_P cd_T_c cd_T_e h2_heat_solution so_dTc_dt so_dTe_dt].
  rewrite !dens_eq, !h2_du_dT, !h2_cp, h2_R. unfold h2_true_du, h2_c. decimals. lra.
Qed.
Lemma hydrogen_energy_refuted : exists c s hint,
  c 0 = h2_heat_start /\ positive_temps h2_heat_run (c 0) /\ true_derivatives (ru_ws_vol_fn h2_heat_run) 0 /\
  solve gauss (Run_calculate_inputs h2_heat_run 0 (c 0)) hint = Ok s /\ follows c s 0 /\
  ~ has_deriv (fun u => gas_energy h2_heat_run u (c u)) 0
    (so_Q_dot_l s - so_Q_dot_k s - so_Q_dot_r s
     - pp_thermal (par_comp (ru_ws_parasitics h2_heat_run)) - pp_thermal (par_exp (ru_ws_parasitics h2_heat_run))
     - cd_P (c 0) * (v_deriv (fst (ru_ws_vol_fn h2_heat_run 0)) + v_deriv (snd (ru_ws_vol_fn h2_heat_run 0)))).
Proof.
  exists h2_heat_traj, h2_heat_solution, FlowDirection_default.
  assert (HT : positive_temps h2_heat_run (h2_heat_traj 0)) by (rewrite h2_heat_zero; unfold positive_temps; cbn; lra).
  assert (HV : true_derivatives (ru_ws_vol_fn h2_heat_run) 0) by (split; exact (deriv_const _ 0)).
  assert (HS : solve gauss (Run_calculate_inputs h2_heat_run 0 (h2_heat_traj 0)) FlowDirection_default = Ok h2_heat_solution)
    by (rewrite h2_heat_zero; exact h2_heat_solves).
  split; [exact h2_heat_zero|]. split; [exact HT|]. split; [exact HV|]. split; [exact HS|].
  split; [exact h2_heat_follows|]. intros H.
  pose proof (hydrogen_leak h2_heat_run gauss h2_heat_traj 0 _ _ eq_refl gauss_sound ltac:(cbn; lra) HT HV HS h2_heat_follows) as L.
  pose proof (uniqueness_limite _ _ _ _ H L) as E. rewrite h2_heat_zero in E.
  apply h2_heat_leaks. lra.
Qed.
