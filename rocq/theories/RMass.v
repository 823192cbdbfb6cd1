(** * Mass and energy of the gas along exact trajectories *)
From Coq Require Import ZArith NArith List Reals Lra Lia.
From Verif Require Import Num ModelTypes ModelWs ModelHx ModelStateEq ModelEngine RNum Spec SpecR SpecGas
  SpecKin SpecTraj PolySolve RSolve RFluid.
Local Open Scope R_scope.

Section Traj.
  Variable g : IdealGas R.
  Hypothesis HR : 0 < ig_gas_constant g.
  Variable r : Run R.
  Hypothesis Hf : ru_fluid r = IdealGas_Fluid g.

  Lemma dens_deriv (P T : R -> R) t dP dT :
    derivable_pt_lim P t dP -> derivable_pt_lim T t dT -> 0 < T t ->
    derivable_pt_lim (fun u => ig_dens g (T u) (P u)) t
      (ig_dd_dT_P g (T t) (P t) * dT + ig_dd_dP_T g (T t) (P t) * dP).
  Proof.
    intros H1 H2 H3. rewrite dd_dT_P_eq, dd_dP_T_eq.
    assert (ig_gas_constant g * T t <> 0) by (apply Rgt_not_eq, Rmult_lt_0_compat; assumption).
    eapply deriv_eq.
    - eapply deriv_ext; [intros u; symmetry; apply dens_eq|].
      eapply deriv_div; [exact H1|eapply deriv_mult; [apply deriv_const|exact H2]|]. exact H.
    - cbv beta. field. lra.
  Qed.

  Lemma space_mass_deriv (V P T : R -> R) t dV dP dT :
    derivable_pt_lim V t dV -> derivable_pt_lim P t dP -> derivable_pt_lim T t dT -> 0 < T t ->
    derivable_pt_lim (fun u => V u * ig_dens g (T u) (P u)) t
      (V t * (ig_dd_dT_P g (T t) (P t) * dT + ig_dd_dP_T g (T t) (P t) * dP)
       + ig_dens g (T t) (P t) * dV).
  Proof.
    intros HV HP HT HT0. eapply deriv_eq.
    - eapply deriv_mult; [exact HV|]. apply dens_deriv; eassumption.
    - cbv beta. ring.
  Qed.

  Lemma hx_mass_deriv V (P : R -> R) T t dP :
    derivable_pt_lim P t dP -> 0 < T ->
    derivable_pt_lim (fun u => V * ig_dens g T (P u)) t (V * ig_dd_dP_T g T (P t) * dP).
  Proof.
    intros HP HT. eapply deriv_eq.
    - eapply deriv_mult; [apply deriv_const|].
      apply (dens_deriv P (fun _ => T)); [exact HP|apply deriv_const|exact HT].
    - cbv beta. ring.
  Qed.

  Lemma gas_mass_deriv D c t : sound D -> on_trajectory D r c t ->
    has_deriv (fun u => gas_mass r u (c u)) t 0.
  Proof.
    intros HD ((Tc & Te & Tk & Tl & Tr) & (VC & VE) & hint & s & Hs & (HP & HTc & HTe)).
    destruct (mass_conserved D _ hint s HD Hs) as [_ Htot].
    unfold total_mass_rate, Run_calculate_inputs in Htot.
    unfold has_deriv, gas_mass. rewrite Hf. cbn [IdealGas_Fluid fl_dens].
    eapply deriv_eq.
    - repeat apply deriv_plus.
      + apply (space_mass_deriv (fun u => v_value (fst (ru_ws_vol_fn r u))) (fun u => cd_P (c u))
                 (fun u => cd_T_c (c u))); eassumption.
      + apply (hx_mass_deriv _ (fun u => cd_P (c u))); eassumption.
      + apply (hx_mass_deriv _ (fun u => cd_P (c u))); eassumption.
      + apply (hx_mass_deriv _ (fun u => cd_P (c u))); eassumption.
      + apply (space_mass_deriv (fun u => v_value (snd (ru_ws_vol_fn r u))) (fun u => cd_P (c u))
                 (fun u => cd_T_e (c u))); eassumption.
    - cbv beta. rewrite <- Htot.
      destruct (ru_ws_vol_fn r t) as [vc ve]. cbn [fst snd].
      cbn [in_comp in_chx in_regen in_hhx in_exp].
      unfold mass_rate_space, mass_rate_hx, mass_rate_regen, comp_inputs, chx_inputs, regen_inputs,
        hhx_inputs, exp_inputs.
      rewrite Hf. reflexivity.
  Qed.

  (** over an interval *)
  Lemma gas_mass_constant D c a b : sound D -> a <= b ->
    (forall t, a <= t <= b -> on_trajectory D r c t) -> gas_mass r b (c b) = gas_mass r a (c a).
  Proof.
    intros HD Hab H. destruct Hab as [Hab|<-]; [|reflexivity].
    destruct (MVT_cor2 (fun u => gas_mass r u (c u)) (fun _ => 0) a b Hab) as (x & E & _).
    - intros t Ht. apply (gas_mass_deriv D c t HD (H t Ht)).
    - lra.
  Qed.

  (** internal energy, when [du_dT_P] is the derivative of [inte] *)
  Hypothesis Hu : forall T P, has_deriv (fun t => ig_inte g t P) T (ig_du_dT_P g T P).

  Lemma inte_no_P T P P' : ig_inte g T P = ig_inte g T P'.
  Proof. reflexivity. Qed.
  Lemma inte_deriv (P T : R -> R) t dT : derivable_pt_lim T t dT ->
    derivable_pt_lim (fun u => ig_inte g (T u) (P u)) t (ig_du_dT_P g (T t) (P t) * dT).
  Proof.
    intros HT. apply (deriv_ext (fun u => ig_inte g (T u) (P t))); [intros; apply inte_no_P|].
    exact (deriv_comp T (fun x => ig_inte g x (P t)) t dT _ HT (Hu (T t) (P t))).
  Qed.
  Lemma space_energy_deriv (V P T : R -> R) t dV dP dT :
    derivable_pt_lim V t dV -> derivable_pt_lim P t dP -> derivable_pt_lim T t dT -> 0 < T t ->
    derivable_pt_lim (fun u => V u * (ig_dens g (T u) (P u) * ig_inte g (T u) (P u))) t
      (V t * ig_dens g (T t) (P t) * (ig_du_dT_P g (T t) (P t) * dT + ig_du_dP_T g (T t) (P t) * dP)
       + ig_inte g (T t) (P t) *
         (V t * (ig_dd_dT_P g (T t) (P t) * dT + ig_dd_dP_T g (T t) (P t) * dP)
          + ig_dens g (T t) (P t) * dV)).
  Proof.
    intros HV HP HT HT0. eapply deriv_eq.
    - eapply deriv_mult; [exact HV|]. eapply deriv_mult; [apply dens_deriv; eassumption|].
      apply inte_deriv. exact HT.
    - cbv beta. change (ig_du_dP_T g (T t) (P t)) with 0. ring.
  Qed.
  Lemma hx_energy_deriv V (P : R -> R) T t dP :
    derivable_pt_lim P t dP -> 0 < T ->
    derivable_pt_lim (fun u => V * (ig_dens g T (P u) * ig_inte g T (P u))) t
      (V * ig_dens g T (P t) * (ig_du_dP_T g T (P t) * dP)
       + ig_inte g T (P t) * (V * ig_dd_dP_T g T (P t) * dP)).
  Proof.
    intros HP HT. eapply deriv_eq.
    - apply (space_energy_deriv (fun _ => V) P (fun _ => T)); [apply deriv_const|exact HP|apply deriv_const|exact HT].
    - cbv beta. change (ig_du_dP_T g T (P t)) with 0. ring.
  Qed.

  Lemma gas_energy_deriv D c t hint s : sound D -> ru_enth_norm r <> 0 ->
    positive_temps r (c t) -> true_derivatives (ru_ws_vol_fn r) t ->
    solve D (Run_calculate_inputs r t (c t)) hint = Ok s -> follows c s t ->
    has_deriv (fun u => gas_energy r u (c u)) t
      (so_Q_dot_l s - so_Q_dot_k s - so_Q_dot_r s
       - pp_thermal (par_comp (ru_ws_parasitics r)) - pp_thermal (par_exp (ru_ws_parasitics r))
       - cd_P (c t) * (v_deriv (fst (ru_ws_vol_fn r t)) + v_deriv (snd (ru_ws_vol_fn r t)))).
  Proof.
    intros HD Hn (Tc & Te & Tk & Tl & Tr) (VC & VE) Hs (HP & HTc & HTe).
    assert (Hn' : in_enth_norm (Run_calculate_inputs r t (c t)) <> 0).
    { unfold Run_calculate_inputs. destruct (ru_ws_vol_fn r t). exact Hn. }
    destruct (energy_conserved D _ hint s HD Hn' Hs) as [_ Htot].
    unfold total_energy_rate, Run_calculate_inputs in Htot.
    unfold has_deriv, gas_energy. rewrite Hf. cbn [IdealGas_Fluid fl_dens fl_inte].
    eapply deriv_eq.
    - repeat apply deriv_plus.
      + apply (space_energy_deriv (fun u => v_value (fst (ru_ws_vol_fn r u))) (fun u => cd_P (c u))
                 (fun u => cd_T_c (c u))); eassumption.
      + apply (hx_energy_deriv _ (fun u => cd_P (c u))); eassumption.
      + apply (hx_energy_deriv _ (fun u => cd_P (c u))); eassumption.
      + apply (hx_energy_deriv _ (fun u => cd_P (c u))); eassumption.
      + apply (space_energy_deriv (fun u => v_value (snd (ru_ws_vol_fn r u))) (fun u => cd_P (c u))
                 (fun u => cd_T_e (c u))); eassumption.
    - cbv beta.
      destruct (ru_ws_vol_fn r t) as [vc ve]. cbn [fst snd].
      cbn [in_comp in_chx in_regen in_hhx in_exp in_pres comp_inputs exp_inputs wi_dV_dt wi_Q_dot] in Htot.
      rewrite <- Htot.
      unfold energy_rate_space, energy_rate_hx, energy_rate_regen,
        mass_rate_space, mass_rate_hx, mass_rate_regen, comp_inputs, chx_inputs, regen_inputs,
        hhx_inputs, exp_inputs.
      rewrite Hf. reflexivity.
  Qed.
End Traj.
