(** * Mass and energy of the gas in each space along exact trajectories *)
From Coq Require Import ZArith NArith List Reals Lra Lia.
From Verif Require Import Num ModelTypes ModelWs ModelHx ModelStateEq ModelEngine RNum Spec SpecR SpecGas
  SpecKin SpecTraj SpecSpaces PolySolve RSolve RFluid RMass.
Local Open Scope R_scope.

Lemma donor_carried m a b h : donor_R m a b h -> h * m = Rmax m 0 * a + Rmin m 0 * b.
Proof.
  intros (H1 & H2). destruct (Rle_lt_dec 0 m) as [L|L].
  - rewrite (H1 L), Rmax_left, Rmin_right by lra. ring.
  - rewrite (H2 L), Rmax_right, Rmin_left by lra. ring.
Qed.
Section Spaces.
  Variable g : IdealGas R.
  Hypothesis HR : 0 < ig_gas_constant g.
  Variable r : Run R.
  Hypothesis Hf : ru_fluid r = IdealGas_Fluid g.
  Variables (D : Decomp R) (c : R -> Conditions R) (t : R) (hint : FlowDirection) (s : Solution R).
  Hypothesis HD : sound D.
  Hypothesis Hs : solve D (Run_calculate_inputs r t (c t)) hint = Ok s.
  Hypothesis HF : follows c s t.
  Hypothesis HT : positive_temps r (c t).
  Lemma masses : true_derivatives (ru_ws_vol_fn r) t -> masses_balance r c t s.
  Proof.
    intros (VC & VE). destruct HT as (Tc & Te & Tk & Tl & Tr). destruct HF as (HP & HTc & HTe).
    destruct (mass_conserved D _ hint s HD Hs) as [(M1 & M2 & M3 & M4 & M5) _].
    unfold mass_rate_space, mass_rate_hx, mass_rate_regen, Run_calculate_inputs in *.
    unfold masses_balance, stored_mass, has_deriv. rewrite Hf. cbn [IdealGas_Fluid fl_dens].
    destruct (ru_ws_vol_fn r t) as [vc ve] eqn:EV. cbn [fst snd] in VC, VE.
    unfold comp_inputs, chx_inputs, regen_inputs, hhx_inputs, exp_inputs in *.
    cbn [in_comp in_chx in_regen in_hhx in_exp wi_vol wi_dens wi_dd_dT_P wi_dd_dP_T wi_dV_dt hi_vol hi_dd_dP_T gi_vol gi_dd_dP_T] in *.
    rewrite Hf in *. cbn [IdealGas_Fluid fl_dens fl_dd_dP_T fl_dd_dT_P] in *.
    split; [|split; [|split; [|split]]].
    - rewrite <- M1. eapply deriv_eq; [apply (space_mass_deriv g HR (fun u => v_value (fst (ru_ws_vol_fn r u))) (fun u => cd_P (c u))
                 (fun u => cd_T_c (c u))); eassumption|]. cbv beta. rewrite EV. reflexivity.
    - rewrite <- M2. apply (hx_mass_deriv g HR _ (fun u => cd_P (c u))); assumption.
    - rewrite <- M3. apply (hx_mass_deriv g HR _ (fun u => cd_P (c u))); assumption.
    - rewrite <- M4. apply (hx_mass_deriv g HR _ (fun u => cd_P (c u))); assumption.
    - rewrite <- M5. eapply deriv_eq; [apply (space_mass_deriv g HR (fun u => v_value (snd (ru_ws_vol_fn r u))) (fun u => cd_P (c u))
                 (fun u => cd_T_e (c u))); eassumption|]. cbv beta. rewrite EV. reflexivity.
  Qed.
  Hypothesis Hn : ru_enth_norm r <> 0.
  Lemma balances : exists h_ck h_kr h_rl h_le, let i := Run_calculate_inputs r t (c t) in
    h_ck * so_m_dot_ck s = stream_ck r c t s /\ h_kr * so_m_dot_kr s = stream_kr r c t s /\
    h_rl * so_m_dot_rl s = stream_rl r c t s /\ h_le * so_m_dot_le s = stream_le r c t s /\
    energy_balances i h_ck h_kr h_rl h_le s.
  Proof.
    assert (Hn' : in_enth_norm (Run_calculate_inputs r t (c t)) <> 0).
    { unfold Run_calculate_inputs. destruct (ru_ws_vol_fn r t). exact Hn. }
    destruct (energy_conserved D _ hint s HD Hn' Hs) as [(_ & h1 & h2 & h3 & h4 & D1 & D2 & D3 & D4 & EB) _].
    exists h1, h2, h3, h4. cbv zeta. apply donor_carried in D1, D2, D3, D4.
    rewrite D1, D2, D3, D4. clear - EB.
    unfold stream_ck, stream_kr, stream_rl, stream_le, carried, Run_calculate_inputs in *.
    destruct (ru_ws_vol_fn r t) as [vc ve].
    split; [reflexivity|]. split; [reflexivity|]. split; [reflexivity|]. split; [reflexivity|]. exact EB.
  Qed.
  (** at constant temperature the internal energy of an ideal gas is constant *)
  Lemma hx_energy V (P : R -> R) T dP : derivable_pt_lim P t dP -> 0 < T ->
    derivable_pt_lim (fun u => V * (ig_dens g T (P u) * ig_inte g T (P u))) t
      (V * ig_dens g T (P t) * (ig_du_dP_T g T (P t) * dP) + ig_inte g T (P t) * (V * ig_dd_dP_T g T (P t) * dP)).
  Proof.
    intros HP H. eapply deriv_eq.
    - apply (deriv_ext (fun u => V * ig_dens g T (P u) * ig_inte g T (P t))).
      + intros u. cbv beta. rewrite (inte_no_P g T (P u) (P t)). ring.
      + eapply deriv_mult; [apply (hx_mass_deriv g HR V P T t dP HP H)|apply deriv_const].
    - cbv beta. change (ig_du_dP_T g T (P t)) with 0. ring.
  Qed.
  Lemma exchangers : exchangers_balance r c t s.
  Proof.
    destruct HT as (Tc & Te & Tk & Tl & Tr). destruct HF as (HP & HTc & HTe).
    destruct balances as (h1 & h2 & h3 & h4 & S1 & S2 & S3 & S4 & (_ & E2 & E3 & E4 & _)).
    unfold energy_rate_hx, energy_rate_regen, mass_rate_hx, mass_rate_regen, Run_calculate_inputs in *.
    unfold exchangers_balance, stored_energy, has_deriv. rewrite <- S1, <- S2, <- S3, <- S4.
    destruct (ru_ws_vol_fn r t) as [vc ve].
    unfold chx_inputs, regen_inputs, hhx_inputs in *.
    cbn [in_chx in_regen in_hhx hi_vol hi_dens hi_inte hi_du_dP_T hi_dd_dP_T gi_vol gi_dens gi_inte gi_du_dP_T gi_dd_dP_T] in *.
    rewrite Hf in *. cbn [IdealGas_Fluid fl_dens fl_inte fl_dd_dP_T fl_du_dP_T] in *.
    split; [rewrite <- E2|split; [rewrite <- E3|rewrite <- E4]];
      apply (hx_energy _ (fun u => cd_P (c u))); assumption.
  Qed.
  Hypothesis Hu : forall T P, has_deriv (fun t => ig_inte g t P) T (ig_du_dT_P g T P).
  Lemma spaces : true_derivatives (ru_ws_vol_fn r) t -> spaces_balance r c t s.
  Proof.
    intros (VC & VE). destruct HT as (Tc & Te & Tk & Tl & Tr). destruct HF as (HP & HTc & HTe).
    destruct balances as (h1 & h2 & h3 & h4 & S1 & S2 & S3 & S4 & (E1 & _ & _ & _ & E5)).
    unfold energy_rate_space, mass_rate_space, Run_calculate_inputs in *.
    unfold spaces_balance, stored_energy, has_deriv. rewrite <- S1, <- S4.
    destruct (ru_ws_vol_fn r t) as [vc ve] eqn:EV. cbn [fst snd] in *.
    unfold comp_inputs, exp_inputs in *.
    cbn [in_comp in_exp in_pres wi_vol wi_dens wi_inte wi_du_dT_P wi_du_dP_T wi_dd_dT_P wi_dd_dP_T wi_dV_dt wi_Q_dot] in *.
    rewrite Hf in *. cbn [IdealGas_Fluid fl_dens fl_inte fl_dd_dP_T fl_dd_dT_P fl_du_dP_T fl_du_dT_P] in *.
    split; [rewrite <- E1|rewrite <- E5].
    - eapply deriv_eq; [apply (space_energy_deriv g HR Hu (fun u => v_value (fst (ru_ws_vol_fn r u))) (fun u => cd_P (c u))
                 (fun u => cd_T_c (c u))); eassumption|]. cbv beta. rewrite EV. reflexivity.
    - eapply deriv_eq; [apply (space_energy_deriv g HR Hu (fun u => v_value (snd (ru_ws_vol_fn r u))) (fun u => cd_P (c u))
                 (fun u => cd_T_e (c u))); eassumption|]. cbv beta. rewrite EV. reflexivity.
  Qed.
End Spaces.
