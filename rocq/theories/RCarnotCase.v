(** * An engine that beats Carnot's bound *)
From Coq Require Import ZArith NArith List Reals Lra Lia Psatz.
From Verif Require Import Num ModelTypes ModelWs ModelHx ModelStateEq ModelEngine RNum Spec SpecR SpecGas
  SpecKin SpecTraj SpecLaws SpecUnique SpecExist SpecSpaces SpecBounds SpecSteady SpecContract SpecRegen SpecCarnot Fixture PolySolve RSolve RGauss RFluid
  RKin RMass RCase RLaws RClose RUnique RPeriod RSpaces RBounds RSteady RContract RSettle RSettleCase RRegen RRegenCase RCarnot RBook.
Import ListNotations.
Local Open Scope R_scope.

Definition cn_drive : SinusoidalDrive R :=
  mkSin 60 90 (mkSinGeo 0.000001 0.000000000004) (mkSinGeo 0.000001 0.000000000004) (mkTR 1 1) (mkPar (mkPP 0 0 0) (mkPP 0 0 0)).
Definition cn_comps : Components R :=
  mkComponents (SinusoidalDrive_ws cn_drive)
    (chx_FixedApproach (mkFA 0 1 0 (mkPP 0 0 0)))
    (regen_FixedApproach (mkFA 0 1 0 (mkPP 0 0 0)))
    (hhx_FixedApproach (mkFA 0 1 0 (mkPP 0 0 0))).
Definition cn_inputs : RunInputs R := mkRunInputs 1000000 300 900.
Definition cn_temps : Temperatures R := Temperatures_from_approach 300 900 (mkApproach 0 0 0) 0.
Definition cn_state : State R :=
  mkState (IdealGas_Fluid he) (mkPressure 1000000 1000000 1000000 1000000) cn_temps (mkMassFlows 0 0 0) (mkHeatFlows 0 0 0) 0.
Definition cn_run : Run R :=
  mkRun case_norm (IdealGas_Fluid he) (1 / 60) (s_pres cn_state) cn_temps 1 1 1 (sd_parasitics cn_drive) (sin_volumes cn_drive).
Lemma cn_hint : State_new_hint cn_comps (IdealGas_Fluid he) cn_inputs = Ret cn_state.
Proof. reflexivity. Qed.
Lemma cn_new : Run_new cn_comps cn_state = Ret cn_run.
Proof. reflexivity. Qed.
Lemma cn_driven : driven (co_ws cn_comps).
Proof. left. exists cn_drive. split; [reflexivity|]. cbn. lra. Qed.
Lemma cn_regen : rt_cold (te_regen cn_temps) = 300 /\ rt_hot (te_regen cn_temps) = 900 /\ 0 < rt_avg (te_regen cn_temps) /\
  te_chx cn_temps = 300 /\ te_hhx cn_temps = 900.
Proof.
  assert (Z : n_le (@n0 R R_ops) 0 = true) by (cbn; destruct (Rle_dec 0 0); [reflexivity|lra]).
  unfold cn_temps, Temperatures_from_approach, regen_temp. rewrite Z.
  cbn [te_regen rt_cold rt_hot rt_avg te_chx te_hhx ap_chx ap_hhx ap_regen]. rewrite ?R_nhalf. cbn [n_add n_sub n_mul n_div n_ln R_ops].
  split; [lra|]. split; [lra|]. split; [|split; lra].
  apply Rdiv_lt_0_compat; [lra|].
  assert (L : forall x, 1 < x -> 0 < ln x) by (intros x Hx; rewrite <- ln_1; apply ln_increasing; lra). apply L.
  match goal with |- 1 < ?a / ?b => apply (Rmult_lt_reg_r b); [lra|]; unfold Rdiv; rewrite (Rmult_assoc a), Rinv_l by lra; lra end.
Qed.
Lemma cn_volumes T : between (V_comp cn_run) 0.000001 0.000001000004 0 T /\ between (V_exp cn_run) 0.000001 0.000001000004 0 T.
Proof.
  split; (split; [lra|]); intros t _; destruct (sin_bounds cn_drive t) as [H1 H2]; cbn in *; try lra;
    unfold V_comp, V_exp; change (ru_ws_vol_fn cn_run t) with (sin_volumes cn_drive t); lra.
Qed.
Lemma cn_fixed : 0.004 <= fixed_ratio cn_run.
Proof.
  unfold fixed_ratio. destruct cn_regen as (_ & _ & A & E1 & E2). change (ru_temp cn_run) with cn_temps. rewrite E1, E2. cbn [ru_vol_chx ru_vol_regen ru_vol_hhx cn_run].
  assert (0 < 1 / rt_avg (te_regen cn_temps)) by (apply Rdiv_lt_0_compat; lra). lra.
Qed.
(** a narrow range of volumes makes a narrow range of temperatures *)
Lemma exponent : 0 < R_he / cv_he < 1.
Proof. unfold cv_he, cp_he, R_he. lra. Qed.
Lemma narrow lo hi q : 0 < lo -> lo <= hi -> 0 < q -> q * hi <= lo -> q * Rpower hi (R_he / cv_he) <= Rpower lo (R_he / cv_he).
Proof.
  intros H0 H1 Hq H2. assert (Q1 : q <= 1).
  { apply (Rmult_le_reg_r hi); lra. }
  apply Rle_trans with (Rpower q (R_he / cv_he) * Rpower hi (R_he / cv_he)).
  - apply Rmult_le_compat_r; [left; apply pw_gt|]. rewrite <- (Rpower_1 q Hq) at 1. unfold Rpower.
    destruct exponent as (X0 & X1). assert (L : ln q <= 0).
    { destruct Q1 as [Q1| ->]; [|rewrite ln_1; lra]. left. rewrite <- ln_1. apply ln_increasing; assumption. }
    assert (M : 1 * ln q <= R_he / cv_he * ln q).
    { assert (0 <= (1 - R_he / cv_he) * - ln q) by (apply Rmult_le_pos; lra). lra. }
    destruct M as [M| ->]; [left; apply exp_increasing, M|lra].
  - rewrite Rpower_mult_distr by lra. apply Rpower_mono; [|exact H2]. apply Rmult_lt_0_compat; lra.
Qed.
Lemma narrow_expanded lo hi q T : 0 < lo -> lo <= hi -> 0 < q -> q * hi <= lo -> 250 <= T -> 250 * q <= expanded lo hi T.
Proof.
  intros H0 H1 Hq H2 HT. pose proof (narrow lo hi q H0 H1 Hq H2) as N. pose proof (pw_gt hi). unfold expanded, adiabat.
  assert (E : Rmin T_ref (filling T) = T_ref).
  { apply Rmin_left. unfold filling. assert (0 <= cp_he / cv_he * (T - T_ref)); [|lra].
    unfold T_ref. apply Rmult_le_pos; [|lra]. left. apply Rdiv_lt_0_compat; [unfold cp_he; lra|exact cv_pos]. }
  rewrite E. unfold T_ref. apply div_ge; [assumption|]. lra.
Qed.
Lemma narrow_compressed lo hi q T : 0 < lo -> lo <= hi -> 0 < q -> q * hi <= lo -> 250 <= T -> compressed lo hi T * q <= filling T.
Proof.
  intros H0 H1 Hq H2 HT. pose proof (narrow lo hi q H0 H1 Hq H2) as N. pose proof (pw_gt hi). pose proof (pw_gt lo) as PL. unfold compressed, adiabat.
  assert (F : T_ref <= filling T).
  { unfold filling. assert (0 <= cp_he / cv_he * (T - T_ref)); [|lra].
    unfold T_ref. apply Rmult_le_pos; [|lra]. left. apply Rdiv_lt_0_compat; [unfold cp_he; lra|exact cv_pos]. }
  rewrite Rmax_right by exact F. set (f := filling T) in *. assert (F0 : 0 < f) by (unfold T_ref in F; lra).
  replace (f * Rpower hi (R_he / cv_he) / Rpower lo (R_he / cv_he) * q) with (f * (q * Rpower hi (R_he / cv_he)) / Rpower lo (R_he / cv_he)) by (unfold Rdiv; ring).
  apply div_le'; [exact PL|]. apply Rmult_le_compat_l; lra.
Qed.
Lemma cn_range T : 300 <= T <= 900 -> 200 <= expanded 0.000001 0.000001000004 T /\ compressed 0.000001 0.000001000004 T <= 1400.
Proof.
  intros HT. pose proof (narrow_expanded 0.000001 0.000001000004 0.99 T ltac:(lra) ltac:(lra) ltac:(lra) ltac:(lra) ltac:(lra)).
  pose proof (narrow_compressed 0.000001 0.000001000004 0.99 T ltac:(lra) ltac:(lra) ltac:(lra) ltac:(lra) ltac:(lra)).
  assert (filling T <= 1350).
  { unfold filling, T_ref. assert (cp_he / cv_he <= 1.67) by (unfold cp_he, cv_he, cp_he, R_he; lra).
    assert (cp_he / cv_he * (T - 250) <= 1.67 * (900 - 250)) by (apply Rmult_le_compat; try lra; left; apply Rdiv_lt_0_compat; [unfold cp_he; lra|exact cv_pos]). lra. }
  lra.
Qed.
Lemma cn_steady P0 : 0 < P0 -> exists c, cd_P (c 0) = P0 /\ steady_cycle gauss cn_run c /\
  forall t, 0 <= t <= 1 / 60 -> 200 <= cd_T_c (c t) <= 1400 /\ 200 <= cd_T_e (c t) <= 1400.
Proof.
  destruct cn_regen as (_ & _ & A & E1 & E2). destruct (cn_range 300 ltac:(lra)) as (X1 & X2). destruct (cn_range 900 ltac:(lra)) as (Y1 & Y2).
  intros HP. destruct (steady_ranges cn_comps cn_state cn_run gauss P0 0.000001 0.000001000004 0.000001 0.000001000004) as (c & H1 & H2 & H3);
    try reflexivity; try assumption.
  - exact cn_driven.
  - cbn. lra.
  - exact gauss_sound.
  - exact gauss_complete.
  - intros T. apply cn_volumes.
  - intros T. apply cn_volumes.
  - unfold sane_exchangers. change (ru_temp cn_run) with cn_temps. rewrite E1, E2.
    split; [apply rg_warm; lra|]. split; [apply rg_warm; lra|]. split; [exact A|]. cbn. repeat split; lra.
  - change (ru_temp cn_run) with cn_temps. rewrite E1. unfold warm, R_he, T_ref, cp_he. lra.
  - change (ru_temp cn_run) with cn_temps. rewrite E2. unfold warm, R_he, T_ref, cp_he. lra.
  - exists c. split; [exact H1|]. split; [exact H2|]. intros t Ht. specialize (H3 t Ht). change (ru_temp cn_run) with cn_temps in H3.
    rewrite E1, E2 in H3. lra.
Qed.

(** ** Its rates of change *)
Definition kap : R := R_he / cp_he.
(** [F] flows out of the space *)
Lemma rate_form F T Tin P dP dT V dV m : 0 < T -> 0 < P -> 0 < m -> m * R_he * T = P * V ->
  m * cv_he * dT + P * dV = Rmax F 0 * R_he * (T_ref - T) + Rmax (- F) 0 * cv_he * (filling Tin - T) ->
  P * dV = m * R_he * dT + - F * R_he * T - m * R_he * T * (dP / P) ->
  dT = - T_nil * (- F / m) + (Tin - T) * Rmax (- F / m) 0 + kap * T * (dP / P) /\ - F / m = dP / P + dV / V - dT / T.
Proof.
  intros HT HP Hm G E W. assert (RH : R_he <> 0) by (unfold R_he; lra). pose proof cv_pos as CV.
  assert (HV : V <> 0).
  { intros Z. rewrite Z, Rmult_0_r in G. apply Rmult_integral in G. destruct G as [G|G]; [|lra]. apply Rmult_integral in G. destruct G; lra. }
  split.
  - assert (CP : 0 < cp_he) by (unfold cp_he; lra).
    assert (FI : cv_he * (filling Tin - T) = cp_he * Tin - R_he * T_ref - cv_he * T).
    { unfold filling. field_simplify; [|lra]. unfold cv_he. field. }
    assert (X : m * cp_he * dT = m * R_he * T * (dP / P) + F * R_he * T + Rmax F 0 * R_he * (T_ref - T)
      + Rmax (- F) 0 * (cp_he * Tin - R_he * T_ref - cv_he * T)).
    { rewrite <- FI. unfold cv_he in *. lra. }
    apply (Rmult_eq_reg_l (m * cp_he)); [|apply Rmult_integral_contrapositive_currified; lra]. rewrite X.
    unfold T_nil, kap.
    destruct (Rle_lt_dec 0 F) as [L|L].
    + assert (- F / m <= 0) by (unfold Rdiv; assert (0 <= F * / m) by (apply Rmult_le_pos; [lra|left; apply Rinv_0_lt_compat, Hm]); lra).
      rewrite (Rmax_left F 0), (Rmax_right (- F) 0), (Rmax_right (- F / m) 0) by lra. field. repeat split; lra.
    + assert (0 <= - F / m) by (apply Rle_mult_inv_pos; lra).
      rewrite (Rmax_right F 0), (Rmax_left (- F) 0), (Rmax_left (- F / m) 0) by lra. unfold cv_he. field. repeat split; lra.
  - assert (dV = V * (dT / T) + V * (- F / m) - V * (dP / P)).
    { apply (Rmult_eq_reg_l P); [|lra]. rewrite W. 
      replace (P * (V * (dT / T) + V * (- F / m) - V * (dP / P))) with ((P * V) * (dT / T + - F / m - dP / P)) by ring.
      rewrite <- G. field. repeat split; lra. }
    rewrite H. field. repeat split; lra.
Qed.

Section Engine.
  Variable c : R -> Conditions R.
  Hypothesis HS : steady_cycle gauss cn_run c.
  Hypothesis HR : forall t, 0 <= t <= 1 / 60 -> 200 <= cd_T_c (c t) <= 1400 /\ 200 <= cd_T_e (c t) <= 1400.
  Let A : R := 0.000000000002.
  Let w : R := 2 * PI * 60.
  Let Vm : R := 0.000001000002.
  Let P t := cd_P (c t).
  Let Tc t := cd_T_c (c t).
  Let Te t := cd_T_e (c t).
  Let q t := so_dP_dt (sol_at cn_run c t) / P t.
  Let mc t := stored_mass cn_run (V_comp cn_run t) (Tc t) (P t).
  Let me t := stored_mass cn_run (V_exp cn_run t) (Te t) (P t).
  Let fc t := - so_m_dot_ck (sol_at cn_run c t) / mc t.
  Let fe t := - - so_m_dot_le (sol_at cn_run c t) / me t.
  Lemma volume_c t : V_comp cn_run t = Vc A w Vm t /\ v_deriv (fst (ru_ws_vol_fn cn_run t)) = dVc A w t.
  Proof.
    unfold V_comp. change (ru_ws_vol_fn cn_run t) with (sin_volumes cn_drive t). rewrite sin_comp_value, sin_comp_deriv.
    cbn [cn_drive sd_comp_geometry sg_swept_volume sg_clearance_volume sd_frequency sd_phase_angle].
    unfold Vc, dVc, A, w, Vm. split; lra.
  Qed.
  Lemma volume_e t : V_exp cn_run t = Ve A w Vm t /\ v_deriv (snd (ru_ws_vol_fn cn_run t)) = dVe A w t.
  Proof.
    unfold V_exp. change (ru_ws_vol_fn cn_run t) with (sin_volumes cn_drive t). rewrite sin_exp_value, sin_exp_deriv.
    cbn [cn_drive sd_exp_geometry sg_swept_volume sg_clearance_volume sd_frequency sd_phase_angle].
    replace (2 * PI * 60 * t + 90 * PI / 180) with (PI / 2 + w * t) by (unfold w; lra).
    rewrite sin_plus, cos_plus, sin_PI2, cos_PI2.
    unfold Ve, dVe, A, w, Vm. split; lra.
  Qed.
  Let D0 := fixed_ratio cn_run.
  Lemma cn_rates t : 0 <= t <= 1 / 60 ->
    (0 < P t /\ derivable_pt_lim P t (P t * q t)) /\
    derivable_pt_lim Tc t (T_rate T_nil kap 300 q Tc fc t) /\ derivable_pt_lim Te t (T_rate T_nil kap 900 q Te fe t) /\
    fc t = q t + dVc A w t / Vc A w Vm t - T_rate T_nil kap 300 q Tc fc t / Tc t /\
    fe t = q t + dVe A w t / Ve A w Vm t - T_rate T_nil kap 900 q Te fe t / Te t /\
    Vc A w Vm t / Tc t * fc t + Ve A w Vm t / Te t * fe t + D0 * q t = 0.
  Proof.
    intros Ht. destruct HS as (HT & _). specialize (HT t ltac:(lra)).
    assert (Hf : ru_fluid cn_run = IdealGas_Fluid he) by reflexivity.
    pose proof (pressure_pos gauss cn_run c t Hf HT) as PP. pose proof (phys_norm cn_run gauss c t HT) as Hn.
    destruct HT as ((HT & HV & hint & s & Hs & HF) & Hph & _).
    pose proof (sol_is cn_run gauss gauss_sound c t hint s Hph Hs) as ES.
    destruct (masses he he_pos cn_run Hf gauss c t hint s gauss_sound Hs HF HT HV) as (M1 & M2 & M3 & M4 & M5).
    destruct (temperatures cn_run Hf gauss gauss_sound c t hint s Hn Hs HF HT HV) as (E1 & E5).
    destruct HF as (F0 & F1 & F2). destruct HV as (V1 & V2). destruct HT as (TC & TE & TK & TL & TR).
    unfold has_deriv in *. cbv zeta in E1, E5.
    change (heat_lost_comp cn_run) with 0 in E1. change (heat_lost_exp cn_run) with 0 in E5. rewrite Rminus_0_r in E1, E5.
    pose proof (mass_rate cn_run Hf _ _ _ t _ _ _ _ TC PP V1 F1 F0 M1) as W1. pose proof (mass_rate cn_run Hf _ _ _ t _ _ _ _ TE PP V2 F2 F0 M5) as W5.
    cbv beta in W1, W5. change (v_value (fst (ru_ws_vol_fn cn_run t))) with (V_comp cn_run t) in W1.
    change (v_value (snd (ru_ws_vol_fn cn_run t))) with (V_exp cn_run t) in W5.
    assert (PM : 0 < mc t /\ 0 < me t).
    { destruct Hph as (_ & (VC & RC & _) & (VE & RE & _) & _). unfold Run_calculate_inputs, comp_inputs, exp_inputs in VC, RC, VE, RE.
      unfold mc, me, stored_mass, V_comp, V_exp. destruct (ru_ws_vol_fn cn_run t) as [vc ve]. cbn [fst snd in_comp in_exp wi_vol wi_dens] in *.
      split; apply Rmult_lt_0_compat; assumption. }
    destruct cn_regen as (_ & _ & RA & K1 & K2). change (te_chx (ru_temp cn_run)) with (te_chx cn_temps) in E1.
    change (te_hhx (ru_temp cn_run)) with (te_hhx cn_temps) in E5. rewrite K1 in E1. rewrite K2 in E5.
    fold (Tc t) in E1, W1, TC. fold (Te t) in E5, W5, TE. fold (P t) in E1, E5, W1, W5, PP. fold (mc t) in E1, W1. fold (me t) in E5, W5.
    assert (G1 : mc t * R_he * Tc t = P t * V_comp cn_run t) by (apply gas_mass_law; [reflexivity|assumption..]).
    assert (G5 : me t * R_he * Te t = P t * V_exp cn_run t) by (apply gas_mass_law; [reflexivity|assumption..]).
    pose proof (rate_form (so_m_dot_ck s) (Tc t) 300 (P t) (so_dP_dt s) (so_dTc_dt s) (V_comp cn_run t) _ (mc t) TC PP (proj1 PM) G1 E1 W1) as (A1 & A2).
    assert (E5' : me t * cv_he * so_dTe_dt s + P t * v_deriv (snd (ru_ws_vol_fn cn_run t)) =
      Rmax (- so_m_dot_le s) 0 * R_he * (T_ref - Te t) + Rmax (- - so_m_dot_le s) 0 * cv_he * (filling 900 - Te t)) by (rewrite Ropp_involutive; exact E5).
    assert (W5' : P t * v_deriv (snd (ru_ws_vol_fn cn_run t)) = me t * R_he * so_dTe_dt s + - - so_m_dot_le s * R_he * Te t
      - me t * R_he * Te t * (so_dP_dt s / P t)) by (rewrite Ropp_involutive; exact W5).
    pose proof (rate_form (- so_m_dot_le s) (Te t) 900 (P t) (so_dP_dt s) (so_dTe_dt s) (V_exp cn_run t) _ (me t) TE PP (proj2 PM) G5 E5' W5') as (B1 & B2).
    destruct (volume_c t) as (Y1 & Y2). destruct (volume_e t) as (Y3 & Y4).
    assert (Q : q t = so_dP_dt s / P t) by (unfold q; rewrite <- ES; reflexivity).
    assert (Fc : fc t = - so_m_dot_ck s / mc t) by (unfold fc; rewrite <- ES; reflexivity).
    assert (Fe : fe t = - - so_m_dot_le s / me t) by (unfold fe; rewrite <- ES; reflexivity).
    assert (RC : T_rate T_nil kap 300 q Tc fc t = so_dTc_dt s) by (unfold T_rate; rewrite Q, Fc; symmetry; exact A1).
    assert (RE : T_rate T_nil kap 900 q Te fe t = so_dTe_dt s) by (unfold T_rate; rewrite Q, Fe; symmetry; exact B1).
    split; [split; [exact PP|]|].
    { eapply deriv_eq; [exact F0|]. rewrite Q. field. lra. }
    rewrite RC, RE. split; [exact F1|]. split; [exact F2|]. rewrite Fc, Fe, Q, <- Y1, <- Y2, <- Y3, <- Y4. split; [exact A2|]. split; [exact B2|].
    assert (DF : so_m_dot_ck s - so_m_dot_le s = D0 / R_he * so_dP_dt s).
    { set (Mf := fun u => stored_mass cn_run (ru_vol_chx cn_run) (te_chx (ru_temp cn_run)) (cd_P (c u))
        + stored_mass cn_run (ru_vol_regen cn_run) (rt_avg (te_regen (ru_temp cn_run))) (cd_P (c u)) + stored_mass cn_run (ru_vol_hhx cn_run) (te_hhx (ru_temp cn_run)) (cd_P (c u))).
      assert (Y : derivable_pt_lim Mf t (so_m_dot_ck s - so_m_dot_le s)).
      { unfold Mf. eapply deriv_eq; [apply deriv_plus; [apply deriv_plus; [exact M2|exact M3]|exact M4]|]. ring. }
      assert (Y' : derivable_pt_lim Mf t (D0 / R_he * so_dP_dt s)).
      { apply (deriv_ext (fun u => D0 / R_he * cd_P (c u))).
        - intros u. unfold Mf, D0, fixed_ratio. rewrite !fixed_mass by reflexivity. unfold Rdiv. rewrite !Rinv_mult. ring.
        - eapply deriv_eq; [apply deriv_mult; [apply deriv_const|exact F0]|]. cbv beta. ring. }
      exact (uniqueness_limite _ _ _ _ Y Y'). }
    assert (RH : R_he <> 0) by (unfold R_he; lra).
    replace (V_comp cn_run t / Tc t) with (mc t * R_he / P t) by (apply (Rmult_eq_reg_r (Tc t * P t)); [|apply Rmult_integral_contrapositive_currified; lra];
      replace (mc t * R_he / P t * (Tc t * P t)) with (mc t * R_he * Tc t) by (field; lra); rewrite G1; field; lra).
    replace (V_exp cn_run t / Te t) with (me t * R_he / P t) by (apply (Rmult_eq_reg_r (Te t * P t)); [|apply Rmult_integral_contrapositive_currified; lra];
      replace (me t * R_he / P t * (Te t * P t)) with (me t * R_he * Te t) by (field; lra); rewrite G5; field; lra).
    replace (mc t * R_he / P t * (- so_m_dot_ck s / mc t) + me t * R_he / P t * (- - so_m_dot_le s / me t) + D0 * (so_dP_dt s / P t))
      with (- (R_he / P t) * (so_m_dot_ck s - so_m_dot_le s) + D0 * (so_dP_dt s / P t)) by (field; lra).
    rewrite DF. field. lra.
  Qed.
  Lemma cn_returns : c (1 / 60) = c 0.
  Proof. destruct HS as (_ & H). rewrite <- (H 0 (Rle_refl 0)), Rplus_0_l. reflexivity. Qed.
  Lemma cn_spaces_return : spaces_return cn_run c 0 (1 / 60).
  Proof.
    pose proof (driven_run cn_comps cn_state cn_run cn_driven cn_new) as (_ & RP & _).
    assert (V : ru_ws_vol_fn cn_run (1 / 60) = ru_ws_vol_fn cn_run 0) by (rewrite <- (RP 0), Rplus_0_l; reflexivity).
    unfold spaces_return. rewrite V, cn_returns. auto.
  Qed.
  Variable k : Book.
  Hypothesis HB : forall t, 0 <= t <= 1 / 60 -> books gauss cn_run c k t.
  Lemma cn_work ac ae : 0 <= ac -> 0 <= ae -> 2 * (ac + ae) * 0.000076 < ae * / 200.01 - ac * / 800 ->
    0 < ac * total (bk_work_c k) 0 (1 / 60) + ae * total (bk_work_e k) 0 (1 / 60).
  Proof.
    intros Hac Hae Hgap. pose proof nil_value as NV. pose proof PI_RGT_0 as PI0. pose proof PI_4 as PI4. pose proof cn_fixed as FX. fold D0 in FX.
    assert (KP : 0 <= kap <= / 2) by (unfold kap, R_he, cp_he; lra).
    set (M := P 0 * (D0 + Vc A w Vm 0 / Tc 0 + Ve A w Vm 0 / Te 0)).
    assert (PM : 0 < M).
    { destruct (cn_rates 0 ltac:(lra)) as ((P0 & _) & _). destruct (HR 0 ltac:(lra)) as (R1 & R2). fold (Tc 0) in R1. fold (Te 0) in R2.
      assert (V1 : 0 < Vc A w Vm 0) by (destruct (volume_c 0) as (<- & _); destruct (cn_volumes 0) as ((_ & X) & _); specialize (X 0 ltac:(lra)); lra).
      assert (V2 : 0 < Ve A w Vm 0) by (destruct (volume_e 0) as (<- & _); destruct (cn_volumes 0) as (_ & (_ & X)); specialize (X 0 ltac:(lra)); lra).
      apply Rmult_lt_0_compat; [exact P0|]. assert (0 < Vc A w Vm 0 / Tc 0) by (apply Rdiv_lt_0_compat; lra).
      assert (0 < Ve A w Vm 0 / Te 0) by (apply Rdiv_lt_0_compat; lra). lra. }
    assert (L : M / (D0 * D0) * (PI * (A * A) * (ae * / (300 - T_nil) - ac * / (900 - T_nil) - 2 * (ac + ae) * 0.000076))
      <= (fun t => ac * bk_work_c k t + ae * bk_work_e k t) (1 / 60) - (fun t => ac * bk_work_c k t + ae * bk_work_e k t) 0).
    { apply (work_low) with (n := T_nil) (k := kap) (Tk := 300) (Tl := 900) (A := A) (w := w) (Vm := Vm) (Vl := 0.000001) (Vh := 0.000001000004) (D0 := D0) (M := M)
        (tau := 1 / 60) (P := P) (q := q) (Tc := Tc) (fc := fc) (Te := Te) (fe := fe) (ac := ac) (ae := ae)
        (W := fun t => ac * bk_work_c k t + ae * bk_work_e k t); try assumption; try lra; try (unfold A; lra); try (unfold A, Vm; lra).
      - unfold w. lra.
      - unfold w. lra.
      - unfold A, w. lra.
      - intros t Ht. apply (cn_rates t Ht).
      - intros t Ht. split; [apply (HR t Ht)|]. apply (cn_rates t Ht).
      - intros t Ht. split; [apply (HR t Ht)|]. apply (cn_rates t Ht).
      - intros t Ht. apply (cn_rates t Ht).
      - intros t Ht. apply (cn_rates t Ht).
      - intros t Ht. apply (cn_rates t Ht).
      - intros t Ht. unfold M. destruct HS as (HT & _).
        pose proof (pressure_law he he_pos cn_run eq_refl gauss c 0 t gauss_sound ltac:(lra) (fun u Hu => proj1 (HT u ltac:(lra)))) as PL.
        unfold reduced_volume in PL. change (v_value (fst (ru_ws_vol_fn cn_run t))) with (V_comp cn_run t) in PL.
        change (v_value (snd (ru_ws_vol_fn cn_run t))) with (V_exp cn_run t) in PL. change (v_value (fst (ru_ws_vol_fn cn_run 0))) with (V_comp cn_run 0) in PL.
        change (v_value (snd (ru_ws_vol_fn cn_run 0))) with (V_exp cn_run 0) in PL.
        rewrite (proj1 (volume_c t)), (proj1 (volume_c 0)), (proj1 (volume_e t)), (proj1 (volume_e 0)) in PL.
        fold (P t) (P 0) (Tc t) (Tc 0) (Te t) (Te 0) in PL. unfold D0, fixed_ratio. lra.
      - unfold P. rewrite cn_returns. reflexivity.
      - unfold Tc. rewrite cn_returns. reflexivity.
      - unfold Te. rewrite cn_returns. reflexivity.
      - intros t Ht. destruct (HB t Ht) as (hint & s & _ & _ & _ & _ & _ & _ & _ & G6 & G7 & _). unfold has_deriv in *.
        rewrite (proj2 (volume_c t)) in G6. rewrite (proj2 (volume_e t)) in G7. eapply deriv_eq.
        + apply deriv_plus; (apply deriv_mult; [apply deriv_const|]); [exact G6|exact G7].
        + cbv beta. fold (P t). ring. }
    cbv beta in L. unfold total.
    assert (X : 0 < M / (D0 * D0) * (PI * (A * A) * (ae * / (300 - T_nil) - ac * / (900 - T_nil) - 2 * (ac + ae) * 0.000076))).
    { assert (I1 : / 200.01 <= / (300 - T_nil)) by (apply Rinv_le_contravar; lra). assert (I2 : / (900 - T_nil) <= / 800) by (apply Rinv_le_contravar; lra).
      assert (ae * / 200.01 <= ae * / (300 - T_nil)) by (apply Rmult_le_compat_l; lra). assert (ac * / (900 - T_nil) <= ac * / 800) by (apply Rmult_le_compat_l; lra).
      apply Rmult_lt_0_compat; [apply Rdiv_lt_0_compat; [exact PM|apply Rmult_lt_0_compat; lra]|].
      apply Rmult_lt_0_compat; [|lra]. apply Rmult_lt_0_compat; [exact PI0|]. unfold A. lra. }
    lra.
  Qed.
End Engine.

Lemma cn_beats P0 : 0 < P0 -> exists c k, cd_P (c 0) = P0 /\ steady_cycle gauss cn_run c /\
  (forall t, 0 <= t <= ru_period cn_run -> books gauss cn_run c k t) /\ total (bk_kept k) 0 (ru_period cn_run) = 0 /\
  let heat := total (bk_taken k) 0 (ru_period cn_run) in
  let work := total (bk_work_c k) 0 (ru_period cn_run) + total (bk_work_e k) 0 (ru_period cn_run) in
  0 < heat /\ work = heat - total (bk_given k) 0 (ru_period cn_run) /\
  (1 - te_sink cn_temps / te_source cn_temps) * heat < 0.7 * heat < work.
Proof.
  intros HP0. destruct (cn_steady P0 HP0) as (c & E0 & HS & HR). change (ru_period cn_run) with (1 / 60).
  assert (PT : forall t, 0 <= t <= 1 / 60 -> physical_trajectory gauss cn_run c t) by (intros t Ht; apply HS; lra).
  destruct (books_exist cn_run eq_refl gauss gauss_sound c 0 (1 / 60) ltac:(lra) PT) as (k & HB).
  exists c, k. split; [exact E0|]. split; [exact HS|]. split; [exact HB|].
  pose proof (cycle_heats cn_run eq_refl gauss gauss_sound c k 0 (1 / 60) 0 ltac:(lra) (fun t Ht => conj (PT t Ht) (HB t Ht))
    (cn_spaces_return c HS)) as CH.
  rewrite (cn_returns c HS) in CH. destruct (CH eq_refl) as (H1 & H2 & H3). clear CH.
  destruct (helium_steps cn_run 0 eq_refl) as (S1 & S2). change (ru_temp cn_run) with cn_temps in S1, S2.
  destruct cn_regen as (R1 & R2 & _ & R4 & R5). rewrite R1, R4 in S1. rewrite R2, R5 in S2.
  change (heat_lost_exp cn_run) with 0 in H1. change (heat_lost_comp cn_run) with 0 in H2. rewrite S1 in H2, H3. rewrite S2 in H1, H3.
  pose proof (cn_work c HS HR k HB 0 1 ltac:(lra) ltac:(lra) ltac:(lra)) as X1.
  pose proof (cn_work c HS HR k HB 1 0.3 ltac:(lra) ltac:(lra) ltac:(lra)) as X2.
  change (te_sink cn_temps) with 300. change (te_source cn_temps) with 900.
  cbv zeta. lra.
Qed.
Lemma cn_excess P0 : 0 < P0 -> exists c k, cd_P (c 0) = P0 /\
  (forall t, 0 <= t <= ru_period cn_run -> physical_trajectory gauss cn_run c t /\ books gauss cn_run c k t) /\
  spaces_return cn_run c 0 (ru_period cn_run) /\ cd_P (c (ru_period cn_run)) = cd_P (c 0) /\
  heat_lost_comp cn_run = 0 /\ heat_lost_exp cn_run = 0 /\ 0 < total (bk_excess k) 0 (ru_period cn_run).
Proof.
  intros HP0. destruct (cn_steady P0 HP0) as (c & E0 & HS & HR). change (ru_period cn_run) with (1 / 60).
  assert (PT : forall t, 0 <= t <= 1 / 60 -> physical_trajectory gauss cn_run c t) by (intros t Ht; apply HS; lra).
  destruct (books_exist cn_run eq_refl gauss gauss_sound c 0 (1 / 60) ltac:(lra) PT) as (k & HB).
  assert (PB : forall t, 0 <= t <= 1 / 60 -> physical_trajectory gauss cn_run c t /\ books gauss cn_run c k t) by (intros t Ht; split; [apply PT, Ht|apply HB, Ht]).
  pose proof (cn_spaces_return c HS) as SR. assert (EP : cd_P (c (1 / 60)) = cd_P (c 0)) by (rewrite (cn_returns c HS); reflexivity).
  exists c, k. split; [exact E0|]. split; [exact PB|]. split; [exact SR|]. split; [exact EP|]. split; [reflexivity|]. split; [reflexivity|].
  pose proof (second_law cn_run eq_refl gauss gauss_sound c k 0 (1 / 60) ltac:(lra) PB SR EP eq_refl eq_refl) as L.
  change (ru_temp cn_run) with cn_temps in L. destruct cn_regen as (_ & _ & _ & R4 & R5). rewrite R4, R5 in L.
  pose proof (cn_work c HS HR k HB 3 1 ltac:(lra) ltac:(lra) ltac:(lra)) as X. lra.
Qed.
