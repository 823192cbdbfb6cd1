(** * Helium engines with a cold exchanger below 100 K *)
From Coq Require Import ZArith NArith List Reals Lra Lia.
From Verif Require Import Num ModelTypes ModelWs ModelHx ModelStateEq ModelEngine RNum Spec SpecR SpecGas SpecKin
  SpecTraj SpecSpaces SpecBounds SpecCold Fixture PolySolve RSolve RGauss RFluid RKin RMass RCase RBounds.
Import ListNotations.
Local Open Scope R_scope.

Lemma filling_warm T : warm T <-> 0 < filling T.
Proof. unfold warm, filling, cv_he, cp_he, R_he, T_ref. split; intros H; lra. Qed.
Lemma filling_cold T : cold T <-> filling T < 0.
Proof. unfold cold, filling, cv_he, cp_he, R_he, T_ref. split; intros H; lra. Qed.

Lemma nonneg3 a b c : 0 <= a -> 0 <= b -> 0 <= c -> 0 <= a * (b * c).
Proof. intros A B C. apply Rmult_le_pos; [exact A|]. apply Rmult_le_pos; assumption. Qed.
Lemma pos3 a b c : 0 < a -> 0 < b -> 0 < c -> 0 < a * (b * c).
Proof. intros A B C. apply Rmult_lt_0_compat; [exact A|]. apply Rmult_lt_0_compat; assumption. Qed.

(** one working space from which [m] flows out with enthalpy [h] *)
Lemma space_pressure P T V V' T' P' h m Q : T <> 0 ->
  V * (- P / (R_he * (T * T)) * T' + / (R_he * T) * P') + P / (R_he * T) * V' = - m ->
  V * (P / (R_he * T)) * (cv_he * T') + cv_he * (T - T_ref) * - m = - (h * m) - P * V' - Q ->
  adiabatic_rate P V P' V' = - R_he * m * T + R_he / cv_he * ((cv_he * (T - T_ref) - h) * m - Q).
Proof.
  intros HT H1 H2. pose proof cv_pos as C. assert (HR : 0 < R_he) by (unfold R_he; lra).
  assert (E1 : V * P' + P * V' = - m * R_he * T + P * V * T' / T).
  { rewrite <- H1. field. lra. }
  assert (E2 : P * V * T' / T = R_he / cv_he * ((cv_he * (T - T_ref) - h) * m - P * V' - Q)).
  { replace ((cv_he * (T - T_ref) - h) * m - P * V' - Q) with (V * (P / (R_he * T)) * (cv_he * T')) by lra.
    field. lra. }
  unfold adiabatic_rate. replace (cp_he / cv_he * P * V') with (P * V' + R_he / cv_he * (P * V')).
  - rewrite <- Rplus_assoc, E1, E2. ring.
  - unfold cv_he in *. field. lra.
Qed.

Section Engine.
  Variable r : Run R.
  Hypothesis Hf : ru_fluid r = IdealGas_Fluid he.
  Hypothesis Hn : ru_enth_norm r <> 0.
  Variable D : Decomp R.
  Hypothesis HD : sound D.
  Variables (t : R) (c : Conditions R) (hint : FlowDirection) (s : Solution R).
  Hypothesis Hs : solve D (Run_calculate_inputs r t c) hint = Ok s.
  Hypothesis HT : positive_temps r c.

  Lemma norm_of : in_enth_norm (Run_calculate_inputs r t c) <> 0.
  Proof. unfold Run_calculate_inputs. destruct (ru_ws_vol_fn r t). exact Hn. Qed.
  Lemma pressures : pressure_equations r t c s.
  Proof.
    pose proof (energy_conserved D _ hint s HD norm_of Hs) as [HC _].
    destruct HC as ((M1 & _ & _ & _ & M5) & h1 & h2 & h3 & h4 & D1 & _ & _ & D4 & E1 & _ & _ & _ & E5).
    destruct HT as (T1 & T2 & _).
    unfold Run_calculate_inputs, comp_inputs, exp_inputs, chx_inputs, hhx_inputs in *.
    unfold pressure_equations, rate_comp, rate_exp, V_comp, V_exp, heat_lost_comp, heat_lost_exp.
    destruct (ru_ws_vol_fn r t) as [vc ve]. cbn [fst snd] in *.
    cbn [in_pres in_comp in_exp in_chx in_hhx hi_enth wi_enth wi_vol wi_dens wi_inte wi_dd_dT_P wi_dd_dP_T
         wi_du_dP_T wi_du_dT_P wi_dV_dt wi_Q_dot] in *.
    rewrite Hf in *. cbn [IdealGas_Fluid fl_enth] in D1, D4. rewrite !he_h in D1, D4.
    unfold energy_rate_space in E1, E5. rewrite M1 in E1. rewrite M5 in E5.
    unfold mass_rate_space in M1, M5.
    cbn [wi_vol wi_dens wi_inte wi_dd_dT_P wi_dd_dP_T wi_du_dP_T wi_du_dT_P wi_dV_dt wi_Q_dot
         IdealGas_Fluid fl_dens fl_inte fl_dd_dT_P fl_dd_dP_T fl_du_dP_T fl_du_dT_P] in *.
    rewrite !dens_eq, !dd_dT_P_eq, !dd_dP_T_eq, he_R in M1, M5.
    rewrite dens_eq, he_cv, he_du_dT, he_R in E1, E5.
    replace 2077.23 with R_he in * by reflexivity.
    replace (5193.17 - R_he) with cv_he in * by reflexivity.
    pose proof cv_pos as C.
    assert (X1 := space_pressure (cd_P c) (cd_T_c c) (v_value vc) (v_deriv vc) (so_dTc_dt s) (so_dP_dt s) h1 (so_m_dot_ck s)
                    (pp_thermal (par_comp (ru_ws_parasitics r)))).
    assert (X5 := space_pressure (cd_P c) (cd_T_e c) (v_value ve) (v_deriv ve) (so_dTe_dt s) (so_dP_dt s) h4 (- so_m_dot_le s)
                    (pp_thermal (par_exp (ru_ws_parasitics r)))).
    assert (R0 : R_he <> 0) by (unfold R_he; lra).
    rewrite X1, X5; clear X1 X5.
    - destruct D1 as [A1 B1], D4 as [A4 B4]. split.
      + destruct (Rle_lt_dec 0 (so_m_dot_ck s)) as [L|L].
        * rewrite (A1 L), Rmax_right, Rmax_left by lra. unfold filling, cv_he in *. field. lra.
        * rewrite (B1 L), Rmax_left, Rmax_right by lra. unfold filling, cv_he in *. field. lra.
      + destruct (Rle_lt_dec 0 (so_m_dot_le s)) as [L|L].
        * rewrite (A4 L), Rmax_left, Rmax_right by lra. unfold filling, cv_he in *. field. lra.
        * rewrite (B4 L), Rmax_right, Rmax_left by lra. unfold filling, cv_he in *. field. lra.
    - lra.
    - rewrite Ropp_involutive, <- M5. field. split; lra.
    - change (ig_du_dP_T he (cd_T_e c) (cd_P c)) with 0 in E5. lra.
    - lra.
    - rewrite <- M1. field. split; lra.
    - change (ig_du_dP_T he (cd_T_c c) (cd_P c)) with 0 in E1. lra.
  Qed.
  (** gas that leaves the compression space enters the expansion space or compresses what is between *)
  Lemma between_spaces : R_he * (so_m_dot_ck s - so_m_dot_le s) = fixed_ratio r * so_dP_dt s.
  Proof.
    pose proof (mass_conserved D _ hint s HD Hs) as [(_ & M2 & M3 & M4 & _) _].
    destruct HT as (_ & _ & T3 & T4 & T5).
    unfold Run_calculate_inputs, chx_inputs, hhx_inputs, regen_inputs, mass_rate_hx, mass_rate_regen in *.
    destruct (ru_ws_vol_fn r t) as [vc ve]. rewrite Hf in *.
    cbn [in_chx in_regen in_hhx hi_vol hi_dd_dP_T gi_vol gi_dd_dP_T IdealGas_Fluid fl_dd_dP_T] in *.
    rewrite !dd_dP_T_eq, he_R in M2, M3, M4. replace 2077.23 with R_he in * by reflexivity.
    assert (R0 : R_he <> 0) by (unfold R_he; lra).
    replace (so_m_dot_ck s - so_m_dot_le s) with
      ((so_m_dot_ck s - so_m_dot_kr s) + (so_m_dot_kr s - so_m_dot_rl s) + (so_m_dot_rl s - so_m_dot_le s)) by ring.
    rewrite <- M2, <- M3, <- M4. unfold fixed_ratio. field. repeat split; lra.
  Qed.

  Lemma signs_comp : heat_lost_comp r = 0 ->
    (0 < so_m_dot_ck s -> (warm (cd_T_c c) -> rate_comp r t c s < 0) /\ (cold (cd_T_c c) -> 0 < rate_comp r t c s)) /\
    (so_m_dot_ck s < 0 -> (warm (te_chx (ru_temp r)) -> 0 < rate_comp r t c s) /\
                          (cold (te_chx (ru_temp r)) -> rate_comp r t c s < 0)).
  Proof.
    intros Q. destruct pressures as [E _]. rewrite Q in E. assert (R0 : 0 < R_he) by (unfold R_he; lra).
    split; intros L.
    - rewrite Rmax_right, Rmax_left in E by lra. rewrite filling_warm, filling_cold. rewrite E.
      pose proof (Rmult_lt_0_compat _ _ R0 L) as X. split; intros F.
      + pose proof (Rmult_lt_0_compat _ _ X F). lra.
      + assert (F' : 0 < - filling (cd_T_c c)) by lra. pose proof (Rmult_lt_0_compat _ _ X F'). lra.
    - rewrite Rmax_left, Rmax_right in E by lra. rewrite filling_warm, filling_cold. rewrite E.
      assert (L' : 0 < - so_m_dot_ck s) by lra.
      pose proof (Rmult_lt_0_compat _ _ R0 L') as X. split; intros F.
      + pose proof (Rmult_lt_0_compat _ _ X F). lra.
      + assert (F' : 0 < - filling (te_chx (ru_temp r))) by lra. pose proof (Rmult_lt_0_compat _ _ X F'). lra.
  Qed.

  Lemma not_trapped : ~ trap r t c.
  Proof.
    intros (P0 & Wc & We & Ck & _ & Wl & _ & Vc & Ve & Dc & De & Q1 & Q2 & B).
    destruct pressures as [E1 E2]. pose proof between_spaces as K. rewrite Q1 in E1. rewrite Q2 in E2.
    apply filling_warm in Wc, We, Wl. apply filling_cold in Ck.
    assert (R0 : 0 < R_he) by (unfold R_he; lra). pose proof cv_pos as C.
    assert (G : 0 < cp_he / cv_he) by (apply Rdiv_lt_0_compat; [unfold cp_he|]; lra).
    unfold rate_comp, rate_exp, adiabatic_rate in E1, E2.
    set (Fk := filling (te_chx (ru_temp r))) in *. set (Fc := filling (cd_T_c c)) in *.
    set (Fe := filling (cd_T_e c)) in *. set (Fl := filling (te_hhx (ru_temp r))) in *.
    set (p := so_dP_dt s) in *. set (m := so_m_dot_ck s) in *. set (n := so_m_dot_le s) in *.
    set (vc := V_comp r t) in *. set (ve := V_exp r t) in *.
    set (dc := v_deriv (fst (ru_ws_vol_fn r t))) in *. set (de := v_deriv (snd (ru_ws_vol_fn r t))) in *.
    set (g := cp_he / cv_he * cd_P c) in *. assert (g0 : 0 < g) by (apply Rmult_lt_0_compat; assumption).
    set (k := fixed_ratio r) in *.
    assert (gd : 0 < g * dc) by (apply Rmult_lt_0_compat; assumption).
    assert (A : vc * p + g * dc <= 0).
    { rewrite E1. destruct (Rle_lt_dec 0 m) as [L|L].
      - rewrite Rmax_right, Rmax_left by lra.
        assert (0 <= R_he * (m * Fc)) by (apply nonneg3; lra). lra.
      - rewrite Rmax_left, Rmax_right by lra.
        assert (0 <= R_he * (- m * - Fk)) by (apply nonneg3; lra). lra. }
    assert (p0 : p < 0).
    { destruct (Rlt_le_dec p 0) as [L|L]; [exact L|]. assert (0 <= vc * p) by (apply Rmult_le_pos; lra). lra. }
    assert (A2 : ve * p + g * de <= 0).
    { apply (Rmult_le_reg_l vc); [exact Vc|].
      assert (X : 0 <= ve * - (vc * p + g * dc)) by (apply Rmult_le_pos; lra).
      assert (Y : 0 <= g * (dc * ve - de * vc)) by (apply Rmult_le_pos; lra). lra. }
    assert (n0 : n <= 0).
    { destruct (Rle_lt_dec n 0) as [L|L]; [exact L|]. rewrite E2, Rmax_left, Rmax_right in A2 by lra.
      assert (0 < R_he * (n * Fl)) by (apply pos3; lra). lra. }
    assert (k0 : 0 < k).
    { destruct (Rlt_le_dec 0 k) as [L|L]; [exact L|]. assert (0 <= - Fk * - k) by (apply Rmult_le_pos; lra). lra. }
    assert (kp : 0 < k * - p) by (apply Rmult_lt_0_compat; lra).
    assert (Rn : 0 <= R_he * - n) by (apply Rmult_le_pos; lra).
    assert (m0 : m < 0).
    { destruct (Rlt_le_dec m 0) as [L|L]; [exact L|]. assert (0 <= R_he * m) by (apply Rmult_le_pos; lra). lra. }
    rewrite Rmax_left, Rmax_right in E1 by lra.
    assert (X : 0 <= - Fk * (k * p - R_he * m)) by (apply Rmult_le_pos; lra).
    assert (Y : 0 <= (- Fk * k - vc) * - p) by (apply Rmult_le_pos; lra). lra.
  Qed.
End Engine.

Lemma trapped r D t c hint : ru_fluid r = IdealGas_Fluid he -> ru_enth_norm r <> 0 -> sound D -> trap r t c ->
  exists e, solve D (Run_calculate_inputs r t c) hint = Err e.
Proof.
  intros Hf Hn HD H. destruct (solve D (Run_calculate_inputs r t c) hint) as [s|e] eqn:E; [|exists e; reflexivity].
  exfalso. apply (not_trapped r Hf Hn D HD t c hint s E); [|exact H].
  destruct H as (_ & Wc & We & _ & Tk & Wl & Tr & _). unfold warm, R_he, T_ref, cp_he in *.
  unfold positive_temps. repeat split; lra.
Qed.
Lemma trapped_panics r D d t c : ru_fluid r = IdealGas_Fluid he -> ru_enth_norm r <> 0 -> sound D -> trap r t c ->
  system D (Run_Cycle r) d t (cd_P c, cd_T_c c, cd_T_e c) = Panic PSolveFailed.
Proof.
  intros Hf Hn HD H. unfold system. cbn [Run_Cycle cy_calculate_inputs].
  destruct (trapped r D t c d Hf Hn HD H) as [e E]. destruct c as [P Tc Te]. cbn [cd_P cd_T_c cd_T_e]. rewrite E. reflexivity.
Qed.
Lemma trapped_integration r E D ic n k tol t c q : ru_fluid r = IdealGas_Fluid he -> ru_enth_norm r <> 0 -> sound D ->
  trap r t c -> u32_pred E n = Ret k -> env_ode E (ode_args (Run_Cycle r) ic k tol) = OAsk t (cd_P c, cd_T_c c, cd_T_e c) q ->
  try_from E D (Run_Cycle r) ic n tol = Panic PSolveFailed.
Proof.
  intros Hf Hn HD H Hk He. unfold try_from, try_from_traced. rewrite Hk, He. cbn [exec_ode].
  rewrite (trapped_panics r D _ t c Hf Hn HD H). reflexivity.
Qed.

(** ** An engine cooled with liquid nitrogen *)
Definition ln_temps : Temperatures R := mkTemps 77 77 (mkRegenTemp 87 380 880) 890 900.
Definition ln_state : State R :=
  mkState (IdealGas_Fluid he) (mkPressure 1000000 1000000 1000000 1000000) ln_temps
    (mkMassFlows 0 0 0) (mkHeatFlows 0 0 0) 0.
Definition ln_comps : Components R :=
  mkComponents (SinusoidalDrive_ws gl_drive) (chx_FixedApproach (mkFA 1 0.0003 10 (mkPP 0 1 0)))
    (co_regen case_comps) (co_hhx case_comps).
Definition ln_norm : R := nhalf * (ig_enth he 77 1000000 + ig_enth he 900 1000000).
Definition ln_run : Run R :=
  mkRun ln_norm (IdealGas_Fluid he) (1 / 60) (s_pres ln_state) ln_temps 0.0003 0.0001 0.0001
    (sd_parasitics gl_drive) (sin_volumes gl_drive).
Lemma ln_new : Run_new ln_comps ln_state = Ret ln_run.
Proof. reflexivity. Qed.
Lemma ln_norm_nonzero : ru_enth_norm ln_run <> 0.
Proof. cbn [ln_run ru_enth_norm]. unfold ln_norm. rewrite R_nhalf, !he_enth. cbn [n_mul n_add R_ops]. lra. Qed.
Definition ln_time : R := 0.75 / 60.
Definition ln_conditions : Conditions R := mkCond 1000000 150 880.
Lemma ln_trap : trap ln_run ln_time ln_conditions.
Proof.
  assert (TH : 2 * PI * 60 * ln_time = 3 * (PI / 2)) by (unfold ln_time; lra).
  assert (TH' : 3 * (PI / 2) + 90 * PI / 180 = 2 * PI) by lra.
  assert (E : ru_ws_vol_fn ln_run ln_time =
    (mkVolume 0.00015 (/ 2 * 0.0001 * (2 * PI * 60)), mkVolume 0.0002 0)).
  { change (ru_ws_vol_fn ln_run ln_time) with (sin_volumes gl_drive ln_time).
    unfold sin_volumes. cbv zeta. cbn [gl_drive sd_comp_geometry sd_exp_geometry sg_clearance_volume sg_swept_volume
      sd_frequency sd_phase_angle]. rewrite R_nhalf.
    cbn [n_mul n_add n_div n_opp n_cos n_sin n_pi n1 n_lit R_ops].
    replace (R_lit 2 0) with 2 by (unfold R_lit; cbn; lra). replace (R_lit 180 0) with 180 by (unfold R_lit; cbn; lra). rewrite TH, TH'.
    rewrite cos_2PI, sin_2PI, cos_3PI2, sin_3PI2. replace (R_lit 1 0) with 1 by (unfold R_lit; cbn; lra). f_equal; f_equal; lra. }
  unfold trap, V_comp, V_exp. rewrite E. cbn [fst snd v_value v_deriv ln_conditions cd_P cd_T_c cd_T_e].
  unfold fixed_ratio. cbn [ln_run ru_temp ru_vol_chx ru_vol_regen ru_vol_hhx ln_temps te_chx te_hhx te_regen rt_avg].
  unfold warm, cold, filling, cv_he, cp_he, R_he, T_ref, heat_lost_comp, heat_lost_exp. pose proof PI_RGT_0 as PI0.
  repeat split; try reflexivity; lra.
Qed.
