(** * How much gas flows and how much heat passes at one instant *)
From Coq Require Import ZArith NArith List Reals Lra Lia Psatz.
From Verif Require Import Num ModelTypes ModelWs ModelHx ModelStateEq ModelEngine RNum Spec SpecR SpecGas
  SpecKin SpecTraj SpecLaws SpecUnique SpecExist SpecSpaces SpecBounds SpecSteady SpecContract Fixture PolySolve RSolve RGauss RFluid
  RKin RMass RCase RLaws RClose RUnique RPeriod RSpaces RBounds RSteady RContract RContractEngine.
Import ListNotations.
Local Open Scope R_scope.

Lemma deriv_line a b t : derivable_pt_lim (fun u => a + b * (u - t)) t b.
Proof.
  eapply deriv_eq; [apply (derivable_pt_lim_plus (fun _ => a) (fun u => b * (u - t)) t 0 b); [apply deriv_const|]|ring].
  eapply deriv_eq; [apply (derivable_pt_lim_scal (fun u => u - t) b t 1)|ring].
  eapply deriv_eq; [apply (derivable_pt_lim_minus (fun u => u) (fun _ => t) t 1 0); [apply derivable_pt_lim_id|apply deriv_const]|ring].
Qed.

Section Point.
  Variable r : Run R.
  Hypothesis Hf : ru_fluid r = IdealGas_Fluid he.
  Hypothesis HLc : heat_lost_comp r = 0.
  Hypothesis HLe : heat_lost_exp r = 0.
  Hypothesis HTk : T_nil < te_chx (ru_temp r).
  Hypothesis HTl : T_nil < te_hhx (ru_temp r).
  Let dVc t := v_deriv (fst (ru_ws_vol_fn r t)).
  Let dVe t := v_deriv (snd (ru_ws_vol_fn r t)).
  Let fc := / (te_chx (ru_temp r) - T_nil).
  Let fe := / (te_hhx (ru_temp r) - T_nil).
  Lemma point_all D t x hint s : sound D -> positive_temps r x -> true_derivatives (ru_ws_vol_fn r) t ->
    physical (Run_calculate_inputs r t x) -> solve D (Run_calculate_inputs r t x) hint = Ok s ->
    T_nil < cd_T_c x -> T_nil < cd_T_e x ->
    let y := so_dP_dt s / cd_P x in
    let nc := flow a_he T_nil (V_comp r t) (dVc t) fc y (/ cd_T_c x) in
    let ne := flow a_he T_nil (V_exp r t) (dVe t) fe y (/ cd_T_e x) in
    let p := so_dP_dt s / R_he in
    0 < cd_P x /\ 0 < V_comp r t /\ 0 < V_exp r t /\
    so_m_dot_ck s = - (cd_P x / R_he * nc) /\ so_m_dot_le s = cd_P x / R_he * ne /\
    so_m_dot_ck s - so_m_dot_kr s = ru_vol_chx r / te_chx (ru_temp r) * p /\
    so_m_dot_kr s - so_m_dot_rl s = ru_vol_regen r / rt_avg (te_regen (ru_temp r)) * p /\
    so_m_dot_rl s - so_m_dot_le s = ru_vol_hhx r / te_hhx (ru_temp r) * p /\
    nc + ne + fixed_ratio r * y = 0 /\
    so_dTc_dt s = cd_T_c x * (y + dVc t * / V_comp r t) - cd_T_c x * cd_T_c x * (nc * / V_comp r t) /\
    so_dTe_dt s = cd_T_e x * (y + dVe t * / V_exp r t) - cd_T_e x * cd_T_e x * (ne * / V_exp r t).
  Proof.
    intros HD HT HV HP Hs HTc HTe. cbv zeta.
    set (c := fun u => mkCond (cd_P x + so_dP_dt s * (u - t)) (cd_T_c x + so_dTc_dt s * (u - t)) (cd_T_e x + so_dTe_dt s * (u - t))).
    assert (Ec : c t = x) by (unfold c; rewrite Rminus_diag_eq, !Rmult_0_r, !Rplus_0_r by reflexivity; destruct x; reflexivity).
    assert (HF : follows c s t) by (unfold follows, has_deriv, c; cbn [cd_P cd_T_c cd_T_e]; repeat split; apply deriv_line).
    rewrite <- Ec in HT, HP, Hs, HTc, HTe |- *. clearbody c.
    assert (Hn : ru_enth_norm r <> 0).
    { destruct HP as (Hn & _). unfold Run_calculate_inputs in Hn. destruct (ru_ws_vol_fn r t). exact Hn. }
    destruct (temperatures r Hf D HD c t hint s Hn Hs HF HT HV) as (E1 & E2). cbv zeta in E1, E2.
    destruct (masses he he_pos r Hf D c t hint s HD Hs HF HT HV) as (M1 & M2 & M3 & M4 & M5).
    assert (VP : 0 < V_comp r t /\ 0 < V_exp r t /\ 0 < cd_P (c t)).
    { destruct HP as (_ & (VC & RC & _) & (VE & RE & _) & _). unfold V_comp, V_exp.
      unfold Run_calculate_inputs, comp_inputs, exp_inputs in VC, RC, VE, RE. destruct (ru_ws_vol_fn r t) as [vc ve]. cbn [fst snd].
      cbn [in_comp in_exp wi_vol wi_dens] in *. split; [exact VC|]. split; [exact VE|].
      rewrite Hf in RC. cbn [IdealGas_Fluid fl_dens] in RC. unfold ig_dens in RC. rewrite he_R in RC. fold R_he in RC. cbn [n_mul n_div R_ops] in RC.
      destruct HT as (TC & _). pose proof R_pos. replace (cd_P (c t)) with (cd_P (c t) / (R_he * cd_T_c (c t)) * (R_he * cd_T_c (c t))) by (field; lra).
      apply Rmult_lt_0_compat; [exact RC|]. apply Rmult_lt_0_compat; lra. }
    destruct VP as (VC & VE & HPp). destruct HV as (D1 & D2). destruct HF as (F1 & F2 & F3). destruct HT as (TC & TE & TK & TL & TR).
    unfold has_deriv in *. fold (V_comp r t) in *. fold (V_exp r t) in *.
    pose proof (mass_of r Hf (V_comp r) (fun u => cd_P (c u)) (fun u => cd_T_c (c u)) t _ _ _ D1 F1 F2 TC) as N1.
    pose proof (mass_of r Hf (V_exp r) (fun u => cd_P (c u)) (fun u => cd_T_e (c u)) t _ _ _ D2 F1 F3 TE) as N5. cbv beta in N1, N5.
    pose proof (uniqueness_limite _ _ _ _ M1 N1) as U1. pose proof (uniqueness_limite _ _ _ _ M5 N5) as U5.
    assert (FX : forall V T dm, 0 < T -> derivable_pt_lim (fun u => stored_mass r V T (cd_P (c u))) t dm -> dm = V / T * so_dP_dt s / R_he).
    { intros V T dm HT HM.
      pose proof (mass_of r Hf (fun _ => V) (fun u => cd_P (c u)) (fun _ => T) t 0 _ 0 (deriv_const V t) F1 (deriv_const T t) HT) as N.
      cbv beta in N. rewrite (uniqueness_limite _ _ _ _ HM N). pose proof R_pos. field. lra. }
    pose proof (FX _ _ _ TK M2) as X2. pose proof (FX _ _ _ TR M3) as X3. pose proof (FX _ _ _ TL M4) as X4.
    assert (ST : forall V T, stored_mass r V T (cd_P (c t)) = V * (cd_P (c t) / (R_he * T))).
    { intros V T. unfold stored_mass. rewrite Hf. cbn [IdealGas_Fluid fl_dens]. unfold ig_dens. rewrite he_R. reflexivity. }
    rewrite ST, HLc, Rminus_0_r in E1. rewrite ST, HLe, Rminus_0_r in E2.
    assert (E1' : V_comp r t * (cd_P (c t) / (R_he * cd_T_c (c t))) * cv_he * so_dTc_dt s + cd_P (c t) * dVc t =
      Rmax (- - so_m_dot_ck s) 0 * R_he * (T_ref - cd_T_c (c t)) + Rmax (- so_m_dot_ck s) 0 * cv_he * (filling (te_chx (ru_temp r)) - cd_T_c (c t))).
    { rewrite Ropp_involutive. exact E1. }
    destruct (space_flow (V_comp r t) (cd_T_c (c t)) (cd_P (c t)) (dVc t) (so_dTc_dt s) (so_dP_dt s) (- so_m_dot_ck s) (te_chx (ru_temp r))
      HPp VC HTc HTk E1' U1) as (A1 & B1).
    destruct (space_flow (V_exp r t) (cd_T_e (c t)) (cd_P (c t)) (dVe t) (so_dTe_dt s) (so_dP_dt s) (so_m_dot_le s) (te_hhx (ru_temp r))
      HPp VE HTe HTl E2 U5) as (A2 & B2).
    fold fc in A1, B1. fold fe in A2, B2.
    set (nc := flow _ _ (V_comp r t) _ _ _ _) in A1, B1 |- *. set (ne := flow _ _ (V_exp r t) _ _ _ _) in A2, B2 |- *.
    assert (SL : forall T dT q : R, 0 < T -> - dT / (T * T) = q -> dT = - (T * T) * q) by (intros T dT q HT <-; field; lra).
    pose proof R_pos as RP. assert (PR : 0 < cd_P (c t) / R_he) by (apply Rdiv_lt_0_compat; lra).
    split; [exact HPp|]. split; [exact VC|]. split; [exact VE|].
    split; [lra|]. split; [exact A2|].
    split; [rewrite X2; field; lra|]. split; [rewrite X3; field; lra|]. split; [rewrite X4; field; lra|].
    split; [|split; [rewrite (SL _ _ _ TC B1)|rewrite (SL _ _ _ TE B2)]; field; lra].
    apply (Rmult_eq_reg_l (cd_P (c t) / R_he)); [|lra]. rewrite Rmult_0_r.
    replace (cd_P (c t) / R_he * (nc + ne + fixed_ratio r * (so_dP_dt s / cd_P (c t))))
      with (cd_P (c t) / R_he * nc + cd_P (c t) / R_he * ne + (ru_vol_chx r / te_chx (ru_temp r) * so_dP_dt s / R_he
        + ru_vol_regen r / rt_avg (te_regen (ru_temp r)) * so_dP_dt s / R_he + ru_vol_hhx r / te_hhx (ru_temp r) * so_dP_dt s / R_he))
      by (unfold fixed_ratio; field; repeat split; lra).
    rewrite <- A1, <- A2, <- X2, <- X3, <- X4. ring.
  Qed.
  Lemma point_flows D t x hint s : sound D -> positive_temps r x -> true_derivatives (ru_ws_vol_fn r) t ->
    physical (Run_calculate_inputs r t x) -> solve D (Run_calculate_inputs r t x) hint = Ok s ->
    T_nil < cd_T_c x -> T_nil < cd_T_e x ->
    let y := so_dP_dt s / cd_P x in
    let nc := flow a_he T_nil (V_comp r t) (dVc t) fc y (/ cd_T_c x) in
    let ne := flow a_he T_nil (V_exp r t) (dVe t) fe y (/ cd_T_e x) in
    let p := so_dP_dt s / R_he in
    0 < cd_P x /\ 0 < V_comp r t /\ 0 < V_exp r t /\
    so_m_dot_ck s = - (cd_P x / R_he * nc) /\ so_m_dot_le s = cd_P x / R_he * ne /\
    so_m_dot_ck s - so_m_dot_kr s = ru_vol_chx r / te_chx (ru_temp r) * p /\
    so_m_dot_kr s - so_m_dot_rl s = ru_vol_regen r / rt_avg (te_regen (ru_temp r)) * p /\
    so_m_dot_rl s - so_m_dot_le s = ru_vol_hhx r / te_hhx (ru_temp r) * p /\
    nc + ne + fixed_ratio r * y = 0.
  Proof.
    intros H1 H2 H3 H4 H5 H6 H7. destruct (point_all D t x hint s H1 H2 H3 H4 H5 H6 H7) as (Q1 & Q2 & Q3 & Q4 & Q5 & Q6 & Q7 & Q8 & Q9 & _).
    cbv zeta. repeat (split; [assumption|]). assumption.
  Qed.
  (** ** Bounds *)
  Variables (T_low T_top P_top V_hi v_hi V_fix K : R).
  Let zm := / (T_low - T_nil).
  Let Y := 2 * v_hi * zm / K.
  Let N := zm * (a_he * V_hi * Y + v_hi).
  Definition flow_cap : R := P_top / R_he * N + V_fix / T_low * (Y * P_top / R_he).
  Definition heat_cap : R := 4 * (cp_he * (T_top + T_ref)) * flow_cap.
  Hypothesis HL : T_nil < T_low.
  Hypothesis HK : 0 < K <= fixed_ratio r.
  Hypothesis HVf : 0 <= ru_vol_chx r <= V_fix /\ 0 <= ru_vol_regen r <= V_fix /\ 0 <= ru_vol_hhx r <= V_fix.
  Let inside T := T_low <= T <= T_top.
  Hypothesis HI : inside (te_chx (ru_temp r)) /\ inside (te_hhx (ru_temp r)) /\ inside (rt_cold (te_regen (ru_temp r))) /\
    inside (rt_avg (te_regen (ru_temp r))) /\ inside (rt_hot (te_regen (ru_temp r))).
  Lemma flow_le V dV f T y : T_low <= f -> inside T -> 0 < V <= V_hi -> Rabs dV <= v_hi ->
    exists k, 0 < k <= zm /\ flow a_he T_nil V dV (/ (f - T_nil)) y (/ T) = (a_he * V * y + dV) * k.
  Proof.
    intros Hf' (H1 & H2) HV Hd. pose proof nil_pos. apply flow_factor; [|].
    - split; [apply Rinv_0_lt_compat; lra|]. apply Rinv_le_contravar; lra.
    - unfold out. replace (/ T / (1 - T_nil * / T)) with (/ (T - T_nil)) by (field; lra).
      split; [apply Rinv_0_lt_compat; lra|]. apply Rinv_le_contravar; lra.
  Qed.
  Lemma abs_le_add a b x y : Rabs a <= x -> Rabs b <= y -> Rabs (a + b) <= x + y.
  Proof. intros. eapply Rle_trans; [apply Rabs_triang|lra]. Qed.
  Lemma abs_le_sub a b x y : Rabs a <= x -> Rabs b <= y -> Rabs (a - b) <= x + y.
  Proof. intros. unfold Rminus. apply abs_le_add; [assumption|]. rewrite Rabs_Ropp. assumption. Qed.
  Lemma abs_le_mul a b x y : Rabs a <= x -> Rabs b <= y -> Rabs (a * b) <= x * y.
  Proof. intros. rewrite Rabs_mult. apply Rmult_le_compat; try apply Rabs_pos; assumption. Qed.
  Lemma point_bounds D t x hint s : sound D -> true_derivatives (ru_ws_vol_fn r) t ->
    physical (Run_calculate_inputs r t x) -> solve D (Run_calculate_inputs r t x) hint = Ok s ->
    inside (cd_T_c x) -> inside (cd_T_e x) -> cd_P x <= P_top -> V_comp r t <= V_hi -> V_exp r t <= V_hi -> Rabs (dVc t) <= v_hi -> Rabs (dVe t) <= v_hi ->
    Rabs (so_m_dot_ck s) <= flow_cap /\ Rabs (so_m_dot_kr s) <= flow_cap /\ Rabs (so_m_dot_rl s) <= flow_cap /\ Rabs (so_m_dot_le s) <= flow_cap /\
    Rabs (so_Q_dot_k s) <= heat_cap /\ Rabs (so_Q_dot_l s) <= heat_cap.
  Proof.
    intros HD HV HP Hs HTc HTe HPt HV1 HV2 HD1 HD2. pose proof nil_pos as NP. pose proof R_pos as RP. destruct a_range as (A0 & A1).
    destruct HI as (I1 & I2 & I3 & I4 & I5). destruct HVf as (F1 & F2 & F3). unfold inside in *.
    assert (Z0 : 0 < zm) by (apply Rinv_0_lt_compat; lra).
    assert (PT : positive_temps r x) by (unfold positive_temps; lra).
    destruct (point_flows D t x hint s HD PT HV HP Hs ltac:(lra) ltac:(lra)) as (P0 & VC & VE & E1 & E2 & E3 & E4 & E5 & E6).
    set (y := so_dP_dt s / cd_P x) in *.
    set (nc := flow _ _ (V_comp r t) _ _ _ _) in *. set (ne := flow _ _ (V_exp r t) _ _ _ _) in *.
    destruct (flow_le (V_comp r t) (dVc t) (te_chx (ru_temp r)) (cd_T_c x) y ltac:(lra) HTc ltac:(lra) HD1) as (k1 & K1 & N1).
    destruct (flow_le (V_exp r t) (dVe t) (te_hhx (ru_temp r)) (cd_T_e x) y ltac:(lra) HTe ltac:(lra) HD2) as (k2 & K2 & N2).
    change (nc = (a_he * V_comp r t * y + dVc t) * k1) in N1. change (ne = (a_he * V_exp r t * y + dVe t) * k2) in N2.
    clearbody nc ne. assert (v0 : 0 <= v_hi) by (apply Rle_trans with (2 := HD1), Rabs_pos).
    assert (KP : 0 < K) by lra.
    assert (Q : y * (fixed_ratio r + a_he * V_comp r t * k1 + a_he * V_exp r t * k2) = - (dVc t * k1 + dVe t * k2)) by (rewrite N1, N2 in E6; lra).
    assert (P1 : 0 <= a_he * V_comp r t * k1) by (apply Rmult_le_pos; [apply Rmult_le_pos|]; lra).
    assert (P2 : 0 <= a_he * V_exp r t * k2) by (apply Rmult_le_pos; [apply Rmult_le_pos|]; lra).
    assert (YB : Rabs y <= Y).
    { assert (B : Rabs y * K <= 2 * v_hi * zm).
      { apply Rle_trans with (Rabs y * (fixed_ratio r + a_he * V_comp r t * k1 + a_he * V_exp r t * k2)).
        - apply Rmult_le_compat_l; [apply Rabs_pos|lra].
        - rewrite <- (Rabs_right (fixed_ratio r + a_he * V_comp r t * k1 + a_he * V_exp r t * k2)), <- Rabs_mult, Q, Rabs_Ropp by lra.
          replace (2 * v_hi * zm) with (v_hi * zm + v_hi * zm) by ring.
          apply abs_le_add; apply abs_le_mul; try assumption; rewrite Rabs_right; lra. }
      unfold Y. apply (Rmult_le_reg_r K); [exact KP|]. replace (2 * v_hi * zm / K * K) with (2 * v_hi * zm) by (field; lra). exact B. }
    assert (Y0 : 0 <= Y) by (apply Rle_trans with (2 := YB), Rabs_pos).
    assert (NB : forall V dV k, 0 < V <= V_hi -> Rabs dV <= v_hi -> 0 < k <= zm -> Rabs ((a_he * V * y + dV) * k) <= N).
    { intros V dV k HV' Hd' Hk. unfold N. rewrite Rmult_comm. apply abs_le_mul; [rewrite Rabs_right; lra|]. apply abs_le_add; [|exact Hd'].
      apply abs_le_mul; [|exact YB]. rewrite Rabs_right by (apply Rle_ge, Rmult_le_pos; lra). apply Rmult_le_compat_l; lra. }
    pose proof (NB _ _ _ (conj VC HV1) HD1 K1) as B1. rewrite <- N1 in B1. pose proof (NB _ _ _ (conj VE HV2) HD2 K2) as B2. rewrite <- N2 in B2.
    assert (N0 : 0 <= N) by (apply Rle_trans with (2 := B1), Rabs_pos).
    assert (PR : 0 < cd_P x / R_he) by (apply Rdiv_lt_0_compat; lra).
    assert (PR' : cd_P x / R_he <= P_top / R_he) by (apply Rmult_le_compat_r; [left; apply Rinv_0_lt_compat|]; lra).
    assert (C1 : Rabs (so_m_dot_ck s) <= P_top / R_he * N).
    { rewrite E1, Rabs_Ropp. apply abs_le_mul; [rewrite Rabs_right; lra|exact B1]. }
    assert (C2 : Rabs (so_m_dot_le s) <= P_top / R_he * N).
    { rewrite E2. apply abs_le_mul; [rewrite Rabs_right; lra|exact B2]. }
    assert (DP : Rabs (so_dP_dt s / R_he) <= Y * P_top / R_he).
    { replace (so_dP_dt s / R_he) with (y * (cd_P x / R_he)) by (unfold y; field; lra).
      replace (Y * P_top / R_he) with (Y * (P_top / R_he)) by (unfold Rdiv; ring). apply abs_le_mul; [exact YB|rewrite Rabs_right; lra]. }
    assert (VT : forall V T, 0 <= V <= V_fix -> T_low <= T -> Rabs (V / T * (so_dP_dt s / R_he)) <= V_fix / T_low * (Y * P_top / R_he)).
    { intros V T HV' HT'. apply abs_le_mul; [|exact DP]. rewrite Rabs_right by (apply Rle_ge, Rle_mult_inv_pos; lra).
      unfold Rdiv. apply Rmult_le_compat; [lra|left; apply Rinv_0_lt_compat; lra|lra|apply Rinv_le_contravar; lra]. }
    pose proof (VT _ _ F1 (proj1 I1)) as W1. pose proof (VT _ _ F2 (proj1 I4)) as W2. pose proof (VT _ _ F3 (proj1 I2)) as W3.
    rewrite <- E3 in W1. rewrite <- E4 in W2. rewrite <- E5 in W3. clear VT.
    set (w := V_fix / T_low * (Y * P_top / R_he)) in *.
    assert (w0 : 0 <= w) by (apply Rle_trans with (2 := W1), Rabs_pos).
    assert (M1 : Rabs (so_m_dot_ck s) <= flow_cap) by (unfold flow_cap; fold w; lra).
    assert (M4 : Rabs (so_m_dot_le s) <= flow_cap) by (unfold flow_cap; fold w; lra).
    assert (M2 : Rabs (so_m_dot_kr s) <= flow_cap).
    { replace (so_m_dot_kr s) with (so_m_dot_ck s - (so_m_dot_ck s - so_m_dot_kr s)) by ring. apply abs_le_sub; assumption. }
    assert (M3 : Rabs (so_m_dot_rl s) <= flow_cap).
    { replace (so_m_dot_rl s) with (so_m_dot_le s + (so_m_dot_rl s - so_m_dot_le s)) by ring. apply abs_le_add; assumption. }
    split; [exact M1|]. split; [exact M2|]. split; [exact M3|]. split; [exact M4|].
    pose proof HP as (Hn & _). destruct (energy_conserved D _ hint s HD Hn Hs) as ((BM & h1 & h2 & h3 & h4 & H1 & H2 & H3 & H4 & BE) & _).
    destruct BM as (_ & BM2 & _ & BM4 & _). destruct BE as (_ & BE2 & _ & BE4 & _).
    set (H := cp_he * (T_top + T_ref)). pose proof cp_pos as CP. pose proof cv_pos as CV. pose proof cv_le as CL.
    assert (TR : 0 < T_ref) by (unfold T_ref; lra).
    assert (HE : forall T, T_low <= T <= T_top -> Rabs (cp_he * (T - T_ref)) <= H).
    { intros T HT'. unfold H. apply abs_le_mul; [rewrite Rabs_right; lra|]. apply abs_le_sub; rewrite Rabs_right; lra. }
    assert (HU : forall T, T_low <= T <= T_top -> Rabs (cv_he * (T - T_ref)) <= H).
    { intros T HT'. unfold H. apply abs_le_mul; [rewrite Rabs_right; lra|]. apply abs_le_sub; rewrite Rabs_right; lra. }
    assert (DN : forall m a b h, donor_R m a b h -> Rabs a <= H -> Rabs b <= H -> Rabs h <= H).
    { intros m a b h (Ha & Hb) X1 X2. destruct (Rlt_le_dec m 0) as [L|L]; [rewrite (Hb L)|rewrite (Ha L)]; assumption. }
    assert (IN : wi_enth (in_comp (Run_calculate_inputs r t x)) = cp_he * (cd_T_c x - T_ref) /\
      wi_enth (in_exp (Run_calculate_inputs r t x)) = cp_he * (cd_T_e x - T_ref) /\
      hi_enth (in_chx (Run_calculate_inputs r t x)) = cp_he * (te_chx (ru_temp r) - T_ref) /\
      hi_enth (in_hhx (Run_calculate_inputs r t x)) = cp_he * (te_hhx (ru_temp r) - T_ref) /\
      gi_enth_cold (in_regen (Run_calculate_inputs r t x)) = cp_he * (rt_cold (te_regen (ru_temp r)) - T_ref) /\
      gi_enth_hot (in_regen (Run_calculate_inputs r t x)) = cp_he * (rt_hot (te_regen (ru_temp r)) - T_ref) /\
      hi_inte (in_chx (Run_calculate_inputs r t x)) = cv_he * (te_chx (ru_temp r) - T_ref) /\
      hi_inte (in_hhx (Run_calculate_inputs r t x)) = cv_he * (te_hhx (ru_temp r) - T_ref) /\
      hi_du_dP_T (in_chx (Run_calculate_inputs r t x)) = 0 /\ hi_du_dP_T (in_hhx (Run_calculate_inputs r t x)) = 0).
    { unfold Run_calculate_inputs. destruct (ru_ws_vol_fn r t) as [v1 v2]. cbn [in_comp in_exp in_chx in_hhx in_regen].
      unfold comp_inputs, exp_inputs, chx_inputs, hhx_inputs, regen_inputs.
      cbn [wi_enth hi_enth gi_enth_cold gi_enth_hot hi_inte hi_du_dP_T]. rewrite Hf. cbn [IdealGas_Fluid fl_enth fl_inte fl_du_dP_T].
      rewrite !he_h, !he_cv. unfold ig_du_dP_T. rewrite R_n0. repeat split; reflexivity. }
    destruct IN as (J1 & J2 & J3 & J4 & J5 & J6 & J7 & J8 & J9 & J10).
    rewrite J1, J3 in H1. rewrite J3, J5 in H2. rewrite J6, J4 in H3. rewrite J4, J2 in H4.
    pose proof (DN _ _ _ _ H1 (HE _ HTc) (HE _ I1)) as D1. pose proof (DN _ _ _ _ H2 (HE _ I1) (HE _ I3)) as D2'.
    pose proof (DN _ _ _ _ H3 (HE _ I5) (HE _ I2)) as D3. pose proof (DN _ _ _ _ H4 (HE _ I2) (HE _ HTe)) as D4.
    unfold energy_rate_hx in BE2, BE4. rewrite BM2, J7, J9 in BE2. rewrite BM4, J8, J10 in BE4.
    assert (H0 : 0 <= H) by (apply Rle_trans with (2 := D1), Rabs_pos).
    assert (FC : 0 <= flow_cap) by (apply Rle_trans with (2 := M1), Rabs_pos).
    assert (WC : forall d, Rabs d <= w -> Rabs d <= 2 * flow_cap).
    { intros d Hd. assert (0 <= P_top / R_he * N) by (apply Rmult_le_pos; lra). unfold flow_cap in *. fold w in FC |- *. lra. }
    unfold heat_cap. fold H. split.
    - replace (so_Q_dot_k s) with (h1 * so_m_dot_ck s - h2 * so_m_dot_kr s - cv_he * (te_chx (ru_temp r) - T_ref) * (so_m_dot_ck s - so_m_dot_kr s)) by lra.
      replace (4 * H * flow_cap) with (H * flow_cap + H * flow_cap + H * (2 * flow_cap)) by ring.
      apply abs_le_sub; [apply abs_le_sub; apply abs_le_mul; assumption|]. apply abs_le_mul; [apply HU, I1|apply WC, W1].
    - replace (so_Q_dot_l s) with (h4 * so_m_dot_le s - h3 * so_m_dot_rl s + cv_he * (te_hhx (ru_temp r) - T_ref) * (so_m_dot_rl s - so_m_dot_le s)) by lra.
      replace (4 * H * flow_cap) with (H * flow_cap + H * flow_cap + H * (2 * flow_cap)) by ring.
      apply abs_le_add; [apply abs_le_sub; apply abs_le_mul; assumption|]. apply abs_le_mul; [apply HU, I2|apply WC, W3].
  Qed.
End Point.
