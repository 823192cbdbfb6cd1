(** * Configured drives move as their geometry says *)
From Coq Require Import ZArith NArith List Reals Lra Lia.
From Verif Require Import Num ModelTypes ModelWs RNum SpecGas SpecKin SpecDrive RFluid RKin.
Local Open Scope R_scope.

Lemma sin_configured (c : SinConfig R) (s : WsState R) : exists w vol,
  ws_from_config (WC_Sinusoidal c) = Ret w /\ ws_volumes w s = Ret vol /\ forall t,
  v_value (fst (vol t)) =
    swept_space (sdc_V_clearance_c c) (sdc_V_swept_c c) (turn_angle (sdc_frequency c) t) /\
  v_value (snd (vol t)) =
    swept_space (sdc_V_clearance_e c) (sdc_V_swept_e c)
      (turn_angle (sdc_frequency c) t + sdc_phase_angle c / 180 * PI) /\
  true_derivatives vol t.
Proof.
  eexists _, _. split; [reflexivity|]. split; [reflexivity|]. intros t.
  split; [|split; [|apply sin_true_derivatives]].
  - rewrite sin_comp_value. unfold swept_space, turn_angle. cbn. field.
  - rewrite sin_exp_value. unfold swept_space, turn_angle. cbn.
    replace (sdc_phase_angle c / 180 * PI) with (sdc_phase_angle c * PI / 180) by field. field.
Qed.

Section Linked.
  Variable c : RhConfig R.
  Let e := rdc_eccentricity c.
  Let r := rdc_r_crank c.
  Let L := rdc_L_conn c.
  Hypothesis He : 0 <= e.
  Hypothesis Hr : 0 <= r.
  Hypothesis HL : e + r < L.
  Let b x := sqrt (L * L - (e + r * cos x) * (e + r * cos x)).

  Lemma cfg_turns : turns (RhombicDrive_from c).
  Proof. unfold turns. cbn. repeat split; assumption. Qed.
  Lemma rods x : linkage e r L x (r * sin x + b x) (r * sin x - b x).
  Proof.
    pose proof (b_pos _ cfg_turns x) as Hb. pose proof (b_sq _ cfg_turns x) as Hs.
    cbn [RhombicDrive_from rd_geometry rg_L_conn rg_eccentricity rg_r_crank] in Hb, Hs.
    fold e r L in Hb, Hs. fold (b x) in Hb, Hs.
    unfold linkage. cbn zeta. repeat split; lra.
  Qed.
  Lemma lined_up : let h := - sqrt ((L - r) * (L - r) - e * e) in
    h <= 0 /\ e * e + h * h = (L - r) * (L - r).
  Proof.
    cbn zeta. pose proof (sqrt_pos ((L - r) * (L - r) - e * e)).
    assert (0 <= (L - r) * (L - r) - e * e).
    { replace ((L - r) * (L - r) - e * e) with ((L - r - e) * (L - r + e)) by ring.
      apply Rmult_le_pos; lra. }
    pose proof (sqrt_sqrt _ H0). split; lra.
  Qed.
  Lemma rh_linked t : linked_volumes c (rdc_D_p c) (rh_volumes (RhombicDrive_from c)) t.
  Proof.
    unfold linked_volumes. cbn zeta. fold e r L.
    set (x := turn_angle (rdc_frequency c) t).
    exists (r * sin x + b x), (r * sin x - b x), (r * sin PI + b PI), (r * sin PI - b PI),
      (- sqrt ((L - r) * (L - r) - e * e)).
    destruct lined_up as [U1 U2].
    split; [apply rods|]. split; [apply rods|]. split; [exact U1|]. split; [exact U2|].
    rewrite rh_comp_value, rh_exp_value.
    cbn [RhombicDrive_from rd_geometry rd_frequency rd_V_clearance_c rd_V_clearance_e
      rg_eccentricity rg_r_crank rg_L_conn rg_D_d rg_D_p].
    change (2 * PI * rdc_frequency c * t) with x. fold e r L. fold (b x).
    split.
    - replace (sqrt (L * L - (e - r) * (e - r))) with (b PI).
      + unfold disc. ring.
      + unfold b. rewrite cos_PI. f_equal. ring.
    - unfold disc. ring.
  Qed.
  Lemma rh_linked_intended t : linked_volumes c (rdc_D_d c) (rh_volumes (intended c)) t.
  Proof.
    unfold linked_volumes. cbn zeta. fold e r L.
    set (x := turn_angle (rdc_frequency c) t).
    exists (r * sin x + b x), (r * sin x - b x), (r * sin PI + b PI), (r * sin PI - b PI),
      (- sqrt ((L - r) * (L - r) - e * e)).
    destruct lined_up as [U1 U2].
    split; [apply rods|]. split; [apply rods|]. split; [exact U1|]. split; [exact U2|].
    rewrite rh_comp_value, rh_exp_value.
    cbn [intended RhombicDrive_from rd_geometry rd_frequency rd_V_clearance_c rd_V_clearance_e
      rg_eccentricity rg_r_crank rg_L_conn rg_D_d rg_D_p].
    change (2 * PI * rdc_frequency c * t) with x. fold e r L. fold (b x).
    split.
    - replace (sqrt (L * L - (e - r) * (e - r))) with (b PI).
      + unfold disc. ring.
      + unfold b. rewrite cos_PI. f_equal. ring.
    - unfold disc. ring.
  Qed.

  Lemma angle_time x : rdc_frequency c <> 0 -> exists t, turn_angle (rdc_frequency c) t = x.
  Proof.
    intros Hf. exists (x / (2 * PI * rdc_frequency c)). unfold turn_angle.
    pose proof PI_RGT_0. field. split; [exact Hf|lra].
  Qed.
  (** the clearance volumes are reached *)
  Lemma rh_exp_attained : rdc_frequency c <> 0 ->
    exists t, v_value (snd (rh_volumes (RhombicDrive_from c) t)) = rdc_V_clearance_e c.
  Proof.
    intros Hf. destruct (angle_time (acos (e / (L - r))) Hf) as [t Ht]. exists t.
    rewrite rh_exp_value.
    cbn [RhombicDrive_from rd_geometry rd_frequency rd_V_clearance_e rg_eccentricity rg_r_crank rg_L_conn rg_D_d].
    change (2 * PI * rdc_frequency c * t) with (turn_angle (rdc_frequency c) t). rewrite Ht.
    fold e r L.
    assert (HX : -1 <= e / (L - r) <= 1).
    { split.
      - apply Rle_trans with 0; [lra|]. apply Rmult_le_pos; [lra|]. left. apply Rinv_0_lt_compat. lra.
      - apply Rmult_le_reg_r with (L - r); [lra|]. unfold Rdiv.
        rewrite Rmult_assoc, Rinv_l by lra. lra. }
    rewrite (cos_acos _ HX), (sin_acos _ HX).
    destruct lined_up as [U1 U2]. set (b2 := sqrt ((L - r) * (L - r) - e * e)) in *.
    assert (B : sqrt (1 - (e / (L - r))²) = b2 / (L - r)).
    { apply sqrt_lem_1.
      - unfold Rsqr. replace (1 - e / (L - r) * (e / (L - r))) with (b2 * b2 / ((L - r) * (L - r))).
        + apply Rmult_le_pos; [apply Rmult_le_pos; lra|].
          left. apply Rinv_0_lt_compat. apply Rmult_lt_0_compat; lra.
        + replace (b2 * b2) with ((L - r) * (L - r) - e * e) by lra. field. lra.
      - apply Rmult_le_pos; [lra|]. left. apply Rinv_0_lt_compat. lra.
      - unfold Rsqr. replace (b2 / (L - r) * (b2 / (L - r))) with (b2 * b2 / ((L - r) * (L - r))) by (field; lra).
        replace (b2 * b2) with ((L - r) * (L - r) - e * e) by lra. field. lra. }
    rewrite B.
    assert (S : sqrt (L * L - (e + r * (e / (L - r))) * (e + r * (e / (L - r)))) = L * b2 / (L - r)).
    { assert (E : L * L - (e + r * (e / (L - r))) * (e + r * (e / (L - r))) =
                  L * b2 / (L - r) * (L * b2 / (L - r))).
      { replace (L * b2 / (L - r) * (L * b2 / (L - r))) with (L * L * (b2 * b2) / ((L - r) * (L - r)))
          by (field; lra).
        replace (b2 * b2) with ((L - r) * (L - r) - e * e) by lra. field. lra. }
      rewrite E. apply sqrt_square.
      apply Rmult_le_pos; [apply Rmult_le_pos; lra|]. left. apply Rinv_0_lt_compat. lra. }
    rewrite S. field. lra.
  Qed.
  Lemma rh_comp_attained : rdc_frequency c <> 0 ->
    exists t, v_value (fst (rh_volumes (RhombicDrive_from c) t)) = rdc_V_clearance_c c.
  Proof.
    intros Hf. destruct (angle_time PI Hf) as [t Ht]. exists t.
    rewrite rh_comp_value.
    cbn [RhombicDrive_from rd_geometry rd_frequency rd_V_clearance_c rg_eccentricity rg_r_crank rg_L_conn rg_D_p].
    change (2 * PI * rdc_frequency c * t) with (turn_angle (rdc_frequency c) t). rewrite Ht, cos_PI.
    fold e r L. replace (e + r * -1) with (e - r) by ring. ring.
  Qed.
End Linked.

Lemma rh_configured (c : RhConfig R) (s : WsState R) :
  0 <= rdc_eccentricity c -> 0 <= rdc_r_crank c ->
  rdc_eccentricity c + rdc_r_crank c < rdc_L_conn c ->
  exists w vol, ws_from_config (WC_Rhombic c) = Ret w /\ ws_volumes w s = Ret vol /\
  forall t, linked_volumes c (rdc_D_p c) vol t /\
    (rdc_D_p c <> 0 -> true_derivatives vol t).
Proof.
  intros He Hr HL. eexists _, _. split; [reflexivity|]. split; [reflexivity|]. intros t.
  split; [apply rh_linked; assumption|]. intros HD.
  apply rh_true_derivatives; [apply cfg_turns; assumption|exact HD].
Qed.

Lemma rh_default_rods : 0 <= rdc_eccentricity rh_default /\ 0 <= rdc_r_crank rh_default /\
  rdc_eccentricity rh_default + rdc_r_crank rh_default < rdc_L_conn rh_default /\
  rdc_frequency rh_default <> 0.
Proof. unfold rh_default, RhConfig_default. cbn. decimals. repeat split; lra. Qed.

(** ** Zero of the enthalpy and energy scales *)
Lemma zero_scale name P :
  ig_enth (IdealGas_new name) (ig_ref_temp (IdealGas_new name)) P = 0 /\
  ig_inte (IdealGas_new name) (ig_ref_temp (IdealGas_new name)) P = 0 /\ ig_ref_temp (IdealGas_new name) = 250.
Proof.
  assert (E : ig_enth (IdealGas_new name) (ig_ref_temp (IdealGas_new name)) P = 0) by (rewrite enth_eq; ring).
  split; [exact E|]. split; [|apply gas_ref]. unfold ig_inte. rewrite E. cbn [n_sub n_mul R_ops]. ring.
Qed.
