(** * C26-C31, C43, C70: kinematics and gas properties in exact arithmetic *)
From Coq Require Import ZArith NArith List Reals.
From Verif Require Import Num ModelTypes ModelWs ModelHx ModelStateEq ModelEngine ModelApi RNum
  Spec SpecGas SpecKin SpecDrive Fixture RFluid RKin RDrive RCase.
Local Open Scope R_scope.

(** C26: sinusoidal drive *)
Theorem C26_derivatives (d : SinusoidalDrive R) (t : R) : true_derivatives (sin_volumes d) t.
Proof. exact (sin_true_derivatives d t). Qed.
Print Assumptions C26_derivatives.
Theorem C26_periodic (d : SinusoidalDrive R) (t : R) :
  sd_frequency d <> 0 -> sin_volumes d (t + 1 / sd_frequency d) = sin_volumes d t.
Proof. exact (sin_periodic d t). Qed.
Print Assumptions C26_periodic.
Theorem C26_bounds (d : SinusoidalDrive R) (t : R) :
  let c := sd_comp_geometry d in let e := sd_exp_geometry d in
  0 <= sg_swept_volume c -> 0 <= sg_swept_volume e ->
  sg_clearance_volume c <= v_value (fst (sin_volumes d t)) <= sg_clearance_volume c + sg_swept_volume c /\
  sg_clearance_volume e <= v_value (snd (sin_volumes d t)) <= sg_clearance_volume e + sg_swept_volume e.
Proof. exact (sin_bounds d t). Qed.
Print Assumptions C26_bounds.
Theorem C26_attained (d : SinusoidalDrive R) :
  let c := sd_comp_geometry d in let e := sd_exp_geometry d in
  sd_frequency d <> 0 ->
  (exists t, v_value (fst (sin_volumes d t)) = sg_clearance_volume c) /\
  (exists t, v_value (fst (sin_volumes d t)) = sg_clearance_volume c + sg_swept_volume c) /\
  (exists t, v_value (snd (sin_volumes d t)) = sg_clearance_volume e) /\
  (exists t, v_value (snd (sin_volumes d t)) = sg_clearance_volume e + sg_swept_volume e).
Proof. exact (sin_attained d). Qed.
Print Assumptions C26_attained.
(** the expansion space is where the compression space will be a phase angle later *)
Theorem C26_phase (d : SinusoidalDrive R) (t : R) :
  let c := sd_comp_geometry d in let e := sd_exp_geometry d in
  sd_frequency d <> 0 ->
  sg_swept_volume c * (v_value (snd (sin_volumes d t)) - sg_clearance_volume e) =
  sg_swept_volume e *
    (v_value (fst (sin_volumes d (t + sd_phase_angle d / 360 * (1 / sd_frequency d)))) - sg_clearance_volume c).
Proof. exact (sin_phase d t). Qed.
Print Assumptions C26_phase.
Example C26_case : sd_frequency case_drive = 60 /\ sd_phase_angle case_drive = 90 /\
  sg_swept_volume (sd_comp_geometry case_drive) = 0.0001.
Proof. exact (conj eq_refl (conj eq_refl eq_refl)). Qed.

(** C27: rhombic drive *)
Theorem C27_derivatives (d : RhombicDrive R) (t : R) :
  turns d -> rg_D_p (rd_geometry d) <> 0 -> true_derivatives (rh_volumes d) t.
Proof. exact (fun HT => rh_true_derivatives d HT t). Qed.
Print Assumptions C27_derivatives.
Theorem C27_periodic (d : RhombicDrive R) (t : R) :
  rd_frequency d <> 0 -> rh_volumes d (t + 1 / rd_frequency d) = rh_volumes d t.
Proof. exact (rh_periodic d t). Qed.
Print Assumptions C27_periodic.
Theorem C27_exp_clearance (d : RhombicDrive R) (t : R) :
  turns d -> rd_V_clearance_e d <= v_value (snd (rh_volumes d t)).
Proof. exact (fun HT => rh_exp_clearance d HT t). Qed.
Print Assumptions C27_exp_clearance.
Theorem C27_comp_clearance (d : RhombicDrive R) (t : R) :
  turns d -> rg_r_crank (rd_geometry d) <= rg_eccentricity (rd_geometry d) ->
  rd_V_clearance_c d <= v_value (fst (rh_volumes d t)).
Proof. exact (fun HT => rh_comp_clearance d HT t). Qed.
Print Assumptions C27_comp_clearance.
Theorem C27_comp_below (d : RhombicDrive R) :
  turns d -> rg_eccentricity (rd_geometry d) < rg_r_crank (rd_geometry d) ->
  rg_D_p (rd_geometry d) <> 0 -> rd_frequency d <> 0 ->
  exists t, v_value (fst (rh_volumes d t)) < rd_V_clearance_c d.
Proof. exact (rh_comp_below d). Qed.
Print Assumptions C27_comp_below.
Example C27_case : turns (intended rh_default) /\ turns (RhombicDrive_from rh_default) /\
  rdc_r_crank rh_default <= rdc_eccentricity rh_default.
Proof. exact rh_default_turns. Qed.
Example C27_below_case : turns rh_long_crank /\
  exists t, v_value (fst (rh_volumes rh_long_crank t)) < rd_V_clearance_c rh_long_crank.
Proof. exact (conj rh_long_turns rh_long_below). Qed.

(** C28: what ignoring the configured displacer diameter does to the volumes *)
Theorem C28_effect (c : RhConfig R) (t : R) :
  fst (rh_volumes (RhombicDrive_from c) t) = fst (rh_volumes (intended c) t) /\
  (v_value (snd (rh_volumes (RhombicDrive_from c) t)) - rdc_V_clearance_e c) * (rdc_D_d c * rdc_D_d c) =
  (v_value (snd (rh_volumes (intended c) t)) - rdc_V_clearance_e c) * (rdc_D_p c * rdc_D_p c).
Proof. exact (conj (intended_comp c t) (intended_exp c t)). Qed.
Print Assumptions C28_effect.
Theorem C28_volumes_differ (c : RhConfig R) :
  turns (intended c) -> 0 < rdc_r_crank c -> rdc_D_d c <> 0 -> rdc_frequency c <> 0 ->
  rdc_D_d c * rdc_D_d c <> rdc_D_p c * rdc_D_p c ->
  exists t, v_value (snd (rh_volumes (RhombicDrive_from c) t)) <> v_value (snd (rh_volumes (intended c) t)).
Proof. exact (intended_differs c). Qed.
Print Assumptions C28_volumes_differ.
Example C28_volumes_case :
  exists t, v_value (snd (rh_volumes (RhombicDrive_from rh_default) t)) <>
            v_value (snd (rh_volumes (intended rh_default) t)).
Proof. exact rh_default_differs. Qed.

(** C29: density and its derivatives, both gases, as the engine sees them *)
Theorem C29_gas_law (name : GasName) (T P : R) :
  let g := IdealGas_new name in let f := IdealGas_Fluid g in 0 < T -> P = fl_dens f T P * ig_gas_constant g * T.
Proof. exact (dens_law _ (gas_R_pos name) T P). Qed.
Print Assumptions C29_gas_law.
Theorem C29_dd_dP_T (name : GasName) (T P : R) :
  let g := IdealGas_new name in let f := IdealGas_Fluid g in 0 < T -> has_deriv (fun p => fl_dens f T p) P (fl_dd_dP_T f T P).
Proof. exact (dd_dP_T_deriv _ (gas_R_pos name) T P). Qed.
Print Assumptions C29_dd_dP_T.
Theorem C29_dd_dT_P (name : GasName) (T P : R) :
  let g := IdealGas_new name in let f := IdealGas_Fluid g in 0 < T -> has_deriv (fun t => fl_dens f t P) T (fl_dd_dT_P f T P).
Proof. exact (dd_dT_P_deriv _ (gas_R_pos name) T P). Qed.
Print Assumptions C29_dd_dT_P.
Theorem C29_du_dP_T (name : GasName) (T P : R) :
  let g := IdealGas_new name in let f := IdealGas_Fluid g in has_deriv (fun p => fl_inte f T p) P (fl_du_dP_T f T P).
Proof. exact (du_dP_T_deriv (IdealGas_new name) T P). Qed.
Print Assumptions C29_du_dP_T.

(** C30: specific heat *)
Theorem C30_helium_cp (T P : R) :
  has_deriv (fun t => fl_enth (IdealGas_Fluid he) t P) T (fl_cp (IdealGas_Fluid he) T P) /\
  has_deriv (fun t => fl_inte (IdealGas_Fluid he) t P) T (fl_du_dT_P (IdealGas_Fluid he) T P).
Proof. exact (conj (he_cp_deriv T P) (he_du_deriv T P)). Qed.
Print Assumptions C30_helium_cp.
Theorem C30_hydrogen_cp_refuted (P : R) :
  ~ has_deriv (fun t => fl_enth (IdealGas_Fluid h2) t P) 300 (fl_cp (IdealGas_Fluid h2) 300 P) /\
  ~ has_deriv (fun t => fl_inte (IdealGas_Fluid h2) t P) 300 (fl_du_dT_P (IdealGas_Fluid h2) 300 P).
Proof. exact (conj (h2_cp_refuted P) (h2_du_refuted P)). Qed.
Print Assumptions C30_hydrogen_cp_refuted.
(** by how much: the coefficients [h2_c] are those of the code *)
Theorem C30_hydrogen_enth (T P : R) : has_deriv (fun t => fl_enth (IdealGas_Fluid h2) t P) T
  (fl_cp (IdealGas_Fluid h2) T P -
   (h2_c 1 / 2 * 250 + h2_c 2 / 3 * (2 * 250) * T + h2_c 3 / 4 * (3 * 250) * T^2
    + h2_c 4 / 5 * (4 * 250) * T^3 + h2_c 5 / 6 * (5 * 250) * T^4)).
Proof. exact (h2_enth_deriv T P). Qed.
Print Assumptions C30_hydrogen_enth.

(** C31: enthalpy and internal energy *)
Theorem C31_h_u (name : GasName) (T P : R) :
  let g := IdealGas_new name in let f := IdealGas_Fluid g in 0 < T -> P <> 0 ->
  fl_enth f T P = fl_inte f T P + P / fl_dens f T P - ig_gas_constant g * ig_ref_temp g.
Proof. exact (h_minus_u _ (gas_R_pos name) T P). Qed.
Print Assumptions C31_h_u.
Theorem C31_h_u_refuted (name : GasName) (T P : R) :
  let g := IdealGas_new name in let f := IdealGas_Fluid g in 0 < T -> P <> 0 ->
  fl_enth f T P <> fl_inte f T P + P / fl_dens f T P.
Proof. exact (h_u_refuted name T P). Qed.
Print Assumptions C31_h_u_refuted.
Theorem C31_zero (name : GasName) (P : R) :
  let g := IdealGas_new name in let f := IdealGas_Fluid g in
  fl_enth f (ig_ref_temp g) P = 0 /\ fl_inte f (ig_ref_temp g) P = 0 /\ ig_ref_temp g = 250.
Proof. exact (zero_scale name P). Qed.
Print Assumptions C31_zero.

(** C43: the normalising enthalpy of helium *)
Theorem C43_norm (comps : Components R) (s : State R) (r : Run R) :
  s_fluid s = IdealGas_Fluid he -> Run_new comps s = Ret r ->
  ru_enth_norm r = 5193.17 * ((te_sink (s_temp s) + te_source (s_temp s)) / 2 - 250).
Proof. exact (norm_eq comps s r). Qed.
Print Assumptions C43_norm.

(** C70: volumes of the configured geometry *)
Theorem C70_sinusoidal (c : SinConfig R) (s : WsState R) :
  exists w vol, ws_from_config (WC_Sinusoidal c) = Ret w /\ ws_volumes w s = Ret vol /\
  forall t,
    v_value (fst (vol t)) =
      swept_space (sdc_V_clearance_c c) (sdc_V_swept_c c) (turn_angle (sdc_frequency c) t) /\
    v_value (snd (vol t)) =
      swept_space (sdc_V_clearance_e c) (sdc_V_swept_e c)
        (turn_angle (sdc_frequency c) t + sdc_phase_angle c / 180 * PI) /\
    true_derivatives vol t.
Proof. exact (sin_configured c s). Qed.
Print Assumptions C70_sinusoidal.
Theorem C70_rhombic (c : RhConfig R) (s : WsState R) :
  0 <= rdc_eccentricity c -> 0 <= rdc_r_crank c -> rdc_eccentricity c + rdc_r_crank c < rdc_L_conn c ->
  exists w vol, ws_from_config (WC_Rhombic c) = Ret w /\ ws_volumes w s = Ret vol /\
  forall t, linked_volumes c (rdc_D_p c) vol t /\ (rdc_D_p c <> 0 -> true_derivatives vol t).
Proof. exact (rh_configured c s). Qed.
Print Assumptions C70_rhombic.
Theorem C70_rhombic_intended (c : RhConfig R) (t : R) :
  0 <= rdc_eccentricity c -> 0 <= rdc_r_crank c -> rdc_eccentricity c + rdc_r_crank c < rdc_L_conn c ->
  linked_volumes c (rdc_D_d c) (rh_volumes (intended c)) t.
Proof. exact (fun He Hr HL => rh_linked_intended c He Hr HL t). Qed.
Print Assumptions C70_rhombic_intended.
Theorem C70_clearance_attained (c : RhConfig R) :
  0 <= rdc_eccentricity c -> 0 <= rdc_r_crank c -> rdc_eccentricity c + rdc_r_crank c < rdc_L_conn c ->
  rdc_frequency c <> 0 ->
  (exists t, v_value (fst (rh_volumes (RhombicDrive_from c) t)) = rdc_V_clearance_c c) /\
  (exists t, v_value (snd (rh_volumes (RhombicDrive_from c) t)) = rdc_V_clearance_e c).
Proof. exact (fun He Hr HL Hf => conj (rh_comp_attained c Hf) (rh_exp_attained c He Hr HL Hf)). Qed.
Print Assumptions C70_clearance_attained.
Example C70_case : 0 <= rdc_eccentricity rh_default /\ 0 <= rdc_r_crank rh_default /\
  rdc_eccentricity rh_default + rdc_r_crank rh_default < rdc_L_conn rh_default /\ rdc_frequency rh_default <> 0.
Proof. exact rh_default_rods. Qed.
