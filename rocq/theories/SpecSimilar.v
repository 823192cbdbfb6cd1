(** * Specification in exact arithmetic: similar engines *)
From Coq Require Import ZArith NArith List Reals.
From Verif Require Import Num ModelTypes ModelWs ModelHx ModelStateEq ModelEngine ModelApi RNum SpecR SpecGas SpecKin SpecTraj
  SpecLaws SpecReport.
Import ListNotations.
Local Open Scope R_scope.

(** ** Size *)
Definition larger_space (k : R) (w : WorkingSpaceIn R) : WorkingSpaceIn R :=
  mkWsIn (k * wi_vol w) (wi_dens w) (wi_inte w) (wi_enth w) (wi_dd_dP_T w) (wi_dd_dT_P w)
    (wi_du_dP_T w) (wi_du_dT_P w) (k * wi_dV_dt w) (k * wi_Q_dot w).
Definition larger_hx (k : R) (x : HeatExchangerIn R) : HeatExchangerIn R :=
  mkHxIn (k * hi_vol x) (hi_dens x) (hi_inte x) (hi_enth x) (hi_dd_dP_T x) (hi_du_dP_T x).
Definition larger_regen (k : R) (x : RegeneratorIn R) : RegeneratorIn R :=
  mkRegIn (k * gi_vol x) (gi_dens x) (gi_inte x) (gi_enth_cold x) (gi_enth_hot x) (gi_dd_dP_T x) (gi_du_dP_T x).
(** all volumes, their rates and the heat losses [k] times as large *)
Definition larger (k : R) (i : Inputs R) : Inputs R :=
  mkInputs (in_pres i) (in_enth_norm i) (larger_space k (in_comp i)) (larger_hx k (in_chx i))
    (larger_regen k (in_regen i)) (larger_hx k (in_hhx i)) (larger_space k (in_exp i)).

(** drives with [k] times the volumes; the rhombic drive with [k] times the lengths *)
Definition larger_sin_geometry (k : R) (g : SinGeometry R) : SinGeometry R :=
  mkSinGeo (k * sg_clearance_volume g) (k * sg_swept_volume g).
Definition larger_sin (k : R) (d : SinusoidalDrive R) : SinusoidalDrive R :=
  mkSin (sd_frequency d) (sd_phase_angle d) (larger_sin_geometry k (sd_comp_geometry d))
    (larger_sin_geometry k (sd_exp_geometry d)) (sd_thermal_resistance d) (sd_parasitics d).
Definition longer_rh (k : R) (d : RhombicDrive R) : RhombicDrive R :=
  let g := rd_geometry d in
  mkRh (rd_frequency d)
    (mkRhGeo (k * rg_eccentricity g) (k * rg_r_crank g) (k * rg_D_p g) (k * rg_D_d g) (k * rg_L_conn g))
    (rd_parasitics d) (rd_R_comp d) (rd_R_exp d) (k ^ 3 * rd_V_clearance_c d) (k ^ 3 * rd_V_clearance_e d).
Definition larger_volume (k : R) (v : Volume R) : Volume R := mkVolume (k * v_value v) (k * v_deriv v).

(** ** The engine at [p] times the pressure, [w] times as fast, with [v] times the volumes *)
Section Similar.
  Context (p w v : R).
  Definition similar_volume (x : Volume R) : Volume R := mkVolume (v * v_value x) (w * v * v_deriv x).
  Definition similar_volumes (vol : R -> Volume R * Volume R) (t : R) : Volume R * Volume R :=
    (similar_volume (fst (vol (w * t))), similar_volume (snd (vol (w * t)))).
  (** powers, heats *)
  Definition similar_power (x : R) : R := p * w * v * x.
  (** the thermal losses of the working spaces, which act on the gas *)
  Definition similar_loss (x : ParasiticPower R) : ParasiticPower R :=
    mkPP (similar_power (pp_thermal x)) (similar_power (pp_mechanical x)) (similar_power (pp_electrical x)).
  Definition similar_losses (x : Parasitics R) : Parasitics R :=
    mkPar (similar_loss (par_comp x)) (similar_loss (par_exp x)).
  Definition similar_pressure (x : Pressure R) : Pressure R :=
    mkPressure (p * pr_avg x) (p * pr_max x) (p * pr_min x) (p * pr_t_zero x).
  Definition similar_run (r : Run R) : Run R :=
    mkRun (ru_enth_norm r) (ru_fluid r) (ru_period r / w) (similar_pressure (ru_pres r)) (ru_temp r)
      (v * ru_vol_chx r) (v * ru_vol_hhx r) (v * ru_vol_regen r) (similar_losses (ru_ws_parasitics r))
      (similar_volumes (ru_ws_vol_fn r)).
  (** flows and heats [p w v] times as large; temperatures change [w] times as fast, the pressure [p w] times *)
  Definition similar_solution (s : Solution R) : Solution R := scaled (p * w * v) w (p * w) s.
  (** the state at the same crank angle *)
  Definition similar_trajectory (c : R -> Conditions R) (t : R) : Conditions R := charged p (c (w * t)).

  (** ** Components and states *)
  (** the working spaces of the other engine answer accordingly *)
  Definition similar_spaces (ws ws' : WorkingSpaces R) (q q' : WsState R) : Prop :=
    (forall f, ws_frequency ws q = Ret f -> ws_frequency ws' q' = Ret (w * f)) /\
    (forall vol, ws_volumes ws q = Ret vol -> exists vol', ws_volumes ws' q' = Ret vol' /\ vol' = similar_volumes vol) /\
    (forall x, ws_parasitics ws q = Ret x -> ws_parasitics ws' q' = Ret (similar_losses x)).
  (** the other engine's state: other pressures, the same gas and temperatures *)
  Definition similar_state (s s' : State R) : Prop :=
    s_pres s' = similar_pressure (s_pres s) /\ s_temp s' = s_temp s /\ s_fluid s' = s_fluid s.
  Definition similar_components (c c' : Components R) (s s' : State R) : Prop :=
    similar_spaces (co_ws c) (co_ws c') (mkWsState (s_pres s)) (mkWsState (s_pres s')) /\
    (forall x, ex_volume (co_chx c) = Ret x -> ex_volume (co_chx c') = Ret (v * x)) /\
    (forall x, ex_volume (co_regen c) = Ret x -> ex_volume (co_regen c') = Ret (v * x)) /\
    (forall x, ex_volume (co_hhx c) = Ret x -> ex_volume (co_hhx c') = Ret (v * x)).

  (** fixed approach temperatures and a sinusoidal drive in proportion *)
  Definition similar_exchanger (f : FixedApproach R) : FixedApproach R :=
    mkFA (p / (w * v) * fa_R_hyd f) (v * fa_volume f) (fa_approach f) (similar_loss (fa_parasitics f)).
  Definition similar_sin (d : SinusoidalDrive R) : SinusoidalDrive R :=
    mkSin (w * sd_frequency d) (sd_phase_angle d) (larger_sin_geometry v (sd_comp_geometry d))
      (larger_sin_geometry v (sd_exp_geometry d))
      (mkTR (tr_comp (sd_thermal_resistance d) / (p * w * v)) (tr_exp (sd_thermal_resistance d) / (p * w * v)))
      (similar_losses (sd_parasitics d)).
  (** a rhombic drive with [k] times the lengths, when [v] is [k ^ 3] *)
  Definition similar_rh (k : R) (d : RhombicDrive R) : RhombicDrive R :=
    let x := longer_rh k d in
    mkRh (w * rd_frequency d) (rd_geometry x) (similar_losses (rd_parasitics d))
      (rd_R_comp d / (p * w * v)) (rd_R_exp d / (p * w * v)) (rd_V_clearance_c x) (rd_V_clearance_e x).
  (** a drive in proportion to another *)
  Definition in_proportion (ws ws' : WorkingSpaces R) : Prop :=
    (exists d, ws = SinusoidalDrive_ws d /\ ws' = SinusoidalDrive_ws (similar_sin d)) \/
    (exists d k, 0 < k /\ v = k ^ 3 /\ ws = RhombicDrive_ws d /\ ws' = RhombicDrive_ws (similar_rh k d)).
  Definition fixed_engine (ws : WorkingSpaces R) (a b c : FixedApproach R) : Components R :=
    mkComponents ws (chx_FixedApproach a) (regen_FixedApproach b) (hhx_FixedApproach c).

  (** ** Reports *)
  (** losses, wall conductances and pressure drops in proportion *)
  Definition similar_replies (a : Replies R) : Replies R :=
    mkReplies (w * rp_freq a) (similar_volumes (rp_vols a)) (similar_losses (rp_par a))
      (mkTR (tr_comp (rp_res a) / (p * w * v)) (tr_exp (rp_res a) / (p * w * v)))
      (p / (w * v) * rp_R_chx a) (p / (w * v) * rp_R_regen a) (p / (w * v) * rp_R_hhx a)
      (similar_loss (rp_chx a)) (similar_loss (rp_regen a)) (similar_loss (rp_hhx a)).
  Definition similar_sample (x : SeValues R) : SeValues R :=
    mkSeValues (sv_time x / w) (charged p (sv_conditions x)) (similar_solution (sv_solution x)).
  Definition similar_report (r r' : RunResults R) : Prop :=
    rrp_indicated (rr_power r') = similar_power (rrp_indicated (rr_power r)) /\
    rrp_ideal_indicated (rr_power r') = similar_power (rrp_ideal_indicated (rr_power r)) /\
    rrp_shaft (rr_power r') = similar_power (rrp_shaft (rr_power r)) /\
    rrp_net (rr_power r') = similar_power (rrp_net (rr_power r)) /\
    rrh_input (rr_heat_flow r') = similar_power (rrh_input (rr_heat_flow r)) /\
    rrh_rejection (rr_heat_flow r') = similar_power (rrh_rejection (rr_heat_flow r)) /\
    rr_shaft_torque r' = p * v * rr_shaft_torque r /\
    rre_mechanical (rr_efficiency r') = rre_mechanical (rr_efficiency r).
End Similar.
