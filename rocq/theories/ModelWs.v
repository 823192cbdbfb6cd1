(** * Model of [src/ws.rs] and [src/ws/*.rs] *)
From Coq Require Import ZArith NArith List.
From Verif Require Import Num ModelTypes.
Import ListNotations.
Local Open Scope num_scope.

(** Engine pressure, src/engine/state.rs:25-30 (it is part of [ws::State]) *)
Record Pressure (F : Type) := mkPressure {
  pr_avg : F; pr_max : F; pr_min : F; pr_t_zero : F }.
Arguments mkPressure {F}. Arguments pr_avg {F}. Arguments pr_max {F}. Arguments pr_min {F}.
Arguments pr_t_zero {F}.

(** src/ws.rs:31-34 and 38-41: [CompVolume] and [ExpVolume] have the same two fields *)
Record Volume (F : Type) := mkVolume { v_value : F; v_deriv : F }.
Arguments mkVolume {F}. Arguments v_value {F}. Arguments v_deriv {F}.

(** src/ws.rs:49-52 *)
Record ThermalResistance (F : Type) := mkTR { tr_comp : F; tr_exp : F }.
Arguments mkTR {F}. Arguments tr_comp {F}. Arguments tr_exp {F}.

(** src/ws.rs:65-68 *)
Record Parasitics (F : Type) := mkPar { par_comp : ParasiticPower F; par_exp : ParasiticPower F }.
Arguments mkPar {F}. Arguments par_comp {F}. Arguments par_exp {F}.

(** src/ws.rs:71-73 *)
Record WsState (F : Type) := mkWsState { wss_pres : Pressure F }.
Arguments mkWsState {F}. Arguments wss_pres {F}.

(** The trait [WorkingSpaces], src/ws.rs:15-27, as a record of its methods.
    Methods may panic (several implementations are [todo!()]).
    Simplification: methods are pure (no interior mutability), and the closure
    returned by [volumes] does not panic (true for all closures in the
    repository).  The closure returns (compression volume, expansion volume). *)
Record WorkingSpaces (F : Type) := mkWs {
  ws_frequency : WsState F -> outcome F;
  ws_volumes : WsState F -> outcome (F -> Volume F * Volume F);
  ws_thermal_resistance : WsState F -> outcome (ThermalResistance F);
  ws_parasitics : WsState F -> outcome (Parasitics F) }.
Arguments mkWs {F}. Arguments ws_frequency {F}. Arguments ws_volumes {F}.
Arguments ws_thermal_resistance {F}. Arguments ws_parasitics {F}.

(** src/ws/sinusoidal_drive.rs:18-21 *)
Record SinGeometry (F : Type) := mkSinGeo { sg_clearance_volume : F; sg_swept_volume : F }.
Arguments mkSinGeo {F}. Arguments sg_clearance_volume {F}. Arguments sg_swept_volume {F}.

(** src/ws/sinusoidal_drive.rs:9-16 *)
Record SinusoidalDrive (F : Type) := mkSin {
  sd_frequency : F; sd_phase_angle : F;
  sd_comp_geometry : SinGeometry F; sd_exp_geometry : SinGeometry F;
  sd_thermal_resistance : ThermalResistance F; sd_parasitics : Parasitics F }.
Arguments mkSin {F}. Arguments sd_frequency {F}. Arguments sd_phase_angle {F}.
Arguments sd_comp_geometry {F}. Arguments sd_exp_geometry {F}.
Arguments sd_thermal_resistance {F}. Arguments sd_parasitics {F}.

(** src/ws/sinusoidal_drive.rs:25-37 *)
Record SinConfig (F : Type) := mkSinCfg {
  sdc_frequency : F; sdc_phase_angle : F;
  sdc_V_swept_c : F; sdc_V_clearance_c : F; sdc_R_c : F; sdc_W_parasitic_c : F;
  sdc_V_swept_e : F; sdc_V_clearance_e : F; sdc_R_e : F; sdc_W_parasitic_e : F;
  sdc_Q_parasitic_e : F }.
Arguments mkSinCfg {F}. Arguments sdc_frequency {F}. Arguments sdc_phase_angle {F}.
Arguments sdc_V_swept_c {F}. Arguments sdc_V_clearance_c {F}. Arguments sdc_R_c {F}.
Arguments sdc_W_parasitic_c {F}. Arguments sdc_V_swept_e {F}. Arguments sdc_V_clearance_e {F}.
Arguments sdc_R_e {F}. Arguments sdc_W_parasitic_e {F}. Arguments sdc_Q_parasitic_e {F}.

(** src/ws/rhombic_drive.rs:35-41 *)
Record RhGeometry (F : Type) := mkRhGeo {
  rg_eccentricity : F; rg_r_crank : F; rg_D_p : F; rg_D_d : F; rg_L_conn : F }.
Arguments mkRhGeo {F}. Arguments rg_eccentricity {F}. Arguments rg_r_crank {F}.
Arguments rg_D_p {F}. Arguments rg_D_d {F}. Arguments rg_L_conn {F}.

(** src/ws/rhombic_drive.rs:24-32 *)
Record RhombicDrive (F : Type) := mkRh {
  rd_frequency : F; rd_geometry : RhGeometry F; rd_parasitics : Parasitics F;
  rd_R_comp : F; rd_R_exp : F; rd_V_clearance_c : F; rd_V_clearance_e : F }.
Arguments mkRh {F}. Arguments rd_frequency {F}. Arguments rd_geometry {F}.
Arguments rd_parasitics {F}. Arguments rd_R_comp {F}. Arguments rd_R_exp {F}.
Arguments rd_V_clearance_c {F}. Arguments rd_V_clearance_e {F}.

(** src/ws/rhombic_drive.rs:45-59 *)
Record RhConfig (F : Type) := mkRhCfg {
  rdc_frequency : F; rdc_V_clearance_c : F; rdc_R_c : F; rdc_W_parasitic_c : F;
  rdc_V_clearance_e : F; rdc_R_e : F; rdc_W_parasitic_e : F; rdc_Q_parasitic_e : F;
  rdc_r_crank : F; rdc_L_conn : F; rdc_eccentricity : F; rdc_D_p : F; rdc_D_d : F }.
Arguments mkRhCfg {F}. Arguments rdc_frequency {F}. Arguments rdc_V_clearance_c {F}.
Arguments rdc_R_c {F}. Arguments rdc_W_parasitic_c {F}. Arguments rdc_V_clearance_e {F}.
Arguments rdc_R_e {F}. Arguments rdc_W_parasitic_e {F}. Arguments rdc_Q_parasitic_e {F}.
Arguments rdc_r_crank {F}. Arguments rdc_L_conn {F}. Arguments rdc_eccentricity {F}.
Arguments rdc_D_p {F}. Arguments rdc_D_d {F}.

(** src/ws/gpu3.rs:9-22 *)
Record WsGpu3Config (F : Type) := mkWsGpu3Cfg {
  wg_frequency : F; wg_V_clearance_c : F; wg_R_c : F; wg_V_clearance_e : F; wg_R_e : F;
  wg_r_crank : F; wg_L_conn : F; wg_eccentricity : F; wg_D : F; wg_D_dr : F; wg_L : F; wg_h : F }.

(** src/ws/mod2.rs:11-28 *)
Record WsMod2Config (F : Type) := mkWsMod2Cfg {
  wm_frequency : F; wm_phaseAngle : F; wm_D : F; wm_h : F; wm_L : F; wm_stroke : F;
  wm_V_clearance_c : F; wm_R_c : F; wm_V_clearance_e : F; wm_R_e : F;
  wm_material_p : Material; wm_material_c : Material;
  wm_th_pw : F; wm_th_cw : F; wm_L_cond : F; wm_e : F }.

(** src/ws.rs:78-83 *)
Inductive WsConfig (F : Type) :=
| WC_Sinusoidal (c : SinConfig F)
| WC_Rhombic (c : RhConfig F)
| WC_GPU3 (c : WsGpu3Config F)
| WC_Mod2 (c : WsMod2Config F).
Arguments WC_Sinusoidal {F}. Arguments WC_Rhombic {F}. Arguments WC_GPU3 {F}. Arguments WC_Mod2 {F}.

(** src/ws.rs:87-92 *)
Inductive LegacyWsConfig (F : Type) :=
| LWC_Sinusoidal (c : SinConfig F)
| LWC_Rhombic (c : RhConfig F)
| LWC_GPU3 (c : WsGpu3Config F)
| LWC_Mod2 (c : WsMod2Config F).
Arguments LWC_Sinusoidal {F}. Arguments LWC_Rhombic {F}. Arguments LWC_GPU3 {F}.
Arguments LWC_Mod2 {F}.

(** src/ws.rs:96-103 *)
Definition LegacyWsConfig_into {F} (c : LegacyWsConfig F) : WsConfig F :=
  match c with
  | LWC_Sinusoidal p => WC_Sinusoidal p
  | LWC_Rhombic p => WC_Rhombic p
  | LWC_GPU3 p => WC_GPU3 p
  | LWC_Mod2 p => WC_Mod2 p
  end.

Section Ws.
  Context {F : Type} {ops : NumOps F}.

  (** src/ws.rs:54-61 *)
  Definition ThermalResistance_default : ThermalResistance F := mkTR n_inf n_inf.
  (** [#[derive(Default)]], src/ws.rs:64 *)
  Definition Parasitics_default : Parasitics F :=
    mkPar ParasiticPower_default ParasiticPower_default.

  (** src/ws/sinusoidal_drive.rs:44-66 *)
  Definition sin_volumes (d : SinusoidalDrive F) : F -> Volume F * Volume F :=
    let vol_clear_c := sg_clearance_volume (sd_comp_geometry d) in
    let vol_swept_c := sg_swept_volume (sd_comp_geometry d) in
    let vol_clear_e := sg_clearance_volume (sd_exp_geometry d) in
    let vol_swept_e := sg_swept_volume (sd_exp_geometry d) in
    let omega := n_lit 2 0 * n_pi * sd_frequency d in
    let phase_angle_rad := sd_phase_angle d * n_pi / n_lit 180 0 in
    fun time =>
      let theta := omega * time in
      let comp :=
        {| v_value := vol_clear_c + nhalf * vol_swept_c * (n1 + n_cos theta);
           v_deriv := - nhalf * vol_swept_c * n_sin theta * omega |} in
      let exp :=
        {| v_value := vol_clear_e + nhalf * vol_swept_e * (n1 + n_cos (theta + phase_angle_rad));
           v_deriv := - nhalf * vol_swept_e * n_sin (theta + phase_angle_rad) * omega |} in
      (comp, exp).

  (** [impl WorkingSpaces for SinusoidalDrive], src/ws/sinusoidal_drive.rs:39-75 *)
  Definition SinusoidalDrive_ws (d : SinusoidalDrive F) : WorkingSpaces F :=
    {| ws_frequency := fun _ => Ret (sd_frequency d);
       ws_volumes := fun _ => Ret (sin_volumes d);
       ws_thermal_resistance := fun _ => Ret (sd_thermal_resistance d);
       ws_parasitics := fun _ => Ret (sd_parasitics d) |}.

  (** src/ws/sinusoidal_drive.rs:77-93 *)
  Definition SinConfig_default : SinConfig F :=
    {| sdc_frequency := n_lit 666667 (-4); sdc_phase_angle := n_lit 90 0;
       sdc_V_swept_c := n_lit 1128 (-7); sdc_V_clearance_c := n_lit 468 (-7);
       sdc_R_c := n_inf; sdc_W_parasitic_c := n0;
       sdc_V_swept_e := n_lit 1128 (-7); sdc_V_clearance_e := n_lit 168 (-7);
       sdc_R_e := n_inf; sdc_W_parasitic_e := n0; sdc_Q_parasitic_e := n0 |}.

  (** src/ws/sinusoidal_drive.rs:95-126 *)
  Definition SinusoidalDrive_from (config : SinConfig F) : SinusoidalDrive F :=
    let parasitics :=
      {| par_comp := {| pp_thermal := n0; pp_mechanical := sdc_W_parasitic_c config;
                        pp_electrical := n0 |};
         par_exp := {| pp_thermal := sdc_Q_parasitic_e config;
                       pp_mechanical := sdc_W_parasitic_e config; pp_electrical := n0 |} |} in
    {| sd_frequency := sdc_frequency config;
       sd_phase_angle := sdc_phase_angle config;
       sd_comp_geometry := {| sg_clearance_volume := sdc_V_clearance_c config;
                              sg_swept_volume := sdc_V_swept_c config |};
       sd_exp_geometry := {| sg_clearance_volume := sdc_V_clearance_e config;
                             sg_swept_volume := sdc_V_swept_e config |};
       sd_thermal_resistance := {| tr_comp := sdc_R_c config; tr_exp := sdc_R_e config |};
       sd_parasitics := parasitics |}.

  (** src/ws/rhombic_drive.rs:91-126 *)
  Definition rh_volumes (d : RhombicDrive F) : F -> Volume F * Volume F :=
    let omega := n2 * n_pi * rd_frequency d in
    let eccentricity := rg_eccentricity (rd_geometry d) in
    let r_crank := rg_r_crank (rd_geometry d) in
    let L_conn := rg_L_conn (rd_geometry d) in
    let V_clearance_c := rd_V_clearance_c d in
    let V_clearance_e := rd_V_clearance_e d in
    let A_p := n_pi * powi2 (rg_D_p (rd_geometry d)) / n_lit 4 0 in
    let A_d := n_pi * powi2 (rg_D_d (rd_geometry d)) / n_lit 4 0 in
    fun time =>
      let theta := omega * time in
      let b_theta := n_sqrt (powi2 L_conn - powi2 (eccentricity + r_crank * n_cos theta)) in
      let b_1 := n_sqrt (powi2 L_conn - powi2 (eccentricity - r_crank)) in
      let b_2 := n_sqrt (powi2 (L_conn - r_crank) - powi2 eccentricity) in
      let dVc_dtheta :=
        - n2 * A_p * r_crank * n_sin theta * (eccentricity + (r_crank * n_cos theta)) / b_theta in
      let dVe_dtheta :=
        - ((dVc_dtheta * A_d) / (n2 * A_p)) - A_d * r_crank * n_cos theta in
      ({| v_value := V_clearance_c + n2 * A_p * (b_1 - b_theta);
          v_deriv := dVc_dtheta * omega |},
       {| v_value := V_clearance_e + A_d * (b_theta - b_2 - r_crank * n_sin theta);
          v_deriv := dVe_dtheta * omega |}).

  (** [impl WorkingSpaces for RhombicDrive], src/ws/rhombic_drive.rs:85-138 *)
  Definition RhombicDrive_ws (d : RhombicDrive F) : WorkingSpaces F :=
    {| ws_frequency := fun _ => Ret (rd_frequency d);
       ws_volumes := fun _ => Ret (rh_volumes d);
       ws_thermal_resistance := fun _ => Ret {| tr_comp := rd_R_comp d; tr_exp := rd_R_exp d |};
       ws_parasitics := fun _ => Ret (rd_parasitics d) |}.

  (** src/ws/rhombic_drive.rs:9-21 and 176-194 *)
  Definition RhConfig_default : RhConfig F :=
    {| rdc_frequency := n_lit 50 0; rdc_V_clearance_c := n_lit 5785 (-9);
       rdc_R_c := n_inf; rdc_W_parasitic_c := n0;
       rdc_V_clearance_e := n_lit 413 (-8); rdc_R_e := n_inf;
       rdc_W_parasitic_e := n0; rdc_Q_parasitic_e := n0;
       rdc_r_crank := n_lit 1397 (-5); rdc_L_conn := n_lit 4602 (-5);
       rdc_eccentricity := n_lit 2065 (-5); rdc_D_p := n_lit 698 (-4);
       rdc_D_d := n_lit 696 (-4) |}.

  (** src/ws/rhombic_drive.rs:140-174 *)
  Definition RhombicDrive_default : RhombicDrive F :=
    {| rd_geometry := {| rg_eccentricity := n_lit 2065 (-5); rg_r_crank := n_lit 1397 (-5);
                         rg_D_p := n_lit 698 (-4); rg_D_d := n_lit 696 (-4);
                         rg_L_conn := n_lit 4602 (-5) |};
       rd_frequency := n_lit 50 0;
       rd_parasitics :=
         {| par_comp := {| pp_thermal := n0; pp_mechanical := n0; pp_electrical := n0 |};
            par_exp := {| pp_thermal := n0; pp_mechanical := n0; pp_electrical := n0 |} |};
       rd_R_comp := n_inf; rd_R_exp := n_inf;
       rd_V_clearance_c := n_lit 5785 (-9); rd_V_clearance_e := n_lit 413 (-8) |}.

  (** src/ws/rhombic_drive.rs:196-226.  Line 202 reads [D_d: config.D_p]. *)
  Definition RhombicDrive_from (config : RhConfig F) : RhombicDrive F :=
    let geometry :=
      {| rg_eccentricity := rdc_eccentricity config; rg_r_crank := rdc_r_crank config;
         rg_D_p := rdc_D_p config; rg_D_d := rdc_D_p config;
         rg_L_conn := rdc_L_conn config |} in
    let parasitics :=
      {| par_comp := {| pp_thermal := n0; pp_mechanical := rdc_W_parasitic_c config;
                        pp_electrical := n0 |};
         par_exp := {| pp_thermal := rdc_Q_parasitic_e config;
                       pp_mechanical := rdc_W_parasitic_e config; pp_electrical := n0 |} |} in
    {| rd_geometry := geometry;
       rd_frequency := rdc_frequency config;
       rd_parasitics := parasitics;
       rd_R_comp := rdc_R_c config; rd_R_exp := rdc_R_e config;
       rd_V_clearance_c := rdc_V_clearance_c config;
       rd_V_clearance_e := rdc_V_clearance_e config |}.

  (** src/engine.rs:96-101: [From<ws::Config> for Box<dyn WorkingSpaces>];
      the GPU3 and Mod2 conversions are [todo!()] (src/ws/gpu3.rs:42-46,
      src/ws/mod2.rs:48-52) *)
  Definition ws_from_config (c : WsConfig F) : outcome (WorkingSpaces F) :=
    match c with
    | WC_Sinusoidal c => Ret (SinusoidalDrive_ws (SinusoidalDrive_from c))
    | WC_Rhombic c => Ret (RhombicDrive_ws (RhombicDrive_from c))
    | WC_GPU3 _ => Panic PTodo
    | WC_Mod2 _ => Panic PTodo
    end.
End Ws.
