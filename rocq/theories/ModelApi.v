(** * Model of [src/performance.rs], [src/api.rs], [src/config.rs], [src/lib.rs] *)
From Coq Require Import ZArith NArith List.
From Verif Require Import Num ModelTypes ModelWs ModelHx ModelStateEq ModelEngine.
Import ListNotations.
Local Open Scope num_scope.

(** ** nalgebra [DVector<f64>]

    A list; element-wise binary operations panic when the lengths differ (as
    nalgebra asserts).  Scaling multiplies every element by the scalar from the
    right, as nalgebra does. *)
Section DVector.
  Context {F : Type} {ops : NumOps F}.
  Definition DVector := list F.
  Fixpoint dv_zip (f : F -> F -> F) (a b : DVector) : outcome DVector :=
    match a, b with
    | [], [] => Ret []
    | x :: a', y :: b' => let! r := dv_zip f a' b' in Ret (f x y :: r)
    | _, _ => Panic PDim
    end.
  Definition dv_add := dv_zip n_add.
  Definition dv_sub := dv_zip n_sub.
  Definition component_mul := dv_zip n_mul.
  Definition component_div := dv_zip n_div.
  Definition dv_scale (k : F) (a : DVector) : DVector := map (fun x => x * k) a.
  Definition dv_div_scalar (a : DVector) (k : F) : DVector := map (fun x => x / k) a.
  (** [DVector::from_element(n, x)] *)
  Definition dv_from_element (n : nat) (x : F) : DVector := repeat x n.
End DVector.
Arguments DVector F : clear implicits.

(** src/performance.rs:23-26 *)
Record PressuresWithDrops (F : Type) := mkPWD { pwd_P_c : list F; pwd_P_e : list F }.
(** src/performance.rs:29-34 *)
Record Powers (F : Type) := mkPowers {
  pw_indicated : F; pw_indicated_zero_dP : F; pw_shaft : F; pw_net : F }.
(** src/performance.rs:36-39 *)
Record Heats (F : Type) := mkHeats { ht_input : F; ht_rejected : F }.
(** src/performance.rs:12-18 *)
Record Performance (F : Type) := mkPerformance {
  pf_pressures_with_drops : PressuresWithDrops F; pf_power : Powers F; pf_heat : Heats F;
  pf_shaft_torque : F; pf_efficiency : F }.
Arguments mkPWD {F}. Arguments pwd_P_c {F}. Arguments pwd_P_e {F}.
Arguments mkPowers {F}. Arguments pw_indicated {F}. Arguments pw_indicated_zero_dP {F}.
Arguments pw_shaft {F}. Arguments pw_net {F}.
Arguments mkHeats {F}. Arguments ht_input {F}. Arguments ht_rejected {F}.
Arguments mkPerformance {F}. Arguments pf_pressures_with_drops {F}. Arguments pf_power {F}.
Arguments pf_heat {F}. Arguments pf_shaft_torque {F}. Arguments pf_efficiency {F}.

(** src/api.rs:80-86 *)
Record RrEfficiency (F : Type) := mkRrEff { rre_mechanical : F; rre_overall : F }.
(** src/api.rs:90-105 *)
Record RrHeatFlow (F : Type) := mkRrHeat {
  rrh_input : F; rrh_rejection : F; rrh_chx : F; rrh_regen : F; rrh_hhx : F }.
(** src/api.rs:109-113 *)
Record RrMassFlow (F : Type) := mkRrMass { rrm_chx : F; rrm_regen : F; rrm_hhx : F }.
(** src/api.rs:117-135 *)
Record RrPower (F : Type) := mkRrPower {
  rrp_ideal_indicated : F; rrp_indicated : F; rrp_shaft : F; rrp_net : F }.
(** src/api.rs:139-144 *)
Record RrPressure (F : Type) := mkRrPressure {
  rrpr_avg : F; rrpr_max : F; rrpr_min : F; rrpr_t_zero : F }.
(** src/api.rs:148-156 *)
Record RrTemperature (F : Type) := mkRrTemp {
  rrt_sink : F; rrt_chx : F; rrt_regen_cold : F; rrt_regen_avg : F; rrt_regen_hot : F;
  rrt_hhx : F; rrt_source : F }.
(** src/api.rs:170-215 *)
Record RrValues (F : Type) := mkRrValues {
  rrv_time : list F; rrv_P : list F; rrv_P_c : list F; rrv_P_e : list F;
  rrv_T_c : list F; rrv_T_e : list F;
  rrv_m_dot_ck : list F; rrv_m_dot_kr : list F; rrv_m_dot_rl : list F; rrv_m_dot_le : list F;
  rrv_Q_dot_k : list F; rrv_Q_dot_r : list F; rrv_Q_dot_l : list F }.
(** src/api.rs:49-76 *)
Record RunResults (F : Type) := mkRunResults {
  rr_efficiency : RrEfficiency F; rr_heat_flow : RrHeatFlow F; rr_mass_flow : RrMassFlow F;
  rr_power : RrPower F; rr_pressure : RrPressure F; rr_regen_imbalance : F;
  rr_shaft_torque : F; rr_temperature : RrTemperature F; rr_values : RrValues F }.
Arguments mkRrEff {F}. Arguments rre_mechanical {F}. Arguments rre_overall {F}.
Arguments mkRrHeat {F}. Arguments rrh_input {F}. Arguments rrh_rejection {F}.
Arguments rrh_chx {F}. Arguments rrh_regen {F}. Arguments rrh_hhx {F}.
Arguments mkRrMass {F}. Arguments rrm_chx {F}. Arguments rrm_regen {F}. Arguments rrm_hhx {F}.
Arguments mkRrPower {F}. Arguments rrp_ideal_indicated {F}. Arguments rrp_indicated {F}.
Arguments rrp_shaft {F}. Arguments rrp_net {F}.
Arguments mkRrPressure {F}. Arguments rrpr_avg {F}. Arguments rrpr_max {F}.
Arguments rrpr_min {F}. Arguments rrpr_t_zero {F}.
Arguments mkRrTemp {F}. Arguments rrt_sink {F}. Arguments rrt_chx {F}.
Arguments rrt_regen_cold {F}. Arguments rrt_regen_avg {F}. Arguments rrt_regen_hot {F}.
Arguments rrt_hhx {F}. Arguments rrt_source {F}.
Arguments mkRrValues {F}. Arguments rrv_time {F}. Arguments rrv_P {F}. Arguments rrv_P_c {F}.
Arguments rrv_P_e {F}. Arguments rrv_T_c {F}. Arguments rrv_T_e {F}. Arguments rrv_m_dot_ck {F}.
Arguments rrv_m_dot_kr {F}. Arguments rrv_m_dot_rl {F}. Arguments rrv_m_dot_le {F}.
Arguments rrv_Q_dot_k {F}. Arguments rrv_Q_dot_r {F}. Arguments rrv_Q_dot_l {F}.
Arguments mkRunResults {F}. Arguments rr_efficiency {F}. Arguments rr_heat_flow {F}.
Arguments rr_mass_flow {F}. Arguments rr_power {F}. Arguments rr_pressure {F}.
Arguments rr_regen_imbalance {F}. Arguments rr_shaft_torque {F}. Arguments rr_temperature {F}.
Arguments rr_values {F}.

(** src/config.rs:10-14 and 17-25 *)
Record Config (F : Type) := mkConfig {
  cf_engine : EngineConfig F; cf_solver : SolverConfig F; cf_conditions : ConditionsConfig F }.
Record Legacy (F : Type) := mkLegacy {
  lg_fluid : LegacyFluidConfig; lg_ws : LegacyWsConfig F; lg_chx : LegacyChxConfig F;
  lg_regen : LegacyRegenConfig F; lg_hhx : LegacyHhxConfig F;
  lg_solver : LegacySolverConfig F; lg_conditions : LegacyConditionsConfig F }.
Arguments mkConfig {F}. Arguments cf_engine {F}. Arguments cf_solver {F}.
Arguments cf_conditions {F}.
Arguments mkLegacy {F}. Arguments lg_fluid {F}. Arguments lg_ws {F}. Arguments lg_chx {F}.
Arguments lg_regen {F}. Arguments lg_hhx {F}. Arguments lg_solver {F}.
Arguments lg_conditions {F}.

Section Api.
  Context {F : Type} {ops : NumOps F}.

  (** [integrate], src/performance.rs:227-233 *)
  Definition perf_integrate (x y : list F) : F :=
    let xs := windows2 x in
    let ys := windows2 y in
    n_sum (map (fun '((x0, x1), (y0, y1)) => (y1 + y0) * (x1 - x0) * nhalf) (combine xs ys)).

  (** src/performance.rs:103-113 *)
  Definition calculate_hx_pressure_drop (m_dots_0 m_dots_1 : list F) (density : DVector F)
      (hydraulic_resistance : F) : outcome (DVector F) :=
    let! m_sum := dv_add m_dots_0 m_dots_1 in
    let m_dot_avg := dv_scale nhalf m_sum in
    let! volumetric_flow_rate := component_div m_dot_avg density in
    Ret (dv_scale hydraulic_resistance volumetric_flow_rate).

  (** [PressuresWithDrops::new], src/performance.rs:62-100 *)
  Definition PressuresWithDrops_new (engine : Engine F) : outcome (PressuresWithDrops F) :=
    let state := en_state engine in
    let components := en_components engine in
    let values := en_values engine in
    let pressure := vs_P values in
    let dens_cold_hx := map (fun pres => fl_dens (s_fluid state) (te_chx (s_temp state)) pres) pressure in
    let dens_hot_hx := map (fun pres => fl_dens (s_fluid state) (te_hhx (s_temp state)) pres) pressure in
    let dens_regen :=
      map (fun pres => fl_dens (s_fluid state) (rt_avg (te_regen (s_temp state))) pres) pressure in
    let! R_chx := ex_hydraulic_resistance (co_chx components) (State_chx state) in
    let! cold_hx :=
      calculate_hx_pressure_drop (vs_m_dot_ck values) (vs_m_dot_kr values) dens_cold_hx R_chx in
    let! R_hhx := ex_hydraulic_resistance (co_hhx components) (State_hhx state) in
    let! hot_hx :=
      calculate_hx_pressure_drop (vs_m_dot_rl values) (vs_m_dot_le values) dens_hot_hx R_hhx in
    let! R_regen := ex_hydraulic_resistance (co_regen components) (State_regen state) in
    let! regen :=
      calculate_hx_pressure_drop (vs_m_dot_kr values) (vs_m_dot_rl values) dens_regen R_regen in
    let! cold_hot := dv_add cold_hx hot_hx in
    let! total := dv_add cold_hot regen in
    let! P_c := dv_add pressure (dv_scale nhalf total) in
    let! P_e := dv_sub pressure (dv_scale nhalf total) in
    Ret {| pwd_P_c := P_c; pwd_P_e := P_e |}.

  (** [Powers::dV_dts], src/performance.rs:158-169 *)
  Definition dV_dts (time : list F) (ws : WorkingSpaces F) (ws_state : WsState F)
    : outcome (DVector F * DVector F) :=
    let! volumes_func := ws_volumes ws ws_state in
    let vols := map volumes_func time in
    Ret (map (fun v => v_deriv (fst v)) vols, map (fun v => v_deriv (snd v)) vols).

  (** [Powers::new], src/performance.rs:118-155 *)
  Definition Powers_new (pwd : PressuresWithDrops F) (engine : Engine F) : outcome (Powers F) :=
    let state := en_state engine in
    let components := en_components engine in
    let values := en_values engine in
    let! frequency := ws_frequency (co_ws components) (State_ws state) in
    let time := vs_time values in
    let! (dVc_dt, dVe_dt) := dV_dts (vs_time values) (co_ws components) (State_ws state) in
    let! work_c := component_mul (pwd_P_c pwd) dVc_dt in
    let! work_e := component_mul (pwd_P_e pwd) dVe_dt in
    let! work := dv_add work_c work_e in
    let indicated := frequency * perf_integrate time work in
    let pressure := vs_P values in
    let! dV_dt := dv_add dVc_dt dVe_dt in
    let! work_zero := component_mul pressure dV_dt in
    let indicated_zero_dP := frequency * perf_integrate time work_zero in
    let! ws_par := ws_parasitics (co_ws components) (State_ws state) in
    let shaft := indicated - pp_mechanical (par_comp ws_par) - pp_mechanical (par_exp ws_par) in
    let! cold_hx_par := ex_parasitics (co_chx components) (State_chx state) in
    let! hot_hx_par := ex_parasitics (co_hhx components) (State_hhx state) in
    let net := shaft - pp_mechanical cold_hx_par - pp_mechanical hot_hx_par in
    Ret {| pw_indicated := indicated; pw_indicated_zero_dP := indicated_zero_dP;
           pw_shaft := shaft; pw_net := net |}.

  (** [Heats::new], src/performance.rs:174-224 *)
  Definition Heats_new (power : Powers F) (engine : Engine F) : outcome (Heats F) :=
    let state := en_state engine in
    let components := en_components engine in
    let values := en_values engine in
    let! frequency := ws_frequency (co_ws components) (State_ws state) in
    let time := vs_time values in
    let! hhx_par := ex_parasitics (co_hhx components) (State_hhx state) in
    let! regen_par := ex_parasitics (co_regen components) (State_regen state) in
    let! ws_par := ws_parasitics (co_ws components) (State_ws state) in
    let! tr := ws_thermal_resistance (co_ws components) (State_ws state) in
    let T_e := vs_T_e values in
    let! dT_e := dv_sub T_e (dv_from_element (length T_e) (te_hhx (s_temp state))) in
    let Q_dot_e := frequency * perf_integrate time (dv_div_scalar dT_e (tr_exp tr)) in
    let Q_dot_l := frequency * perf_integrate time (vs_Q_dot_l values) in
    let T_c := vs_T_c values in
    let! dT_c := dv_sub T_c (dv_from_element (length T_c) (te_chx (s_temp state))) in
    let Q_dot_c := frequency * perf_integrate time (dv_div_scalar dT_c (tr_comp tr)) in
    let Q_dot_k := frequency * perf_integrate time (vs_Q_dot_k values) in
    let Q_dot_dP := pw_indicated_zero_dP power - pw_indicated power in
    let Q_dot_loss_external :=
      pp_thermal hhx_par + pp_thermal regen_par + pp_thermal (par_exp ws_par) in
    let Q_dot_loss_internal := pp_mechanical (par_comp ws_par) + pp_mechanical (par_exp ws_par) in
    Ret {| ht_input := Q_dot_l - Q_dot_e + Q_dot_loss_external;
           ht_rejected :=
             Q_dot_c + Q_dot_k + Q_dot_dP + Q_dot_loss_internal + Q_dot_loss_external |}.

  (** [From<&Engine<T>> for Performance], src/performance.rs:42-58 *)
  Definition Performance_from (engine : Engine F) : outcome (Performance F) :=
    let! frequency := ws_frequency (co_ws (en_components engine)) (State_ws (en_state engine)) in
    let! pwd := PressuresWithDrops_new engine in
    let! power := Powers_new pwd engine in
    let! heat := Heats_new power engine in
    let shaft_torque := pw_shaft power / (n2 * n_pi * frequency) in
    let efficiency := pw_net power / ht_input heat in
    Ret {| pf_pressures_with_drops := pwd; pf_power := power; pf_heat := heat;
           pf_shaft_torque := shaft_torque; pf_efficiency := efficiency |}.

  (** [From<Engine<T>> for RunResults], src/api.rs:217-279 *)
  Definition RunResults_from (engine : Engine F) : outcome (RunResults F) :=
    let! performance := Performance_from engine in
    let state := en_state engine in
    let values := en_values engine in
    Ret
      {| rr_efficiency :=
           {| rre_mechanical := pf_efficiency performance; rre_overall := n0 |};
         rr_heat_flow :=
           {| rrh_input := ht_input (pf_heat performance);
              rrh_rejection := ht_rejected (pf_heat performance);
              rrh_chx := hf_chx (s_heat_flow state);
              rrh_regen := hf_regen (s_heat_flow state);
              rrh_hhx := hf_hhx (s_heat_flow state) |};
         rr_mass_flow :=
           {| rrm_chx := mf_chx (s_mass_flow state);
              rrm_regen := mf_regen (s_mass_flow state);
              rrm_hhx := mf_hhx (s_mass_flow state) |};
         rr_power :=
           {| rrp_ideal_indicated := pw_indicated_zero_dP (pf_power performance);
              rrp_indicated := pw_indicated (pf_power performance);
              rrp_shaft := pw_shaft (pf_power performance);
              rrp_net := pw_net (pf_power performance) |};
         rr_pressure :=
           {| rrpr_avg := pr_avg (s_pres state); rrpr_max := pr_max (s_pres state);
              rrpr_min := pr_min (s_pres state); rrpr_t_zero := pr_t_zero (s_pres state) |};
         rr_regen_imbalance := s_regen_imbalance state;
         rr_shaft_torque := pf_shaft_torque performance;
         rr_temperature :=
           {| rrt_sink := te_sink (s_temp state); rrt_chx := te_chx (s_temp state);
              rrt_regen_cold := rt_cold (te_regen (s_temp state));
              rrt_regen_avg := rt_avg (te_regen (s_temp state));
              rrt_regen_hot := rt_hot (te_regen (s_temp state));
              rrt_hhx := te_hhx (s_temp state); rrt_source := te_source (s_temp state) |};
         rr_values :=
           {| rrv_time := vs_time values; rrv_P := vs_P values;
              rrv_P_c := pwd_P_c (pf_pressures_with_drops performance);
              rrv_P_e := pwd_P_e (pf_pressures_with_drops performance);
              rrv_T_c := vs_T_c values; rrv_T_e := vs_T_e values;
              rrv_m_dot_ck := vs_m_dot_ck values; rrv_m_dot_kr := vs_m_dot_kr values;
              rrv_m_dot_rl := vs_m_dot_rl values; rrv_m_dot_le := vs_m_dot_le values;
              rrv_Q_dot_k := vs_Q_dot_k values; rrv_Q_dot_r := vs_Q_dot_r values;
              rrv_Q_dot_l := vs_Q_dot_l values |} |}.

  (** The fluid selection of [run_engine], src/api.rs:22-35 (and of
      [run_from_config], src/lib.rs:31-44, which is the same) *)
  Definition fluid_from_config (c : FluidConfig) : outcome (IdealGas F) :=
    match c with
    | FC_Hydrogen model =>
        match model with
        | FM_IdealGas => Ret IdealGas_hydrogen
        | FM_RefProp => Panic PTodo
        | FM_Fit => Panic PTodo
        | FM_Custom => Panic PTodo
        end
    | FC_Helium model =>
        match model with
        | FM_IdealGas => Ret IdealGas_helium
        | FM_RefProp => Panic PTodo
        | FM_Fit => Panic PTodo
        | FM_Custom => Panic PTodo
        end
    end.

  (** [run_engine], src/api.rs:21-45.  [LuSolver] is the decomposition [U]. *)
  Definition run_engine (E : Env F) (U : Decomp F) (config : Config F)
    : outcome (result (RunResults F) RunError) :=
    let! fluid := fluid_from_config (ec_fluid (cf_engine config)) in
    let! components := Components_from (ec_components (cf_engine config)) in
    let! r := Engine_run E U components (IdealGas_Fluid fluid)
                (RunInputs_from (cf_conditions config)) (RunSettings_from (cf_solver config)) in
    match r with
    | Err e => Ret (Err e)
    | Ok engine => let! results := RunResults_from engine in Ret (Ok results)
    end.

  (** [run_from_config], src/lib.rs:29-63; the printed results are the value *)
  Definition run_from_config (E : Env F) (U : Decomp F) (config : Config F)
    : outcome (RunResults F) :=
    let! fluid := fluid_from_config (ec_fluid (cf_engine config)) in
    let! components := Components_from (ec_components (cf_engine config)) in
    let! r := Engine_run E U components (IdealGas_Fluid fluid)
                (RunInputs_from (cf_conditions config)) (RunSettings_from (cf_solver config)) in
    match r with
    | Err _ => Panic PNotConverged
    | Ok engine => RunResults_from engine
    end.

  (** [From<Legacy> for Config], src/config.rs:27-43 *)
  Definition Config_from_legacy (l : Legacy F) : Config F :=
    {| cf_engine :=
         {| ec_fluid := LegacyFluidConfig_into (lg_fluid l);
            ec_components :=
              {| ccf_chx := LegacyChxConfig_into (lg_chx l);
                 ccf_hhx := LegacyHhxConfig_into (lg_hhx l);
                 ccf_regen := LegacyRegenConfig_into (lg_regen l);
                 ccf_ws := LegacyWsConfig_into (lg_ws l) |} |};
       cf_solver := SolverConfig_from (lg_solver l);
       cf_conditions := ConditionsConfig_from (lg_conditions l) |}.
End Api.
