(** * Model of [src/engine.rs], [src/engine/state.rs], [src/engine/run.rs] *)
From Coq Require Import ZArith NArith List.
From Verif Require Import Num ModelTypes ModelWs ModelHx ModelStateEq.
Import ListNotations.
Local Open Scope num_scope.

(** src/engine.rs:25-30 *)
Record Components (F : Type) := mkComponents {
  co_ws : WorkingSpaces F; co_chx : ColdHeatExchanger F;
  co_regen : Regenerator F; co_hhx : HotHeatExchanger F }.
Arguments mkComponents {F}. Arguments co_ws {F}. Arguments co_chx {F}. Arguments co_regen {F}.
Arguments co_hhx {F}.

(** src/engine/state.rs:44-48 *)
Record RegenTemp (F : Type) := mkRegenTemp { rt_cold : F; rt_avg : F; rt_hot : F }.
Arguments mkRegenTemp {F}. Arguments rt_cold {F}. Arguments rt_avg {F}. Arguments rt_hot {F}.
(** src/engine/state.rs:34-40 *)
Record Temperatures (F : Type) := mkTemps {
  te_sink : F; te_chx : F; te_regen : RegenTemp F; te_hhx : F; te_source : F }.
Arguments mkTemps {F}. Arguments te_sink {F}. Arguments te_chx {F}. Arguments te_regen {F}.
Arguments te_hhx {F}. Arguments te_source {F}.
(** src/engine/state.rs:52-56 *)
Record MassFlows (F : Type) := mkMassFlows { mf_chx : F; mf_regen : F; mf_hhx : F }.
Arguments mkMassFlows {F}. Arguments mf_chx {F}. Arguments mf_regen {F}. Arguments mf_hhx {F}.
(** src/engine/state.rs:60-64 *)
Record HeatFlows (F : Type) := mkHeatFlows { hf_chx : F; hf_regen : F; hf_hhx : F }.
Arguments mkHeatFlows {F}. Arguments hf_chx {F}. Arguments hf_regen {F}. Arguments hf_hhx {F}.
(** src/engine/state.rs:14-21; the newtype [RegenImbalance(f64)] (line 87) is [F] *)
Record State (F : Type) := mkState {
  s_fluid : Fluid F; s_pres : Pressure F; s_temp : Temperatures F;
  s_mass_flow : MassFlows F; s_heat_flow : HeatFlows F; s_regen_imbalance : F }.
Arguments mkState {F}. Arguments s_fluid {F}. Arguments s_pres {F}. Arguments s_temp {F}.
Arguments s_mass_flow {F}. Arguments s_heat_flow {F}. Arguments s_regen_imbalance {F}.
(** src/engine/state.rs:92-104 *)
Record Values (F : Type) := mkValues {
  vs_time : list F; vs_P : list F; vs_T_c : list F; vs_T_e : list F;
  vs_m_dot_ck : list F; vs_m_dot_kr : list F; vs_m_dot_rl : list F; vs_m_dot_le : list F;
  vs_Q_dot_k : list F; vs_Q_dot_r : list F; vs_Q_dot_l : list F }.
Arguments mkValues {F}. Arguments vs_time {F}. Arguments vs_P {F}. Arguments vs_T_c {F}.
Arguments vs_T_e {F}. Arguments vs_m_dot_ck {F}. Arguments vs_m_dot_kr {F}.
Arguments vs_m_dot_rl {F}. Arguments vs_m_dot_le {F}. Arguments vs_Q_dot_k {F}.
Arguments vs_Q_dot_r {F}. Arguments vs_Q_dot_l {F}.
(** src/engine/state.rs:107-111 *)
Record Approach (F : Type) := mkApproach { ap_chx : F; ap_regen : F; ap_hhx : F }.
Arguments mkApproach {F}. Arguments ap_chx {F}. Arguments ap_regen {F}. Arguments ap_hhx {F}.
(** src/engine.rs:18-22 *)
Record Engine (F : Type) := mkEngine {
  en_components : Components F; en_state : State F; en_values : Values F }.
Arguments mkEngine {F}. Arguments en_components {F}. Arguments en_state {F}.
Arguments en_values {F}.

(** src/engine.rs:86-91 and 80-83 *)
Record ComponentsConfig (F : Type) := mkComponentsCfg {
  ccf_chx : ChxConfig F; ccf_hhx : HhxConfig F; ccf_regen : RegenConfig F; ccf_ws : WsConfig F }.
Record EngineConfig (F : Type) := mkEngineCfg {
  ec_fluid : FluidConfig; ec_components : ComponentsConfig F }.
Arguments mkComponentsCfg {F}. Arguments ccf_chx {F}. Arguments ccf_hhx {F}.
Arguments ccf_regen {F}. Arguments ccf_ws {F}.
Arguments mkEngineCfg {F}. Arguments ec_fluid {F}. Arguments ec_components {F}.

(** [itertools::tuple_windows] for pairs *)
Fixpoint windows2 {A} (l : list A) : list (A * A) :=
  match l with
  | a :: ((b :: _) as l') => (a, b) :: windows2 l'
  | _ => []
  end.

Section StateRs.
  Context {F : Type} {ops : NumOps F}.

  (** [integrate], src/engine/state.rs:527-533 *)
  Definition integrate (x y : list F) : F :=
    let xs := windows2 x in
    let ys := windows2 y in
    n_sum (map (fun '((x0, x1), (y0, y1)) => (y1 + y0) * (x1 - x0) * nhalf) (combine xs ys)).

  (** [Values::final_time], src/engine/state.rs:418-420 *)
  Definition final_time (v : Values F) : outcome F := last_unwrap (vs_time v).

  (** [Values::m_dot_avg], src/engine/state.rs:441-451 *)
  Definition m_dot_avg (v : Values F) (left right : list F) : outcome F :=
    let m_dot := map (fun '(l, r) => nhalf * n_abs (l + r)) (combine left right) in
    let! t_final := final_time v in
    Ret (integrate (vs_time v) m_dot / t_final).
  (** src/engine/state.rs:423-435 *)
  Definition m_dot_chx (v : Values F) := m_dot_avg v (vs_m_dot_ck v) (vs_m_dot_kr v).
  Definition m_dot_regen (v : Values F) := m_dot_avg v (vs_m_dot_kr v) (vs_m_dot_rl v).
  Definition m_dot_hhx (v : Values F) := m_dot_avg v (vs_m_dot_rl v) (vs_m_dot_le v).

  (** [From<Vec<state_equations::Values>> for Values], src/engine/state.rs:456-499 *)
  Definition Values_from (values : list (SeValues F)) : Values F :=
    {| vs_time := map (fun v => sv_time v) values;
       vs_P := map (fun v => cd_P (sv_conditions v)) values;
       vs_T_c := map (fun v => cd_T_c (sv_conditions v)) values;
       vs_T_e := map (fun v => cd_T_e (sv_conditions v)) values;
       vs_m_dot_ck := map (fun v => so_m_dot_ck (sv_solution v)) values;
       vs_m_dot_kr := map (fun v => so_m_dot_kr (sv_solution v)) values;
       vs_m_dot_rl := map (fun v => so_m_dot_rl (sv_solution v)) values;
       vs_m_dot_le := map (fun v => so_m_dot_le (sv_solution v)) values;
       vs_Q_dot_k := map (fun v => so_Q_dot_k (sv_solution v)) values;
       vs_Q_dot_r := map (fun v => so_Q_dot_r (sv_solution v)) values;
       vs_Q_dot_l := map (fun v => so_Q_dot_l (sv_solution v)) values |}.

  (** src/engine/state.rs:505-523 *)
  Definition regen_temp (imbalance temp_chx temp_hhx approach : F) : RegenTemp F :=
    let cold_approach := if n_le n0 imbalance then approach else approach - imbalance in
    let hot_approach := if n_le n0 imbalance then approach + imbalance else approach in
    let cold := temp_chx + cold_approach in
    let hot := temp_hhx - hot_approach in
    let avg :=
      (temp_hhx - nhalf * hot_approach - temp_chx - nhalf * cold_approach)
      / n_ln ((temp_hhx - nhalf * hot_approach) / (temp_chx + nhalf * cold_approach)) in
    {| rt_cold := cold; rt_avg := avg; rt_hot := hot |}.

  (** src/engine/state.rs:263-270 *)
  Definition Pressure_constant (value : F) : Pressure F :=
    {| pr_avg := value; pr_max := value; pr_min := value; pr_t_zero := value |}.

  (** [iter().max_by(total_cmp)] / [min_by]: Rust keeps the later of equal
      maxima and the earlier of equal minima *)
  Definition max_by (l : list F) : outcome F :=
    match l with
    | [] => Panic PEmpty
    | a :: l' => Ret (fold_left (fun x y => if n_total_le x y then y else x) l' a)
    end.
  Definition min_by (l : list F) : outcome F :=
    match l with
    | [] => Panic PEmpty
    | a :: l' => Ret (fold_left (fun x y => if n_total_le x y then x else y) l' a)
    end.

  (** [Pressure::from_values], src/engine/state.rs:273-294 *)
  Definition Pressure_from_values (v : Values F) : outcome (Pressure F) :=
    let! t_final := final_time v in
    let avg := integrate (vs_time v) (vs_P v) / t_final in
    let! t_zero := first_unwrap (vs_P v) in
    let! max := max_by (vs_P v) in
    let! min := min_by (vs_P v) in
    Ret {| pr_avg := avg; pr_max := max; pr_min := min; pr_t_zero := t_zero |}.

  (** src/engine/state.rs:300-316 *)
  Definition Temperatures_from_approach (sink source : F) (approach : Approach F)
      (regen_imbalance : F) : Temperatures F :=
    let chx := sink + ap_chx approach in
    let hhx := source - ap_hhx approach in
    let regen := regen_temp regen_imbalance chx hhx (ap_regen approach) in
    {| te_sink := sink; te_chx := chx; te_regen := regen; te_hhx := hhx; te_source := source |}.

  (** src/engine/state.rs:328-332 *)
  Definition RegenTemp_is_converged (t other : RegenTemp F) (tol : ConvergenceTolerance F) : bool :=
    is_converged tol (rt_cold t) (rt_cold other)
    && is_converged tol (rt_avg t) (rt_avg other)
    && is_converged tol (rt_hot t) (rt_hot other).

  (** src/engine/state.rs:319-323 *)
  Definition Temperatures_is_converged (t other : Temperatures F) (tol : ConvergenceTolerance F)
    : bool :=
    is_converged tol (te_chx t) (te_chx other)
    && is_converged tol (te_hhx t) (te_hhx other)
    && RegenTemp_is_converged (te_regen t) (te_regen other) tol.

  (** src/engine/state.rs:337-343 and 346-352 *)
  Definition MassFlows_constant (value : F) : MassFlows F :=
    {| mf_chx := value; mf_regen := value; mf_hhx := value |}.
  Definition MassFlows_from_values (v : Values F) : outcome (MassFlows F) :=
    let! chx := m_dot_chx v in
    let! regen := m_dot_regen v in
    let! hhx := m_dot_hhx v in
    Ret {| mf_chx := chx; mf_regen := regen; mf_hhx := hhx |}.

  (** src/engine/state.rs:357-363 *)
  Definition HeatFlows_constant (value : F) : HeatFlows F :=
    {| hf_chx := value; hf_regen := value; hf_hhx := value |}.

  (** [HeatFlows::from_values], src/engine/state.rs:373-413 *)
  Definition HeatFlows_from_values (v : Values F) (temp_chx temp_hhx : F)
      (thermal_res : ThermalResistance F) : outcome (HeatFlows F) :=
    let! t_final := final_time v in
    let Q_dot_c :=
      if n_is_inf (tr_comp thermal_res) then n0
      else
        let Q_dot_c := map (fun T_c => (T_c - temp_chx) / tr_comp thermal_res) (vs_T_c v) in
        integrate (vs_time v) Q_dot_c / t_final in
    let Q_dot_k := integrate (vs_time v) (vs_Q_dot_k v) / t_final in
    let chx := Q_dot_c + Q_dot_k in
    let regen := integrate (vs_time v) (vs_Q_dot_r v) / t_final in
    let Q_dot_e :=
      if n_is_inf (tr_exp thermal_res) then n0
      else
        let Q_dot_e := map (fun T_e => (temp_hhx - T_e) / tr_exp thermal_res) (vs_T_e v) in
        integrate (vs_time v) Q_dot_e / t_final in
    let Q_dot_l := integrate (vs_time v) (vs_Q_dot_l v) / t_final in
    let hhx := Q_dot_e + Q_dot_l in
    Ret {| hf_chx := chx; hf_regen := regen; hf_hhx := hhx |}.

  (** src/engine/state.rs:181-183 *)
  Definition State_ws (s : State F) : WsState F := {| wss_pres := s_pres s |}.
  (** src/engine/state.rs:186-198 *)
  Definition State_chx (s : State F) : ChxState F :=
    {| chs_hxr :=
         {| hx_temp := te_chx (s_temp s); hx_pres := pr_avg (s_pres s);
            hx_dens := fl_dens (s_fluid s) (te_chx (s_temp s)) (pr_avg (s_pres s));
            hx_cp := fl_cp (s_fluid s) (te_chx (s_temp s)) (pr_avg (s_pres s));
            hx_m_dot := mf_chx (s_mass_flow s); hx_Q_dot := hf_chx (s_heat_flow s) |};
       chs_sink_temp := te_sink (s_temp s) |}.
  (** src/engine/state.rs:201-214 *)
  Definition State_regen (s : State F) : RegenState F :=
    {| res_hxr :=
         {| hx_temp := rt_avg (te_regen (s_temp s)); hx_pres := pr_avg (s_pres s);
            hx_dens := fl_dens (s_fluid s) (rt_avg (te_regen (s_temp s))) (pr_avg (s_pres s));
            hx_cp := fl_cp (s_fluid s) (rt_avg (te_regen (s_temp s))) (pr_avg (s_pres s));
            hx_m_dot := mf_regen (s_mass_flow s); hx_Q_dot := hf_regen (s_heat_flow s) |};
       res_temp_chx := te_chx (s_temp s); res_temp_hhx := te_hhx (s_temp s) |}.
  (** src/engine/state.rs:217-229 *)
  Definition State_hhx (s : State F) : HhxState F :=
    {| hhs_hxr :=
         {| hx_temp := te_hhx (s_temp s); hx_pres := pr_avg (s_pres s);
            hx_dens := fl_dens (s_fluid s) (te_hhx (s_temp s)) (pr_avg (s_pres s));
            hx_cp := fl_cp (s_fluid s) (te_hhx (s_temp s)) (pr_avg (s_pres s));
            hx_m_dot := mf_hhx (s_mass_flow s); hx_Q_dot := hf_hhx (s_heat_flow s) |};
       hhs_source_temp := te_source (s_temp s) |}.

  (** [State::update], src/engine/state.rs:120-178.  [Err s] is the converged
      case (the original state), [Ok s] the updated state. *)
  Definition State_update (self : State F) (components : Components F) (values : Values F)
      (tol : ConvergenceTolerance F) : outcome (result (State F) (State F)) :=
    let! pres := Pressure_from_values values in
    let! mass_flow := MassFlows_from_values values in
    let ws_state := State_ws self in
    let! thermal_res := ws_thermal_resistance (co_ws components) ws_state in
    let! heat_flow :=
      HeatFlows_from_values values (te_chx (s_temp self)) (te_hhx (s_temp self)) thermal_res in
    let regen_imbalance := s_regen_imbalance self in
    let new_state :=
      {| s_fluid := s_fluid self; s_temp := s_temp self; s_pres := pres;
         s_mass_flow := mass_flow; s_heat_flow := heat_flow;
         s_regen_imbalance := regen_imbalance |} in
    let! a_chx := ex_approach (co_chx components) (State_chx new_state) in
    let! a_regen := ex_approach (co_regen components) (State_regen new_state) in
    let! a_hhx := ex_approach (co_hhx components) (State_hhx new_state) in
    let approach := {| ap_chx := a_chx; ap_regen := a_regen; ap_hhx := a_hhx |} in
    let new_temp :=
      Temperatures_from_approach (te_sink (s_temp self)) (te_source (s_temp self)) approach
        regen_imbalance in
    if Temperatures_is_converged (s_temp self) new_temp tol then
      Ret (Err {| s_fluid := s_fluid new_state; s_temp := s_temp self; s_pres := s_pres self;
                  s_mass_flow := s_mass_flow self; s_heat_flow := s_heat_flow self;
                  s_regen_imbalance := s_regen_imbalance self |})
    else
      Ret (Ok {| s_temp := new_temp; s_fluid := s_fluid new_state; s_pres := s_pres new_state;
                 s_mass_flow := s_mass_flow new_state; s_heat_flow := s_heat_flow new_state;
                 s_regen_imbalance := s_regen_imbalance new_state |}).

  (** [State::new_hint], src/engine/state.rs:233-258 *)
  Definition State_new_hint (components : Components F) (fluid : Fluid F) (inputs : RunInputs F)
    : outcome (State F) :=
    let! a_chx := ex_initial_approach (co_chx components) in
    let! a_regen := ex_initial_approach (co_regen components) in
    let! a_hhx := ex_initial_approach (co_hhx components) in
    let approach := {| ap_chx := a_chx; ap_regen := a_regen; ap_hhx := a_hhx |} in
    let regen_imbalance := n0 in
    Ret {| s_fluid := fluid;
           s_pres := Pressure_constant (ri_pres_zero inputs);
           s_temp := Temperatures_from_approach (ri_temp_sink inputs) (ri_temp_source inputs)
                       approach regen_imbalance;
           s_mass_flow := MassFlows_constant n0;
           s_heat_flow := HeatFlows_constant n0;
           s_regen_imbalance := regen_imbalance |}.

  (** ** src/engine/run.rs *)

  (** src/engine/run.rs:18-30 *)
  Record Run := mkRun {
    ru_enth_norm : F; ru_fluid : Fluid F; ru_period : F; ru_pres : Pressure F;
    ru_temp : Temperatures F; ru_vol_chx : F; ru_vol_hhx : F; ru_vol_regen : F;
    ru_ws_parasitics : Parasitics F; ru_ws_vol_fn : F -> Volume F * Volume F }.

  (** src/engine/run.rs:35-65 *)
  Definition Run_new (components : Components F) (state : State F) : outcome Run :=
    let h_sink := fl_enth (s_fluid state) (te_sink (s_temp state)) (pr_avg (s_pres state)) in
    let h_source := fl_enth (s_fluid state) (te_source (s_temp state)) (pr_avg (s_pres state)) in
    let enth_norm := nhalf * (h_sink + h_source) in
    let! vol_chx := ex_volume (co_chx components) in
    let! vol_regen := ex_volume (co_regen components) in
    let! vol_hhx := ex_volume (co_hhx components) in
    let ws_state := State_ws state in
    let! frequency := ws_frequency (co_ws components) ws_state in
    let period := n1 / frequency in
    let! ws_vol_fn := ws_volumes (co_ws components) ws_state in
    let! parasitics := ws_parasitics (co_ws components) ws_state in
    Ret {| ru_enth_norm := enth_norm; ru_fluid := s_fluid state; ru_period := period;
           ru_pres := s_pres state; ru_temp := s_temp state; ru_vol_chx := vol_chx;
           ru_vol_hhx := vol_hhx; ru_vol_regen := vol_regen;
           ru_ws_parasitics := parasitics; ru_ws_vol_fn := ws_vol_fn |}.

  (** src/engine/run.rs:67-80 *)
  Definition comp_inputs (r : Run) (vol : Volume F) (temp pres : F) : WorkingSpaceIn F :=
    {| wi_vol := v_value vol;
       wi_dens := fl_dens (ru_fluid r) temp pres; wi_inte := fl_inte (ru_fluid r) temp pres;
       wi_enth := fl_enth (ru_fluid r) temp pres; wi_dd_dP_T := fl_dd_dP_T (ru_fluid r) temp pres;
       wi_dd_dT_P := fl_dd_dT_P (ru_fluid r) temp pres;
       wi_du_dP_T := fl_du_dP_T (ru_fluid r) temp pres;
       wi_du_dT_P := fl_du_dT_P (ru_fluid r) temp pres;
       wi_dV_dt := v_deriv vol;
       wi_Q_dot := pp_thermal (par_comp (ru_ws_parasitics r)) |}.
  (** src/engine/run.rs:82-92 *)
  Definition chx_inputs (r : Run) (pres : F) : HeatExchangerIn F :=
    let temp := te_chx (ru_temp r) in
    {| hi_vol := ru_vol_chx r;
       hi_dens := fl_dens (ru_fluid r) temp pres; hi_inte := fl_inte (ru_fluid r) temp pres;
       hi_enth := fl_enth (ru_fluid r) temp pres; hi_dd_dP_T := fl_dd_dP_T (ru_fluid r) temp pres;
       hi_du_dP_T := fl_du_dP_T (ru_fluid r) temp pres |}.
  (** src/engine/run.rs:94-105 *)
  Definition regen_inputs (r : Run) (pres : F) : RegeneratorIn F :=
    let temp := rt_avg (te_regen (ru_temp r)) in
    {| gi_vol := ru_vol_regen r;
       gi_dens := fl_dens (ru_fluid r) temp pres; gi_inte := fl_inte (ru_fluid r) temp pres;
       gi_dd_dP_T := fl_dd_dP_T (ru_fluid r) temp pres;
       gi_du_dP_T := fl_du_dP_T (ru_fluid r) temp pres;
       gi_enth_cold := fl_enth (ru_fluid r) (rt_cold (te_regen (ru_temp r))) pres;
       gi_enth_hot := fl_enth (ru_fluid r) (rt_hot (te_regen (ru_temp r))) pres |}.
  (** src/engine/run.rs:107-117 *)
  Definition hhx_inputs (r : Run) (pres : F) : HeatExchangerIn F :=
    let temp := te_hhx (ru_temp r) in
    {| hi_vol := ru_vol_hhx r;
       hi_dens := fl_dens (ru_fluid r) temp pres; hi_inte := fl_inte (ru_fluid r) temp pres;
       hi_enth := fl_enth (ru_fluid r) temp pres; hi_dd_dP_T := fl_dd_dP_T (ru_fluid r) temp pres;
       hi_du_dP_T := fl_du_dP_T (ru_fluid r) temp pres |}.
  (** src/engine/run.rs:119-132 *)
  Definition exp_inputs (r : Run) (vol : Volume F) (temp pres : F) : WorkingSpaceIn F :=
    {| wi_vol := v_value vol;
       wi_dens := fl_dens (ru_fluid r) temp pres; wi_inte := fl_inte (ru_fluid r) temp pres;
       wi_enth := fl_enth (ru_fluid r) temp pres; wi_dd_dP_T := fl_dd_dP_T (ru_fluid r) temp pres;
       wi_dd_dT_P := fl_dd_dT_P (ru_fluid r) temp pres;
       wi_du_dP_T := fl_du_dP_T (ru_fluid r) temp pres;
       wi_du_dT_P := fl_du_dT_P (ru_fluid r) temp pres;
       wi_dV_dt := v_deriv vol;
       wi_Q_dot := pp_thermal (par_exp (ru_ws_parasitics r)) |}.

  (** src/engine/run.rs:138-150 *)
  Definition Run_calculate_inputs (r : Run) (time : F) (conditions : Conditions F) : Inputs F :=
    let P := cd_P conditions in
    let T_c := cd_T_c conditions in
    let T_e := cd_T_e conditions in
    let '(comp_vol, exp_vol) := ru_ws_vol_fn r time in
    {| in_pres := P; in_enth_norm := ru_enth_norm r;
       in_comp := comp_inputs r comp_vol T_c P;
       in_chx := chx_inputs r P; in_regen := regen_inputs r P; in_hhx := hhx_inputs r P;
       in_exp := exp_inputs r exp_vol T_e P |}.

  (** [impl Cycle for Run], src/engine/run.rs:135-159 *)
  Definition Run_Cycle (r : Run) : Cycle F :=
    {| cy_calculate_inputs := Run_calculate_inputs r;
       cy_period := ru_period r;
       cy_pres_zero := pr_t_zero (ru_pres r) |}.

  (** ** src/engine.rs *)
  Variable E : Env F.
  Variable U : Decomp F.

  (** The loop of [Engine::run], src/engine.rs:47-75.  Ghost output: the number
      of integrations performed. *)
  Fixpoint run_loop (components : Components F) (settings : RunSettings F) (n : nat)
      (state : State F) : nat * outcome (result (Engine F) RunError) :=
    match n with
    | O => (0, Ret (Err OuterLoop))
    | S n' =>
        match Run_new components state with
        | Panic r => (0, Panic r)
        | Ret run =>
            let (k, values) :=
              find_steady_state_counted E U (Run_Cycle run)
                {| ssi_pres_zero := pr_t_zero (s_pres state);
                   ssi_temp_comp_hint := te_chx (s_temp state);
                   ssi_temp_exp_hint := te_hhx (s_temp state);
                   ssi_num_points := rs_resolution settings;
                   ssi_ode_tol := rs_ode_tol settings;
                   ssi_conv_tol := lt_inner (rs_loop_tol settings);
                   ssi_max_iters := mi_inner (rs_max_iters settings) |} in
            match values with
            | Panic r => (k, Panic r)
            | Ret (Err _) => (k, Ret (Err InnerLoop))
            | Ret (Ok values) =>
                let values := Values_from values in
                match State_update state components values (lt_outer (rs_loop_tol settings)) with
                | Panic r => (k, Panic r)
                | Ret (Ok new_state) =>
                    let (k', r) := run_loop components settings n' new_state in
                    (k + k', r)
                | Ret (Err state) =>
                    (k, Ret (Ok {| en_components := components; en_state := state;
                                   en_values := values |}))
                end
            end
        end
    end%nat.

  (** [Engine::run], src/engine.rs:40-76 *)
  Definition Engine_run_counted (components : Components F) (fluid : Fluid F)
      (inputs : RunInputs F) (settings : RunSettings F)
    : nat * outcome (result (Engine F) RunError) :=
    match State_new_hint components fluid inputs with
    | Panic r => (0%nat, Panic r)
    | Ret state => run_loop components settings (N.to_nat (mi_outer (rs_max_iters settings))) state
    end.
  Definition Engine_run (components : Components F) (fluid : Fluid F) (inputs : RunInputs F)
      (settings : RunSettings F) : outcome (result (Engine F) RunError) :=
    snd (Engine_run_counted components fluid inputs settings).

  (** [From<ComponentsConfig> for Components], src/engine.rs:93-132 *)
  Definition Components_from (config : ComponentsConfig F) : outcome (Components F) :=
    let! ws := ws_from_config (ccf_ws config) in
    let! chx := chx_from_config (ccf_chx config) in
    let! regen := regen_from_config (ccf_regen config) in
    let! hhx := hhx_from_config (ccf_hhx config) in
    Ret {| co_ws := ws; co_chx := chx; co_regen := regen; co_hhx := hhx |}.
End StateRs.
Arguments Run F : clear implicits.
