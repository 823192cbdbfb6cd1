(** * C18, C28, C38-C40, C44-C46, C53, C69, C76: results and configuration, any number type *)
From Coq Require Import ZArith NArith List.
From Verif Require Import Num ModelTypes ModelWs ModelHx ModelStubs ModelStateEq ModelEngine ModelApi
  Spec SpecLoop SpecApi SpecCfg PolyApi PolyCfg PolyMore B64 Fixture Replay Demo Witness PolyStubs.
Import ListNotations.

(** A successful f64 call of the public entry point, with a positive mechanical
    efficiency, used as a case below *)
Example run_engine_case : exists r, run_engine demo_env gauss fa_config = Ret (Ok r) /\
  positive (rre_mechanical (rr_efficiency r)) = true.
Proof. exact run_engine_fa. Qed.
Example run_engine_case_conductance : exists r, run_engine demo_env gauss fc_config = Ret (Ok r) /\
  positive (rre_mechanical (rr_efficiency r)) = true.
Proof. exact run_engine_fc. Qed.

(** C18: all series are aligned *)
Theorem C18_run_aligned (F : Type) (ops : NumOps F) (E : Env F) (U : Decomp F)
    (comps : Components F) (fl : Fluid F) (inputs : RunInputs F) (settings : RunSettings F)
    (eng : Engine F) :
  Engine_run E U comps fl inputs settings = Ret (Ok eng) ->
  exists n, aligned n (en_values eng).
Proof. exact (run_aligned E U comps fl inputs settings eng). Qed.
Print Assumptions C18_run_aligned.

Theorem C18_series (F : Type) (ops : NumOps F) (vs : list (SeValues F)) :
  series_of vs (Values_from vs).
Proof. exact (PolyLoop.Values_from_series vs). Qed.
Print Assumptions C18_series.

Theorem C18_results_aligned (F : Type) (ops : NumOps F) (E : Env F) (U : Decomp F)
    (config : Config F) (r : RunResults F) :
  run_engine E U config = Ret (Ok r) -> exists n, results_aligned n (rr_values r).
Proof. exact (run_engine_aligned E U config r). Qed.
Print Assumptions C18_results_aligned.

(** C28: the displacer diameter of the configuration has no effect *)
Theorem C28_rhombic_ignores_D_d (F : Type) (ops : NumOps F) (c : RhConfig F) (d : F) :
  ws_from_config (WC_Rhombic (with_D_d c d)) = ws_from_config (WC_Rhombic c).
Proof. exact (rhombic_ignores_D_d c d). Qed.
Print Assumptions C28_rhombic_ignores_D_d.

Theorem C28_rhombic_refuted :
  rg_D_d (rd_geometry (RhombicDrive_from (RhConfig_default : RhConfig b64))) <>
  rdc_D_d (RhConfig_default : RhConfig b64).
Proof. exact rhombic_refuted. Qed.
Print Assumptions C28_rhombic_refuted.

(** C38: reporting on a successful run panics only if a component does *)
Theorem C38_results_panic (F : Type) (ops : NumOps F) (E : Env F) (U : Decomp F)
    (comps : Components F) (fl : Fluid F) (inputs : RunInputs F) (settings : RunSettings F)
    (eng : Engine F) (p : panic_reason) :
  Engine_run E U comps fl inputs settings = Ret (Ok eng) ->
  RunResults_from eng = Panic p ->
  reporting_panics comps (en_state eng) p.
Proof. exact (run_results_panic E U comps fl inputs settings eng p). Qed.
Print Assumptions C38_results_panic.

Theorem C38_results_total (F : Type) (ops : NumOps F) (E : Env F) (U : Decomp F)
    (comps : Components F) (fl : Fluid F) (inputs : RunInputs F) (settings : RunSettings F)
    (eng : Engine F) :
  comps_total comps ->
  Engine_run E U comps fl inputs settings = Ret (Ok eng) ->
  exists r, RunResults_from eng = Ret r.
Proof. exact (run_results_total E U comps fl inputs settings eng). Qed.
Print Assumptions C38_results_total.

Example C38_case : comps_total fc_comps /\ exists eng,
  Engine_run demo_env gauss fc_comps helium demo_inputs (settings_of fc_config) = Ret (Ok eng) /\
  length (vs_time (en_values eng)) = 4%nat.
Proof. exact (conj fc_comps_total fc_runs). Qed.

(** C39: legacy configurations convert faithfully *)
Theorem C39_legacy (F : Type) (ops : NumOps F) (l : Legacy F) :
  same_engine l (cf_engine (Config_from_legacy l)) /\
  legacy_inputs l (RunInputs_from (cf_conditions (Config_from_legacy l))) /\
  legacy_settings l (RunSettings_from (cf_solver (Config_from_legacy l))).
Proof. exact (legacy_faithful l). Qed.
Print Assumptions C39_legacy.

Theorem C39_legacy_injective (F : Type) (ops : NumOps F) (l1 l2 : Legacy F) :
  Config_from_legacy l1 = Config_from_legacy l2 -> l1 = l2.
Proof. exact (legacy_injective l1 l2). Qed.
Print Assumptions C39_legacy_injective.

(** C40: supported configurations are exactly those that can be constructed *)
Theorem C40_unsupported (F : Type) (ops : NumOps F) (E : Env F) (U : Decomp F) (config : Config F) :
  ~ supported (cf_engine config) -> run_engine E U config = Panic PTodo.
Proof. exact (config_unsupported E U config). Qed.
Print Assumptions C40_unsupported.

Theorem C40_supported (F : Type) (ops : NumOps F) (c : EngineConfig F) :
  supported c ->
  exists gas comps, fluid_from_config (ec_fluid c) = Ret gas /\
    Components_from (ec_components c) = Ret comps /\
    (ec_fluid c = FC_Helium FM_IdealGas -> gas = IdealGas_new Helium) /\
    (ec_fluid c = FC_Hydrogen FM_IdealGas -> gas = IdealGas_new Hydrogen) /\
    comps_total comps /\ carries (ec_components c) comps.
Proof. exact (config_supported c). Qed.
Print Assumptions C40_supported.

Theorem C40_supported_panics (F : Type) (ops : NumOps F) (E : Env F) (U : Decomp F)
    (config : Config F) (p : panic_reason) :
  supported (cf_engine config) -> run_engine E U config = Panic p ->
  p = PSolveFailed \/ p = PEmpty \/
  (p = POverflow /\ oc_num_timesteps (sc_ode (cf_solver config)) = 0%N /\
   env_overflow_checks E = true).
Proof. exact (supported_run_panics E U config p). Qed.
Print Assumptions C40_supported_panics.

Example C40_supported_case : supported (cf_engine fc_config).
Proof. exact fc_supported. Qed.
Example C40_unsupported_case : ~ supported (cf_engine refprop_config).
Proof. exact refprop_unsupported. Qed.

(** C44: results repeat the engine and its performance figures under their names *)
Theorem C44_results_repeat (F : Type) (ops : NumOps F) (eng : Engine F) (r : RunResults F) :
  RunResults_from eng = Ret r ->
  repeats eng r /\ exists p, Performance_from eng = Ret p /\ repeats_performance p r.
Proof. exact (results_repeat eng r). Qed.
Print Assumptions C44_results_repeat.

(** C45: overall efficiency is the constant zero, electrical parasitics have no
    effect on any result *)
Theorem C45_overall_zero (F : Type) (ops : NumOps F) (E : Env F) (U : Decomp F)
    (config : Config F) (r : RunResults F) :
  run_engine E U config = Ret (Ok r) -> rre_overall (rr_efficiency r) = n0.
Proof. exact (run_engine_overall E U config r). Qed.
Print Assumptions C45_overall_zero.

Theorem C45_electrical_ignored (F : Type) (ops : NumOps F) (c1 c2 : Components F) (s : State F)
    (v : Values F) :
  agree_but_electrical c1 c2 ->
  RunResults_from (mkEngine c1 s v) = RunResults_from (mkEngine c2 s v).
Proof. exact (results_ignore_electrical c1 c2 s v). Qed.
Print Assumptions C45_electrical_ignored.

Example C45_case (w : b64) :
  agree_but_electrical fa_comps
    (mkComponents (co_ws fa_comps) (with_load (co_chx fa_comps) w) (co_regen fa_comps) (co_hhx fa_comps)).
Proof. exact (fa_load w). Qed.

(** a run with positive mechanical and zero overall efficiency *)
Theorem C45_overall_refuted : exists r,
  run_engine demo_env gauss fa_config = Ret (Ok r) /\
  n_lt n0 (rre_mechanical (rr_efficiency r)) = true /\
  rre_overall (rr_efficiency r) = n0.
Proof. exact overall_refuted. Qed.
Print Assumptions C45_overall_refuted.

(** C46: wall resistances do not enter the state equations *)
Theorem C46_cycle_ignores_resistance (F : Type) (ops : NumOps F) (comps1 comps2 : Components F)
    (fl : Fluid F) (pres : Pressure F) (T : Temperatures F) (c : Cycle F) :
  same_but_resistance (co_ws comps1) (co_ws comps2) ->
  co_chx comps1 = co_chx comps2 -> co_regen comps1 = co_regen comps2 ->
  co_hhx comps1 = co_hhx comps2 ->
  is_cycle_of comps1 fl pres T c -> is_cycle_of comps2 fl pres T c.
Proof. exact (cycle_ignores_resistance comps1 comps2 fl pres T c). Qed.
Print Assumptions C46_cycle_ignores_resistance.

Theorem C46_run_ignores_resistance (F : Type) (ops : NumOps F) (E : Env F) (U : Decomp F)
    (comps1 comps2 : Components F) (fl : Fluid F) (inputs : RunInputs F) (settings : RunSettings F) :
  same_but_resistance (co_ws comps1) (co_ws comps2) ->
  (forall s, exists R, ws_thermal_resistance (co_ws comps1) s = Ret R) ->
  (forall s, exists R, ws_thermal_resistance (co_ws comps2) s = Ret R) ->
  co_chx comps1 = co_chx comps2 -> co_regen comps1 = co_regen comps2 ->
  co_hhx comps1 = co_hhx comps2 ->
  constant_approach (co_chx comps1) -> constant_approach (co_regen comps1) ->
  constant_approach (co_hhx comps1) ->
  same_run (Engine_run E U comps1 fl inputs settings) (Engine_run E U comps2 fl inputs settings).
Proof. exact (run_ignores_resistance E U comps1 comps2 fl inputs settings). Qed.
Print Assumptions C46_run_ignores_resistance.

(** an f64 engine with conducting walls of resistance [r]: same series as the
    adiabatic one, no heat reaches the gas of the compression space *)
Theorem C46_walls_refuted (r : b64) : exists e1 e2,
  Engine_run demo_env gauss fa_comps helium demo_inputs (settings_of fa_config) = Ret (Ok e1) /\
  Engine_run demo_env gauss (with_walls r) helium demo_inputs (settings_of fa_config) = Ret (Ok e2) /\
  en_values e1 = en_values e2.
Proof. exact (walls_run r). Qed.
Print Assumptions C46_walls_refuted.

Example C46_case (r : b64) (s : WsState b64) :
  ws_thermal_resistance (co_ws (with_walls r)) s = Ret (mkTR r r).
Proof. exact (walls_resistance fa_comps SinConfig_default r s). Qed.
Theorem C46_no_heat_refuted (r : b64) (pres : Pressure b64) (T : Temperatures b64) : exists cyc,
  is_cycle_of (with_walls r) helium pres T cyc /\
  forall t cond, wi_Q_dot (in_comp (cy_calculate_inputs cyc t cond)) = n0.
Proof. exact (fa_walls_heat r pres T). Qed.
Print Assumptions C46_no_heat_refuted.

(** C53: the second entry point is the first with errors turned into panics *)
Theorem C53_run_from_config (F : Type) (ops : NumOps F) (E : Env F) (U : Decomp F)
    (config : Config F) :
  match run_engine E U config with
  | Ret (Ok r) => run_from_config E U config = Ret r
  | Ret (Err _) => run_from_config E U config = Panic PNotConverged
  | Panic p => run_from_config E U config = Panic p
  end.
Proof. exact (run_from_config_spec E U config). Qed.
Print Assumptions C53_run_from_config.

(** C69: a run is made of what the configuration asks for *)
Theorem C69_settings (F : Type) (ops : NumOps F) (c : SolverConfig F) : configured_settings c (RunSettings_from c).
Proof. exact (settings_configured c). Qed.
Print Assumptions C69_settings.
Theorem C69_inputs (F : Type) (ops : NumOps F) (c : ConditionsConfig F) : configured_inputs c (RunInputs_from c).
Proof. exact (inputs_configured c). Qed.
Print Assumptions C69_inputs.
Theorem C69_gas (F : Type) (ops : NumOps F) (c : FluidConfig) (g : IdealGas F) :
  fluid_from_config c = Ret g <-> configured_gas c g.
Proof. exact (gas_configured c g). Qed.
Print Assumptions C69_gas.
Theorem C69_run (F : Type) (ops : NumOps F) (E : Env F) (U : Decomp F) (config : Config F) :
  supported (cf_engine config) ->
  exists o, configured_run E U config o /\
    (forall p, o = Panic p -> run_engine E U config = Panic p) /\
    (forall e, o = Ret (Err e) -> run_engine E U config = Ret (Err e)) /\
    (forall eng r, o = Ret (Ok eng) -> RunResults_from eng = Ret r ->
       run_engine E U config = Ret (Ok r)) /\
    (forall eng p, o = Ret (Ok eng) -> RunResults_from eng = Panic p ->
       run_engine E U config = Panic p).
Proof. exact (run_configured E U config). Qed.
Print Assumptions C69_run.
Theorem C69_unique (F : Type) (ops : NumOps F) (c : SolverConfig F) (s1 s2 : RunSettings F) (k : ConditionsConfig F)
    (i1 i2 : RunInputs F) :
  (configured_settings c s1 -> configured_settings c s2 -> s1 = s2) /\
  (configured_inputs k i1 -> configured_inputs k i2 -> i1 = i2).
Proof. exact (conj (settings_unique c s1 s2) (inputs_unique k i1 i2)). Qed.
Print Assumptions C69_unique.
Example C69_case : supported (cf_engine fc_config).
Proof. exact fc_supported. Qed.

(** C76: unfinished components *)
Theorem C76_methods (F : Type) (w : WorkingSpaces F) (k : ColdHeatExchanger F) (g : Regenerator F) (l : HotHeatExchanger F) :
  (In w [ws_GPU3; ws_Mod2] -> unfinished_spaces w) /\ (In k [chx_GPU3; chx_Mod2] -> unfinished k) /\
  (In g [regen_GPU3; regen_Mod2] -> unfinished g) /\
  (In l [hhx_GPU3; hhx_Mod2; hhx_NuclearIsomerGPU3; hhx_NuclearIsomerMod2] -> unfinished l).
Proof. exact (stub_methods w k g l). Qed.
Print Assumptions C76_methods.
Theorem C76_exchangers (F : Type) (ops : NumOps F) (E : Env F) (U : Decomp F) (comps : Components F) (fl : Fluid F)
    (inputs : RunInputs F) (settings : RunSettings F) :
  In (co_chx comps) [chx_GPU3; chx_Mod2] \/ In (co_regen comps) [regen_GPU3; regen_Mod2] \/
  In (co_hhx comps) [hhx_GPU3; hhx_Mod2; hhx_NuclearIsomerGPU3; hhx_NuclearIsomerMod2] ->
  (forall p, initial_approach_panics comps p -> p = PTodo) ->
  Engine_run E U comps fl inputs settings = Panic PTodo.
Proof. exact (stub_exchanger E U comps fl inputs settings). Qed.
Print Assumptions C76_exchangers.
Theorem C76_working_spaces (F : Type) (ops : NumOps F) (E : Env F) (U : Decomp F) (comps : Components F)
    (fl : Fluid F) (inputs : RunInputs F) (settings : RunSettings F) (a_k a_r a_l v_k v_r v_l : F) :
  In (co_ws comps) [ws_GPU3; ws_Mod2] ->
  ex_initial_approach (co_chx comps) = Ret a_k -> ex_volume (co_chx comps) = Ret v_k ->
  ex_initial_approach (co_regen comps) = Ret a_r -> ex_volume (co_regen comps) = Ret v_r ->
  ex_initial_approach (co_hhx comps) = Ret a_l -> ex_volume (co_hhx comps) = Ret v_l ->
  Engine_run E U comps fl inputs settings =
    (if N.eqb (mi_outer (rs_max_iters settings)) 0 then Ret (Err OuterLoop) else Panic PTodo).
Proof. exact (stub_ws E U comps fl inputs settings a_k a_r a_l v_k v_r v_l). Qed.
Print Assumptions C76_working_spaces.
Example C76_case : In (co_regen stub_comps) [regen_GPU3; regen_Mod2] /\
  forall p, initial_approach_panics stub_comps p -> p = PTodo.
Proof. exact stub_case. Qed.
Example C76_ws_case :
  In (co_ws stub_ws_comps) [ws_GPU3; ws_Mod2] /\
  Engine_run demo_env gauss stub_ws_comps helium demo_inputs (settings_of fa_config) = Panic PTodo.
Proof. exact stub_ws_case. Qed.
