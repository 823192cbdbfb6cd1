(** * Specification: what a configuration asks for, any number type *)
From Coq Require Import ZArith NArith List.
From Verif Require Import Num ModelTypes ModelWs ModelHx ModelStateEq ModelEngine ModelApi SpecApi.

Section SpecCfg.
  Context {F : Type} {ops : NumOps F}.

  Definition configured_inputs (c : ConditionsConfig F) (i : RunInputs F) : Prop :=
    ri_temp_sink i = cc_temp_sink c /\ ri_temp_source i = cc_temp_source c /\
    ri_pres_zero i = cc_pres_zero c.

  (** each loop has its own tolerances and its own limit, the integrator its
      own tolerances and number of steps *)
  Definition configured_settings (c : SolverConfig F) (s : RunSettings F) : Prop :=
    ct_abs (lt_inner (rs_loop_tol s)) = tc_abs (ilc_tolerance (sc_inner_loop c)) /\
    ct_rel (lt_inner (rs_loop_tol s)) = tc_rel (ilc_tolerance (sc_inner_loop c)) /\
    mi_inner (rs_max_iters s) = ilc_max_iterations (sc_inner_loop c) /\
    ct_abs (lt_outer (rs_loop_tol s)) = tc_abs (olc_tolerance (sc_outer_loop c)) /\
    ct_rel (lt_outer (rs_loop_tol s)) = tc_rel (olc_tolerance (sc_outer_loop c)) /\
    mi_outer (rs_max_iters s) = olc_max_iterations (sc_outer_loop c) /\
    ot_abs (rs_ode_tol s) = tc_abs (oc_tolerance (sc_ode c)) /\
    ot_rel (rs_ode_tol s) = tc_rel (oc_tolerance (sc_ode c)) /\
    rs_resolution s = oc_num_timesteps (sc_ode c).

  (** [gas] is the gas a configuration names *)
  Definition configured_gas (c : FluidConfig) (gas : IdealGas F) : Prop :=
    match c with
    | FC_Helium FM_IdealGas => gas = IdealGas_helium
    | FC_Hydrogen FM_IdealGas => gas = IdealGas_hydrogen
    | _ => False
    end.

  (** an engine run made of nothing but what the configuration asks for *)
  Definition configured_run (E : Env F) (U : Decomp F) (config : Config F)
      (outcome : outcome (result (Engine F) RunError)) : Prop :=
    exists gas comps inputs settings,
      configured_gas (ec_fluid (cf_engine config)) gas /\
      Components_from (ec_components (cf_engine config)) = Ret comps /\
      carries (ec_components (cf_engine config)) comps /\
      configured_inputs (cf_conditions config) inputs /\
      configured_settings (cf_solver config) settings /\
      Engine_run E U comps (IdealGas_Fluid gas) inputs settings = outcome.

  (** every method of a component is [todo!()] *)
  Definition unfinished_spaces (w : WorkingSpaces F) : Prop :=
    forall s, ws_frequency w s = Panic PTodo /\ ws_volumes w s = Panic PTodo /\
      ws_thermal_resistance w s = Panic PTodo /\ ws_parasitics w s = Panic PTodo.
  Definition unfinished {S : Type} (x : Exchanger F S) : Prop :=
    ex_volume x = Panic PTodo /\ ex_initial_approach x = Panic PTodo /\
    forall s, ex_approach x s = Panic PTodo /\ ex_hydraulic_resistance x s = Panic PTodo /\ ex_parasitics x s = Panic PTodo.
End SpecCfg.
