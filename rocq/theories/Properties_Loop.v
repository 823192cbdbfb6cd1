(** * C03-C07, C41, C42, C48, C51, C52: runs of the engine, any number type *)
From Coq Require Import ZArith NArith List.
From Verif Require Import Num ModelTypes ModelWs ModelHx ModelStateEq ModelEngine ModelApi
  Spec SpecLoop SpecApi PolyRun PolyPanic PolyMore B64 Fixture Replay Demo Witness.
Import ListNotations.

(** Two f64 runs used as cases below: an engine with fixed approach
    temperatures and one with fixed conductances, both with helium. *)
Example run_case_fixed_approach : exists eng,
  Engine_run demo_env gauss fa_comps helium demo_inputs (settings_of fa_config) = Ret (Ok eng) /\
  length (vs_time (en_values eng)) = 4%nat.
Proof. exact fa_runs. Qed.
Example run_case_fixed_conductance : exists eng,
  Engine_run demo_env gauss fc_comps helium demo_inputs (settings_of fc_config) = Ret (Ok eng) /\
  length (vs_time (en_values eng)) = 4%nat.
Proof. exact fc_runs. Qed.

(** C03: a successful run is an outer-loop fixed point within tolerance *)
Theorem C03_run_fixed_point (F : Type) (ops : NumOps F) (E : Env F) (U : Decomp F)
    (comps : Components F) (fl : Fluid F) (inputs : RunInputs F) (settings : RunSettings F)
    (eng : Engine F) :
  Engine_run E U comps fl inputs settings = Ret (Ok eng) ->
  exists P m q T',
    recomputed (en_components eng) (s_fluid (en_state eng)) (s_pres (en_state eng))
      (s_temp (en_state eng)) (s_regen_imbalance (en_state eng)) (en_values eng) P m q T' /\
    temperatures_close (lt_outer (rs_loop_tol settings)) (s_temp (en_state eng)) T'.
Proof. exact (run_fixed_point E U comps fl inputs settings eng). Qed.
Print Assumptions C03_run_fixed_point.

(** C04: the returned values are a cyclic steady state of the returned state *)
Theorem C04_run_steady_state (F : Type) (ops : NumOps F) (E : Env F) (U : Decomp F)
    (comps : Components F) (fl : Fluid F) (inputs : RunInputs F) (settings : RunSettings F)
    (eng : Engine F) :
  Engine_run E U comps fl inputs settings = Ret (Ok eng) ->
  steady_state E U (en_components eng) settings (en_state eng) (en_values eng).
Proof. exact (run_steady_state E U comps fl inputs settings eng). Qed.
Print Assumptions C04_run_steady_state.

(** C05: errors mean what they say *)
Theorem C05_run_error (F : Type) (ops : NumOps F) (E : Env F) (U : Decomp F)
    (comps : Components F) (fl : Fluid F) (inputs : RunInputs F) (settings : RunSettings F)
    (e : RunError) :
  Engine_run E U comps fl inputs settings = Ret (Err e) ->
  exists s0, initial_state comps fl inputs s0 /\
  match e with
  | OuterLoop =>
      exists s, steps (unconverged_iteration E U comps settings)
                  (N.to_nat (mi_outer (rs_max_iters settings))) s0 s
  | InnerLoop =>
      exists j s, (j < N.to_nat (mi_outer (rs_max_iters settings)))%nat /\
        steps (unconverged_iteration E U comps settings) j s0 s /\
        no_steady_state E U comps settings s
  end.
Proof. exact (run_error_meaning E U comps fl inputs settings e). Qed.
Print Assumptions C05_run_error.

Theorem C05_outer_zero (F : Type) (ops : NumOps F) (E : Env F) (U : Decomp F)
    (comps : Components F) (fl : Fluid F) (inputs : RunInputs F) (settings : RunSettings F)
    (a_k a_r a_l : F) :
  ex_initial_approach (co_chx comps) = Ret a_k ->
  ex_initial_approach (co_regen comps) = Ret a_r ->
  ex_initial_approach (co_hhx comps) = Ret a_l ->
  mi_outer (rs_max_iters settings) = 0%N ->
  Engine_run E U comps fl inputs settings = Ret (Err OuterLoop).
Proof. exact (run_outer_zero E U comps fl inputs settings a_k a_r a_l). Qed.
Print Assumptions C05_outer_zero.

Theorem C05_inner_zero (F : Type) (ops : NumOps F) (E : Env F) (U : Decomp F)
    (comps : Components F) (fl : Fluid F) (inputs : RunInputs F) (settings : RunSettings F) :
  comps_total comps ->
  mi_outer (rs_max_iters settings) <> 0%N -> mi_inner (rs_max_iters settings) = 0%N ->
  Engine_run E U comps fl inputs settings = Ret (Err InnerLoop).
Proof. exact (run_inner_zero E U comps fl inputs settings). Qed.
Print Assumptions C05_inner_zero.

Example C05_outer_case :
  Engine_run demo_env gauss fc_comps helium demo_inputs (settings_of outer_config) = Ret (Err OuterLoop).
Proof. exact outer_runs. Qed.
Example C05_inner_case :
  Engine_run demo_env gauss fa_comps helium demo_inputs (settings_of inner_config) = Ret (Err InnerLoop).
Proof. exact inner_runs. Qed.
Example C05_total_case : comps_total fa_comps.
Proof. exact fa_comps_total. Qed.

(** C06: boundary conditions are preserved *)
Theorem C06_boundary (F : Type) (ops : NumOps F) (E : Env F) (U : Decomp F)
    (comps : Components F) (fl : Fluid F) (inputs : RunInputs F) (settings : RunSettings F)
    (eng : Engine F) :
  Engine_run E U comps fl inputs settings = Ret (Ok eng) ->
  en_components eng = comps /\ s_fluid (en_state eng) = fl /\
  te_sink (s_temp (en_state eng)) = ri_temp_sink inputs /\
  te_source (s_temp (en_state eng)) = ri_temp_source inputs /\
  s_regen_imbalance (en_state eng) = n0.
Proof. exact (run_boundary E U comps fl inputs settings eng). Qed.
Print Assumptions C06_boundary.

Theorem C06_pres_zero (F : Type) (ops : NumOps F) (E : Env F) (U : Decomp F)
    (comps : Components F) (fl : Fluid F) (inputs : RunInputs F) (settings : RunSettings F)
    (eng : Engine F) :
  reports_start E ->
  Engine_run E U comps fl inputs settings = Ret (Ok eng) ->
  pr_t_zero (s_pres (en_state eng)) = ri_pres_zero inputs /\
  exists P', vs_P (en_values eng) = ri_pres_zero inputs :: P'.
Proof. exact (run_pres_zero E U comps fl inputs settings eng). Qed.
Print Assumptions C06_pres_zero.

Example C06_case : reports_start demo_env.
Proof. exact (rk4_reports_start per_period 3 true). Qed.

(** C07: the reported pressure, mass-flow and heat-flow figures are the averages
    of the time series of the iteration *before* the reported one, or the
    initial hint *)
Theorem C07_averages_lag (F : Type) (ops : NumOps F) (E : Env F) (U : Decomp F)
    (comps : Components F) (fl : Fluid F) (inputs : RunInputs F) (settings : RunSettings F)
    (eng : Engine F) :
  Engine_run E U comps fl inputs settings = Ret (Ok eng) ->
  initial_state comps fl inputs (en_state eng) \/
  exists s, unconverged_iteration E U comps settings s (en_state eng).
Proof. exact (run_lag E U comps fl inputs settings eng). Qed.
Print Assumptions C07_averages_lag.

(** ... which is what happens in every successful run with fixed approaches *)
Theorem C07_fixed_approach (F : Type) (ops : NumOps F) (E : Env F) (U : Decomp F)
    (comps : Components F) (fl : Fluid F) (inputs : RunInputs F) (settings : RunSettings F)
    (eng : Engine F) :
  fixed_approach (co_chx comps) -> fixed_approach (co_regen comps) ->
  fixed_approach (co_hhx comps) ->
  (forall s0, initial_state comps fl inputs s0 ->
     temperatures_close (lt_outer (rs_loop_tol settings)) (s_temp s0) (s_temp s0)) ->
  Engine_run E U comps fl inputs settings = Ret (Ok eng) ->
  initial_state comps fl inputs (en_state eng).
Proof. exact (run_fixed_approach E U comps fl inputs settings eng). Qed.
Print Assumptions C07_fixed_approach.

Example C07_fixed_approach_case :
  (fixed_approach (co_chx fa_comps) /\ fixed_approach (co_regen fa_comps) /\
   fixed_approach (co_hhx fa_comps)) /\
  (forall s0, initial_state fa_comps helium demo_inputs s0 ->
    temperatures_close (lt_outer (rs_loop_tol (settings_of fa_config))) (s_temp s0) (s_temp s0)).
Proof. exact (conj fa_fixed fa_close). Qed.

(** The expectation that the reported average belongs to the reported series is
    false: a successful f64 run reports an average mass flow that is not the
    average of its own series *)
Theorem C07_averages_refuted : exists eng m a,
  Engine_run demo_env gauss fc_comps helium demo_inputs (settings_of fc_config) = Ret (Ok eng) /\
  m = mf_chx (s_mass_flow (en_state eng)) /\
  time_average (vs_time (en_values eng))
    (mean_magnitudes (vs_m_dot_ck (en_values eng)) (vs_m_dot_kr (en_values eng))) a /\
  a <> m.
Proof. exact averages_refuted. Qed.
Print Assumptions C07_averages_refuted.

(** A successful f64 run that reports no mass flow at all *)
Theorem C07_zero_flow_refuted : exists eng,
  Engine_run demo_env gauss fa_comps helium demo_inputs (settings_of fa_config) = Ret (Ok eng) /\
  s_mass_flow (en_state eng) = mkMassFlows n0 n0 n0.
Proof. exact zero_flow_reported. Qed.
Print Assumptions C07_zero_flow_refuted.

(** C41: unsolvable state equations make a run panic; no error is returned *)
Theorem C41_failing_solver_panics (F : Type) (ops : NumOps F) (E : Env F) (U : Decomp F)
    (comps : Components F) (fl : Fluid F) (inputs : RunInputs F) (settings : RunSettings F) :
  (forall A b, U A b = None) ->
  (forall a, exists t y k, env_ode E a = OAsk t y k) ->
  comps_total comps ->
  mi_outer (rs_max_iters settings) <> 0%N -> mi_inner (rs_max_iters settings) <> 0%N ->
  Engine_run E U comps fl inputs settings = Panic PSolveFailed.
Proof. exact (failing_solver_panics E U comps fl inputs settings). Qed.
Print Assumptions C41_failing_solver_panics.

Theorem C41_error_refuted :
  Engine_run ask_env never fa_comps helium demo_inputs (settings_of fa_config) = Panic PSolveFailed.
Proof. exact never_panics. Qed.
Print Assumptions C41_error_refuted.

(** C42: no output points requested *)
Theorem C42_resolution_zero (F : Type) (ops : NumOps F) (E : Env F) (U : Decomp F)
    (comps : Components F) (fl : Fluid F) (inputs : RunInputs F) (settings : RunSettings F)
    (eng : Engine F) :
  env_overflow_checks E = true -> rs_resolution settings = 0%N ->
  Engine_run E U comps fl inputs settings <> Ret (Ok eng).
Proof. exact (resolution_zero E U comps fl inputs settings eng). Qed.
Print Assumptions C42_resolution_zero.

Theorem C42_integration_zero (F : Type) (ops : NumOps F) (E : Env F) (U : Decomp F)
    (c : Cycle F) (ic : Conditions F) (tol : OdeTolerance F) :
  try_from E U c ic 0 tol =
  if env_overflow_checks E then Panic POverflow else try_from E U c ic (2 ^ 32) tol.
Proof. exact (try_from_zero E U c ic tol). Qed.
Print Assumptions C42_integration_zero.

Example C42_case : env_overflow_checks demo_env = true /\ rs_resolution zero_points = 0%N.
Proof. exact (conj eq_refl eq_refl). Qed.

(** C48: bound on the number of integrations *)
Theorem C48_work_bound (F : Type) (ops : NumOps F) (E : Env F) (U : Decomp F)
    (comps : Components F) (fl : Fluid F) (inputs : RunInputs F) (settings : RunSettings F) :
  (fst (Engine_run_counted E U comps fl inputs settings) <=
   N.to_nat (mi_outer (rs_max_iters settings)) *
     (N.to_nat (mi_inner (rs_max_iters settings)) + 1))%nat.
Proof. exact (run_count E U comps fl inputs settings). Qed.
Print Assumptions C48_work_bound.

Theorem C48_counted_is_run (F : Type) (ops : NumOps F) (E : Env F) (U : Decomp F)
    (comps : Components F) (fl : Fluid F) (inputs : RunInputs F) (settings : RunSettings F) :
  snd (Engine_run_counted E U comps fl inputs settings) = Engine_run E U comps fl inputs settings.
Proof. exact eq_refl. Qed.
Print Assumptions C48_counted_is_run.

(** C51: everything that can make a run panic *)
Theorem C51_run_panic (F : Type) (ops : NumOps F) (E : Env F) (U : Decomp F)
    (comps : Components F) (fl : Fluid F) (inputs : RunInputs F) (settings : RunSettings F)
    (p : panic_reason) :
  Engine_run E U comps fl inputs settings = Panic p ->
  initial_approach_panics comps p \/
  exists s0 j s, initial_state comps fl inputs s0 /\
    (j < N.to_nat (mi_outer (rs_max_iters settings)))%nat /\
    steps (unconverged_iteration E U comps settings) j s0 s /\
    iteration_panics E U comps settings s p.
Proof. exact (run_panic E U comps fl inputs settings p). Qed.
Print Assumptions C51_run_panic.

Example C51_case :
  Engine_run ask_env never fa_comps helium demo_inputs (settings_of fa_config) = Panic PSolveFailed.
Proof. exact never_panics. Qed.

(** C52: what a successful run went through *)
Theorem C52_run_ok (F : Type) (ops : NumOps F) (E : Env F) (U : Decomp F)
    (comps : Components F) (fl : Fluid F) (inputs : RunInputs F) (settings : RunSettings F)
    (eng : Engine F) :
  Engine_run E U comps fl inputs settings = Ret (Ok eng) ->
  exists s0 j,
    initial_state comps fl inputs s0 /\
    (j < N.to_nat (mi_outer (rs_max_iters settings)))%nat /\
    steps (unconverged_iteration E U comps settings) j s0 (en_state eng) /\
    steady_state E U comps settings (en_state eng) (en_values eng) /\
    outer_converged comps (lt_outer (rs_loop_tol settings)) (en_state eng) (en_values eng) /\
    en_components eng = comps.
Proof. exact (run_ok_meaning E U comps fl inputs settings eng). Qed.
Print Assumptions C52_run_ok.
