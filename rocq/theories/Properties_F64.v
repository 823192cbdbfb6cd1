(** * C01, C02, C20, C22, C25, C34, C42, C43, C47, C49, C50: floating point *)
From Coq Require Import ZArith NArith List Reals.
From Flocq Require Import Core BinarySingleNaN.
From Verif Require Import Num ModelTypes ModelWs ModelHx ModelStateEq ModelEngine ModelApi RNum B64
  Fixture Demo Witness Spec SpecF64 F64Conv F64More F64Deg F64Norm F64Run F64Case.
Import ListNotations.
Local Open Scope R_scope.

(** C01: the convergence test *)
Theorem C01_real (tol : ConvergenceTolerance R) (old new : R) : old <> 0 ->
  (is_converged tol old new = true <->
   Rabs (new - old) < ct_abs tol /\ Rabs (new - old) < ct_rel tol * Rabs old).
Proof. exact (converged_R tol old new). Qed.
Print Assumptions C01_real.
Theorem C01_f64 (lm : Libm) (nt : bool) (tol : ConvergenceTolerance b64) (old new : b64) :
  @is_converged b64 (b64_ops lm nt) tol old new = true <-> small_change tol old new.
Proof. exact (converged_f64 lm nt tol old new). Qed.
Print Assumptions C01_f64.
Theorem C01_exact_change (lm : Libm) (nt : bool) (tol : ConvergenceTolerance b64) (old new : b64) :
  @is_converged b64 (b64_ops lm nt) tol old new = true ->
  below (Rabs (value new - value old)) (ct_abs tol).
Proof. exact (converged_exact_abs lm nt tol old new). Qed.
Print Assumptions C01_exact_change.
Theorem C01_exact_ratio (lm : Libm) (nt : bool) (tol : ConvergenceTolerance b64) (old new : b64) :
  @is_converged b64 (b64_ops lm nt) tol old new = true -> finite (ct_rel tol) ->
  Rabs (rounded (value new - value old)) < value (ct_rel tol) * Rabs (value old) /\
  Rabs (value new - value old) < value (ct_rel tol) * Rabs (value old) * (1 + / 2 ^ 53).
Proof. exact (converged_exact_rel lm nt tol old new). Qed.
Print Assumptions C01_exact_ratio.
Example C01_case :
  is_converged case_tol (n_lit 300 0) (n_lit 300005 (-3)) = true /\
  is_converged case_tol (n_lit 300 0) (n_lit 30002 (-2)) = false.
Proof. exact converged_case. Qed.

(** C02: special values *)
Theorem C02_special (lm : Libm) (nt : bool) (tol : ConvergenceTolerance b64) (old new : b64) :
  @is_converged b64 (b64_ops lm nt) tol old new = true ->
  finite old /\ finite new /\ value old <> 0 /\ above_zero (ct_abs tol) /\ above_zero (ct_rel tol).
Proof. exact (converged_regular lm nt tol old new). Qed.
Print Assumptions C02_special.
Theorem C02_same (lm : Libm) (nt : bool) (tol : ConvergenceTolerance b64) (x : b64) :
  @is_converged b64 (b64_ops lm nt) tol x x = true <->
  finite x /\ value x <> 0 /\ above_zero (ct_abs tol) /\ above_zero (ct_rel tol).
Proof. exact (converged_same lm nt tol x). Qed.
Print Assumptions C02_same.

(** C47: looser tolerances *)
Theorem C47_real (tol tol' : ConvergenceTolerance R) (old new : R) :
  ct_abs tol <= ct_abs tol' -> ct_rel tol <= ct_rel tol' ->
  is_converged tol old new = true -> is_converged tol' old new = true.
Proof. exact (looser_R tol tol' old new). Qed.
Print Assumptions C47_real.
Theorem C47_f64 (lm : Libm) (nt : bool) (tol tol' : ConvergenceTolerance b64) (old new : b64) :
  looser tol tol' -> @is_converged b64 (b64_ops lm nt) tol old new = true ->
  @is_converged b64 (b64_ops lm nt) tol' old new = true.
Proof. exact (looser_f64 lm nt tol tol' old new). Qed.
Print Assumptions C47_f64.
Example C47_case : looser case_tol (mkConvTol (n_lit 1 (-1)) (B754_infinity false)).
Proof. exact looser_case. Qed.

(** C20: extreme pressures *)
Theorem C20_f64 (lm : Libm) (nt : bool) (v : Values b64) (p : Pressure b64) :
  (forall x, In x (vs_P v) -> ~ not_a_number x) ->
  @Pressure_from_values b64 (b64_ops lm nt) v = Ret p ->
  highest (pr_max p) (vs_P v) /\ lowest (pr_min p) (vs_P v) /\
  (exists rest, vs_P v = pr_t_zero p :: rest).
Proof. exact (pressure_extrema lm nt v p). Qed.
Print Assumptions C20_f64.
Example C20_f64_case : (forall x, In x (vs_P odd_values) -> ~ not_a_number x) /\
  exists p, Pressure_from_values odd_values = Ret p /\ pr_max p = B754_infinity false /\
            pr_min p = B754_zero true.
Proof. exact odd_case. Qed.

(** C22: adiabatic walls *)
Theorem C22_adiabatic_state (lm : Libm) (nt : bool) (v : Values b64) (Tk Th : b64) (sc se : bool)
    (h : HeatFlows b64) :
  let ops := b64_ops lm nt in
  HeatFlows_from_values v Tk Th (mkTR (B754_infinity sc) (B754_infinity se)) = Ret h ->
  exists t, last_unwrap (vs_time v) = Ret t /\
    hf_chx h = n_add n0 (n_div (integrate (vs_time v) (vs_Q_dot_k v)) t) /\
    hf_regen h = n_div (integrate (vs_time v) (vs_Q_dot_r v)) t /\
    hf_hhx h = n_add n0 (n_div (integrate (vs_time v) (vs_Q_dot_l v)) t).
Proof. exact (adiabatic_state lm nt v Tk Th sc se h). Qed.
Print Assumptions C22_adiabatic_state.
Theorem C22_adiabatic_report (lm : Libm) (nt : bool) (pw : Powers b64) (e : Engine b64) (h : Heats b64)
    (f : b64) (sc se : bool) (hhx_par regen_par : ParasiticPower b64) (ws_par : Parasitics b64) :
  let ops := b64_ops lm nt in
  let c := en_components e in let s := en_state e in let v := en_values e in
  Heats_new pw e = Ret h ->
  ws_frequency (co_ws c) (State_ws s) = Ret f -> finite f -> 0 < value f ->
  ws_thermal_resistance (co_ws c) (State_ws s) = Ret (mkTR (B754_infinity sc) (B754_infinity se)) ->
  ex_parasitics (co_hhx c) (State_hhx s) = Ret hhx_par ->
  ex_parasitics (co_regen c) (State_regen s) = Ret regen_par ->
  ws_parasitics (co_ws c) (State_ws s) = Ret ws_par ->
  Forall (fun t => finite t /\ 0 <= value t)
    (te_chx (s_temp s) :: te_hhx (s_temp s) :: vs_time v ++ vs_T_c v ++ vs_T_e v) ->
  let external := n_add (n_add (pp_thermal hhx_par) (pp_thermal regen_par)) (pp_thermal (par_exp ws_par)) in
  ht_input h = n_add (n_sub (n_mul f (integrate (vs_time v) (vs_Q_dot_l v))) n0) external /\
  ht_rejected h =
    n_add (n_add (n_add (n_add n0 (n_mul f (integrate (vs_time v) (vs_Q_dot_k v))))
                        (n_sub (pw_indicated_zero_dP pw) (pw_indicated pw)))
                 (n_add (pp_mechanical (par_comp ws_par)) (pp_mechanical (par_exp ws_par))))
          external.
Proof. exact (adiabatic_report lm nt pw e h f sc se hhx_par regen_par ws_par). Qed.
Print Assumptions C22_adiabatic_report.
Example C22_adiabatic_case :
  exists s, adiabatic_engine demo_libm true case_powers (mkEngine fa_comps s still_values).
Proof. exact adiabatic_case. Qed.

(** C25: temperatures of a converged engine *)
Theorem C25_temperatures (lm : Libm) (nt : bool) (E : Env b64) (D : Decomp b64) (comps : Components b64)
    (fl : Fluid b64) (inputs : RunInputs b64) (settings : RunSettings b64) (e : Engine b64) :
  @Engine_run b64 (b64_ops lm nt) E D comps fl inputs settings = Ret (Ok e) ->
  forall x, In x (temperatures (s_temp (en_state e))) -> finite x /\ value x <> 0.
Proof. exact (run_temperatures lm nt E D comps fl inputs settings e). Qed.
Print Assumptions C25_temperatures.
Example C25_case : exists eng,
  Engine_run demo_env gauss fa_comps helium demo_inputs (settings_of fa_config) = Ret (Ok eng) /\
  length (vs_time (en_values eng)) = 4%nat.
Proof. exact fa_runs. Qed.

(** C34: no flow through a fixed-conductance exchanger *)
Theorem C34_chx (lm : Libm) (nt : bool) (self : State b64) (comps : Components b64) (v : Values b64)
    (tol : ConvergenceTolerance b64) (r : result (State b64) (State b64))
    (p : Pressure b64) (m : MassFlows b64) (f : FixedConductance b64) (s : bool) :
  let ops := b64_ops lm nt in
  co_chx comps = chx_FixedConductance f -> State_update self comps v tol = Ret r ->
  Pressure_from_values v = Ret p -> MassFlows_from_values v = Ret m -> mf_chx m = B754_zero s ->
  let cp := fl_cp (s_fluid self) (te_chx (s_temp self)) (pr_avg p) in
  finite cp -> 0 < value cp -> finite (fc_UA f) -> 0 < value (fc_UA f) ->
  exists s', r = Ok s' /\ ~ finite (te_chx (s_temp s')) /\
    (s = false -> lm_exp lm (B754_infinity true) = B754_zero false -> not_a_number (te_chx (s_temp s'))).
Proof. exact (update_no_flow_chx lm nt self comps v tol r p m f s). Qed.
Print Assumptions C34_chx.
Theorem C34_hhx (lm : Libm) (nt : bool) (self : State b64) (comps : Components b64) (v : Values b64)
    (tol : ConvergenceTolerance b64) (r : result (State b64) (State b64))
    (p : Pressure b64) (m : MassFlows b64) (f : FixedConductance b64) (s : bool) :
  let ops := b64_ops lm nt in
  co_hhx comps = hhx_FixedConductance f -> State_update self comps v tol = Ret r ->
  Pressure_from_values v = Ret p -> MassFlows_from_values v = Ret m -> mf_hhx m = B754_zero s ->
  let cp := fl_cp (s_fluid self) (te_hhx (s_temp self)) (pr_avg p) in
  finite cp -> 0 < value cp -> finite (fc_UA f) -> 0 < value (fc_UA f) ->
  exists s', r = Ok s' /\ ~ finite (te_hhx (s_temp s')) /\
    (s = false -> lm_exp lm (B754_infinity true) = B754_zero false -> not_a_number (te_hhx (s_temp s'))).
Proof. exact (update_no_flow_hhx lm nt self comps v tol r p m f s). Qed.
Print Assumptions C34_hhx.
Theorem C34_regen (lm : Libm) (nt : bool) (self : State b64) (comps : Components b64) (v : Values b64)
    (tol : ConvergenceTolerance b64) (r : result (State b64) (State b64))
    (p : Pressure b64) (m : MassFlows b64) (f : FixedConductance b64) (s : bool) :
  let ops := b64_ops lm nt in
  co_regen comps = regen_FixedConductance f -> State_update self comps v tol = Ret r ->
  Pressure_from_values v = Ret p -> MassFlows_from_values v = Ret m -> mf_regen m = B754_zero s ->
  let cp := fl_cp (s_fluid self) (rt_avg (te_regen (s_temp self))) (pr_avg p) in
  finite cp -> 0 < value cp -> finite (fc_UA f) -> 0 < value (fc_UA f) ->
  exists s', r = Ok s' /\ not_a_number (rt_cold (te_regen (s_temp s'))).
Proof. exact (update_no_flow_regen lm nt self comps v tol r p m f s). Qed.
Print Assumptions C34_regen.
Example C34_case : still_case limit_libm true (fc_comps_of limit_libm true) still_values case_tol.
Proof. exact still_gas. Qed.

(** C42: the step for one point *)
Theorem C42_step_infinite (lm : Libm) (nt : bool) (c : Cycle b64) (ic : Conditions b64)
    (tol : OdeTolerance b64) : finite (cy_period c) -> 0 < value (cy_period c) ->
  oa_dx (@ode_args b64 (b64_ops lm nt) c ic 0 tol) = B754_infinity false.
Proof. exact (step_infinite lm nt c ic tol). Qed.
Print Assumptions C42_step_infinite.
Example C42_step_case : finite (cy_period constant_cycle) /\ 0 < value (cy_period constant_cycle).
Proof. exact period_case. Qed.

(** C43: the normalising enthalpy vanishes *)
Theorem C43_norm_zero (lm : Libm) (nt : bool) (comps : Components b64) (s : State b64) (r : Run b64) :
  let ops := b64_ops lm nt in
  s_fluid s = IdealGas_Fluid (IdealGas_new Helium) -> Run_new comps s = Ret r ->
  finite (te_sink (s_temp s)) -> finite (te_source (s_temp s)) ->
  0 <= value (te_sink (s_temp s)) -> 0 <= value (te_source (s_temp s)) ->
  value (te_sink (s_temp s)) + value (te_source (s_temp s)) = 500 ->
  finite (ru_enth_norm r) /\ value (ru_enth_norm r) = 0.
Proof. exact (helium_norm_zero lm nt comps s r). Qed.
Print Assumptions C43_norm_zero.
Theorem C43_matrix (lm : Libm) (nt : bool) (r : Run b64) (time : b64) (cond : Conditions b64)
    (dir : FlowDirection) :
  let ops := b64_ops lm nt in
  finite (ru_enth_norm r) -> value (ru_enth_norm r) = 0 ->
  let A := create_matrix (sys_stencil (System_new (cy_calculate_inputs (Run_Cycle r) time cond))) dir in
  ~ finite (vget (vget A I3) I4) /\ ~ finite (vget (vget A I5) I5) /\ ~ finite (vget (vget A I7) I6).
Proof. exact (norm_zero_run lm nt r time cond dir). Qed.
Print Assumptions C43_matrix.
Example C43_temperatures :
  (finite (b64_lit 200 0) /\ value (b64_lit 200 0) = 200) /\
  (finite (b64_lit 300 0) /\ value (b64_lit 300 0) = 300).
Proof. exact temps_case. Qed.
Example C43_case : exists s r,
  s_fluid s = IdealGas_Fluid (IdealGas_new Helium) /\ Run_new fa_comps s = Ret r /\
  te_sink (s_temp s) = b64_lit 200 0 /\ te_source (s_temp s) = b64_lit 300 0 /\
  Beqb (ru_enth_norm r) (B754_zero false) = true.
Proof. exact norm_case. Qed.

(** C49: directions of special values *)
Theorem C49_direction (lm : Libm) (nt : bool) (x : b64) :
  let ops := b64_ops lm nt in
  match x with
  | B754_zero _ => Direction_from_value x = Positive
  | B754_infinity s => Direction_from_value x = if s then Negative else Positive
  | B754_nan => Direction_from_value x = Negative
  | B754_finite s _ _ _ => Direction_from_value x = if s then Negative else Positive
  end.
Proof. exact (direction_cases lm nt x). Qed.
Print Assumptions C49_direction.
Theorem C49_nan_accepted (lm : Libm) (nt : bool) (D : Decomp b64) (i : Inputs b64) (hint : FlowDirection) :
  let ops := b64_ops lm nt in
  (forall A b, exists x, D A b = Some x /\
     not_a_number (vget x I0) /\ not_a_number (vget x I1) /\
     not_a_number (vget x I2) /\ not_a_number (vget x I3)) ->
  exists s, solve D i hint = Ok s /\ not_a_number (so_m_dot_ck s) /\ not_a_number (so_m_dot_kr s) /\
            not_a_number (so_m_dot_rl s) /\ not_a_number (so_m_dot_le s).
Proof. exact (nan_accepted lm nt D i hint). Qed.
Print Assumptions C49_nan_accepted.
Example C49_case (A : Matrix b64) (b : Vector b64) :
  exists x, nan_solver A b = Some x /\ not_a_number (vget x I0) /\ not_a_number (vget x I1) /\
    not_a_number (vget x I2) /\ not_a_number (vget x I3).
Proof. exact (nan_solver_answers A b). Qed.

(** C50: the end-of-cycle guard *)
Theorem C50_guard_moves (lm : Libm) (nt : bool) (c : Cycle b64) (ic : Conditions b64) (n : N)
    (tol : OdeTolerance b64) : finite (cy_period c) -> 0 < value (cy_period c) < 128 ->
  let x_end := oa_x_end (@ode_args b64 (b64_ops lm nt) c ic n tol) in
  finite x_end /\ value (cy_period c) < value x_end.
Proof. exact (guard_moves (cy_period c)). Qed.
Print Assumptions C50_guard_moves.
Theorem C50_guard_absorbed (lm : Libm) (nt : bool) (c : Cycle b64) (ic : Conditions b64) (n : N)
    (tol : OdeTolerance b64) : finite (cy_period c) -> 128 <= value (cy_period c) ->
  oa_x_end (@ode_args b64 (b64_ops lm nt) c ic n tol) = cy_period c.
Proof. exact (guard_absorbed (cy_period c)). Qed.
Print Assumptions C50_guard_absorbed.
Example C50_case :
  (finite (b64_lit 1 (-2)) /\ 0 < value (b64_lit 1 (-2)) < 128) /\
  (finite (b64_lit 200 0) /\ 128 <= value (b64_lit 200 0)).
Proof. exact guard_case. Qed.

(** C77: inputs and settings of a successful run *)
Theorem C77_inputs (lm : Libm) (nt : bool) (E : Env b64) (D : Decomp b64) (comps : Components b64)
    (fl : Fluid b64) (inputs : RunInputs b64) (settings : RunSettings b64) (e : Engine b64) :
  @Engine_run b64 (b64_ops lm nt) E D comps fl inputs settings = Ret (Ok e) ->
  finite (ri_temp_sink inputs) /\ finite (ri_temp_source inputs) /\
  Forall above_zero [ct_abs (lt_outer (rs_loop_tol settings)); ct_rel (lt_outer (rs_loop_tol settings));
                     ct_abs (lt_inner (rs_loop_tol settings)); ct_rel (lt_inner (rs_loop_tol settings))] /\
  mi_outer (rs_max_iters settings) <> 0%N /\ mi_inner (rs_max_iters settings) <> 0%N.
Proof. exact (run_sane lm nt E D comps fl inputs settings e). Qed.
Print Assumptions C77_inputs.
Theorem C77_gas (lm : Libm) (nt : bool) (E : Env b64) (D : Decomp b64) (comps : Components b64)
    (fl : Fluid b64) (inputs : RunInputs b64) (settings : RunSettings b64) (e : Engine b64) :
  reports_start E ->
  @Engine_run b64 (b64_ops lm nt) E D comps fl inputs settings = Ret (Ok e) ->
  exists T_c rest_c T_e rest_e,
    vs_T_c (en_values e) = T_c :: rest_c /\ vs_T_e (en_values e) = T_e :: rest_e /\
    finite T_c /\ value T_c <> 0 /\ finite T_e /\ value T_e <> 0.
Proof. exact (run_first_gas lm nt E D comps fl inputs settings e). Qed.
Print Assumptions C77_gas.
Example C77_case : exists eng,
  Engine_run demo_env gauss fa_comps helium demo_inputs (settings_of fa_config) = Ret (Ok eng) /\
  length (vs_time (en_values eng)) = 4%nat.
Proof. exact fa_runs. Qed.
