(** * Theorems about the search for a steady cycle *)
From Coq Require Import ZArith NArith List Reals.
From Verif Require Import Num ModelTypes ModelWs ModelHx ModelStateEq ModelEngine RNum Spec SpecR SpecGas
  SpecUnique SpecBounds SpecSteady SpecContract SpecSearch Fixture RGauss RFluid RSearch RSearchCase.
Import ListNotations.
Local Open Scope R_scope.

(** C109: the search for a steady cycle of such an engine succeeds and finds it *)
Theorem C109_accepted (D : Decomp R) (r : Run R) (T_low V_hi v_hi rho rv e : R) (c' : R -> Conditions R)
    (ic fin : Conditions R) (pts : list (Point R)) (tol : ConvergenceTolerance R) :
  settles r T_low V_hi v_hi rho rv -> left_over r T_low V_hi v_hi rho rv < 1 -> sound D ->
  warm_trajectory D r T_low c' -> c' (ru_period r) = c' 0 ->
  tracks D r T_low e ic fin pts -> integration_is_converged pts tol = Ret true ->
  spread ic (c' 0) <= test_error T_low (left_over r T_low V_hi v_hi rho rv) e tol.
Proof.
  exact (fun H1 H2 H3 H4 H5 => passed_near D r T_low V_hi v_hi rho rv e c' H1 H2 H3 H4 H5 ic fin pts tol).
Qed.
Print Assumptions C109_accepted.
Theorem C109_search (E : Env R) (D : Decomp R) (r : Run R) (T_low V_hi v_hi rho rv e P0 T_hi : R) (c' : R -> Conditions R)
    (region : Conditions R -> Prop) (inputs : SteadyStateInputs R) (n : nat) :
  let q := left_over r T_low V_hi v_hi rho rv in
  let ic := mkCond P0 (ssi_temp_comp_hint inputs) (ssi_temp_exp_hint inputs) in
  settles r T_low V_hi v_hi rho rv -> q < 1 -> sound D -> warm_trajectory D r T_low c' -> c' (ru_period r) = c' 0 ->
  complete D -> 0 <= e -> reliable E D r T_low e P0 region (ssi_ode_tol inputs) (ssi_num_points inputs) ->
  ssi_pres_zero inputs = P0 ->
  (forall c, region c -> cd_P c = P0 /\ cd_T_c c <= T_hi /\ cd_T_e c <= T_hi) -> region ic ->
  (n < N.to_nat (ssi_max_iters inputs))%nat ->
  passes_test (ssi_conv_tol inputs) T_hi (change_after q e (spread ic (c' 0)) n) ->
  exists k vs, find_steady_state_counted E D (Run_Cycle r) inputs = (k, Ret (Ok vs)) /\ (k <= n + 2)%nat /\
    found_near (c' 0) P0 (test_error T_low q e (ssi_conv_tol inputs)) vs /\
    sampled_from E D r region (ssi_ode_tol inputs) (ssi_num_points inputs) vs.
Proof.
  exact (fun H1 H2 H3 H4 H5 H6 H7 H8 H9 H10 =>
    search_finds E D r T_low V_hi v_hi rho rv e P0 c' H1 H2 H3 H4 H5 region T_hi inputs H6 H7 H8 H9 H10 n).
Qed.
Print Assumptions C109_search.
Theorem C109_limit (tol : ConvergenceTolerance R) (q e d T_hi : R) :
  0 <= q < 1 -> 0 <= d -> 0 <= T_hi -> passes_test tol T_hi (change_after q e 0 0) ->
  exists n, passes_test tol T_hi (change_after q e d n).
Proof. exact (some_limit tol q e d T_hi). Qed.
Print Assumptions C109_limit.
Theorem C109_run (E : Env R) (D : Decomp R) (comps : Components R) (fl : Fluid R) (inputs : RunInputs R)
    (settings : RunSettings R) (s0 : State R) (r : Run R) (T_low V_hi v_hi rho rv e T_hi : R) (c' : R -> Conditions R)
    (region : Conditions R -> Prop) (n : nat) :
  let q := left_over r T_low V_hi v_hi rho rv in
  let P0 := pr_t_zero (s_pres s0) in
  let ic := mkCond P0 (te_chx (s_temp s0)) (te_hhx (s_temp s0)) in
  let tol := lt_inner (rs_loop_tol settings) in
  fixed_approach (co_chx comps) -> fixed_approach (co_regen comps) -> fixed_approach (co_hhx comps) ->
  State_new_hint comps fl inputs = Ret s0 -> Run_new comps s0 = Ret r ->
  (forall p, ws_thermal_resistance (co_ws comps) (mkWsState (s_pres s0)) <> Panic p) ->
  0 < ct_abs (lt_outer (rs_loop_tol settings)) -> 0 < ct_rel (lt_outer (rs_loop_tol settings)) ->
  settles r T_low V_hi v_hi rho rv -> q < 1 -> sound D -> complete D -> warm_trajectory D r T_low c' ->
  c' (ru_period r) = c' 0 -> 0 <= e -> reliable E D r T_low e P0 region (rs_ode_tol settings) (rs_resolution settings) ->
  (forall c, region c -> cd_P c = P0 /\ cd_T_c c <= T_hi /\ cd_T_e c <= T_hi) -> region ic ->
  passes_test tol T_hi (change_after q e (spread ic (c' 0)) n) ->
  (n < N.to_nat (mi_inner (rs_max_iters settings)))%nat -> (0 < mi_outer (rs_max_iters settings))%N ->
  exists k en vs, Engine_run_counted E D comps fl inputs settings = (k, Ret (Ok en)) /\ (k <= n + 2)%nat /\
    en_components en = comps /\ en_state en = s0 /\ series_of vs (en_values en) /\
    found_near (c' 0) P0 (test_error T_low q e tol) vs /\
    sampled_from E D r region (rs_ode_tol settings) (rs_resolution settings) vs.
Proof.
  exact (fun H1 H2 H3 H4 H5 H6 H7 H8 =>
    run_finds E D comps fl inputs settings s0 r H1 H2 H3 H4 H5 H6 H7 H8 T_low V_hi v_hi rho rv e T_hi c' region n).
Qed.
Print Assumptions C109_run.
(** an engine with an exact integrator: whatever the tolerances are, the run succeeds if it may take
    enough steps *)
Example C109_case (m : nat) (tol tol' : ConvergenceTolerance R) (ode : OdeTolerance R) (points : N) : (0 < m)%nat ->
  reliable (st_env m) gauss st_run 125 0 1000000 st_region ode points /\
  settles st_run 125 0.0002 0.024 (/ 2) 1 /\ left_over st_run 125 0.0002 0.024 (/ 2) 1 < 3 / 4 /\
  State_new_hint st_comps (IdealGas_Fluid he) st_inputs = Ret st_state /\ Run_new st_comps st_state = Ret st_run /\
  st_region (mkCond 1000000 (te_chx (s_temp st_state)) (te_hhx (s_temp st_state))) /\
  (0 < ct_abs tol -> 0 < ct_rel tol -> 0 < ct_abs tol' -> 0 < ct_rel tol' ->
   exists c' n, steady_cycle gauss st_run c' /\ warm_trajectory gauss st_run 125 c' /\
   passes_test tol st_top (change_after (left_over st_run 125 0.0002 0.024 (/ 2) 1) 0
     (spread (mkCond 1000000 (te_chx (s_temp st_state)) (te_hhx (s_temp st_state))) (c' 0)) n) /\
   forall inner outer, (n < N.to_nat inner)%nat -> (0 < outer)%N ->
   exists k en vs,
     Engine_run_counted (st_env m) gauss st_comps (IdealGas_Fluid he) st_inputs (st_settings tol tol' ode points inner outer) = (k, Ret (Ok en)) /\
     (k <= n + 2)%nat /\ series_of vs (en_values en) /\
     found_near (c' 0) 1000000 (test_error 125 (left_over st_run 125 0.0002 0.024 (/ 2) 1) 0 tol) vs).
Proof.
  exact (fun Hm => conj (st_reliable m ode points Hm) (conj st_settles (conj st_left_over (conj st_hint (conj st_new (conj st_start
    (st_succeeds m tol tol' ode points Hm))))))).
Qed.
