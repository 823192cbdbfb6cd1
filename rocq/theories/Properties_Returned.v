(** * Theorems about what successful runs return *)
From Coq Require Import ZArith NArith List Reals.
From Verif Require Import Num ModelTypes ModelWs ModelHx ModelStateEq ModelEngine ModelApi RNum Spec SpecApi SpecR SpecGas SpecLaws SpecSpaces
  SpecUnique SpecReport SpecQuad SpecBounds SpecSteady SpecContract SpecSample SpecSearch SpecAccurate SpecMeans SpecPush Fixture RGauss RFluid RSearchCase
  RConvergeCase RAccurate RAccurateCase RReturned RPush RApproach RConsistent RConsistentCase.
Import ListNotations.
Local Open Scope R_scope.

(** C114: helium engines that settle, with any exchangers: with an accurate integrator, a run that
    succeeds reports the exact steady cycle of the state that it returns *)
Theorem C114_report (comps : Components R) (s0 : State R) (r : Run R) (D : Decomp R) (cl ch el eh cl' ch' el' eh' : R)
    (T_low V_hi v_hi rho rv : R) (c' : R -> Conditions R) (a : Replies R) :
  let q := left_over r T_low V_hi v_hi rho rv in
  let P0 := pr_t_zero (s_pres s0) in
  let region := within_levels r P0 cl' ch' el' eh' in
  s_fluid s0 = IdealGas_Fluid he -> driven (co_ws comps) -> Run_new comps s0 = Ret r ->
  te_sink (s_temp s0) + te_source (s_temp s0) <> 500 -> sound D -> complete D -> sane_exchangers r -> 0 < P0 ->
  (forall T, between (V_comp r) cl ch 0 T) -> (forall T, between (V_exp r) el eh 0 T) ->
  0 < cl' < cl -> ch < ch' -> 0 < el' < el -> eh < eh' ->
  settles r T_low V_hi v_hi rho rv -> q < 1 ->
  T_low < expanded cl' ch' (te_chx (ru_temp r)) -> T_low < expanded el' eh' (te_hhx (ru_temp r)) ->
  steady_cycle D r c' -> warm_trajectory D r T_low c' -> cd_P (c' 0) = P0 ->
  (forall vals, replies (mkEngine comps s0 vals) a) ->
  exists K d, 0 <= K /\ 0 < d /\
  forall (E : Env R) (fl : Fluid R) (inputs : RunInputs R) (settings : RunSettings R) (e h : R) k en (s : R -> Solution R) (X : Totals),
  let err := test_error T_low q (e / (T_low * T_low)) (lt_inner (rs_loop_tol settings)) in
  Engine_run_counted E D comps fl inputs settings = (k, Ret (Ok en)) -> en_state en = s0 ->
  0 <= e -> accurate E D r region (rs_ode_tol settings) 2 (ru_period r) e ->
  accurate E D r region (rs_ode_tol settings) (rs_resolution settings) h e ->
  e <= d -> err <= d ->
  (forall t, 0 <= t <= ru_period r -> solved_at D r t (c' t) (s t)) ->
  totals (IdealGas_Fluid he) (s_temp s0) a c' s (ru_period r) X ->
  exists rep, RunResults_from en = Ret rep /\ report_within a X (K * (h + e + err)) rep.
Proof. exact (returned_report comps s0 r D cl ch el eh cl' ch' el' eh' T_low V_hi v_hi rho rv c' a). Qed.
Print Assumptions C114_report.
(** the averages in the last test of the outer loop are the means of the exact steady cycle *)
Theorem C114_means (comps : Components R) (s0 : State R) (r : Run R) (D : Decomp R) (cl ch el eh cl' ch' el' eh' : R)
    (T_low V_hi v_hi rho rv : R) (c' : R -> Conditions R) (a : Replies R) :
  let q := left_over r T_low V_hi v_hi rho rv in
  let P0 := pr_t_zero (s_pres s0) in
  let region := within_levels r P0 cl' ch' el' eh' in
  s_fluid s0 = IdealGas_Fluid he -> driven (co_ws comps) -> Run_new comps s0 = Ret r ->
  te_sink (s_temp s0) + te_source (s_temp s0) <> 500 -> sound D -> complete D -> sane_exchangers r -> 0 < P0 ->
  (forall T, between (V_comp r) cl ch 0 T) -> (forall T, between (V_exp r) el eh 0 T) ->
  0 < cl' < cl -> ch < ch' -> 0 < el' < el -> eh < eh' ->
  settles r T_low V_hi v_hi rho rv -> q < 1 ->
  T_low < expanded cl' ch' (te_chx (ru_temp r)) -> T_low < expanded el' eh' (te_hhx (ru_temp r)) ->
  steady_cycle D r c' -> warm_trajectory D r T_low c' -> cd_P (c' 0) = P0 ->
  (forall vals, replies (mkEngine comps s0 vals) a) ->
  exists K d, 0 <= K /\ 0 < d /\
  forall (E : Env R) (fl : Fluid R) (inputs : RunInputs R) (settings : RunSettings R) (e h : R) k en (s : R -> Solution R) (M : Means),
  let err := test_error T_low q (e / (T_low * T_low)) (lt_inner (rs_loop_tol settings)) in
  Engine_run_counted E D comps fl inputs settings = (k, Ret (Ok en)) -> en_state en = s0 ->
  0 <= e -> accurate E D r region (rs_ode_tol settings) 2 (ru_period r) e ->
  accurate E D r region (rs_ode_tol settings) (rs_resolution settings) h e ->
  e <= d -> err <= d ->
  (forall t, 0 <= t <= ru_period r -> solved_at D r t (c' t) (s t)) -> means (s_temp s0) (rp_res a) c' s (ru_period r) M ->
  0 <= h /\ 0 <= err /\ exists P m q' T',
    recomputed comps (s_fluid s0) (s_pres s0) (s_temp s0) (s_regen_imbalance s0) (en_values en) P m q' T' /\
    temperatures_close (lt_outer (rs_loop_tol settings)) (s_temp s0) T' /\
    averages_within (K * (h + e + err)) M P m q'.
Proof. exact (returned_means comps s0 r D cl ch el eh cl' ch' el' eh' T_low V_hi v_hi rho rv c' a). Qed.
Print Assumptions C114_means.
(** the means exist *)
Theorem C114_exist (comps : Components R) (s0 : State R) (r : Run R) (D : Decomp R) (c' : R -> Conditions R) (a : Replies R) :
  s_fluid s0 = IdealGas_Fluid he -> driven (co_ws comps) -> Run_new comps s0 = Ret r -> sound D -> steady_cycle D r c' ->
  forall s, (forall t, 0 <= t <= ru_period r -> solved_at D r t (c' t) (s t)) -> exists M, means (s_temp s0) (rp_res a) c' s (ru_period r) M.
Proof. exact (exact_means comps s0 r D c' a). Qed.
Print Assumptions C114_exist.

(** C115: the exchangers of a successful run are consistent with the exact steady cycle: the temperatures
    returned are those that follow from the approaches at the exact means *)
Theorem C115_returned (comps : Components R) (s0 : State R) (r : Run R) (D : Decomp R) (cl ch el eh cl' ch' el' eh' : R)
    (T_low V_hi v_hi rho rv : R) (c' : R -> Conditions R) (a : Replies R) :
  let q := left_over r T_low V_hi v_hi rho rv in
  let P0 := pr_t_zero (s_pres s0) in
  let region := within_levels r P0 cl' ch' el' eh' in
  s_fluid s0 = IdealGas_Fluid he -> driven (co_ws comps) -> Run_new comps s0 = Ret r ->
  te_sink (s_temp s0) + te_source (s_temp s0) <> 500 -> sound D -> complete D -> sane_exchangers r -> 0 < P0 ->
  (forall T, between (V_comp r) cl ch 0 T) -> (forall T, between (V_exp r) el eh 0 T) ->
  0 < cl' < cl -> ch < ch' -> 0 < el' < el -> eh < eh' ->
  settles r T_low V_hi v_hi rho rv -> q < 1 ->
  T_low < expanded cl' ch' (te_chx (ru_temp r)) -> T_low < expanded el' eh' (te_hhx (ru_temp r)) ->
  steady_cycle D r c' -> warm_trajectory D r T_low c' -> cd_P (c' 0) = P0 ->
  (forall vals, replies (mkEngine comps s0 vals) a) ->
  forall (s : R -> Solution R) (M : Means) (a_k a_r a_l : R),
  (forall t, 0 <= t <= ru_period r -> solved_at D r t (c' t) (s t)) -> means (s_temp s0) (rp_res a) c' s (ru_period r) M ->
  steady_approaches comps s0 M a_k a_r a_l ->
  forall eps, 0 < eps -> exists d, 0 < d /\
  forall (E : Env R) (fl : Fluid R) (inputs : RunInputs R) (settings : RunSettings R) (e h : R) k en,
  let err := test_error T_low q (e / (T_low * T_low)) (lt_inner (rs_loop_tol settings)) in
  Engine_run_counted E D comps fl inputs settings = (k, Ret (Ok en)) -> en_state en = s0 ->
  0 <= e -> accurate E D r region (rs_ode_tol settings) 2 (ru_period r) e ->
  accurate E D r region (rs_ode_tol settings) (rs_resolution settings) h e ->
  e <= d -> err <= d -> h <= d ->
  consistent_within (ct_abs (lt_outer (rs_loop_tol settings)) + eps) (s_temp s0) (s_regen_imbalance s0) a_k a_r a_l.
Proof. exact (returned_consistent comps s0 r D cl ch el eh cl' ch' el' eh' T_low V_hi v_hi rho rv c' a). Qed.
Print Assumptions C115_returned.
(** conversely, if they are consistent at the state that the run starts from, the run succeeds, returns that
    state and reports its exact steady cycle *)
Theorem C115_run (comps : Components R) (s0 : State R) (r : Run R) (D : Decomp R) (cl ch el eh cl' ch' el' eh' : R)
    (T_low V_hi v_hi rho rv : R) (c' : R -> Conditions R) (a : Replies R) :
  let q := left_over r T_low V_hi v_hi rho rv in
  let P0 := pr_t_zero (s_pres s0) in
  let region := within_levels r P0 cl' ch' el' eh' in
  s_fluid s0 = IdealGas_Fluid he -> driven (co_ws comps) -> Run_new comps s0 = Ret r ->
  te_sink (s_temp s0) + te_source (s_temp s0) <> 500 -> sound D -> complete D -> sane_exchangers r -> 0 < P0 ->
  (forall T, between (V_comp r) cl ch 0 T) -> (forall T, between (V_exp r) el eh 0 T) ->
  0 < cl' < cl -> ch < ch' -> 0 < el' < el -> eh < eh' ->
  settles r T_low V_hi v_hi rho rv -> q < 1 ->
  T_low < expanded cl' ch' (te_chx (ru_temp r)) -> T_low < expanded el' eh' (te_hhx (ru_temp r)) ->
  steady_cycle D r c' -> warm_trajectory D r T_low c' -> cd_P (c' 0) = P0 ->
  (forall vals, replies (mkEngine comps s0 vals) a) ->
  (forall p, ~ approach_panics comps p) ->
  forall (s : R -> Solution R) (M : Means) (a_k a_r a_l : R),
  (forall t, 0 <= t <= ru_period r -> solved_at D r t (c' t) (s t)) -> means (s_temp s0) (rp_res a) c' s (ru_period r) M ->
  steady_approaches comps s0 M a_k a_r a_l ->
  temperatures_follow (te_sink (s_temp s0)) (te_source (s_temp s0)) a_k a_r a_l (s_regen_imbalance s0) (s_temp s0) ->
  0 < te_chx (s_temp s0) + rt_cold (te_regen (s_temp s0)) < te_hhx (s_temp s0) + rt_hot (te_regen (s_temp s0)) ->
  forall (tol' : ConvergenceTolerance R) (X : Totals), 0 < ct_abs tol' -> 0 < ct_rel tol' ->
  totals (IdealGas_Fluid he) (s_temp s0) a c' s (ru_period r) X ->
  forall eps, 0 < eps -> exists dl, 0 < dl /\
  forall tol, 0 < ct_abs tol -> 0 < ct_rel tol <= dl -> exists e0 n, 0 < e0 /\
  forall (E : Env R) (fl : Fluid R) (inputs : RunInputs R) (settings : RunSettings R) (h : R),
  State_new_hint comps fl inputs = Ret s0 ->
  lt_inner (rs_loop_tol settings) = tol -> lt_outer (rs_loop_tol settings) = tol' ->
  accurate E D r region (rs_ode_tol settings) 2 (ru_period r) e0 ->
  accurate E D r region (rs_ode_tol settings) (rs_resolution settings) h e0 -> h <= dl ->
  (n < N.to_nat (mi_inner (rs_max_iters settings)))%nat -> (0 < mi_outer (rs_max_iters settings))%N ->
  exists k en rep, Engine_run_counted E D comps fl inputs settings = (k, Ret (Ok en)) /\ (k <= n + 2)%nat /\ en_state en = s0 /\
    RunResults_from en = Ret rep /\ report_within a X eps rep.
Proof. exact (consistent_limit comps s0 r D cl ch el eh cl' ch' el' eh' T_low V_hi v_hi rho rv c' a). Qed.
Print Assumptions C115_run.
(** exchangers of fixed conductance have approaches at positive mean flows; so have those of fixed approach *)
Theorem C115_conducting (comps : Components R) (s : State R) (M : Means) (u_k u_r u_l : R) :
  s_fluid s = IdealGas_Fluid he -> 0 < mn_flow_k M -> 0 < mn_flow_r M -> 0 < mn_flow_l M -> conducting comps u_k u_r u_l ->
  steady_approaches comps s M (mn_heat_k M * per_heat (cp_he * mn_flow_k M) u_k)
    ((te_hhx (s_temp s) - te_chx (s_temp s)) * per_span (cp_he * mn_flow_r M) u_r)
    (mn_heat_l M * per_heat (cp_he * mn_flow_l M) u_l).
Proof. exact (steady_conducting comps s M u_k u_r u_l). Qed.
Print Assumptions C115_conducting.
Theorem C115_keeping (comps : Components R) (s : State R) (M : Means) (a_k a_r a_l : R) :
  keeping comps a_k a_r a_l -> steady_approaches comps s M a_k a_r a_l.
Proof. exact (steady_keeping comps s M a_k a_r a_l). Qed.
Print Assumptions C115_keeping.
(** an engine with a regenerator of fixed conductance, with an exact integrator *)
Example C114_case : exists u s c' M X, 0 < u /\
  steady_cycle gauss st_run c' /\ (forall t, 0 <= t <= 1 / 60 -> solved_at gauss st_run t (c' t) (s t)) /\
  means st_temps (mkTR 1 1) c' s (1 / 60) M /\ 0 < mn_flow_k M /\ 0 < mn_flow_r M /\ 0 < mn_flow_l M /\
  steady_approaches (fc_comps u) st_state M 10 10 10 /\
  totals (IdealGas_Fluid he) st_temps st_replies c' s (1 / 60) X /\
  forall tol', 0 < ct_abs tol' -> 0 < ct_rel tol' -> forall eps, 0 < eps -> exists dl, 0 < dl /\
  forall m tol, (0 < m)%nat -> 1 / 60 / INR m <= dl -> 0 < ct_abs tol -> 0 < ct_rel tol <= dl ->
  exists n, forall ode points inner outer, (n < N.to_nat inner)%nat -> (0 < outer)%N ->
  exists k en rep,
    Engine_run_counted (wide_env m) gauss (fc_comps u) (IdealGas_Fluid he) st_inputs (st_settings tol tol' ode points inner outer) = (k, Ret (Ok en)) /\
    (k <= n + 2)%nat /\ en_state en = st_state /\ RunResults_from en = Ret rep /\ report_within st_replies X eps rep.
Proof. exact fc_succeeds. Qed.
