(** * Theorems about reports from samples of a trajectory *)
From Coq Require Import ZArith NArith List Reals.
From Verif Require Import Num ModelTypes ModelWs ModelHx ModelStateEq ModelEngine ModelApi RNum Spec SpecR SpecGas
  SpecKin SpecTraj SpecUnique SpecExist SpecDepend SpecSeries SpecQuad SpecReport SpecSteady SpecSample Fixture RGauss RFluid
  RKin RCase RBounds RSteady RSample RSampleReport RMotion RSampleCase.
Import ListNotations.
Local Open Scope R_scope.

(** C103: reported powers and heats converge to those of the sampled trajectory *)
Theorem C103_rates (name : GasName) (r : Run R) (D : Decomp R) (c : R -> Conditions R) (s : R -> Solution R) (tau : R) :
  ru_fluid r = IdealGas_Fluid (IdealGas_new name) -> sound D ->
  (forall t, 0 <= t <= tau -> physical_trajectory D r c t) -> steady_motion (ru_ws_vol_fn r) 0 tau ->
  (forall t, 0 <= t <= tau -> solved_at D r t (c t) (s t)) ->
  exists K, changes_within K (fun t => so_m_dot_ck (s t)) 0 tau /\
    changes_within K (fun t => so_m_dot_kr (s t)) 0 tau /\ changes_within K (fun t => so_m_dot_rl (s t)) 0 tau /\
    changes_within K (fun t => so_m_dot_le (s t)) 0 tau /\ changes_within K (fun t => so_Q_dot_k (s t)) 0 tau /\
    changes_within K (fun t => so_Q_dot_r (s t)) 0 tau /\ changes_within K (fun t => so_Q_dot_l (s t)) 0 tau /\
    changes_within K (fun t => so_dTc_dt (s t)) 0 tau /\ changes_within K (fun t => so_dTe_dt (s t)) 0 tau /\
    changes_within K (fun t => so_dP_dt (s t)) 0 tau.
Proof. exact (fun Hf HD HT HW => rates_bounded _ (gas_R_pos name) r Hf D c tau HD HT HW s). Qed.
Print Assumptions C103_rates.
Theorem C103_totals (name : GasName) (r : Run R) (D : Decomp R) (c : R -> Conditions R) (s : R -> Solution R) (tau : R)
    (T : Temperatures R) (a : Replies R) :
  ru_fluid r = IdealGas_Fluid (IdealGas_new name) -> sound D -> 0 <= tau ->
  (forall t, 0 <= t <= tau -> physical_trajectory D r c t) -> steady_motion (ru_ws_vol_fn r) 0 tau ->
  (forall t, 0 <= t <= tau -> rp_vols a t = ru_ws_vol_fn r t) ->
  (forall t, 0 <= t <= tau -> solved_at D r t (c t) (s t)) ->
  exists X, totals (IdealGas_Fluid (IdealGas_new name)) T a c s tau X.
Proof. exact (fun Hf HD H0 HT HW HV => totals_exist _ (gas_R_pos name) r Hf D c tau HD H0 HT HW T a HV s). Qed.
Print Assumptions C103_totals.
Theorem C103_report (name : GasName) (r : Run R) (D : Decomp R) (c : R -> Conditions R) (tau : R)
    (T : Temperatures R) (a : Replies R) :
  ru_fluid r = IdealGas_Fluid (IdealGas_new name) -> sound D -> 0 <= tau ->
  (forall t, 0 <= t <= tau -> physical_trajectory D r c t) -> steady_motion (ru_ws_vol_fn r) 0 tau ->
  (forall t, 0 <= t <= tau -> rp_vols a t = ru_ws_vol_fn r t) ->
  exists K d, 0 < d /\ forall (s : R -> Solution R) (X : Totals) (e : Engine R) (vs : list (SeValues R)) (h dl : R) (D' : Decomp R),
  (forall t, 0 <= t <= tau -> solved_at D r t (c t) (s t)) ->
  totals (IdealGas_Fluid (IdealGas_new name)) T a c s tau X ->
  s_fluid (en_state e) = IdealGas_Fluid (IdealGas_new name) -> s_temp (en_state e) = T ->
  replies e a -> series_of vs (en_values e) -> sound D' ->
  grid_to (map (@sv_time R) vs) tau -> steps_within h (map (@sv_time R) vs) -> sampled D' r c dl vs -> dl <= d ->
  exists rep, RunResults_from e = Ret rep /\ report_within a X (K * (h + dl)) rep.
Proof. exact (fun Hf HD H0 HT HW HV => report_near _ (gas_R_pos name) r Hf D c tau HD H0 HT HW T a HV). Qed.
Print Assumptions C103_report.
Theorem C103_first_law (comps : Components R) (s0 : State R) (r : Run R) (D : Decomp R) (c : R -> Conditions R)
    (T : Temperatures R) (a : Replies R) :
  s_fluid s0 = IdealGas_Fluid he -> driven (co_ws comps) -> Run_new comps s0 = Ret r -> sound D ->
  steady_cycle D r c -> rp_vols a = ru_ws_vol_fn r -> ru_period r * rp_freq a = 1 ->
  exists K d, 0 < d /\ forall (s : R -> Solution R) (X : Totals) (e : Engine R) (vs : list (SeValues R)) (h dl : R) (D' : Decomp R),
  (forall t, 0 <= t <= ru_period r -> solved_at D r t (c t) (s t)) -> totals (IdealGas_Fluid he) T a c s (ru_period r) X ->
  s_fluid (en_state e) = IdealGas_Fluid he -> s_temp (en_state e) = T -> replies e a -> series_of vs (en_values e) ->
  sound D' -> grid_to (map (@sv_time R) vs) (ru_period r) -> steps_within h (map (@sv_time R) vs) ->
  sampled D' r c dl vs -> dl <= d ->
  exists rep, RunResults_from e = Ret rep /\
    Rabs (rrh_input (rr_heat_flow rep) - rrh_rejection (rr_heat_flow rep) - rrp_shaft (rr_power rep)
          - (rp_freq a * (to_Q_r X - to_wall_c X - to_wall_e X)
             + (pp_thermal (par_comp (ru_ws_parasitics r)) + pp_thermal (par_exp (ru_ws_parasitics r))))) <= K * (h + dl).
Proof. exact (helium_first_law comps s0 r D c T a). Qed.
Print Assumptions C103_first_law.
(** the drives meet what the theorems ask of the volumes *)
Theorem C103_driven (e : Engine R) (a : Replies R) (s : State R) (r : Run R) (t0 t1 : R) :
  driven (co_ws (en_components e)) -> Run_new (en_components e) s = Ret r -> replies e a ->
  steady_motion (ru_ws_vol_fn r) t0 t1 /\ rp_vols a = ru_ws_vol_fn r /\ ru_period r * rp_freq a = 1.
Proof. exact (fun Hd Hr Ha => conj (driven_motion _ s r t0 t1 Hd Hr) (reply_volumes e a s r Hd Hr Ha)). Qed.
Print Assumptions C103_driven.
Example C103_case : exists c s, steady_cycle gauss gl_run c /\
  (forall t, 0 <= t <= ru_period gl_run -> solved_at gauss gl_run t (c t) (s t)) /\
  forall n, (0 < n)%nat -> let vs := samples_of c s (ru_period gl_run / INR n) n in
    replies (gl_engine c s n) gl_replies /\ series_of vs (en_values (gl_engine c s n)) /\
    grid_to (map (@sv_time R) vs) (ru_period gl_run) /\
    steps_within (ru_period gl_run / INR n) (map (@sv_time R) vs) /\ sampled gauss gl_run c 0 vs.
Proof. exact gl_sampled. Qed.
Example C103_case_rhombic (t0 t1 : R) : turns rh_long_crank /\ steady_motion (rh_volumes rh_long_crank) t0 t1.
Proof. exact (rh_motion_case t0 t1). Qed.
