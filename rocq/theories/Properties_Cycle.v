(** * Theorems about trajectories: uniqueness, existence and steady cycles *)
From Coq Require Import ZArith NArith List Reals.
From Verif Require Import Num ModelTypes ModelWs ModelHx ModelStateEq ModelEngine RNum Spec SpecR SpecGas
  SpecKin SpecTraj SpecLaws SpecUnique SpecHydro SpecExist Fixture RGauss RFluid RHydro RCase RCase3 RUnique RPeriod
  RStart.
Local Open Scope R_scope.

(** C78: an exact trajectory is determined by one of its states *)
Theorem C78_unique (name : GasName) (r : Run R) (D D' : Decomp R) (c c' : R -> Conditions R) (a b t0 : R) :
  ru_fluid r = IdealGas_Fluid (IdealGas_new name) -> sound D -> sound D' -> a <= t0 <= b ->
  (forall t, a <= t <= b -> physical_trajectory D r c t /\ physical_trajectory D' r c' t) ->
  c t0 = c' t0 -> forall t, a <= t <= b -> c t = c' t.
Proof. exact (trajectories_agree name r D D' c c' a b t0). Qed.
Print Assumptions C78_unique.
Theorem C78_engine (name : GasName) (comps : Components R) (s : State R) (r : Run R) (D D' : Decomp R)
    (c c' : R -> Conditions R) (a b t0 : R) :
  s_fluid s = IdealGas_Fluid (IdealGas_new name) -> driven (co_ws comps) -> Run_new comps s = Ret r ->
  sound D -> sound D' -> a <= t0 <= b ->
  (forall t, a <= t <= b -> on_trajectory D r c t /\ physical (Run_calculate_inputs r t (c t)) /\
                            on_trajectory D' r c' t /\ physical (Run_calculate_inputs r t (c' t))) ->
  c t0 = c' t0 -> forall t, a <= t <= b -> c t = c' t.
Proof. exact (engine_unique name comps s r D D' c c' a b t0). Qed.
Print Assumptions C78_engine.
Example C78_case : forall t, physical_trajectory gauss br_run br_traj t.
Proof. exact br_physical_trajectory. Qed.
Example C78_case_only (c : R -> Conditions R) (D : Decomp R) (t : R) :
  sound D -> 0 <= t -> (forall u, 0 <= u -> physical_trajectory D br_run c u) ->
  c 0 = br_traj 0 -> c t = br_traj t.
Proof. exact (br_only c D t). Qed.

(** C79: returning gas temperatures make a steady cycle *)
Theorem C79_run (name : GasName) (r : Run R) (D : Decomp R) (c : R -> Conditions R) (tau : R) :
  ru_fluid r = IdealGas_Fluid (IdealGas_new name) -> sound D -> 0 <= tau -> repeats (ru_ws_vol_fn r) tau ->
  (forall t, 0 <= t -> physical_trajectory D r c t) ->
  cd_T_c (c tau) = cd_T_c (c 0) -> cd_T_e (c tau) = cd_T_e (c 0) ->
  forall t n, 0 <= t -> c (t + INR n * tau) = c t.
Proof. exact (cycles_repeat name r D c tau). Qed.
Print Assumptions C79_run.
Theorem C79_engine (name : GasName) (comps : Components R) (s : State R) (r : Run R) (D : Decomp R)
    (c : R -> Conditions R) :
  s_fluid s = IdealGas_Fluid (IdealGas_new name) -> driven (co_ws comps) -> Run_new comps s = Ret r -> sound D ->
  (forall t, 0 <= t -> on_trajectory D r c t /\ physical (Run_calculate_inputs r t (c t))) ->
  cd_T_c (c (cy_period (Run_Cycle r))) = cd_T_c (c 0) -> cd_T_e (c (cy_period (Run_Cycle r))) = cd_T_e (c 0) ->
  forall t n, 0 <= t -> c (t + INR n * cy_period (Run_Cycle r)) = c t.
Proof. exact (engine_repeats name comps s r D c). Qed.
Print Assumptions C79_engine.
Example C79_case : s_fluid case_state = IdealGas_Fluid (IdealGas_new Helium) /\ driven (co_ws bd_comps) /\
  Run_new bd_comps case_state = Ret bd_run /\
  (forall t, on_trajectory gauss bd_run bd_traj t /\ physical (Run_calculate_inputs bd_run t (bd_traj t))) /\
  (cd_T_c (bd_traj (ru_period bd_run)) = cd_T_c (bd_traj 0) /\
   cd_T_e (bd_traj (ru_period bd_run)) = cd_T_e (bd_traj 0)) /\
  cd_P (bd_traj 0) < cd_P (bd_traj (PI / 2)).
Proof.
  exact (conj eq_refl (conj bd_driven (conj bd_new (conj bd_on_trajectory (conj bd_returns bd_moves))))).
Qed.

(** C80: an exact trajectory starts at every physical state, and lasts while the state stays in range *)
Theorem C80_starts (name : GasName) (r : Run R) (t0 : R) (c0 : Conditions R) (eta : R) (D : Decomp R) :
  ru_fluid r = IdealGas_Fluid (IdealGas_new name) -> sound D -> complete D -> 0 < eta ->
  (forall t, t0 - eta <= t <= t0 + eta ->
     true_derivatives (ru_ws_vol_fn r) t /\ continuous_rates (ru_ws_vol_fn r) t) ->
  positive_temps r c0 -> physical (Run_calculate_inputs r t0 c0) ->
  exists h c, 0 < h /\ c t0 = c0 /\ forall t, t0 - h < t < t0 + h -> physical_trajectory D r c t.
Proof. exact (local_trajectory name r t0 c0 eta D). Qed.
Print Assumptions C80_starts.
Theorem C80_lasts (name : GasName) (r : Run R) (t0 T : R) (lo hi c0 : Conditions R) (D : Decomp R) :
  ru_fluid r = IdealGas_Fluid (IdealGas_new name) -> t0 <= T ->
  (forall t, true_derivatives (ru_ws_vol_fn r) t /\ continuous_rates (ru_ws_vol_fn r) t) ->
  (forall t c, t0 <= t <= T -> in_box lo hi c -> positive_temps r c /\ physical (Run_calculate_inputs r t c)) ->
  in_box lo hi c0 -> sound D -> complete D -> lasts D r lo hi c0 t0 T.
Proof. exact (fun Hf HT Hv Hb H0 => lasting name r Hf t0 T lo hi c0 HT Hv Hb H0 D). Qed.
Print Assumptions C80_lasts.
Theorem C80_helium (comps : Components R) (s : State R) (r : Run R) (D : Decomp R) (lo hi c0 : Conditions R) (T : R) :
  s_fluid s = IdealGas_Fluid he -> driven (co_ws comps) -> Run_new comps s = Ret r ->
  te_sink (s_temp s) + te_source (s_temp s) <> 500 -> sound D -> complete D -> 0 <= T ->
  (forall t, 0 <= t <= T -> helium_conditions r t lo) -> in_box lo hi c0 -> lasts D r lo hi c0 0 T.
Proof. exact (helium_lasts comps s r D lo hi c0 T). Qed.
Print Assumptions C80_helium.
Theorem C80_hydrogen (comps : Components R) (s : State R) (r : Run R) (D : Decomp R) (lo hi c0 : Conditions R) (T : R) :
  s_fluid s = IdealGas_Fluid h2 -> driven (co_ws comps) -> Run_new comps s = Ret r ->
  250 <= te_sink (s_temp s) -> 250 < te_source (s_temp s) -> sound D -> complete D -> 0 <= T ->
  (forall t, 0 <= t <= T -> hydrogen_conditions r t lo) -> in_box lo hi c0 -> lasts D r lo hi c0 0 T.
Proof. exact (hydrogen_lasts comps s r D lo hi c0 T). Qed.
Print Assumptions C80_hydrogen.
Example C80_case : Run_new case_comps case_state = Ret case_run /\ driven (co_ws case_comps) /\
  in_box case_lo case_hi case_conditions /\ (forall t, helium_conditions case_run t case_lo) /\
  lasts gauss case_run case_lo case_hi case_conditions 0 (cy_period (Run_Cycle case_run)).
Proof. exact (conj case_run_new (conj case_driven (conj case_box (conj case_low case_lasts)))). Qed.
