(** * Theorems about trajectories: returning pressures, dependence on the start and on errors *)
From Coq Require Import ZArith NArith List Reals.
From Verif Require Import Num ModelTypes ModelWs ModelHx ModelStateEq ModelEngine RNum Spec SpecR SpecGas
  SpecKin SpecTraj SpecLaws SpecUnique SpecHydro SpecExist SpecDepend Fixture RGauss RFluid RHydro RCase RCase3 RPeriod
  RReturn RDepend RCase4.
Import ListNotations.
Local Open Scope R_scope.

(** C85: when the temperatures return within tolerance, so does the pressure *)
Theorem C85_between (name : GasName) (r : Run R) (D : Decomp R) (c : R -> Conditions R) (a tau lo hi : R) :
  ru_fluid r = IdealGas_Fluid (IdealGas_new name) -> sound D -> 0 <= tau -> repeats (ru_ws_vol_fn r) tau ->
  (forall t, a <= t <= a + tau -> on_trajectory D r c t /\ physical (Run_calculate_inputs r t (c t))) ->
  lo <= 1 <= hi -> lo * cd_T_c (c a) <= cd_T_c (c (a + tau)) <= hi * cd_T_c (c a) ->
  lo * cd_T_e (c a) <= cd_T_e (c (a + tau)) <= hi * cd_T_e (c a) ->
  lo * cd_P (c a) <= cd_P (c (a + tau)) <= hi * cd_P (c a).
Proof. exact (fun Hf HD Ht HR H => pressure_bounds name r Hf D HD c a tau Ht HR H lo hi). Qed.
Print Assumptions C85_between.
Theorem C85_tolerance (name : GasName) (r : Run R) (D : Decomp R) (c : R -> Conditions R) (a tau : R)
    (tol : ConvergenceTolerance R) :
  ru_fluid r = IdealGas_Fluid (IdealGas_new name) -> sound D -> 0 <= tau -> repeats (ru_ws_vol_fn r) tau ->
  (forall t, a <= t <= a + tau -> on_trajectory D r c t /\ physical (Run_calculate_inputs r t (c t))) ->
  close tol (cd_T_c (c a)) (cd_T_c (c (a + tau))) -> close tol (cd_T_e (c a)) (cd_T_e (c (a + tau))) ->
  Rabs (cd_P (c (a + tau)) - cd_P (c a)) < ct_rel tol * cd_P (c a).
Proof. exact (fun Hf HD Ht HR H => pressure_close name r Hf D HD c a tau Ht HR H tol). Qed.
Print Assumptions C85_tolerance.
Theorem C85_converged (name : GasName) (r : Run R) (D : Decomp R) (c : R -> Conditions R) (a : R)
    (tol : ConvergenceTolerance R) (pts : list (Point R)) (first last : Point R) (pre post : list (Point R)) :
  ru_fluid r = IdealGas_Fluid (IdealGas_new name) -> sound D -> 0 <= ru_period r ->
  repeats (ru_ws_vol_fn r) (ru_period r) ->
  (forall t, a <= t <= a + ru_period r -> on_trajectory D r c t /\ physical (Run_calculate_inputs r t (c t))) ->
  pts = first :: post -> pts = pre ++ [last] ->
  pt_conditions first = c a -> pt_conditions last = c (a + ru_period r) ->
  integration_is_converged pts tol = Ret true ->
  Rabs (cd_P (pt_conditions last) - cd_P (pt_conditions first)) < ct_rel tol * cd_P (pt_conditions first).
Proof. exact (converged_pressure name r D c a tol pts first last pre post). Qed.
Print Assumptions C85_converged.
Example C85_case (tol : ConvergenceTolerance R) : 0 < ct_abs tol -> 0 < ct_rel tol ->
  close tol (cd_T_c (bd_traj 0)) (cd_T_c (bd_traj (ru_period bd_run))) /\
  close tol (cd_T_e (bd_traj 0)) (cd_T_e (bd_traj (ru_period bd_run))).
Proof. exact (bd_close tol). Qed.
Example C85_case_trajectory : forall t,
  on_trajectory gauss bd_run bd_traj t /\ physical (Run_calculate_inputs bd_run t (bd_traj t)).
Proof. exact bd_on_trajectory. Qed.

(** C86: trajectories that start near each other stay near each other *)
Theorem C86_depends (name : GasName) (r : Run R) (t0 T : R) (lo hi : Conditions R) :
  ru_fluid r = IdealGas_Fluid (IdealGas_new name) -> smooth_volumes (ru_ws_vol_fn r) -> physical_box r lo hi t0 T ->
  exists L, 0 <= L /\ forall (D D' : Decomp R) (c c' : R -> Conditions R) (a b : R),
    sound D -> sound D' -> t0 <= a -> b <= T ->
    (forall t, a <= t <= b -> on_trajectory D r c t /\ on_trajectory D' r c' t /\
                              in_box lo hi (c t) /\ in_box lo hi (c' t)) ->
    forall t, a <= t <= b -> gap (c t) (c' t) <= 2 * exp (L * (t - a)) * gap (c a) (c' a).
Proof. exact (depends_exactly name r t0 T lo hi). Qed.
Print Assumptions C86_depends.
Theorem C86_helium (comps : Components R) (s : State R) (r : Run R) (lo hi : Conditions R) (a b : R) :
  s_fluid s = IdealGas_Fluid he -> driven (co_ws comps) -> Run_new comps s = Ret r ->
  te_sink (s_temp s) + te_source (s_temp s) <> 500 ->
  (forall t, a <= t <= b -> helium_conditions r t lo) ->
  smooth_volumes (ru_ws_vol_fn r) /\ physical_box r lo hi a b.
Proof.
  exact (fun Hf Hd Hr Hn H => conj (driven_smooth comps s r Hd Hr) (helium_physical_box comps s r lo hi a b Hf Hd Hr Hn H)).
Qed.
Print Assumptions C86_helium.
Theorem C86_hydrogen (comps : Components R) (s : State R) (r : Run R) (lo hi : Conditions R) (a b : R) :
  s_fluid s = IdealGas_Fluid h2 -> driven (co_ws comps) -> Run_new comps s = Ret r ->
  250 <= te_sink (s_temp s) -> 250 < te_source (s_temp s) ->
  (forall t, a <= t <= b -> hydrogen_conditions r t lo) ->
  smooth_volumes (ru_ws_vol_fn r) /\ physical_box r lo hi a b.
Proof.
  exact (fun Hf Hd Hr Hk Hl H =>
    conj (driven_smooth comps s r Hd Hr) (hydrogen_physical_box comps s r lo hi a b Hf Hd Hr Hk Hl H)).
Qed.
Print Assumptions C86_hydrogen.
Example C86_case : smooth_volumes (ru_ws_vol_fn bd_run) /\ (forall a b, physical_box bd_run bd_lo bd_hi a b) /\
  (forall t, on_trajectory gauss bd_run bd_traj t /\
     on_trajectory gauss bd_run (fun u => charged (11 / 10) (bd_traj u)) t /\
     in_box bd_lo bd_hi (bd_traj t) /\ in_box bd_lo bd_hi (charged (11 / 10) (bd_traj t))) /\
  0 < gap (bd_traj 0) (charged (11 / 10) (bd_traj 0)).
Proof. exact (conj bd_smooth (conj bd_physical_box (conj bd_two bd_apart))). Qed.

(** C87: small errors of the rates make small errors of the states *)
Theorem C87_errors (name : GasName) (r : Run R) (t0 T : R) (lo hi : Conditions R) :
  ru_fluid r = IdealGas_Fluid (IdealGas_new name) -> smooth_volumes (ru_ws_vol_fn r) -> physical_box r lo hi t0 T ->
  exists L, 0 <= L /\ forall (D D' : Decomp R) (c c' : R -> Conditions R) (e e' a b : R),
    sound D -> sound D' -> 0 <= e -> 0 <= e' -> t0 <= a -> b <= T ->
    (forall t, a <= t <= b -> near_trajectory e D r c t /\ near_trajectory e' D' r c' t /\
                              in_box lo hi (c t) /\ in_box lo hi (c' t)) ->
    forall t, a <= t <= b -> gap (c t) (c' t) <= 2 * exp (L * (t - a)) * (gap (c a) (c' a) + (e + e')).
Proof. exact (fun Hf => depends name r Hf t0 T lo hi). Qed.
Print Assumptions C87_errors.
Theorem C87_exact (D : Decomp R) (r : Run R) (c : R -> Conditions R) (t : R) :
  on_trajectory D r c t -> near_trajectory 0 D r c t.
Proof. exact (exact_near D r c t). Qed.
Print Assumptions C87_exact.

(** C88: temperatures that return within tolerance make a nearly steady cycle *)
Theorem C88_nearly_steady (name : GasName) (r : Run R) (lo hi : Conditions R) :
  ru_fluid r = IdealGas_Fluid (IdealGas_new name) -> smooth_volumes (ru_ws_vol_fn r) -> 0 <= ru_period r ->
  repeats (ru_ws_vol_fn r) (ru_period r) -> physical_box r lo hi 0 (ru_period r) ->
  exists K, 0 <= K /\ forall (D : Decomp R) (c : R -> Conditions R) (tol : ConvergenceTolerance R), sound D ->
    (forall t, 0 <= t <= 2 * ru_period r -> on_trajectory D r c t /\ in_box lo hi (c t)) ->
    close tol (cd_T_c (c 0)) (cd_T_c (c (ru_period r))) -> close tol (cd_T_e (c 0)) (cd_T_e (c (ru_period r))) ->
    forall t, 0 <= t <= ru_period r -> gap (c (t + ru_period r)) (c t) <= K * ct_rel tol.
Proof. exact (nearly_steady name r lo hi). Qed.
Print Assumptions C88_nearly_steady.
