(** * Theorems about the heat of the regenerator over a cycle *)
From Coq Require Import ZArith NArith List Reals.
From Verif Require Import Num ModelTypes ModelWs ModelHx ModelStateEq ModelEngine RNum Spec SpecR SpecGas
  SpecKin SpecTraj SpecLaws SpecUnique SpecSpaces SpecBounds SpecSteady SpecRegen Fixture RGauss RFluid RCase RRegen RRegenCase.
Local Open Scope R_scope.

(** C100: along a trajectory all flows and heats are continuous, so heat and gas can be metered *)
Theorem C100_continuous (name : GasName) (r : Run R) (D : Decomp R) (c : R -> Conditions R) (a b : R) :
  ru_fluid r = IdealGas_Fluid (IdealGas_new name) -> sound D -> (forall t, a <= t <= b -> physical_trajectory D r c t) ->
  exists S, forall t, a <= t <= b -> solves_continuously D r c S t.
Proof. exact (fun Hf HD => along name r Hf D HD c a b). Qed.
Print Assumptions C100_continuous.
Theorem C100_meters (name : GasName) (r : Run R) (D : Decomp R) (c : R -> Conditions R) (a b : R) :
  ru_fluid r = IdealGas_Fluid (IdealGas_new name) -> sound D -> a <= b ->
  (forall t, a <= t <= b -> physical_trajectory D r c t) ->
  exists heat gas_kr gas_rl, forall t, a <= t <= b -> meters D r c heat gas_kr gas_rl t.
Proof. exact (fun Hf HD => meters_exist name r Hf D HD c a b). Qed.
Print Assumptions C100_meters.

(** the heat that stays in the regenerator over a cycle *)
Theorem C100_balance (name : GasName) (r : Run R) (D : Decomp R) (c : R -> Conditions R) (a b : R)
    (heat gas_kr gas_rl : R -> R) (P : R) :
  ru_fluid r = IdealGas_Fluid (IdealGas_new name) -> sound D -> ru_enth_norm r <> 0 -> a <= b ->
  (forall t, a <= t <= b -> positive_temps r (c t) /\ true_derivatives (ru_ws_vol_fn r) t /\ meters D r c heat gas_kr gas_rl t) ->
  spaces_return r c a b -> cd_P (c b) = cd_P (c a) ->
  2 * (heat b - heat a) = step_hot r P * (gas_rl b - gas_rl a) - step_cold r P * (gas_kr b - gas_kr a).
Proof. exact (fun Hf HD => regen_balance name r Hf D HD c a b heat gas_kr gas_rl P). Qed.
Print Assumptions C100_balance.

(** in every run the two steps of temperature are equal *)
Theorem C100_run (E : Env R) (U : Decomp R) (comps : Components R) (fl : Fluid R) (inputs : RunInputs R)
    (settings : RunSettings R) (eng : Engine R) :
  Engine_run E U comps fl inputs settings = Ret (Ok eng) ->
  let T := s_temp (en_state eng) in rt_cold (te_regen T) - te_chx T = te_hhx T - rt_hot (te_regen T).
Proof. exact (run_ends E U comps fl inputs settings eng). Qed.
Print Assumptions C100_run.
Theorem C100_helium (r : Run R) (P : R) : ru_fluid r = IdealGas_Fluid he ->
  step_cold r P = cp_he * (rt_cold (te_regen (ru_temp r)) - te_chx (ru_temp r)) /\
  step_hot r P = cp_he * (te_hhx (ru_temp r) - rt_hot (te_regen (ru_temp r))).
Proof. exact (helium_steps r P). Qed.
Print Assumptions C100_helium.

(** less gas passes the hot end next to a space that keeps its volume, and the regenerator loses heat in every cycle *)
Theorem C100_sink (name : GasName) (r : Run R) (D : Decomp R) (c : R -> Conditions R) (a b : R)
    (heat gas_kr gas_rl : R -> R) (P : R) :
  ru_fluid r = IdealGas_Fluid (IdealGas_new name) -> sound D -> a <= b ->
  (forall t, a <= t <= b -> physical_trajectory D r c t /\ meters D r c heat gas_kr gas_rl t) ->
  spaces_return r c a b -> cd_P (c b) = cd_P (c a) -> rigid_expansion r a b -> 0 < ru_vol_regen r ->
  gas_rl b - gas_rl a < gas_kr b - gas_kr a /\
  (0 <= step_hot r P <= step_cold r P -> 0 < step_cold r P -> heat b < heat a).
Proof. exact (fun Hf HD => sink name r Hf D HD c a b heat gas_kr gas_rl P). Qed.
Print Assumptions C100_sink.
Theorem C100_gives_back_refuted : exists c heat gas_kr gas_rl, steady_cycle gauss rg_run c /\
  (forall t, 0 <= t <= ru_period rg_run -> meters gauss rg_run c heat gas_kr gas_rl t) /\ heat (ru_period rg_run) < heat 0.
Proof. exact rg_loses. Qed.
Print Assumptions C100_gives_back_refuted.
Example C100_case : State_new_hint rg_comps (IdealGas_Fluid he) rg_inputs = Ret rg_state /\ Run_new rg_comps rg_state = Ret rg_run /\
  rigid_expansion rg_run 0 (ru_period rg_run) /\ forall P0, 0 < P0 -> exists c, cd_P (c 0) = P0 /\ steady_cycle gauss rg_run c.
Proof. exact (conj rg_hint (conj rg_new (conj rg_rigid rg_steady))). Qed.
