(** * C91: every gas space balances mass and energy along exact trajectories *)
From Coq Require Import ZArith NArith List Reals.
From Verif Require Import Num ModelTypes ModelWs ModelHx ModelStateEq ModelEngine RNum Spec SpecR SpecGas
  SpecKin SpecTraj SpecSpaces Fixture RFluid RSpaces RCase RCase3 RPeriod.
Local Open Scope R_scope.

Theorem C91_masses (name : GasName) (r : Run R) (D : Decomp R) (c : R -> Conditions R) (t : R)
    (hint : FlowDirection) (s : Solution R) :
  ru_fluid r = IdealGas_Fluid (IdealGas_new name) -> sound D ->
  solve D (Run_calculate_inputs r t (c t)) hint = Ok s -> follows c s t ->
  positive_temps r (c t) -> true_derivatives (ru_ws_vol_fn r) t -> masses_balance r c t s.
Proof. exact (fun Hf HD => masses _ (gas_R_pos name) r Hf D c t hint s HD). Qed.
Print Assumptions C91_masses.
Theorem C91_exchangers (name : GasName) (r : Run R) (D : Decomp R) (c : R -> Conditions R) (t : R)
    (hint : FlowDirection) (s : Solution R) :
  ru_fluid r = IdealGas_Fluid (IdealGas_new name) -> sound D ->
  solve D (Run_calculate_inputs r t (c t)) hint = Ok s -> follows c s t ->
  positive_temps r (c t) -> ru_enth_norm r <> 0 -> exchangers_balance r c t s.
Proof. exact (fun Hf HD => exchangers _ (gas_R_pos name) r Hf D c t hint s HD). Qed.
Print Assumptions C91_exchangers.
Theorem C91_spaces (r : Run R) (D : Decomp R) (c : R -> Conditions R) (t : R)
    (hint : FlowDirection) (s : Solution R) :
  ru_fluid r = IdealGas_Fluid he -> sound D ->
  solve D (Run_calculate_inputs r t (c t)) hint = Ok s -> follows c s t ->
  positive_temps r (c t) -> ru_enth_norm r <> 0 -> true_derivatives (ru_ws_vol_fn r) t ->
  spaces_balance r c t s.
Proof.
  exact (fun Hf HD Hs HF HT Hn => spaces he (gas_R_pos Helium) r Hf D c t hint s HD Hs HF HT Hn he_du_deriv).
Qed.
Print Assumptions C91_spaces.
Example C91_case : ru_fluid bd_run = IdealGas_Fluid he /\
  (forall t, on_trajectory gauss bd_run bd_traj t /\ physical (Run_calculate_inputs bd_run t (bd_traj t))) /\
  cd_P (bd_traj 0) < cd_P (bd_traj (PI / 2)).
Proof. exact (conj eq_refl (conj bd_on_trajectory bd_moves)). Qed.
