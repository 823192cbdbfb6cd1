(** * Theorems about heat and work of hydrogen engines over a cycle *)
From Coq Require Import ZArith NArith List Reals.
From Verif Require Import Num ModelTypes ModelWs ModelHx ModelStateEq ModelEngine RNum Spec SpecR SpecGas SpecKin
  SpecTraj SpecLaws SpecUnique SpecSpaces SpecHydro SpecBounds SpecSteady SpecH2Cycle Fixture RFluid RGauss RH2Case RH2Cycle.
Local Open Scope R_scope.

(** C132: over a cycle of a hydrogen engine heat and work differ by 250 K times the mean heat capacity carried out of the spaces *)
Theorem C132_mean (T P : R) : (T - 250) * mean_cp T = fl_enth (IdealGas_Fluid h2) T P.
Proof. exact (mean_enth T P). Qed.
Print Assumptions C132_mean.
Theorem C132_books (r : Run R) (D : Decomp R) (c : R -> Conditions R) (a b : R) :
  ru_fluid r = IdealGas_Fluid h2 -> sound D -> a <= b -> (forall t, a <= t <= b -> physical_trajectory D r c t) ->
  exists heat work carried, forall t, a <= t <= b -> h2_books D r c heat work carried t.
Proof. exact (fun Hf HD => h2_books_exist r Hf D HD c a b). Qed.
Print Assumptions C132_books.
Theorem C132_interval (r : Run R) (D : Decomp R) (c : R -> Conditions R) (heat work carried : R -> R) (a b : R) :
  ru_fluid r = IdealGas_Fluid h2 -> sound D -> a <= b ->
  (forall t, a <= t <= b -> physical_trajectory D r c t /\ h2_books D r c heat work carried t) ->
  (gas_energy r b (c b) + held r b (c b)) - (gas_energy r a (c a) + held r a (c a)) =
  (heat b - heat a) - (work b - work a) - (carried b - carried a).
Proof. exact (fun Hf HD => h2_interval r Hf D HD c heat work carried a b). Qed.
Print Assumptions C132_interval.
Theorem C132_cycle (r : Run R) (D : Decomp R) (c : R -> Conditions R) (heat work carried : R -> R) (a b : R) :
  ru_fluid r = IdealGas_Fluid h2 -> sound D -> a <= b ->
  (forall t, a <= t <= b -> physical_trajectory D r c t /\ h2_books D r c heat work carried t) ->
  spaces_return r c a b -> cd_P (c b) = cd_P (c a) ->
  (heat b - heat a) - (work b - work a) = carried b - carried a.
Proof. exact (fun Hf HD => h2_cycle r Hf D HD c heat work carried a b). Qed.
Print Assumptions C132_cycle.
Theorem C132_steady (comps : Components R) (s : State R) (r : Run R) (D : Decomp R) (c : R -> Conditions R) :
  driven (co_ws comps) -> Run_new comps s = Ret r -> s_fluid s = IdealGas_Fluid h2 -> sound D ->
  steady_cycle D r c -> exists heat work carried,
  (forall t, 0 <= t <= ru_period r -> h2_books D r c heat work carried t) /\
  (heat (ru_period r) - heat 0) - (work (ru_period r) - work 0) = carried (ru_period r) - carried 0.
Proof. exact (h2_steady_books comps s r D c). Qed.
Print Assumptions C132_steady.
Theorem C132_case (P0 : R) : 0 < P0 -> exists c heat work carried, cd_P (c 0) = P0 /\ steady_cycle gauss hy_run c /\
  (forall t, 0 <= t <= ru_period hy_run -> h2_books gauss hy_run c heat work carried t) /\
  (heat (ru_period hy_run) - heat 0) - (work (ru_period hy_run) - work 0) = carried (ru_period hy_run) - carried 0.
Proof. exact (hy_cycle P0). Qed.
Print Assumptions C132_case.
