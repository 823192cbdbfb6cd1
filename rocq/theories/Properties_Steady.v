(** * Theorems about steady cycles of helium engines *)
From Coq Require Import ZArith NArith List Reals.
From Verif Require Import Num ModelTypes ModelWs ModelHx ModelStateEq ModelEngine RNum Spec SpecR SpecGas
  SpecKin SpecTraj SpecUnique SpecExist SpecSpaces SpecBounds SpecSteady Fixture RGauss RFluid RCase RBounds RSteady.
Import ListNotations.
Local Open Scope R_scope.

(** C97: a helium engine has a steady cycle for every pressure at its start *)
Theorem C97_exists (comps : Components R) (s : State R) (r : Run R) (D : Decomp R) (P0 cl ch el eh : R) :
  s_fluid s = IdealGas_Fluid he -> driven (co_ws comps) -> Run_new comps s = Ret r ->
  te_sink (s_temp s) + te_source (s_temp s) <> 500 -> sound D -> complete D ->
  (forall T, between (V_comp r) cl ch 0 T) -> (forall T, between (V_exp r) el eh 0 T) ->
  heat_lost_comp r = 0 -> heat_lost_exp r = 0 -> sane_exchangers r -> 0 < P0 ->
  warm (expanded cl ch (te_chx (ru_temp r))) -> warm (expanded el eh (te_hhx (ru_temp r))) ->
  exists c, cd_P (c 0) = P0 /\ steady_cycle D r c /\ forall t, 0 <= t <= ru_period r ->
    expanded cl ch (te_chx (ru_temp r)) <= cd_T_c (c t) <= compressed cl ch (te_chx (ru_temp r)) /\
    expanded el eh (te_hhx (ru_temp r)) <= cd_T_e (c t) <= compressed el eh (te_hhx (ru_temp r)).
Proof. exact (steady_ranges comps s r D P0 cl ch el eh). Qed.
Print Assumptions C97_exists.
Theorem C97_accepted (D : Decomp R) (r : Run R) (c : R -> Conditions R) (tol : ConvergenceTolerance R)
    (pts : list (Point R)) (first last : Point R) (pre post : list (Point R)) :
  steady_cycle D r c -> 0 < ct_abs tol -> 0 < ct_rel tol -> pts = first :: post -> pts = pre ++ [last] ->
  pt_conditions first = c 0 -> pt_conditions last = c (ru_period r) -> integration_is_converged pts tol = Ret true.
Proof. exact (accepted D r c tol pts first last pre post). Qed.
Print Assumptions C97_accepted.
Example C97_case : Run_new gl_comps case_state = Ret gl_run /\ driven (co_ws gl_comps) /\
  (forall T, between (V_comp gl_run) 0.0001 0.0002 0 T /\ between (V_exp gl_run) 0.0001 0.0002 0 T) /\
  sane_exchangers gl_run /\
  (warm (expanded 0.0001 0.0002 (te_chx (ru_temp gl_run))) /\ warm (expanded 0.0001 0.0002 (te_hhx (ru_temp gl_run)))) /\
  forall P0, 0 < P0 -> exists c, cd_P (c 0) = P0 /\ steady_cycle gauss gl_run c.
Proof. exact (conj gl_new (conj gl_driven (conj gl_volumes (conj gl_sane (conj gl_both gl_steady))))). Qed.
