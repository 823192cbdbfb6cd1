(** * Theorems about how helium engines settle to their steady cycles *)
From Coq Require Import ZArith NArith List Reals.
From Verif Require Import Num ModelTypes ModelWs ModelHx ModelStateEq ModelEngine RNum Spec SpecR SpecGas
  SpecKin SpecTraj SpecLaws SpecUnique SpecExist SpecSpaces SpecBounds SpecSteady SpecContract Fixture RGauss RFluid RCase
  RPeriod RBounds RSteady RContractEngine RSettle RSettleCase.
Import ListNotations.
Local Open Scope R_scope.

(** C108: the temperatures of a helium engine with enough volume in its exchangers settle to one cycle *)
Theorem C108_revolution (D D' : Decomp R) (r : Run R) (T_low V_hi v_hi rho rv : R) (c c' : R -> Conditions R) :
  settles r T_low V_hi v_hi rho rv -> sound D -> sound D' ->
  (forall t, 0 <= t <= ru_period r -> physical_trajectory D r c t) ->
  (forall t, 0 <= t <= ru_period r -> physical_trajectory D' r c' t) ->
  kept_warm T_low c 0 (ru_period r) -> kept_warm T_low c' 0 (ru_period r) ->
  spread (c (ru_period r)) (c' (ru_period r)) <= left_over r T_low V_hi v_hi rho rv * spread (c 0) (c' 0) /\
  forall t, 0 <= t <= ru_period r -> spread (c t) (c' t) <= meanwhile r T_low V_hi v_hi * spread (c 0) (c' 0).
Proof. exact (settled D D' r T_low V_hi v_hi rho rv c c'). Qed.
Print Assumptions C108_revolution.
Theorem C108_unique (D : Decomp R) (r : Run R) (T_low V_hi v_hi rho rv : R) (c c' : R -> Conditions R) :
  settles r T_low V_hi v_hi rho rv -> left_over r T_low V_hi v_hi rho rv < 1 ->
  sound D -> complete D -> steady_cycle D r c -> steady_cycle D r c' ->
  kept_warm T_low c 0 (ru_period r) -> kept_warm T_low c' 0 (ru_period r) ->
  forall t, 0 <= t -> c' t = charged (cd_P (c' 0) / cd_P (c 0)) (c t).
Proof. exact (one_cycle D r T_low V_hi v_hi rho rv c c'). Qed.
Print Assumptions C108_unique.
Theorem C108_engine (comps : Components R) (s : State R) (r : Run R) (D : Decomp R)
    (cl ch el eh T_low V_hi v_hi rho rv P0 : R) :
  s_fluid s = IdealGas_Fluid he -> driven (co_ws comps) -> Run_new comps s = Ret r ->
  te_sink (s_temp s) + te_source (s_temp s) <> 500 -> sound D -> complete D ->
  (forall T, between (V_comp r) cl ch 0 T) -> (forall T, between (V_exp r) el eh 0 T) -> sane_exchangers r ->
  settles r T_low V_hi v_hi rho rv ->
  T_low <= expanded cl ch (te_chx (ru_temp r)) -> T_low <= expanded el eh (te_hhx (ru_temp r)) -> 0 < P0 ->
  exists c', cd_P (c' 0) = P0 /\ steady_cycle D r c' /\ warm_trajectory D r T_low c' /\
    forall c, warm_trajectory D r T_low c ->
      approaches (ru_period r) (left_over r T_low V_hi v_hi rho rv) (meanwhile r T_low V_hi v_hi) c c'.
Proof.
  exact (fun H1 H2 H3 H4 H5 H6 H7 H8 H9 H10 H11 H12 =>
    engine_settles comps s r D cl ch el eh T_low V_hi v_hi rho rv H1 H2 H3 H4 H5 H6 H7 H8 H9 H10 H11 H12 P0).
Qed.
Print Assumptions C108_engine.
Theorem C108_starts (comps : Components R) (s : State R) (r : Run R) (D : Decomp R)
    (cl ch el eh T_low V_hi v_hi rho rv : R) (c0 : Conditions R) :
  s_fluid s = IdealGas_Fluid he -> driven (co_ws comps) -> Run_new comps s = Ret r ->
  te_sink (s_temp s) + te_source (s_temp s) <> 500 -> sound D -> complete D ->
  (forall T, between (V_comp r) cl ch 0 T) -> (forall T, between (V_exp r) el eh 0 T) ->
  settles r T_low V_hi v_hi rho rv ->
  helium_conditions r 0 c0 -> T_low <= T_c_lo r c0 cl ch -> T_low <= T_e_lo r c0 el eh ->
  exists c, c 0 = c0 /\ warm_trajectory D r T_low c.
Proof.
  exact (fun H1 H2 H3 H4 H5 H6 H7 H8 H9 =>
    start_stays comps s r D cl ch el eh T_low V_hi v_hi rho rv H1 H2 H3 H4 H5 H6 H7 H8 H9 c0).
Qed.
Print Assumptions C108_starts.
Example C108_case : Run_new se_comps case_state = Ret se_run /\ settles se_run 125 0.0002 0.024 (/ 2) 1 /\
  exists c c', c 0 = case_conditions /\ warm_trajectory gauss se_run 125 c /\ steady_cycle gauss se_run c' /\
  warm_trajectory gauss se_run 125 c' /\
  approaches (1 / 60) (left_over se_run 125 0.0002 0.024 (/ 2) 1) (meanwhile se_run 125 0.0002 0.024) c c' /\
  left_over se_run 125 0.0002 0.024 (/ 2) 1 < 3 / 4.
Proof. exact (conj se_new (conj se_settles se_case)). Qed.
