(** * Specification in exact arithmetic: trajectories that nearly agree *)
From Coq Require Import ZArith NArith List Reals.
From Verif Require Import Num ModelTypes ModelWs ModelHx ModelStateEq ModelEngine RNum SpecR SpecGas
  SpecKin SpecTraj SpecUnique SpecExist.
Local Open Scope R_scope.

(** how far two states are apart *)
Definition gap (c c' : Conditions R) : R :=
  Rabs (cd_P c - cd_P c') + Rabs (cd_T_c c - cd_T_c c') + Rabs (cd_T_e c - cd_T_e c').
(** [c] moves at rates within [e] of an accepted solution of the state equations *)
Definition near_trajectory (e : R) (D : Decomp R) (r : Run R) (c : R -> Conditions R) (t : R) : Prop :=
  exists hint s dP dTc dTe, solve D (Run_calculate_inputs r t (c t)) hint = Ok s /\
    has_deriv (fun u => cd_P (c u)) t dP /\ has_deriv (fun u => cd_T_c (c u)) t dTc /\
    has_deriv (fun u => cd_T_e (c u)) t dTe /\
    Rabs (dP - so_dP_dt s) <= e /\ Rabs (dTc - so_dTc_dt s) <= e /\ Rabs (dTe - so_dTe_dt s) <= e.
(** all states within the given ranges are physical ones *)
Definition physical_box (r : Run R) (lo hi : Conditions R) (a b : R) : Prop :=
  forall t c, a <= t <= b -> in_box lo hi c -> positive_temps r c /\ physical (Run_calculate_inputs r t c).
(** the volumes and their rates are smooth *)
Definition smooth_volumes (vol : R -> Volume R * Volume R) : Prop :=
  forall t, true_derivatives vol t /\ continuous_rates vol t.
