(** * Specification in exact arithmetic: how long trajectories last *)
From Coq Require Import ZArith NArith List Reals.
From Verif Require Import Num ModelTypes ModelWs ModelHx ModelStateEq ModelEngine RNum SpecR SpecGas
  SpecKin SpecTraj SpecUnique.
Local Open Scope R_scope.

(** pressure and gas temperatures within given ranges *)
Definition in_box (lo hi c : Conditions R) : Prop :=
  cd_P lo <= cd_P c <= cd_P hi /\ cd_T_c lo <= cd_T_c c <= cd_T_c hi /\ cd_T_e lo <= cd_T_e c <= cd_T_e hi.
(** from [c0] at time [t0] an exact trajectory through physical states lasts until time [T], or
    until it has left the given ranges *)
Definition lasts (D : Decomp R) (r : Run R) (lo hi c0 : Conditions R) (t0 T : R) : Prop :=
  exists t1 c, t0 <= t1 <= T /\ c t0 = c0 /\ (forall t, t0 <= t <= t1 -> physical_trajectory D r c t) /\
    (t1 = T \/ ~ in_box lo hi (c t1)).
