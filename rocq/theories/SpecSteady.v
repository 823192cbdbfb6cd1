(** * Specification in exact arithmetic: steady cycles *)
From Coq Require Import ZArith NArith List Reals.
From Verif Require Import Num ModelTypes ModelWs ModelHx ModelStateEq ModelEngine RNum SpecGas SpecTraj SpecUnique
  SpecBounds.
Local Open Scope R_scope.

(** an exact trajectory for all time that repeats with every revolution *)
Definition steady_cycle (D : Decomp R) (r : Run R) (c : R -> Conditions R) : Prop :=
  (forall t, 0 <= t -> physical_trajectory D r c t) /\ forall t, 0 <= t -> c (t + ru_period r) = c t.
(** temperature of gas that has filled a volume from an exchanger at [T_in], but at most [T_ref], and
    was expanded from [V_lo] to [V_hi] *)
Definition expanded (V_lo V_hi T_in : R) : R := adiabat V_lo (Rmin T_ref (filling T_in)) / Rpower V_hi (R_he / cv_he).
Definition compressed (V_lo V_hi T_in : R) : R := adiabat V_hi (Rmax T_ref (filling T_in)) / Rpower V_lo (R_he / cv_he).
(** an engine whose exchangers are warm and have volumes that make sense *)
Definition sane_exchangers (r : Run R) : Prop :=
  warm (te_chx (ru_temp r)) /\ warm (te_hhx (ru_temp r)) /\ 0 < rt_avg (te_regen (ru_temp r)) /\
  0 <= ru_vol_chx r /\ 0 <= ru_vol_regen r /\ 0 <= ru_vol_hhx r.
