(** * Specification in exact arithmetic: engines with effective heat exchangers *)
From Coq Require Import ZArith NArith List Reals.
From Verif Require Import Num ModelTypes ModelWs ModelHx ModelStateEq ModelEngine RNum Spec SpecR SpecGas SpecUnique SpecBounds
  SpecSteady SpecContract SpecMeans.
Import ListNotations.
Local Open Scope R_scope.

(** a state with the gas, the pressure at time zero, the reservoirs and the regenerator imbalance of
    [s0], and approaches of at most [A] *)
Definition approaches_within (s0 : State R) (A : R) (s : State R) : Prop :=
  s_fluid s = s_fluid s0 /\ pr_t_zero (s_pres s) = pr_t_zero (s_pres s0) /\ s_regen_imbalance s = s_regen_imbalance s0 /\
  exists a_k a_r a_l, Rabs a_k <= A /\ Rabs a_r <= A /\ Rabs a_l <= A /\
    temperatures_follow (te_sink (s_temp s0)) (te_source (s_temp s0)) a_k a_r a_l (s_regen_imbalance s0) (s_temp s).
(** the same engine, up to what its exchangers do with heat *)
Definition same_build (comps comps' : Components R) : Prop :=
  co_ws comps' = co_ws comps /\ ex_volume (co_chx comps') = ex_volume (co_chx comps) /\
  ex_volume (co_regen comps') = ex_volume (co_regen comps) /\ ex_volume (co_hhx comps') = ex_volume (co_hhx comps).
(** a run that settles by the factor [q] per revolution.  Its gas stays between [T_low] and [T_top], by
    the margin [mg], even if its working spaces were as small as [cl'], [el'] and as large as [ch'],
    [eh']; so do its exchangers *)
Definition settles_between (r : Run R) (cl ch el eh cl' ch' el' eh' T_low T_top V_hi v_hi rho rv q mg : R) : Prop :=
  let T := ru_temp r in
  let inside x := T_low <= x <= T_top in
  sane_exchangers r /\ (forall tau, between (V_comp r) cl ch 0 tau) /\ (forall tau, between (V_exp r) el eh 0 tau) /\
  settles r T_low V_hi v_hi rho rv /\ left_over r T_low V_hi v_hi rho rv <= q /\
  T_low + mg <= expanded cl' ch' (te_chx T) /\ T_low + mg <= expanded el' eh' (te_hhx T) /\
  compressed cl' ch' (te_chx T) + mg <= T_top /\ compressed el' eh' (te_hhx T) + mg <= T_top /\
  inside (te_chx T) /\ inside (te_hhx T) /\ inside (rt_cold (te_regen T)) /\ inside (rt_avg (te_regen T)) /\ inside (rt_hot (te_regen T)).
