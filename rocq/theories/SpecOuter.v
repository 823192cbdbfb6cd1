(** * Specification in exact arithmetic: states that an engine would keep *)
From Coq Require Import ZArith NArith List Reals.
From Verif Require Import Num ModelTypes ModelWs ModelHx ModelStateEq ModelEngine RNum Spec SpecR SpecTraj SpecUnique SpecSteady SpecContract
  SpecReport SpecSample SpecMeans.
Import ListNotations.
Local Open Scope R_scope.

(** the temperatures of the exchangers differ by at most [w] *)
Definition temperatures_within (w : R) (T T' : Temperatures R) : Prop :=
  Rabs (te_chx T - te_chx T') <= w /\ Rabs (te_hhx T - te_hhx T') <= w /\
  Rabs (rt_cold (te_regen T) - rt_cold (te_regen T')) <= w /\ Rabs (rt_avg (te_regen T) - rt_avg (te_regen T')) <= w /\
  Rabs (rt_hot (te_regen T) - rt_hot (te_regen T')) <= w.
(** [points] times from 0 to [period], evenly spaced *)
Definition even_times (period : R) (points : N) : list R :=
  map (fun i => INR i * (period / INR (N.to_nat points - 1))) (seq 0 (N.to_nat points)).
(** samples of the exact steady cycle at the temperatures of [s], taken at the times [ts], lead back to
    these temperatures.  The gas is never colder than [T_low] *)
Definition self_consistent (D : Decomp R) (comps : Components R) (T_low : R) (ts : list R) (s : State R) : Prop :=
  exists r c vs v P m Q, Run_new comps s = Ret r /\ steady_cycle D r c /\ warm_trajectory D r T_low c /\ cd_P (c 0) = pr_t_zero (s_pres s) /\
    map (@sv_time R) vs = ts /\
    Forall (fun v => sv_conditions v = c (sv_time v) /\ solved_at D r (sv_time v) (sv_conditions v) (sv_solution v)) vs /\
    series_of vs v /\ recomputed comps (s_fluid s) (s_pres s) (s_temp s) (s_regen_imbalance s) v P m Q (s_temp s).
(** the exact steady cycle at the temperatures of [s], averaged exactly over time, leads back to these
    temperatures *)
Definition steady_state (D : Decomp R) (comps : Components R) (T_low : R) (s : State R) : Prop :=
  exists r c sol res M a_k a_r a_l, Run_new comps s = Ret r /\ steady_cycle D r c /\ warm_trajectory D r T_low c /\ cd_P (c 0) = pr_t_zero (s_pres s) /\
    (forall t, 0 <= t <= ru_period r -> solved_at D r t (c t) (sol t)) /\
    ws_thermal_resistance (co_ws comps) (mkWsState (s_pres s)) = Ret res /\ means (s_temp s) res c sol (ru_period r) M /\
    let T := s_temp s in
    ex_approach (co_chx comps) (mkChxState (hx_state (s_fluid s) (te_chx T) (mn_P M) (mn_flow_k M) (mn_heat_k M)) (te_sink T)) = Ret a_k /\
    ex_approach (co_regen comps)
      (mkRegenState (hx_state (s_fluid s) (rt_avg (te_regen T)) (mn_P M) (mn_flow_r M) (mn_heat_r M)) (te_chx T) (te_hhx T)) = Ret a_r /\
    ex_approach (co_hhx comps) (mkHhxState (hx_state (s_fluid s) (te_hhx T) (mn_P M) (mn_flow_l M) (mn_heat_l M)) (te_source T)) = Ret a_l /\
    temperatures_follow (te_sink T) (te_source T) a_k a_r a_l (s_regen_imbalance s) T.
(** the components of the engine answer [a] at the temperatures of [s], and the integrals over the exact
    steady cycle are [X] *)
Definition steady_totals (D : Decomp R) (comps : Components R) (T_low : R) (s : State R) (a : Replies R) (X : Totals) : Prop :=
  exists r c sol, Run_new comps s = Ret r /\ steady_cycle D r c /\ warm_trajectory D r T_low c /\ cd_P (c 0) = pr_t_zero (s_pres s) /\
    (forall t, 0 <= t <= ru_period r -> solved_at D r t (c t) (sol t)) /\
    (forall v, replies (mkEngine comps s v) a) /\ totals (s_fluid s) (s_temp s) a c sol (ru_period r) X.
