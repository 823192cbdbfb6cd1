(** * Specification in exact arithmetic: means of flows and heats over a cycle *)
From Coq Require Import ZArith NArith List Reals.
From Verif Require Import Num ModelTypes ModelWs ModelHx ModelStateEq ModelEngine RNum Spec SpecSample.
Local Open Scope R_scope.

(** mean pressure, mean magnitudes of the flows through the exchangers, mean heats *)
Record Means := mkMeans { mn_P : R; mn_flow_k : R; mn_flow_r : R; mn_flow_l : R; mn_heat_k : R; mn_heat_r : R; mn_heat_l : R }.

(** [M] are the means over the time [tau] along the trajectory [c] with the solutions [s], for gas
    mean temperatures [T] and thermal resistances [res] of the walls *)
Section Means.
  Context (T : Temperatures R) (res : ThermalResistance R) (c : R -> Conditions R) (s : R -> Solution R).
  Definition flow_k (t : R) : R := Rabs (so_m_dot_ck (s t) + so_m_dot_kr (s t)) / 2.
  Definition flow_r (t : R) : R := Rabs (so_m_dot_kr (s t) + so_m_dot_rl (s t)) / 2.
  Definition flow_l (t : R) : R := Rabs (so_m_dot_rl (s t) + so_m_dot_le (s t)) / 2.
  Definition heat_k (t : R) : R := (cd_T_c (c t) - te_chx T) / tr_comp res + so_Q_dot_k (s t).
  Definition heat_l (t : R) : R := (te_hhx T - cd_T_e (c t)) / tr_exp res + so_Q_dot_l (s t).
  Definition means (tau : R) (M : Means) : Prop :=
    integral (fun t => cd_P (c t)) 0 tau (tau * mn_P M) /\
    integral flow_k 0 tau (tau * mn_flow_k M) /\
    integral flow_r 0 tau (tau * mn_flow_r M) /\
    integral flow_l 0 tau (tau * mn_flow_l M) /\
    integral heat_k 0 tau (tau * mn_heat_k M) /\
    integral (fun t => so_Q_dot_r (s t)) 0 tau (tau * mn_heat_r M) /\
    integral heat_l 0 tau (tau * mn_heat_l M).
End Means.

(** the averages [P], [m], [q] are within [x] of the means [M] *)
Definition averages_within (x : R) (M : Means) (P : R) (m : MassFlows R) (q : HeatFlows R) : Prop :=
  Rabs (P - mn_P M) <= x /\
  Rabs (mf_chx m - mn_flow_k M) <= x /\ Rabs (mf_regen m - mn_flow_r M) <= x /\ Rabs (mf_hhx m - mn_flow_l M) <= x /\
  Rabs (hf_chx q - mn_heat_k M) <= x /\ Rabs (hf_regen q - mn_heat_r M) <= x /\ Rabs (hf_hhx q - mn_heat_l M) <= x.

(** ** Exchangers that are consistent with the cycle *)

(** the approach [ap], as a function of mean pressure, flow and heat, is [a] at [P], [m], [Q] and is
    continuous there *)
Definition steady_approach (ap : R -> R -> R -> outcome R) (P m Q a : R) : Prop :=
  ap P m Q = Ret a /\ forall eps, 0 < eps -> exists d, 0 < d /\ forall P' m' Q' a',
    Rabs (P' - P) <= d -> Rabs (m' - m) <= d -> Rabs (Q' - Q) <= d -> ap P' m' Q' = Ret a' -> Rabs (a' - a) <= eps.
(** the approaches of the three exchangers at the means [M] *)
Definition steady_approaches (comps : Components R) (s : State R) (M : Means) (a_k a_r a_l : R) : Prop :=
  let T := s_temp s in
  steady_approach (fun P m Q => ex_approach (co_chx comps)
    (mkChxState (hx_state (s_fluid s) (te_chx T) P m Q) (te_sink T))) (mn_P M) (mn_flow_k M) (mn_heat_k M) a_k /\
  steady_approach (fun P m Q => ex_approach (co_regen comps)
    (mkRegenState (hx_state (s_fluid s) (rt_avg (te_regen T)) P m Q) (te_chx T) (te_hhx T))) (mn_P M) (mn_flow_r M) (mn_heat_r M) a_r /\
  steady_approach (fun P m Q => ex_approach (co_hhx comps)
    (mkHhxState (hx_state (s_fluid s) (te_hhx T) P m Q) (te_source T))) (mn_P M) (mn_flow_l M) (mn_heat_l M) a_l.
(** the temperatures [T] are within [x] of those that follow from the approaches *)
Definition consistent_within (x : R) (T : Temperatures R) (imbalance a_k a_r a_l : R) : Prop :=
  let cold := if Rle_dec 0 imbalance then a_r else a_r - imbalance in
  let hot := if Rle_dec 0 imbalance then a_r + imbalance else a_r in
  Rabs (te_chx T - (te_sink T + a_k)) <= x /\ Rabs (te_hhx T - (te_source T - a_l)) <= x /\
  Rabs (rt_cold (te_regen T) - (te_sink T + a_k + cold)) <= x /\
  Rabs (rt_hot (te_regen T) - (te_source T - a_l - hot)) <= x.

(** ** Exchangers of fixed conductance *)

(** effectiveness [1 - exp (- NTU)] of an exchanger with gas of heat capacity rate [C] and conductance
    [UA]: approach per unit of heat *)
Definition per_heat (C UA : R) : R := / C * (/ (1 - exp (- (UA / C))) - 1).
(** effectiveness [(NTU / 2) / (1 + NTU / 2)] of a regenerator: approach per unit of temperature
    difference *)
Definition per_span (C UA : R) : R := 1 - UA / C / 2 / (1 + UA / C / 2).
(** the exchangers conduct, with conductances [u_k], [u_r], [u_l] *)
Definition conducting (comps : Components R) (u_k u_r u_l : R) : Prop := exists f_k f_r f_l,
  co_chx comps = chx_FixedConductance f_k /\ co_regen comps = regen_FixedConductance f_r /\ co_hhx comps = hhx_FixedConductance f_l /\
  fc_UA f_k = u_k /\ fc_UA f_r = u_r /\ fc_UA f_l = u_l /\ 0 < u_k /\ 0 < u_r /\ 0 < u_l.
(** the exchangers keep the approaches [a_k], [a_r], [a_l] *)
Definition keeping (comps : Components R) (a_k a_r a_l : R) : Prop := exists f_k f_r f_l,
  co_chx comps = chx_FixedApproach f_k /\ co_regen comps = regen_FixedApproach f_r /\ co_hhx comps = hhx_FixedApproach f_l /\
  fa_approach f_k = a_k /\ fa_approach f_r = a_r /\ fa_approach f_l = a_l.
