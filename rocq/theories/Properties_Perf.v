(** * C32, C33, C35-C37: heat exchangers and the performance report in exact arithmetic *)
From Coq Require Import ZArith NArith List Reals.
From Verif Require Import Num ModelTypes ModelWs ModelHx ModelStateEq ModelEngine ModelApi RNum
  Spec SpecR Fixture RGauss RCase SpecSeries RSeries SpecPerf RPerf SpecHx RHx RCase2.
Import ListNotations.
Local Open Scope R_scope.

(** C32: effectiveness-NTU relation of the fixed-conductance chx and hhx *)
Theorem C32_effectiveness (f : FixedConductance R) (x : HeatExchanger R) (T UA : R) :
  0 < capacity x -> 0 < UA ->
  let A := chx_fc_approach (with_UA f UA) (mkChxState x T) in
  let Q := hx_Q_dot x in let C := capacity x in
  Q = effectiveness UA C * C * (A + Q / C) /\ A = Q / C / (exp (UA / C) - 1) /\
  (0 < Q -> 0 < A) /\ (Q = 0 -> A = 0) /\ (Q < 0 -> A < 0) /\ Rabs A <= Rabs Q / UA.
Proof. exact (chx_ntu f x T UA). Qed.
Print Assumptions C32_effectiveness.
Theorem C32_decreasing (f : FixedConductance R) (x : HeatExchanger R) (T U1 U2 : R) :
  0 < capacity x -> 0 < hx_Q_dot x -> 0 < U1 -> U1 < U2 ->
  chx_fc_approach (with_UA f U2) (mkChxState x T) < chx_fc_approach (with_UA f U1) (mkChxState x T).
Proof. exact (chx_decreasing f x T U1 U2). Qed.
Print Assumptions C32_decreasing.
Theorem C32_vanishes (f : FixedConductance R) (x : HeatExchanger R) (T eps : R) :
  0 < capacity x -> 0 < eps ->
  exists U0, 0 < U0 /\ forall UA, U0 < UA -> Rabs (chx_fc_approach (with_UA f UA) (mkChxState x T)) < eps.
Proof. exact (chx_vanishes f x T eps). Qed.
Print Assumptions C32_vanishes.
Theorem C32_same_function (f : FixedConductance R) (x : HeatExchanger R) (UA T T' : R) :
  hhx_fc_approach (with_UA f UA) (mkHhxState x T') = chx_fc_approach (with_UA f UA) (mkChxState x T).
Proof. exact (same_function f x UA T T'). Qed.
Print Assumptions C32_same_function.

(** C33: the fixed-conductance regenerator *)
Theorem C33_regenerator (f : FixedConductance R) (x : HeatExchanger R) (T_chx T_hhx UA : R) :
  0 < capacity x -> 0 < UA ->
  let A := regen_fc_approach (with_UA f UA) (mkRegenState x T_chx T_hhx) in
  A = (T_hhx - T_chx) / (1 + UA / (2 * capacity x)) /\ (T_chx < T_hhx -> 0 < A < T_hhx - T_chx).
Proof. exact (regen_fc f x T_chx T_hhx UA). Qed.
Print Assumptions C33_regenerator.
Theorem C33_decreasing (f : FixedConductance R) (x : HeatExchanger R) (T_chx T_hhx U1 U2 : R) :
  0 < capacity x -> T_chx < T_hhx -> 0 < U1 -> U1 < U2 ->
  regen_fc_approach (with_UA f U2) (mkRegenState x T_chx T_hhx)
  < regen_fc_approach (with_UA f U1) (mkRegenState x T_chx T_hhx).
Proof. exact (regen_fc_decreasing f x T_chx T_hhx U1 U2). Qed.
Print Assumptions C33_decreasing.
Example C32_C33_case : 0 < capacity exchanger_case /\ 0 < hx_Q_dot exchanger_case.
Proof. exact capacity_case. Qed.

(** Whatever is reported, the components have answered *)
Theorem C36_answered (e : Engine R) (r : RunResults R) :
  RunResults_from e = Ret r -> exists a, answers e a.
Proof. exact (answered_results e r). Qed.
Print Assumptions C36_answered.
Example answers_case (vs : list (SeValues R)) :
  exists a, answers (case_engine vs) a /\ an_freq a = 60 /\ an_R_chx a = 1 /\ tr_comp (an_res a) = 1.
Proof. exact (case_answers vs). Qed.

(** C35: pressure drops *)
Theorem C35_split (e : Engine R) (a : Answers) (r : RunResults R) :
  answers e a -> RunResults_from e = Ret r ->
  let P := vs_P (en_values e) in
  length (rrv_P_c (rr_values r)) = length P /\ length (rrv_P_e (rr_values r)) = length P /\
  forall k, (k < length P)%nat ->
    (smp (rrv_P_c (rr_values r)) k + smp (rrv_P_e (rr_values r)) k) / 2 = smp P k /\
    smp (rrv_P_c (rr_values r)) k - smp (rrv_P_e (rr_values r)) k = total_drop e a k.
Proof. exact (pressures_split e a r). Qed.
Print Assumptions C35_split.
Theorem C35_no_resistance (e : Engine R) (a : Answers) (r : RunResults R) :
  answers e a -> RunResults_from e = Ret r ->
  an_R_chx a = 0 -> an_R_regen a = 0 -> an_R_hhx a = 0 ->
  rrv_P_c (rr_values r) = vs_P (en_values e) /\ rrv_P_e (rr_values r) = vs_P (en_values e) /\
  rrp_indicated (rr_power r) = rrp_ideal_indicated (rr_power r).
Proof. exact (pressures_equal e a r). Qed.
Print Assumptions C35_no_resistance.

(** C36: the power chain *)
Theorem C36_power_chain (e : Engine R) (a : Answers) (r : RunResults R) :
  answers e a -> RunResults_from e = Ret r ->
  let v := en_values e in let n := length (vs_P v) in
  let w := rr_power r in
  rrp_indicated w = per_second (an_freq a) (vs_time v) n
    (work_rate a (vs_time v) (rrv_P_c (rr_values r)) (rrv_P_e (rr_values r))) /\
  rrp_ideal_indicated w = per_second (an_freq a) (vs_time v) n (work_rate a (vs_time v) (vs_P v) (vs_P v)) /\
  rrp_indicated w - rrp_shaft w = space_friction a /\
  rrp_shaft w - rrp_net w = pp_mechanical (an_chx a) + pp_mechanical (an_hhx a) /\
  (an_freq a <> 0 -> rr_shaft_torque r * (2 * PI * an_freq a) = rrp_shaft w) /\
  (rrh_input (rr_heat_flow r) <> 0 ->
   rre_mechanical (rr_efficiency r) * rrh_input (rr_heat_flow r) = rrp_net w).
Proof. exact (power_chain e a r). Qed.
Print Assumptions C36_power_chain.

(** C37: the first law.  Every engine returned by a run is solved. *)
Theorem C37_first_law (D : Decomp R) (e : Engine R) (c : Cycle R) (vs : list (SeValues R))
    (a : Answers) (r : RunResults R) :
  sound D -> solved_engine D e c vs -> answers e a -> RunResults_from e = Ret r ->
  fl_enth (s_fluid (en_state e)) (te_sink (s_temp (en_state e))) (pr_avg (s_pres (en_state e)))
    + fl_enth (s_fluid (en_state e)) (te_source (s_temp (en_state e))) (pr_avg (s_pres (en_state e))) <> 0 ->
  let T := s_temp (en_state e) in
  let Q_par := pp_thermal (par_comp (an_par a)) + pp_thermal (par_exp (an_par a)) in
  rrh_input (rr_heat_flow r) - rrh_rejection (rr_heat_flow r) - rrp_shaft (rr_power r) =
    per_second_of (an_freq a) vs (fun v => energy_rate c v + so_Q_dot_r (sv_solution v) + Q_par)
    + per_second_of (an_freq a) vs (fun v => (te_hhx T - cd_T_e (sv_conditions v)) / tr_exp (an_res a))
    - per_second_of (an_freq a) vs (fun v => (cd_T_c (sv_conditions v) - te_chx T) / tr_comp (an_res a)).
Proof. exact (first_law D e c vs a r). Qed.
Print Assumptions C37_first_law.
Theorem C37_no_wall_heat (D : Decomp R) (e : Engine R) (c : Cycle R) (vs : list (SeValues R))
    (a : Answers) (r : RunResults R) :
  sound D -> solved_engine D e c vs -> answers e a -> RunResults_from e = Ret r ->
  fl_enth (s_fluid (en_state e)) (te_sink (s_temp (en_state e))) (pr_avg (s_pres (en_state e)))
    + fl_enth (s_fluid (en_state e)) (te_source (s_temp (en_state e))) (pr_avg (s_pres (en_state e))) <> 0 ->
  pp_thermal (par_comp (an_par a)) = 0 -> pp_thermal (par_exp (an_par a)) = 0 ->
  (forall v, In v vs -> (te_hhx (s_temp (en_state e)) - cd_T_e (sv_conditions v)) / tr_exp (an_res a) = 0 /\
                        (cd_T_c (sv_conditions v) - te_chx (s_temp (en_state e))) / tr_comp (an_res a) = 0) ->
  rrh_input (rr_heat_flow r) - rrh_rejection (rr_heat_flow r) - rrp_shaft (rr_power r) =
    per_second_of (an_freq a) vs (energy_rate c)
    + per_second_of (an_freq a) vs (fun v => so_Q_dot_r (sv_solution v)).
Proof. exact (first_law_adiabatic D e c vs a r). Qed.
Print Assumptions C37_no_wall_heat.
Theorem C37_runs_are_solved (E : Env R) (D : Decomp R) (comps : Components R) (fl : Fluid R)
    (inputs : RunInputs R) (settings : RunSettings R) (e : Engine R) :
  Engine_run E D comps fl inputs settings = Ret (Ok e) -> exists c vs, solved_engine D e c vs.
Proof. exact (run_solved E D comps fl inputs settings e). Qed.
Print Assumptions C37_runs_are_solved.
Example C37_case : exists vs,
  length vs = 3%nat /\ solved_engine gauss (case_engine vs) (Run_Cycle case_run) vs /\
  (exists r, RunResults_from (case_engine vs) = Ret r) /\
  fl_enth (s_fluid case_state) (te_sink (s_temp case_state)) (pr_avg (s_pres case_state))
  + fl_enth (s_fluid case_state) (te_source (s_temp case_state)) (pr_avg (s_pres case_state)) <> 0.
Proof. exact case_solved. Qed.
