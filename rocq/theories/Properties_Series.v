(** * C19-C24, C72: integration, averages and regenerator temperatures in exact arithmetic *)
From Coq Require Import ZArith NArith List Reals.
From Verif Require Import Num ModelTypes ModelWs ModelHx ModelStateEq ModelEngine ModelApi RNum
  SpecGas SpecSeries SpecQuad RSeries RQuad SpecPerf RPerf SpecHx RHx RCase2.
Import ListNotations.
Local Open Scope R_scope.

(** C19: trapezoidal integration *)
Theorem C19_trapezoid (x y : list R) : integrate x y = trapezoid (combine x y).
Proof. exact (integrate_trapezoid x y). Qed.
Print Assumptions C19_trapezoid.
Theorem C19_trapezoid_report (x y : list R) : perf_integrate x y = trapezoid (combine x y).
Proof. exact (integrate_trapezoid x y). Qed.
Print Assumptions C19_trapezoid_report.
Theorem C19_linear (I : Type) (a b : R) (f g : I -> R) (l : list I) (x : list R) :
  integrate x (map (fun i => a * f i + b * g i) l) = a * integrate x (map f l) + b * integrate x (map g l).
Proof. exact (integrate_linear a b f g l x). Qed.
Print Assumptions C19_linear.
Theorem C19_split (x1 x2 y1 y2 : list R) (p q : R) : length x1 = length y1 ->
  integrate (x1 ++ p :: x2) (y1 ++ q :: y2) = integrate (x1 ++ [p]) (y1 ++ [q]) + integrate (p :: x2) (q :: y2).
Proof. exact (integrate_split x1 p x2 y1 q y2). Qed.
Print Assumptions C19_split.
Theorem C19_affine_exact (a b x0 : R) (l : list R) :
  integrate (x0 :: l) (map (fun t => a * t + b) (x0 :: l)) =
  a * ((last l x0 * last l x0 - x0 * x0) / 2) + b * (last l x0 - x0).
Proof. exact (integrate_affine a b x0 l). Qed.
Print Assumptions C19_affine_exact.
Theorem C19_monotone (x y z : list R) :
  nondecreasing x -> Forall2 Rle y z -> integrate x y <= integrate x z.
Proof. exact (integrate_monotone x y z). Qed.
Print Assumptions C19_monotone.
Theorem C19_short (x y : list R) : (length x < 2)%nat \/ (length y < 2)%nat -> integrate x y = 0.
Proof. exact (integrate_short x y). Qed.
Print Assumptions C19_short.
Theorem C19_excess_ignored (x y : list R) :
  integrate (firstn (length y) x) (firstn (length x) y) = integrate x y.
Proof. exact (integrate_excess x y). Qed.
Print Assumptions C19_excess_ignored.
Example C19_case : integrate [0; 1; 3] [1; 3; 2] = 7.
Proof. exact trapezoid_case. Qed.

(** C20: pressure statistics *)
Theorem C20_extrema (v : Values R) (p : Pressure R) : Pressure_from_values v = Ret p ->
  greatest (pr_max p) (vs_P v) /\ least (pr_min p) (vs_P v) /\
  (exists rest, vs_P v = pr_t_zero p :: rest) /\
  exists t, last_unwrap (vs_time v) = Ret t /\ pr_avg p = average (vs_time v) (vs_P v) t.
Proof. exact (pressure_stats v p). Qed.
Print Assumptions C20_extrema.
Theorem C20_average (v : Values R) (p : Pressure R) (t : R) : Pressure_from_values v = Ret p ->
  grid_to (vs_time v) t -> length (vs_time v) = length (vs_P v) ->
  pr_min p <= pr_avg p <= pr_max p /\ pr_avg p = average (vs_time v) (vs_P v) t.
Proof. exact (pressure_avg_bounds v p t). Qed.
Print Assumptions C20_average.
Example C20_grid : grid_to (vs_time series_case) 2.
Proof. exact grid_case. Qed.
Example C20_case : Pressure_from_values series_case = Ret (mkPressure (9 / 4) 3 1 1).
Proof. exact pressure_case. Qed.

(** C21: mass flows *)
Theorem C21_mass_flows (v : Values R) (m : MassFlows R) : MassFlows_from_values v = Ret m ->
  exists t, last_unwrap (vs_time v) = Ret t /\
    mf_chx m = average (vs_time v) (interface_mean (vs_m_dot_ck v) (vs_m_dot_kr v)) t /\
    mf_regen m = average (vs_time v) (interface_mean (vs_m_dot_kr v) (vs_m_dot_rl v)) t /\
    mf_hhx m = average (vs_time v) (interface_mean (vs_m_dot_rl v) (vs_m_dot_le v)) t.
Proof. exact (mass_flows v m). Qed.
Print Assumptions C21_mass_flows.
Theorem C21_non_negative (v : Values R) (m : MassFlows R) (t : R) : MassFlows_from_values v = Ret m ->
  nondecreasing (vs_time v) -> last_unwrap (vs_time v) = Ret t -> 0 < t ->
  0 <= mf_chx m /\ 0 <= mf_regen m /\ 0 <= mf_hhx m.
Proof. exact (mass_flows_nonneg v m t). Qed.
Print Assumptions C21_non_negative.
Theorem C21_reversed (v : Values R) : MassFlows_from_values (reversed v) = MassFlows_from_values v.
Proof. exact (mass_flows_reversed v). Qed.
Print Assumptions C21_reversed.
Theorem C21_cancel (v : Values R) (l : list R) (t : R) : last_unwrap (vs_time v) = Ret t ->
  m_dot_avg v l (map Ropp l) = Ret 0.
Proof. exact (m_dot_cancel v l t). Qed.
Print Assumptions C21_cancel.
Example C21_case : MassFlows_from_values series_case = Ret (mkMassFlows (1 / 4) (1 / 2) (3 / 8)).
Proof. exact mass_case. Qed.

(** C22: heat flows of the state, and their agreement with the report *)
Theorem C22_heat_flows (v : Values R) (Tk Th : R) (res : ThermalResistance R) (h : HeatFlows R) :
  HeatFlows_from_values v Tk Th res = Ret h ->
  exists t, last_unwrap (vs_time v) = Ret t /\
    hf_chx h = average (vs_time v) (map (fun T => (T - Tk) / tr_comp res) (vs_T_c v)) t
               + average (vs_time v) (vs_Q_dot_k v) t /\
    hf_regen h = average (vs_time v) (vs_Q_dot_r v) t /\
    hf_hhx h = average (vs_time v) (map (fun T => (Th - T) / tr_exp res) (vs_T_e v)) t
               + average (vs_time v) (vs_Q_dot_l v) t.
Proof. exact (heat_flows v Tk Th res h). Qed.
Print Assumptions C22_heat_flows.
Theorem C22_report (e : Engine R) (a : Answers) (r : RunResults R) :
  answers e a -> RunResults_from e = Ret r ->
  let v := en_values e in let f := an_freq a in
  rrh_input (rr_heat_flow r) =
    per_second f (vs_time v) (length (vs_T_e v)) (wall_in e a)
    + per_second f (vs_time v) (length (vs_Q_dot_l v)) (smp (vs_Q_dot_l v)) + external_losses a /\
  rrh_rejection (rr_heat_flow r) =
    per_second f (vs_time v) (length (vs_T_c v)) (wall_out e a)
    + per_second f (vs_time v) (length (vs_Q_dot_k v)) (smp (vs_Q_dot_k v))
    + (rrp_ideal_indicated (rr_power r) - rrp_indicated (rr_power r))
    + space_friction a + external_losses a.
Proof. exact (heat_report e a r). Qed.
Print Assumptions C22_report.
Theorem C22_agreement (e : Engine R) (a : Answers) (r : RunResults R) (h : HeatFlows R) (t : R) :
  answers e a -> RunResults_from e = Ret r ->
  HeatFlows_from_values (en_values e) (te_chx (s_temp (en_state e))) (te_hhx (s_temp (en_state e)))
    (an_res a) = Ret h ->
  last_unwrap (vs_time (en_values e)) = Ret t -> an_freq a * t = 1 ->
  rrh_input (rr_heat_flow r) = hf_hhx h + external_losses a /\
  rrh_rejection (rr_heat_flow r) =
    hf_chx h + (rrp_ideal_indicated (rr_power r) - rrp_indicated (rr_power r))
    + space_friction a + external_losses a.
Proof. exact (heat_agreement e a r h t). Qed.
Print Assumptions C22_agreement.
Example C22_case : exists h,
  HeatFlows_from_values series_case 290 820 (mkTR 2 4) = Ret h /\ hf_chx h = 113 / 8.
Proof. exact heat_case. Qed.

(** C23: regenerator temperatures *)
Theorem C23_regen_temperatures (imbalance T_chx T_hhx approach : R) :
  let T := regen_temp imbalance T_chx T_hhx approach in
  Rmin (cold_difference T T_chx) (hot_difference T T_hhx) = approach /\
  hot_difference T T_hhx - cold_difference T T_chx = imbalance /\
  (0 <= imbalance -> rt_cold T = T_chx + approach /\ rt_hot T = T_hhx - (approach + imbalance)) /\
  (imbalance < 0 -> rt_cold T = T_chx + (approach - imbalance) /\ rt_hot T = T_hhx - approach).
Proof. exact (regen_differences imbalance T_chx T_hhx approach). Qed.
Print Assumptions C23_regen_temperatures.

(** C24: the effective temperature is a log-mean *)
Theorem C24_log_mean (imbalance T_chx T_hhx approach : R) :
  let T := regen_temp imbalance T_chx T_hhx approach in
  let a := cold_end T T_chx in let b := hot_end T T_hhx in
  0 < a -> 0 < b -> a <> b ->
  rt_avg T = (b - a) / ln (b / a) /\
  Rmin a b < sqrt (a * b) < rt_avg T /\ rt_avg T < (a + b) / 2 < Rmax a b.
Proof. exact (regen_log_mean imbalance T_chx T_hhx approach). Qed.
Print Assumptions C24_log_mean.
Example C24_case :
  let T := regen_temp 5 310 890 10 in cold_end T 310 = 315 /\ hot_end T 890 = 890 - 15 / 2.
Proof. exact log_mean_case. Qed.

(** C72: accuracy of the trapezoidal averages *)
Theorem C72_integral (F f : R -> R) (M a : R) (rest : list R) : nondecreasing (a :: rest) ->
  antiderivative F f a (last rest a) -> bends_within M f a (last rest a) ->
  Rabs (integrate (a :: rest) (map f (a :: rest)) - (F (last rest a) - F a))
    <= over_steps (fun h => M * h ^ 3 / 12) (a :: rest).
Proof. exact (quad_smooth F f M a rest). Qed.
Print Assumptions C72_integral.
Theorem C72_integral_kinks (F f : R -> R) (K a : R) (rest : list R) : nondecreasing (a :: rest) ->
  antiderivative F f a (last rest a) -> changes_within K f a (last rest a) ->
  Rabs (integrate (a :: rest) (map f (a :: rest)) - (F (last rest a) - F a))
    <= over_steps (fun h => K * h ^ 2 / 4) (a :: rest).
Proof. exact (quad_lipschitz F f K a rest). Qed.
Print Assumptions C72_integral_kinks.
Theorem C72_pressure (v : Values R) (p : Pressure R) (time : list R) (q Q : R -> R) (t h M : R) :
  Pressure_from_values v = Ret p -> vs_time v = time -> vs_P v = map q time ->
  grid_to time t -> steps_within h time -> antiderivative Q q 0 t -> bends_within M q 0 t ->
  Rabs (pr_avg p - (Q t - Q 0) / t) <= M * h ^ 2 / 12.
Proof. exact (pressure_accuracy v p time q Q t h M). Qed.
Print Assumptions C72_pressure.
Theorem C72_regen_heat (v : Values R) (Tk Th : R) (res : ThermalResistance R) (hf : HeatFlows R) (time : list R)
    (q Q : R -> R) (t h M : R) :
  HeatFlows_from_values v Tk Th res = Ret hf -> vs_time v = time -> vs_Q_dot_r v = map q time ->
  grid_to time t -> steps_within h time -> antiderivative Q q 0 t -> bends_within M q 0 t ->
  Rabs (hf_regen hf - (Q t - Q 0) / t) <= M * h ^ 2 / 12.
Proof. exact (regen_accuracy v Tk Th res hf time q Q t h M). Qed.
Print Assumptions C72_regen_heat.
Theorem C72_hhx_heat (v : Values R) (Tk Th : R) (res : ThermalResistance R) (hf : HeatFlows R) (time : list R)
    (T q Q : R -> R) (t h M : R) :
  HeatFlows_from_values v Tk Th res = Ret hf -> vs_time v = time ->
  vs_T_e v = map T time -> vs_Q_dot_l v = map q time ->
  grid_to time t -> steps_within h time ->
  antiderivative Q (fun u => (Th - T u) / tr_exp res + q u) 0 t ->
  bends_within M (fun u => (Th - T u) / tr_exp res + q u) 0 t ->
  Rabs (hf_hhx hf - (Q t - Q 0) / t) <= M * h ^ 2 / 12.
Proof. exact (hhx_heat_accuracy v Tk Th res hf time T q Q t h M). Qed.
Print Assumptions C72_hhx_heat.
Theorem C72_chx_flow (v : Values R) (m : MassFlows R) (time : list R) (l r Q : R -> R) (t h K : R) :
  MassFlows_from_values v = Ret m -> vs_time v = time ->
  vs_m_dot_ck v = map l time -> vs_m_dot_kr v = map r time ->
  grid_to time t -> steps_within h time ->
  antiderivative Q (fun u => Rabs (l u + r u) / 2) 0 t ->
  changes_within K l 0 t -> changes_within K r 0 t ->
  Rabs (mf_chx m - (Q t - Q 0) / t) <= K * h / 4.
Proof. exact (chx_flow_accuracy v m time l r Q t h K). Qed.
Print Assumptions C72_chx_flow.
(** the bound is attained *)
Example C72_case : grid_to [0; 1; 2] 2 /\ steps_within 1 [0; 1; 2] /\
  antiderivative (fun u => u * u * u / 3) (fun u => u * u) 0 2 /\ bends_within 2 (fun u => u * u) 0 2 /\
  Rabs (average [0; 1; 2] (map (fun u => u * u) [0; 1; 2]) 2 - (2 * 2 * 2 / 3 - 0 * 0 * 0 / 3) / 2) = 2 * 1 ^ 2 / 12.
Proof. exact square_bends. Qed.
