(** * Specification in exact arithmetic: the performance report *)
From Coq Require Import ZArith NArith List Reals.
From Verif Require Import Num ModelTypes ModelWs ModelHx ModelStateEq ModelEngine ModelApi RNum
  Spec SpecR SpecSeries.
Import ListNotations.
Local Open Scope R_scope.

(** What the components of an engine say about its final state *)
Record Answers := mkAnswers {
  an_freq : R; an_vols : R -> Volume R * Volume R; an_par : Parasitics R;
  an_res : ThermalResistance R;
  an_R_chx : R; an_R_regen : R; an_R_hhx : R;
  an_chx : ParasiticPower R; an_regen : ParasiticPower R; an_hhx : ParasiticPower R }.
Definition answers (e : Engine R) (a : Answers) : Prop :=
  let c := en_components e in let s := en_state e in
  let P := pr_avg (s_pres s) in let T := s_temp s in let m := s_mass_flow s in let q := s_heat_flow s in
  let w := mkWsState (s_pres s) in
  let k := mkChxState (hx_state (s_fluid s) (te_chx T) P (mf_chx m) (hf_chx q)) (te_sink T) in
  let r := mkRegenState (hx_state (s_fluid s) (rt_avg (te_regen T)) P (mf_regen m) (hf_regen q))
             (te_chx T) (te_hhx T) in
  let l := mkHhxState (hx_state (s_fluid s) (te_hhx T) P (mf_hhx m) (hf_hhx q)) (te_source T) in
  ws_frequency (co_ws c) w = Ret (an_freq a) /\
  ws_volumes (co_ws c) w = Ret (an_vols a) /\
  ws_parasitics (co_ws c) w = Ret (an_par a) /\
  ws_thermal_resistance (co_ws c) w = Ret (an_res a) /\
  ex_hydraulic_resistance (co_chx c) k = Ret (an_R_chx a) /\
  ex_hydraulic_resistance (co_regen c) r = Ret (an_R_regen a) /\
  ex_hydraulic_resistance (co_hhx c) l = Ret (an_R_hhx a) /\
  ex_parasitics (co_chx c) k = Ret (an_chx a) /\
  ex_parasitics (co_regen c) r = Ret (an_regen a) /\
  ex_parasitics (co_hhx c) l = Ret (an_hhx a).

(** sample [k] of a series *)
Definition smp (l : list R) (k : nat) : R := nth k l 0.

(** frequency times the cycle integral of a quantity given at [n] samples *)
Definition per_second (f : R) (time : list R) (n : nat) (g : nat -> R) : R :=
  f * trapezoid (combine time (map g (seq 0 n))).

(** pressure drop of all exchangers at sample [k]: hydraulic resistance times
    mean volumetric flow *)
Definition total_drop (e : Engine R) (a : Answers) (k : nat) : R :=
  let v := en_values e in let s := en_state e in
  let rho T := fl_dens (s_fluid s) T (smp (vs_P v) k) in
  an_R_chx a * ((smp (vs_m_dot_ck v) k + smp (vs_m_dot_kr v) k) / 2 / rho (te_chx (s_temp s)))
  + an_R_regen a * ((smp (vs_m_dot_kr v) k + smp (vs_m_dot_rl v) k) / 2 / rho (rt_avg (te_regen (s_temp s))))
  + an_R_hhx a * ((smp (vs_m_dot_rl v) k + smp (vs_m_dot_le v) k) / 2 / rho (te_hhx (s_temp s))).

(** work done at sample [k] with pressures [P_c] and [P_e] in the two spaces *)
Definition work_rate (a : Answers) (time P_c P_e : list R) (k : nat) : R :=
  let vols := an_vols a (smp time k) in
  smp P_c k * v_deriv (fst vols) + smp P_e k * v_deriv (snd vols).

(** heat from the compression space to its wall, and from the wall to the
    expansion space *)
Definition wall_out (e : Engine R) (a : Answers) (k : nat) : R :=
  (smp (vs_T_c (en_values e)) k - te_chx (s_temp (en_state e))) / tr_comp (an_res a).
Definition wall_in (e : Engine R) (a : Answers) (k : nat) : R :=
  (te_hhx (s_temp (en_state e)) - smp (vs_T_e (en_values e)) k) / tr_exp (an_res a).

Definition external_losses (a : Answers) : R :=
  pp_thermal (an_hhx a) + pp_thermal (an_regen a) + pp_thermal (par_exp (an_par a)).
Definition space_friction (a : Answers) : R :=
  pp_mechanical (par_comp (an_par a)) + pp_mechanical (par_exp (an_par a)).

(** the values of the engine are solutions of the state equations for the cycle
    of its own state *)
Definition solved_engine (D : Decomp R) (e : Engine R) (c : Cycle R) (vs : list (SeValues R)) : Prop :=
  let s := en_state e in
  is_cycle_of (en_components e) (s_fluid s) (s_pres s) (s_temp s) c /\
  series_of vs (en_values e) /\
  Forall (fun v => upwind_solution D (cy_calculate_inputs c (sv_time v) (sv_conditions v)) (sv_solution v)) vs.

(** rate of change of the internal energy of the gas at a sample *)
Definition energy_rate (c : Cycle R) (v : SeValues R) : R :=
  total_energy_rate (cy_calculate_inputs c (sv_time v) (sv_conditions v)) (sv_solution v).
(** frequency times the cycle integral of a quantity of the state values *)
Definition per_second_of (f : R) (vs : list (SeValues R)) (g : SeValues R -> R) : R :=
  f * trapezoid (map (fun v => (sv_time v, g v)) vs).
