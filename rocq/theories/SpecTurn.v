(** * Specification in exact arithmetic: an engine turned end for end *)
From Coq Require Import ZArith NArith List Reals.
From Verif Require Import Num ModelTypes ModelWs ModelHx ModelStateEq ModelEngine ModelApi RNum SpecR SpecGas SpecKin SpecTraj
  SpecLaws SpecReport SpecSimilar.
Import ListNotations.
Local Open Scope R_scope.

(** the two volumes exchanged, as they are [t0] later *)
Definition turned_volumes (t0 : R) (vol : R -> Volume R * Volume R) (t : R) : Volume R * Volume R :=
  (snd (vol (t + t0)), fst (vol (t + t0))).
Definition turned_parasitics (x : Parasitics R) : Parasitics R := mkPar (par_exp x) (par_comp x).
(** hot end and cold end exchanged, the clock [t0] ahead; [pr] are the pressures of the other engine *)
Definition turned_run (t0 : R) (pr : Pressure R) (r : Run R) : Run R :=
  mkRun (ru_enth_norm r) (ru_fluid r) (ru_period r) pr (mirror_temps (ru_temp r))
    (ru_vol_hhx r) (ru_vol_chx r) (ru_vol_regen r) (turned_parasitics (ru_ws_parasitics r))
    (turned_volumes t0 (ru_ws_vol_fn r)).
Definition turned_trajectory (t0 : R) (c : R -> Conditions R) (t : R) : Conditions R := mirror_conditions (c (t + t0)).

(** ** Components and states *)
(** the sinusoidal drive with its pistons exchanged: what led now follows *)
Definition turned_sin (d : SinusoidalDrive R) : SinusoidalDrive R :=
  mkSin (sd_frequency d) (- sd_phase_angle d) (sd_exp_geometry d) (sd_comp_geometry d)
    (mkTR (tr_exp (sd_thermal_resistance d)) (tr_comp (sd_thermal_resistance d))) (turned_parasitics (sd_parasitics d)).
(** so much later, in revolutions: whole turns less the phase *)
Definition turned_by (d : SinusoidalDrive R) (t0 : R) : Prop :=
  exists k : Z, t0 * sd_frequency d = IZR k - sd_phase_angle d / 360.
(** an exchanger whose gas is colder where it was warmer than its surroundings *)
Definition turned_exchanger (f : FixedApproach R) : FixedApproach R :=
  mkFA (fa_R_hyd f) (fa_volume f) (- fa_approach f) (fa_parasitics f).
Definition turned_approach (a : Approach R) : Approach R := mkApproach (- ap_hhx a) (- ap_regen a) (- ap_chx a).
Definition turned_engine (d : SinusoidalDrive R) (a b c : FixedApproach R) : Components R :=
  fixed_engine (SinusoidalDrive_ws (turned_sin d)) (turned_exchanger c) (turned_exchanger b) (turned_exchanger a).
Definition turned_state (s s' : State R) : Prop := s_temp s' = mirror_temps (s_temp s) /\ s_fluid s' = s_fluid s.

(** ** Reports *)
Definition turned_replies (t0 : R) (a : Replies R) : Replies R :=
  mkReplies (rp_freq a) (turned_volumes t0 (rp_vols a)) (turned_parasitics (rp_par a))
    (mkTR (tr_exp (rp_res a)) (tr_comp (rp_res a))) (rp_R_hhx a) (rp_R_regen a) (rp_R_chx a)
    (rp_hhx a) (rp_regen a) (rp_chx a).
Definition turned_sample (t0 : R) (x : SeValues R) : SeValues R :=
  mkSeValues (sv_time x - t0) (mirror_conditions (sv_conditions x)) (mirror_solution (sv_solution x)).
(** heat losses that the report adds to what the exchangers transfer: those of the hot side *)
Definition hot_losses (a : Replies R) : R :=
  pp_thermal (rp_hhx a) + pp_thermal (rp_regen a) + pp_thermal (par_exp (rp_par a)).
(** work lost to friction of the gas and of the pistons *)
Definition dissipated (a : Replies R) (r : RunResults R) : R :=
  rrp_ideal_indicated (rr_power r) - rrp_indicated (rr_power r)
  + (pp_mechanical (par_comp (rp_par a)) + pp_mechanical (par_exp (rp_par a))).
(** what the gas takes up at the hot side and gives off at the cold side *)
Definition taken_up (a : Replies R) (r : RunResults R) : R := rrh_input (rr_heat_flow r) - hot_losses a.
Definition given_off (a : Replies R) (r : RunResults R) : R :=
  rrh_rejection (rr_heat_flow r) - hot_losses a - dissipated a r.
(** the same powers; heat taken up where it was given off *)
Definition turned_report (t0 : R) (a : Replies R) (r r' : RunResults R) : Prop :=
  rrp_indicated (rr_power r') = rrp_indicated (rr_power r) /\
  rrp_ideal_indicated (rr_power r') = rrp_ideal_indicated (rr_power r) /\
  rrp_shaft (rr_power r') = rrp_shaft (rr_power r) /\
  rrp_net (rr_power r') = rrp_net (rr_power r) /\
  rr_shaft_torque r' = rr_shaft_torque r /\
  taken_up (turned_replies t0 a) r' = - given_off a r /\
  given_off (turned_replies t0 a) r' = - taken_up a r.
