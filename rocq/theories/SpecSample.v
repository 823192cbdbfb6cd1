(** * Specification in exact arithmetic: reports from samples of a trajectory *)
From Coq Require Import ZArith NArith List Reals.
From Verif Require Import Num ModelTypes ModelWs ModelHx ModelStateEq ModelEngine ModelApi RNum SpecGas SpecTraj
  SpecSeries SpecQuad SpecUnique SpecDepend SpecReport.
Import ListNotations.
Local Open Scope R_scope.

(** the state equations accept [s] in state [c] at time [t] *)
Definition solved_at (D : Decomp R) (r : Run R) (t : R) (c : Conditions R) (s : Solution R) : Prop :=
  exists hint, solve D (Run_calculate_inputs r t c) hint = Ok s.
(** the rates of the volumes change at most so fast *)
Definition steady_motion (vol : R -> Volume R * Volume R) (a b : R) : Prop :=
  exists K, changes_within K (fun t => v_deriv (fst (vol t))) a b /\ changes_within K (fun t => v_deriv (snd (vol t))) a b.
(** samples within [dl] of the trajectory [c], each with a solution of its own state equations *)
Definition sampled (D : Decomp R) (r : Run R) (c : R -> Conditions R) (dl : R) (vs : list (SeValues R)) : Prop :=
  Forall (fun v => gap (sv_conditions v) (c (sv_time v)) <= dl /\
                   solved_at D r (sv_time v) (sv_conditions v) (sv_solution v)) vs.
(** [I] is the integral of [f] from [a] to [b] *)
Definition integral (f : R -> R) (a b I : R) : Prop := exists F, antiderivative F f a b /\ I = F b - F a.

(** ** The cycle integrals of an engine with gas [fl] and mean temperatures [T], whose components
    answer [a], along the trajectory [c] with the solutions [s] *)
Section Totals.
  Context (fl : Fluid R) (T : Temperatures R) (a : Replies R) (c : R -> Conditions R) (s : R -> Solution R).
  Definition dVc_of (t : R) : R := v_deriv (fst (rp_vols a t)).
  Definition dVe_of (t : R) : R := v_deriv (snd (rp_vols a t)).
  (** hydraulic resistance times mean volumetric flow *)
  Definition drop_in (res m m' Tx P : R) : R := res * ((m + m') / 2 / fl_dens fl Tx P).
  Definition drop (t : R) : R :=
    let P := cd_P (c t) in let x := s t in
    drop_in (rp_R_chx a) (so_m_dot_ck x) (so_m_dot_kr x) (te_chx T) P
    + drop_in (rp_R_regen a) (so_m_dot_kr x) (so_m_dot_rl x) (rt_avg (te_regen T)) P
    + drop_in (rp_R_hhx a) (so_m_dot_rl x) (so_m_dot_le x) (te_hhx T) P.
  Definition work_rate (t : R) : R :=
    (cd_P (c t) + drop t / 2) * dVc_of t + (cd_P (c t) - drop t / 2) * dVe_of t.
  Definition ideal_rate (t : R) : R := cd_P (c t) * (dVc_of t + dVe_of t).
  Definition wall_comp_rate (t : R) : R := (cd_T_c (c t) - te_chx T) / tr_comp (rp_res a).
  Definition wall_exp_rate (t : R) : R := (cd_T_e (c t) - te_hhx T) / tr_exp (rp_res a).
End Totals.

Record Totals := mkTotals {
  to_work : R; to_ideal : R; to_Q_k : R; to_Q_r : R; to_Q_l : R; to_wall_c : R; to_wall_e : R }.
Definition totals (fl : Fluid R) (T : Temperatures R) (a : Replies R) (c : R -> Conditions R) (s : R -> Solution R) (tau : R) (X : Totals) : Prop :=
  integral (work_rate fl T a c s) 0 tau (to_work X) /\
  integral (ideal_rate a c) 0 tau (to_ideal X) /\
  integral (fun t => so_Q_dot_k (s t)) 0 tau (to_Q_k X) /\
  integral (fun t => so_Q_dot_r (s t)) 0 tau (to_Q_r X) /\
  integral (fun t => so_Q_dot_l (s t)) 0 tau (to_Q_l X) /\
  integral (wall_comp_rate T a c) 0 tau (to_wall_c X) /\
  integral (wall_exp_rate T a c) 0 tau (to_wall_e X).

(** ** The powers and heats of the exact cycle *)
Section Exact.
  Context (a : Replies R) (X : Totals).
  Let f := rp_freq a.
  Let friction := pp_mechanical (par_comp (rp_par a)) + pp_mechanical (par_exp (rp_par a)).
  Let losses := pp_thermal (rp_hhx a) + pp_thermal (rp_regen a) + pp_thermal (par_exp (rp_par a)).
  Definition true_indicated : R := f * to_work X.
  Definition true_ideal : R := f * to_ideal X.
  Definition true_shaft : R := true_indicated - friction.
  Definition true_net : R := true_shaft - (pp_mechanical (rp_chx a) + pp_mechanical (rp_hhx a)).
  Definition true_input : R := f * to_Q_l X - f * to_wall_e X + losses.
  Definition true_rejected : R :=
    f * to_wall_c X + f * to_Q_k X + (true_ideal - true_indicated) + friction + losses.
  Definition report_within (e : R) (rep : RunResults R) : Prop :=
    Rabs (rrp_indicated (rr_power rep) - true_indicated) <= e /\
    Rabs (rrp_ideal_indicated (rr_power rep) - true_ideal) <= e /\
    Rabs (rrp_shaft (rr_power rep) - true_shaft) <= e /\
    Rabs (rrp_net (rr_power rep) - true_net) <= e /\
    Rabs (rrh_input (rr_heat_flow rep) - true_input) <= e /\
    Rabs (rrh_rejection (rr_heat_flow rep) - true_rejected) <= e /\
    Rabs (rr_shaft_torque rep - true_shaft / (2 * PI * f)) <= e.
End Exact.
