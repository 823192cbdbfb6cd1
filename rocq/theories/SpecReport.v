(** * Specification: accuracy of the reported powers and heats *)
From Coq Require Import ZArith NArith List Reals.
From Flocq Require Import Core BinarySingleNaN.
From Verif Require Import Num ModelTypes ModelWs ModelHx ModelStateEq ModelEngine ModelApi B64
  Spec SpecR SpecF64 SpecSeries SpecRound SpecBalance.
Import ListNotations.
Local Open Scope R_scope.

(** What the components of an engine say about its final state *)
Record Replies (F : Type) := mkReplies {
  rp_freq : F; rp_vols : F -> Volume F * Volume F; rp_par : Parasitics F; rp_res : ThermalResistance F;
  rp_R_chx : F; rp_R_regen : F; rp_R_hhx : F;
  rp_chx : ParasiticPower F; rp_regen : ParasiticPower F; rp_hhx : ParasiticPower F }.
Arguments mkReplies {F}. Arguments rp_freq {F}. Arguments rp_vols {F}. Arguments rp_par {F}. Arguments rp_res {F}.
Arguments rp_R_chx {F}. Arguments rp_R_regen {F}. Arguments rp_R_hhx {F}.
Arguments rp_chx {F}. Arguments rp_regen {F}. Arguments rp_hhx {F}.
Definition replies {F} {ops : NumOps F} (e : Engine F) (a : Replies F) : Prop :=
  let c := en_components e in let s := en_state e in
  let P := pr_avg (s_pres s) in let T := s_temp s in let m := s_mass_flow s in let q := s_heat_flow s in
  let w := mkWsState (s_pres s) in
  let k := mkChxState (hx_state (s_fluid s) (te_chx T) P (mf_chx m) (hf_chx q)) (te_sink T) in
  let r := mkRegenState (hx_state (s_fluid s) (rt_avg (te_regen T)) P (mf_regen m) (hf_regen q))
             (te_chx T) (te_hhx T) in
  let l := mkHhxState (hx_state (s_fluid s) (te_hhx T) P (mf_hhx m) (hf_hhx q)) (te_source T) in
  ws_frequency (co_ws c) w = Ret (rp_freq a) /\
  ws_volumes (co_ws c) w = Ret (rp_vols a) /\
  ws_parasitics (co_ws c) w = Ret (rp_par a) /\
  ws_thermal_resistance (co_ws c) w = Ret (rp_res a) /\
  ex_hydraulic_resistance (co_chx c) k = Ret (rp_R_chx a) /\
  ex_hydraulic_resistance (co_regen c) r = Ret (rp_R_regen a) /\
  ex_hydraulic_resistance (co_hhx c) l = Ret (rp_R_hhx a) /\
  ex_parasitics (co_chx c) k = Ret (rp_chx a) /\
  ex_parasitics (co_regen c) r = Ret (rp_regen a) /\
  ex_parasitics (co_hhx c) l = Ret (rp_hhx a).

(** ** Cycle integrals of quantities of the samples [vs], as numbers per second *)
Definition over {A} (t g : A -> R) (vs : list A) : list (R * R) := map (fun v => (t v, g v)) vs.
Definition per_cycle (f : b64) (vs : list (SeValues b64)) (g : SeValues b64 -> R) : R :=
  value f * trapezoid (over (fun v => value (sv_time v)) g vs).
(** the same for magnitudes: all panels counted positively *)
Definition size_cycle (f : b64) (vs : list (SeValues b64)) (m : SeValues b64 -> R) : R :=
  Rabs (value f) * magnitude (over (fun v => value (sv_time v)) m vs).
(** underflow of an integral of samples that underflow by [s] *)
Definition slack_cycle (f : b64) (vs : list (SeValues b64)) (s : SeValues b64 -> R) : R :=
  2 * Rabs (value f) * ((1 + unit_roundoff) ^ (panels vs + 4) *
    (magnitude (over (fun v => value (sv_time v)) s vs) + 2 * INR (panels vs))) + 1.

(** a figure that is [exact] but for [k] roundings of terms of magnitude [size], and underflow *)
Definition figure (k : nat) (got : b64) (exact size slack : R) : Prop :=
  Rabs (value got - exact) <= growth k * size + slack * tiny.

(** ** The quantities integrated, from the values of an engine *)
Section Samples.
  Context (e : Engine b64) (a : Replies b64).
  Notation V := (SeValues b64).
  Definition pres_at (v : V) : R := value (cd_P (sv_conditions v)).
  Definition dVc_at (v : V) : R := value (v_deriv (fst (rp_vols a (sv_time v)))).
  Definition dVe_at (v : V) : R := value (v_deriv (snd (rp_vols a (sv_time v)))).
  Definition dens_at (T : b64) (v : V) : b64 := fl_dens (s_fluid (en_state e)) T (cd_P (sv_conditions v)).
  Definition dens_chx (v : V) : b64 := dens_at (te_chx (s_temp (en_state e))) v.
  Definition dens_regen (v : V) : b64 := dens_at (rt_avg (te_regen (s_temp (en_state e)))) v.
  Definition dens_hhx (v : V) : b64 := dens_at (te_hhx (s_temp (en_state e))) v.
  (** hydraulic resistance times mean volumetric flow *)
  Definition drop_of (res m m' rho : b64) : R := value res * ((value m + value m') / 2 / value rho).
  Definition drop_slack_of (res rho : b64) : R := 4 * Rabs (value res) / Rabs (value rho) + 2 * Rabs (value res) + 1.
  Definition drop_chx (v : V) : R :=
    drop_of (rp_R_chx a) (so_m_dot_ck (sv_solution v)) (so_m_dot_kr (sv_solution v)) (dens_chx v).
  Definition drop_regen (v : V) : R :=
    drop_of (rp_R_regen a) (so_m_dot_kr (sv_solution v)) (so_m_dot_rl (sv_solution v)) (dens_regen v).
  Definition drop_hhx (v : V) : R :=
    drop_of (rp_R_hhx a) (so_m_dot_rl (sv_solution v)) (so_m_dot_le (sv_solution v)) (dens_hhx v).
  Definition drop_at (v : V) : R := drop_chx v + drop_hhx v + drop_regen v.
  Definition pres_size (v : V) : R :=
    Rabs (pres_at v) + (Rabs (drop_chx v) + Rabs (drop_hhx v) + Rabs (drop_regen v)) / 2.
  Definition pres_slack (v : V) : R :=
    8 * (drop_slack_of (rp_R_chx a) (dens_chx v) + drop_slack_of (rp_R_hhx a) (dens_hhx v)
         + drop_slack_of (rp_R_regen a) (dens_regen v)) + 2.
  (** work done by the gas, with and without pressure drops *)
  Definition work_at (v : V) : R :=
    (pres_at v + drop_at v / 2) * dVc_at v + (pres_at v - drop_at v / 2) * dVe_at v.
  Definition work_size (v : V) : R := pres_size v * (Rabs (dVc_at v) + Rabs (dVe_at v)).
  Definition work_slack (v : V) : R := 4 * pres_slack v * (Rabs (dVc_at v) + Rabs (dVe_at v)) + 4.
  Definition ideal_at (v : V) : R := pres_at v * (dVc_at v + dVe_at v).
  Definition ideal_size (v : V) : R := Rabs (pres_at v) * (Rabs (dVc_at v) + Rabs (dVe_at v)).
  (** heat through the walls; none through a wall of infinite resistance *)
  Definition wall (T Tw res : b64) : R :=
    match res with B754_infinity _ => 0 | _ => (value T - value Tw) / value res end.
  Definition wall_comp (v : V) : R :=
    wall (cd_T_c (sv_conditions v)) (te_chx (s_temp (en_state e))) (tr_comp (rp_res a)).
  Definition wall_exp (v : V) : R :=
    wall (cd_T_e (sv_conditions v)) (te_hhx (s_temp (en_state e))) (tr_exp (rp_res a)).
  Definition Q_k_at (v : V) : R := value (so_Q_dot_k (sv_solution v)).
  Definition Q_r_at (v : V) : R := value (so_Q_dot_r (sv_solution v)).
  Definition Q_l_at (v : V) : R := value (so_Q_dot_l (sv_solution v)).
End Samples.

(** no density is zero or infinite, no wall resistance is zero *)
Definition dense (e : Engine b64) (a : Replies b64) (vs : list (SeValues b64)) : Prop :=
  Forall (fun v => value (dens_chx e v) <> 0 /\ value (dens_regen e v) <> 0 /\ value (dens_hhx e v) <> 0) vs.
Definition walled (a : Replies b64) : Prop :=
  let ok r := match r with B754_infinity _ => True | _ => value r <> 0 end in
  ok (tr_comp (rp_res a)) /\ ok (tr_exp (rp_res a)).

(** ** The figures *)
Section Figures.
  Context (e : Engine b64) (a : Replies b64) (vs : list (SeValues b64)).
  Let f := rp_freq a.
  Let n := panels vs.
  Notation p := value.
  Definition friction_c := p (pp_mechanical (par_comp (rp_par a))).
  Definition friction_e := p (pp_mechanical (par_exp (rp_par a))).
  Definition pump_k := p (pp_mechanical (rp_chx a)).
  Definition pump_l := p (pp_mechanical (rp_hhx a)).
  Definition loss_l := p (pp_thermal (rp_hhx a)).
  Definition loss_r := p (pp_thermal (rp_regen a)).
  Definition loss_e := p (pp_thermal (par_exp (rp_par a))).
  Definition slack := slack_cycle f vs (work_slack e a).
  Definition indicated_exact := per_cycle f vs (work_at e a).
  Definition ideal_exact := per_cycle f vs (ideal_at a).
  Definition shaft_exact := indicated_exact - friction_c - friction_e.
  Definition net_exact := shaft_exact - pump_k - pump_l.
  Definition input_exact := per_cycle f vs Q_l_at - per_cycle f vs (wall_exp e a) + (loss_l + loss_r + loss_e).
  Definition rejected_exact :=
    per_cycle f vs (wall_comp e a) + per_cycle f vs Q_k_at + (ideal_exact - indicated_exact)
    + (friction_c + friction_e) + (loss_l + loss_r + loss_e).
  Definition indicated_size := size_cycle f vs (work_size e a).
  Definition ideal_magnitude := size_cycle f vs (ideal_size a).
  Definition friction_size := Rabs friction_c + Rabs friction_e.
  Definition loss_size := Rabs loss_l + Rabs loss_r + Rabs loss_e.
  Definition shaft_size := indicated_size + friction_size.
  Definition net_size := shaft_size + Rabs pump_k + Rabs pump_l.
  Definition input_size :=
    size_cycle f vs (fun v => Rabs (Q_l_at v)) + size_cycle f vs (fun v => Rabs (wall_exp e a v)) + loss_size.
  Definition rejected_size :=
    size_cycle f vs (fun v => Rabs (wall_comp e a v)) + size_cycle f vs (fun v => Rabs (Q_k_at v))
    + (ideal_magnitude + indicated_size) + friction_size + loss_size.

  Definition powers_accurate (w : RrPower b64) : Prop :=
    figure (n + 15) (rrp_indicated w) indicated_exact indicated_size slack /\
    figure (n + 7) (rrp_ideal_indicated w) ideal_exact ideal_magnitude slack /\
    figure (n + 17) (rrp_shaft w) shaft_exact shaft_size (4 * slack) /\
    figure (n + 19) (rrp_net w) net_exact net_size (16 * slack).
  Definition heats_accurate (h : RrHeatFlow b64) : Prop :=
    figure (n + 9) (rrh_input h) input_exact input_size (8 * slack) /\
    figure (n + 19) (rrh_rejection h) rejected_exact rejected_size (64 * slack).
End Figures.
Definition finite_figures (r : RunResults b64) : Prop :=
  Forall finite [rrp_net (rr_power r); rrh_input (rr_heat_flow r); rrh_rejection (rr_heat_flow r)].
(** torque and efficiency are one division away from the power and heat they are made of *)
Definition ratios_accurate (a : Replies b64) (r : RunResults b64) : Prop :=
  let quotient got x y := finite got -> value y <> 0 -> figure 1 got (value x / value y) (Rabs (value x / value y)) 1 in
  quotient (rre_mechanical (rr_efficiency r)) (rrp_net (rr_power r)) (rrh_input (rr_heat_flow r)) /\
  exists w, quotient (rr_shaft_torque r) (rrp_shaft (rr_power r)) w /\
    (finite (rp_freq a) -> Rabs (value (rp_freq a)) <= bpow radix2 1000 -> finite w) /\
    (finite w -> let exact := 2 * value b64_pi * value (rp_freq a) in figure 1 w exact (Rabs exact) 1).

(** ** The first law *)

(** the values of an engine solve the state equations of its own cycle *)
Definition solved_values {F} {ops : NumOps F} (D : Decomp F) (e : Engine F) (c : Cycle F) (vs : list (SeValues F)) : Prop :=
  let s := en_state e in
  is_cycle_of (en_components e) (s_fluid s) (s_pres s) (s_temp s) c /\
  series_of vs (en_values e) /\
  Forall (fun v => upwind_solution D (cy_calculate_inputs c (sv_time v) (sv_conditions v)) (sv_solution v)) vs.
(** nothing overflows at a sample, where the linear solver is accurate to [eps] *)
Definition orderly {ops : NumOps b64} (D : Decomp b64) (eps : R) (c : Cycle b64) (v : SeValues b64) : Prop :=
  let i := cy_calculate_inputs c (sv_time v) (sv_conditions v) in
  careful D eps i /\ finite_system i (sv_solution v) /\ finite_solution (sv_solution v) /\ value (in_enth_norm i) <> 0.
(** rate of change of the energy of the gas at a sample, and how well its balance holds *)
Definition energy_at (c : Cycle b64) (v : SeValues b64) : R :=
  total_energy_rate (input_values (cy_calculate_inputs c (sv_time v) (sv_conditions v))) (solution_values (sv_solution v)).
Definition enthalpy_from (m cold hot : R) : R := if Rle_dec 0 m then cold else hot.
Definition energy_tolerance (eps : R) (c : Cycle b64) (v : SeValues b64) : R :=
  let i := input_values (cy_calculate_inputs c (sv_time v) (sv_conditions v)) in
  let s := solution_values (sv_solution v) in
  compound eps 5 * energy_magnitude i
    (enthalpy_from (so_m_dot_ck s) (wi_enth (in_comp i)) (hi_enth (in_chx i)))
    (enthalpy_from (so_m_dot_kr s) (hi_enth (in_chx i)) (gi_enth_cold (in_regen i)))
    (enthalpy_from (so_m_dot_rl s) (gi_enth_hot (in_regen i)) (hi_enth (in_hhx i)))
    (enthalpy_from (so_m_dot_le s) (hi_enth (in_hhx i)) (wi_enth (in_exp i))) s
  + (1 + eps) * energy_slack i s * tiny.
(** What the report takes in, less what it gives off, is the energy stored in
    the gas and the regenerator, up to the heat of the walls - which does not
    act on the gas - and up to rounding *)
Definition closes (eps : R) (e : Engine b64) (a : Replies b64) (c : Cycle b64) (vs : list (SeValues b64))
    (r : RunResults b64) : Prop :=
  let f := rp_freq a in
  let Q_par := value (pp_thermal (par_comp (rp_par a))) + value (pp_thermal (par_exp (rp_par a))) in
  Rabs (value (rrh_input (rr_heat_flow r)) - value (rrh_rejection (rr_heat_flow r)) - value (rrp_shaft (rr_power r))
        - (per_cycle f vs (fun v => energy_at c v + Q_r_at v + Q_par)
           - per_cycle f vs (wall_exp e a) - per_cycle f vs (wall_comp e a)))
    <= growth (panels vs + 19) * (input_size e a vs + rejected_size e a vs + shaft_size e a vs)
       + size_cycle f vs (energy_tolerance eps c) + 76 * slack e a vs * tiny.
