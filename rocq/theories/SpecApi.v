(** * Specifications for results, configuration and panics, any number type *)
From Coq Require Import ZArith NArith List.
From Verif Require Import Num ModelTypes ModelWs ModelHx ModelStateEq ModelEngine ModelApi
  Spec SpecLoop.
Import ListNotations.
Local Open Scope num_scope.

Section SpecApi.
  Context {F : Type} {ops : NumOps F}.

  (** ** Integrations that fail *)

  (** The integrator's strategy, answered with derivatives of the cycle, ends
      with an error *)
  Inductive answered_error (T : Decomp F) (c : Cycle F) : ode_prog F -> Prop :=
  | answered_error_here : answered_error T c OErr
  | answered_error_ask t y k dy :
      derivative_at T c t y dy -> answered_error T c (k dy) -> answered_error T c (OAsk t y k).

  (** The integrator's strategy reaches a question that has no answer: the
      state equations could not be solved there *)
  Inductive unanswered (T : Decomp F) (c : Cycle F) : ode_prog F -> Prop :=
  | unanswered_here t y k hint :
      search_fails T (cy_calculate_inputs c t (mkCond (fst (fst y)) (snd (fst y)) (snd y))) hint ->
      unanswered T c (OAsk t y k)
  | unanswered_ask t y k dy :
      derivative_at T c t y dy -> unanswered T c (k dy) -> unanswered T c (OAsk t y k).

  Definition period_args (c : Cycle F) (ic : Conditions F) (intervals : N) (tol : OdeTolerance F)
    : OdeArgs F :=
    mkOdeArgs n0 (cy_period c + n_lit 1 (-14)) (cy_period c / n_of_u32 intervals)
      (cd_P ic, cd_T_c ic, cd_T_e ic) (ot_rel tol) (ot_abs tol).

  Definition integration_error (E : Env F) (T : Decomp F) (c : Cycle F) (ic : Conditions F)
      (intervals : N) (tol : OdeTolerance F) : Prop :=
    answered_error T c (env_ode E (period_args c ic intervals tol)).

  Definition integration_stuck (E : Env F) (T : Decomp F) (c : Cycle F) (ic : Conditions F)
      (intervals : N) (tol : OdeTolerance F) : Prop :=
    unanswered T c (env_ode E (period_args c ic intervals tol)).

  (** one unsuccessful round of the search for a steady state of cycle [c]: a
      one-interval integration from [ic] that does not end where it started;
      the next one starts from its final temperatures and the same pressure *)
  Definition warm_up (E : Env F) (T : Decomp F) (c : Cycle F) (P0 : F) (settings : RunSettings F)
      (ic ic' : Conditions F) : Prop :=
    exists pts pre last,
      integrates E T c ic 1 (rs_ode_tol settings) pts /\ pts = pre ++ [last] /\
      ~ cyclic (lt_inner (rs_loop_tol settings)) pts /\
      ic' = mkCond P0 (cd_T_c (pt_conditions last)) (cd_T_e (pt_conditions last)).

  Definition start_of (s : State F) : Conditions F :=
    mkCond (pr_t_zero (s_pres s)) (te_chx (s_temp s)) (te_hhx (s_temp s)).

  (** the search for a steady state of [s] comes to nothing *)
  Definition no_steady_state (E : Env F) (T : Decomp F) (comps : Components F)
      (settings : RunSettings F) (s : State F) : Prop :=
    exists c, is_cycle_of comps (s_fluid s) (s_pres s) (s_temp s) c /\
    let max := N.to_nat (mi_inner (rs_max_iters settings)) in
    let rounds := steps (warm_up E T c (pr_t_zero (s_pres s)) settings) in
    (exists ic, rounds max (start_of s) ic) \/
    (exists j ic, (j < max)%nat /\ rounds j (start_of s) ic /\
       (integration_error E T c ic 1 (rs_ode_tol settings) \/
        exists pts n,
          integrates E T c ic 1 (rs_ode_tol settings) pts /\
          cyclic (lt_inner (rs_loop_tol settings)) pts /\
          intervals_for E (rs_resolution settings) n /\
          integration_error E T c ic n (rs_ode_tol settings))).

  (** [s] has a steady state with values [v] *)
  Definition steady_state (E : Env F) (T : Decomp F) (comps : Components F)
      (settings : RunSettings F) (s : State F) (v : Values F) : Prop :=
    exists c ic pts2 n pts vs j,
      is_cycle_of comps (s_fluid s) (s_pres s) (s_temp s) c /\
      (j < N.to_nat (mi_inner (rs_max_iters settings)))%nat /\
      steps (warm_up E T c (pr_t_zero (s_pres s)) settings) j (start_of s) ic /\
      integrates E T c ic 1 (rs_ode_tol settings) pts2 /\
      cyclic (lt_inner (rs_loop_tol settings)) pts2 /\
      intervals_for E (rs_resolution settings) n /\
      integrates E T c ic n (rs_ode_tol settings) pts /\
      values_of_points T c pts vs /\
      series_of vs v.

  (** one unconverged outer iteration *)
  Definition unconverged_iteration (E : Env F) (T : Decomp F) (comps : Components F)
      (settings : RunSettings F) (s s' : State F) : Prop :=
    exists v,
      steady_state E T comps settings s v /\
      averages comps s v (s_pres s') (s_mass_flow s') (s_heat_flow s') /\
      recomputed comps (s_fluid s) (s_pres s) (s_temp s) (s_regen_imbalance s) v
        (pr_avg (s_pres s')) (s_mass_flow s') (s_heat_flow s') (s_temp s') /\
      ~ temperatures_close (lt_outer (rs_loop_tol settings)) (s_temp s) (s_temp s') /\
      s_fluid s' = s_fluid s /\ s_regen_imbalance s' = s_regen_imbalance s.

  (** ** Panics of components *)

  (** one of the methods used while running, called in state [s], panics *)
  Definition running_panics (comps : Components F) (s : State F) (p : panic_reason) : Prop :=
    ws_frequency (co_ws comps) (mkWsState (s_pres s)) = Panic p \/
    ws_volumes (co_ws comps) (mkWsState (s_pres s)) = Panic p \/
    ws_parasitics (co_ws comps) (mkWsState (s_pres s)) = Panic p \/
    ws_thermal_resistance (co_ws comps) (mkWsState (s_pres s)) = Panic p \/
    ex_volume (co_chx comps) = Panic p \/
    ex_volume (co_regen comps) = Panic p \/
    ex_volume (co_hhx comps) = Panic p.

  (** one of the methods used for the performance report panics *)
  Definition reporting_panics (comps : Components F) (s : State F) (p : panic_reason) : Prop :=
    ws_frequency (co_ws comps) (mkWsState (s_pres s)) = Panic p \/
    ws_volumes (co_ws comps) (mkWsState (s_pres s)) = Panic p \/
    ws_parasitics (co_ws comps) (mkWsState (s_pres s)) = Panic p \/
    ws_thermal_resistance (co_ws comps) (mkWsState (s_pres s)) = Panic p \/
    (exists x, ex_hydraulic_resistance (co_chx comps) x = Panic p) \/
    (exists x, ex_hydraulic_resistance (co_regen comps) x = Panic p) \/
    (exists x, ex_hydraulic_resistance (co_hhx comps) x = Panic p) \/
    (exists x, ex_parasitics (co_chx comps) x = Panic p) \/
    (exists x, ex_parasitics (co_regen comps) x = Panic p) \/
    (exists x, ex_parasitics (co_hhx comps) x = Panic p).

  (** an exchanger's approach method panics in some state *)
  Definition approach_panics (comps : Components F) (p : panic_reason) : Prop :=
    (exists x, ex_approach (co_chx comps) x = Panic p) \/
    (exists x, ex_approach (co_regen comps) x = Panic p) \/
    (exists x, ex_approach (co_hhx comps) x = Panic p).

  Definition initial_approach_panics (comps : Components F) (p : panic_reason) : Prop :=
    ex_initial_approach (co_chx comps) = Panic p \/
    ex_initial_approach (co_regen comps) = Panic p \/
    ex_initial_approach (co_hhx comps) = Panic p.

  (** everything that can make an outer iteration at state [s] panic *)
  Definition iteration_panics (E : Env F) (T : Decomp F) (comps : Components F)
      (settings : RunSettings F) (s : State F) (p : panic_reason) : Prop :=
    running_panics comps s p \/
    approach_panics comps p \/
    (* the state equations cannot be solved at a time and condition of the cycle *)
    (p = PSolveFailed /\
     exists c, is_cycle_of comps (s_fluid s) (s_pres s) (s_temp s) c /\
       exists t cond hint, search_fails T (cy_calculate_inputs c t cond) hint) \/
    (* the integrator reports no point at all *)
    (p = PEmpty /\
     exists c ic n, is_cycle_of comps (s_fluid s) (s_pres s) (s_temp s) c /\
       integrates E T c ic n (rs_ode_tol settings) []) \/
    (* no output points requested *)
    (p = POverflow /\ rs_resolution settings = 0%N /\ env_overflow_checks E = true).

  (** methods that never panic *)
  Definition ws_total (w : WorkingSpaces F) : Prop :=
    forall s, (exists f, ws_frequency w s = Ret f) /\ (exists f, ws_volumes w s = Ret f) /\
              (exists f, ws_thermal_resistance w s = Ret f) /\ (exists f, ws_parasitics w s = Ret f).
  Definition ex_total {S} (x : Exchanger F S) : Prop :=
    (exists v, ex_volume x = Ret v) /\ (exists a, ex_initial_approach x = Ret a) /\
    forall s, (exists a, ex_approach x s = Ret a) /\ (exists r, ex_hydraulic_resistance x s = Ret r) /\
              (exists p, ex_parasitics x s = Ret p).
  Definition comps_total (comps : Components F) : Prop :=
    ws_total (co_ws comps) /\ ex_total (co_chx comps) /\ ex_total (co_regen comps) /\
    ex_total (co_hhx comps).

  (** ** Aligned series *)
  Definition aligned (n : nat) (v : Values F) : Prop :=
    length (vs_time v) = n /\ length (vs_P v) = n /\ length (vs_T_c v) = n /\
    length (vs_T_e v) = n /\ length (vs_m_dot_ck v) = n /\ length (vs_m_dot_kr v) = n /\
    length (vs_m_dot_rl v) = n /\ length (vs_m_dot_le v) = n /\ length (vs_Q_dot_k v) = n /\
    length (vs_Q_dot_r v) = n /\ length (vs_Q_dot_l v) = n.

  Definition results_aligned (n : nat) (v : RrValues F) : Prop :=
    length (rrv_time v) = n /\ length (rrv_P v) = n /\ length (rrv_P_c v) = n /\
    length (rrv_P_e v) = n /\ length (rrv_T_c v) = n /\ length (rrv_T_e v) = n /\
    length (rrv_m_dot_ck v) = n /\ length (rrv_m_dot_kr v) = n /\
    length (rrv_m_dot_rl v) = n /\ length (rrv_m_dot_le v) = n /\
    length (rrv_Q_dot_k v) = n /\ length (rrv_Q_dot_r v) = n /\ length (rrv_Q_dot_l v) = n.

  (** ** Configurations *)

  Definition fluid_supported (c : FluidConfig) : Prop :=
    c = FC_Hydrogen FM_IdealGas \/ c = FC_Helium FM_IdealGas.
  Definition ws_supported (c : WsConfig F) : Prop :=
    (exists x, c = WC_Sinusoidal x) \/ (exists x, c = WC_Rhombic x).
  Definition chx_supported (c : ChxConfig F) : Prop :=
    (exists x, c = CC_FixedApproach x) \/ (exists x, c = CC_FixedConductance x).
  Definition regen_supported (c : RegenConfig F) : Prop :=
    (exists x, c = RC_FixedApproach x) \/ (exists x, c = RC_FixedConductance x).
  Definition hhx_supported (c : HhxConfig F) : Prop :=
    (exists x, c = HC_FixedApproach x) \/ (exists x, c = HC_FixedConductance x).
  Definition supported (c : EngineConfig F) : Prop :=
    fluid_supported (ec_fluid c) /\ ws_supported (ccf_ws (ec_components c)) /\
    chx_supported (ccf_chx (ec_components c)) /\ regen_supported (ccf_regen (ec_components c)) /\
    hhx_supported (ccf_hhx (ec_components c)).

  (** What a working-space configuration promises: frequency, wall resistances
      and parasitics (no thermal parasitics of the compression space, no
      electrical ones).  Volumes are the subject of the kinematics properties. *)
  Definition ws_carries (c : WsConfig F) (w : WorkingSpaces F) : Prop :=
    forall s,
    match c with
    | WC_Sinusoidal c =>
        ws_frequency w s = Ret (sdc_frequency c) /\
        ws_thermal_resistance w s = Ret (mkTR (sdc_R_c c) (sdc_R_e c)) /\
        ws_parasitics w s =
          Ret (mkPar (mkPP n0 (sdc_W_parasitic_c c) n0)
                     (mkPP (sdc_Q_parasitic_e c) (sdc_W_parasitic_e c) n0))
    | WC_Rhombic c =>
        ws_frequency w s = Ret (rdc_frequency c) /\
        ws_thermal_resistance w s = Ret (mkTR (rdc_R_c c) (rdc_R_e c)) /\
        ws_parasitics w s =
          Ret (mkPar (mkPP n0 (rdc_W_parasitic_c c) n0)
                     (mkPP (rdc_Q_parasitic_e c) (rdc_W_parasitic_e c) n0))
    | _ => False
    end.

  Definition chx_carries (c : ChxConfig F) (x : ColdHeatExchanger F) : Prop :=
    match c with
    | CC_FixedApproach c =>
        ex_volume x = Ret (cfa_vol c) /\ ex_initial_approach x = Ret (cfa_DT c) /\
        forall s, ex_approach x s = Ret (cfa_DT c) /\
          ex_hydraulic_resistance x s = Ret (cfa_R_hyd c) /\
          ex_parasitics x s = Ret (mkPP n0 (cfa_W_parasitic c) n0)
    | CC_FixedConductance c =>
        ex_volume x = Ret (cfc_vol c) /\
        ex_initial_approach x = Ret (if n_lt (cfc_UA c) n0 then n0 else n_lit 10 0) /\
        forall s, ex_hydraulic_resistance x s = Ret (cfc_R_hyd c) /\
          ex_parasitics x s = Ret (mkPP n0 (cfc_W_parasitic c) n0) /\
          let C := hx_cp (chs_hxr s) * hx_m_dot (chs_hxr s) in
          ex_approach x s =
            Ret (hx_Q_dot (chs_hxr s) / C * (n1 / (n1 - n_exp (- (cfc_UA c / C))) - n1))
    | _ => False
    end.
  Definition regen_carries (c : RegenConfig F) (x : Regenerator F) : Prop :=
    match c with
    | RC_FixedApproach c =>
        ex_volume x = Ret (rfa_vol c) /\ ex_initial_approach x = Ret (rfa_DT c) /\
        forall s, ex_approach x s = Ret (rfa_DT c) /\
          ex_hydraulic_resistance x s = Ret (rfa_R_hyd c) /\
          ex_parasitics x s = Ret (mkPP (rfa_Q_parasitic c) n0 n0)
    | RC_FixedConductance c =>
        ex_volume x = Ret (rfc_vol c) /\
        ex_initial_approach x = Ret (n_lit 10 0) /\
        forall s, ex_hydraulic_resistance x s = Ret (rfc_R_hyd c) /\
          ex_parasitics x s = Ret (mkPP (rfc_Q_parasitic c) n0 n0) /\
          let NTU := rfc_UA c / (hx_cp (res_hxr s) * hx_m_dot (res_hxr s)) in
          ex_approach x s =
            Ret ((n1 - NTU / n2 / (n1 + NTU / n2)) * (res_temp_hhx s - res_temp_chx s))
    | _ => False
    end.
  Definition hhx_carries (c : HhxConfig F) (x : HotHeatExchanger F) : Prop :=
    match c with
    | HC_FixedApproach c =>
        ex_volume x = Ret (hfa_vol c) /\ ex_initial_approach x = Ret (hfa_DT c) /\
        forall s, ex_approach x s = Ret (hfa_DT c) /\
          ex_hydraulic_resistance x s = Ret (hfa_R_hyd c) /\
          ex_parasitics x s = Ret (mkPP (hfa_Q_parasitic c) (hfa_W_parasitic c) n0)
    | HC_FixedConductance c =>
        ex_volume x = Ret (hfc_vol c) /\
        ex_initial_approach x = Ret (n_lit 10 0) /\
        forall s, ex_hydraulic_resistance x s = Ret (hfc_R_hyd c) /\
          ex_parasitics x s = Ret (mkPP (hfc_Q_parasitic c) (hfc_W_parasitic c) n0) /\
          let C := hx_cp (hhs_hxr s) * hx_m_dot (hhs_hxr s) in
          ex_approach x s =
            Ret (hx_Q_dot (hhs_hxr s) / C * (n1 / (n1 - n_exp (- (hfc_UA c / C))) - n1))
    | _ => False
    end.
  Definition carries (c : ComponentsConfig F) (comps : Components F) : Prop :=
    ws_carries (ccf_ws c) (co_ws comps) /\ chx_carries (ccf_chx c) (co_chx comps) /\
    regen_carries (ccf_regen c) (co_regen comps) /\ hhx_carries (ccf_hhx c) (co_hhx comps).

  (** ** Results *)

  (** the engine data a result repeats under its own name *)
  Definition repeats (e : Engine F) (r : RunResults F) : Prop :=
    let s := en_state e in let v := en_values e in
    let T := rr_temperature r in let P := rr_pressure r in let m := rr_mass_flow r in
    let q := rr_heat_flow r in let w := rr_values r in
    (rrt_sink T = te_sink (s_temp s) /\ rrt_chx T = te_chx (s_temp s) /\
     rrt_regen_cold T = rt_cold (te_regen (s_temp s)) /\
     rrt_regen_avg T = rt_avg (te_regen (s_temp s)) /\
     rrt_regen_hot T = rt_hot (te_regen (s_temp s)) /\
     rrt_hhx T = te_hhx (s_temp s) /\ rrt_source T = te_source (s_temp s)) /\
    (rrpr_avg P = pr_avg (s_pres s) /\ rrpr_max P = pr_max (s_pres s) /\
     rrpr_min P = pr_min (s_pres s) /\ rrpr_t_zero P = pr_t_zero (s_pres s)) /\
    (rrm_chx m = mf_chx (s_mass_flow s) /\ rrm_regen m = mf_regen (s_mass_flow s) /\
     rrm_hhx m = mf_hhx (s_mass_flow s)) /\
    (rrh_chx q = hf_chx (s_heat_flow s) /\ rrh_regen q = hf_regen (s_heat_flow s) /\
     rrh_hhx q = hf_hhx (s_heat_flow s)) /\
    rr_regen_imbalance r = s_regen_imbalance s /\
    (rrv_time w = vs_time v /\ rrv_P w = vs_P v /\ rrv_T_c w = vs_T_c v /\ rrv_T_e w = vs_T_e v /\
     rrv_m_dot_ck w = vs_m_dot_ck v /\ rrv_m_dot_kr w = vs_m_dot_kr v /\
     rrv_m_dot_rl w = vs_m_dot_rl v /\ rrv_m_dot_le w = vs_m_dot_le v /\
     rrv_Q_dot_k w = vs_Q_dot_k v /\ rrv_Q_dot_r w = vs_Q_dot_r v /\
     rrv_Q_dot_l w = vs_Q_dot_l v).

  (** the performance figures a result repeats under their names *)
  Definition repeats_performance (p : Performance F) (r : RunResults F) : Prop :=
    rre_mechanical (rr_efficiency r) = pf_efficiency p /\
    rrh_input (rr_heat_flow r) = ht_input (pf_heat p) /\
    rrh_rejection (rr_heat_flow r) = ht_rejected (pf_heat p) /\
    rrp_ideal_indicated (rr_power r) = pw_indicated_zero_dP (pf_power p) /\
    rrp_indicated (rr_power r) = pw_indicated (pf_power p) /\
    rrp_shaft (rr_power r) = pw_shaft (pf_power p) /\
    rrp_net (rr_power r) = pw_net (pf_power p) /\
    rr_shaft_torque r = pf_shaft_torque p /\
    rrv_P_c (rr_values r) = pwd_P_c (pf_pressures_with_drops p) /\
    rrv_P_e (rr_values r) = pwd_P_e (pf_pressures_with_drops p).

  (** working spaces that differ in nothing but their wall resistance *)
  Definition same_but_resistance (w1 w2 : WorkingSpaces F) : Prop :=
    (forall s, ws_frequency w1 s = ws_frequency w2 s) /\
    (forall s, ws_volumes w1 s = ws_volumes w2 s) /\
    (forall s, ws_parasitics w1 s = ws_parasitics w2 s).

  (** parasitics that differ in nothing but the electrical part *)
  Definition same_but_electrical (p q : ParasiticPower F) : Prop :=
    pp_thermal p = pp_thermal q /\ pp_mechanical p = pp_mechanical q.

  (** two engines that agree on everything but components and heat flows *)
  Definition same_but_heat_flow (a b : Engine F) : Prop :=
    en_values a = en_values b /\ s_fluid (en_state a) = s_fluid (en_state b) /\
    s_pres (en_state a) = s_pres (en_state b) /\ s_temp (en_state a) = s_temp (en_state b) /\
    s_mass_flow (en_state a) = s_mass_flow (en_state b) /\
    s_regen_imbalance (en_state a) = s_regen_imbalance (en_state b).

  Definition same_run (a b : outcome (result (Engine F) RunError)) : Prop :=
    match a, b with
    | Ret (Ok x), Ret (Ok y) => same_but_heat_flow x y
    | Ret (Err x), Ret (Err y) => x = y
    | Panic p, Panic q => p = q
    | _, _ => False
    end.

  Definition constant_approach {S} (x : Exchanger F S) : Prop :=
    exists a, forall s, ex_approach x s = Ret a.

  (** components that agree on everything the report uses but the electrical parasitics *)
  Definition agree_but_electrical (c1 c2 : Components F) : Prop :=
    (forall s, ws_frequency (co_ws c1) s = ws_frequency (co_ws c2) s) /\
    (forall s, ws_volumes (co_ws c1) s = ws_volumes (co_ws c2) s) /\
    (forall s, ws_thermal_resistance (co_ws c1) s = ws_thermal_resistance (co_ws c2) s) /\
    (forall s, exists p1 p2, ws_parasitics (co_ws c1) s = Ret p1 /\ ws_parasitics (co_ws c2) s = Ret p2 /\
       same_but_electrical (par_comp p1) (par_comp p2) /\ same_but_electrical (par_exp p1) (par_exp p2)) /\
    (forall s, ex_hydraulic_resistance (co_chx c1) s = ex_hydraulic_resistance (co_chx c2) s) /\
    (forall s, ex_hydraulic_resistance (co_regen c1) s = ex_hydraulic_resistance (co_regen c2) s) /\
    (forall s, ex_hydraulic_resistance (co_hhx c1) s = ex_hydraulic_resistance (co_hhx c2) s) /\
    (forall s, exists p1 p2, ex_parasitics (co_chx c1) s = Ret p1 /\ ex_parasitics (co_chx c2) s = Ret p2 /\
       same_but_electrical p1 p2) /\
    (forall s, exists p1 p2, ex_parasitics (co_regen c1) s = Ret p1 /\ ex_parasitics (co_regen c2) s = Ret p2 /\
       same_but_electrical p1 p2) /\
    (forall s, exists p1 p2, ex_parasitics (co_hhx c1) s = Ret p1 /\ ex_parasitics (co_hhx c2) s = Ret p2 /\
       same_but_electrical p1 p2).

  (** the configuration with another displacer diameter *)
  Definition with_D_d (c : RhConfig F) (d : F) : RhConfig F :=
    mkRhCfg (rdc_frequency c) (rdc_V_clearance_c c) (rdc_R_c c) (rdc_W_parasitic_c c)
      (rdc_V_clearance_e c) (rdc_R_e c) (rdc_W_parasitic_e c) (rdc_Q_parasitic_e c)
      (rdc_r_crank c) (rdc_L_conn c) (rdc_eccentricity c) (rdc_D_p c) d.

End SpecApi.

(** ** Legacy configurations *)
Section SpecLegacy.
  Context {F : Type}.

  Definition legacy_fluid (l : LegacyFluidConfig) (c : FluidConfig) : Prop :=
    match l, c with
    | LFC_Hydrogen, FC_Hydrogen FM_Custom => True
    | LFC_RealGasRefprop LF_Hydrogen, FC_Hydrogen FM_RefProp => True
    | LFC_RealGasRefprop LF_Helium, FC_Helium FM_RefProp => True
    | LFC_IdealGas LF_Hydrogen, FC_Hydrogen FM_IdealGas => True
    | LFC_IdealGas LF_Helium, FC_Helium FM_IdealGas => True
    | _, _ => False
    end.
  Definition legacy_ws (l : LegacyWsConfig F) (c : WsConfig F) : Prop :=
    match l, c with
    | LWC_Sinusoidal a, WC_Sinusoidal b => a = b
    | LWC_Rhombic a, WC_Rhombic b => a = b
    | LWC_GPU3 a, WC_GPU3 b => a = b
    | LWC_Mod2 a, WC_Mod2 b => a = b
    | _, _ => False
    end.
  Definition legacy_chx (l : LegacyChxConfig F) (c : ChxConfig F) : Prop :=
    match l, c with
    | LCC_FixedApproach a, CC_FixedApproach b => a = b
    | LCC_FixedConductance a, CC_FixedConductance b => a = b
    | LCC_GPU3 a, CC_GPU3 b => a = b
    | LCC_Mod2 a, CC_Mod2 b => a = b
    | _, _ => False
    end.
  Definition legacy_regen (l : LegacyRegenConfig F) (c : RegenConfig F) : Prop :=
    match l, c with
    | LRC_FixedApproach a, RC_FixedApproach b => a = b
    | LRC_FixedConductance a, RC_FixedConductance b => a = b
    | LRC_GPU3 a, RC_GPU3 b => a = b
    | LRC_Mod2 a, RC_Mod2 b => a = b
    | _, _ => False
    end.
  Definition legacy_hhx (l : LegacyHhxConfig F) (c : HhxConfig F) : Prop :=
    match l, c with
    | LHC_FixedApproach a, HC_FixedApproach b => a = b
    | LHC_FixedConductance a, HC_FixedConductance b => a = b
    | LHC_GPU3 a, HC_GPU3 b => a = b
    | LHC_Mod2 a, HC_Mod2 b => a = b
    | LHC_GPU3NI a, HC_GPU3NI b => a = b
    | LHC_Mod2NI a, HC_Mod2NI b => a = b
    | _, _ => False
    end.

  (** the engine a configuration describes is the one the legacy file describes *)
  Definition same_engine (l : Legacy F) (c : EngineConfig F) : Prop :=
    legacy_fluid (lg_fluid l) (ec_fluid c) /\
    legacy_ws (lg_ws l) (ccf_ws (ec_components c)) /\
    legacy_chx (lg_chx l) (ccf_chx (ec_components c)) /\
    legacy_regen (lg_regen l) (ccf_regen (ec_components c)) /\
    legacy_hhx (lg_hhx l) (ccf_hhx (ec_components c)).

  (** run inputs and settings carrying the values of a legacy file *)
  Definition legacy_inputs (l : Legacy F) (i : RunInputs F) : Prop :=
    ri_temp_sink i = lcc_T_cold (lg_conditions l) /\
    ri_temp_source i = lcc_T_hot (lg_conditions l) /\
    ri_pres_zero i = lcc_P_0 (lg_conditions l).
  Definition legacy_settings (l : Legacy F) (s : RunSettings F) : Prop :=
    let inner := lsc_inner_loop_tolerance (lg_solver l) in
    let outer := lsc_outer_loop_tolerance (lg_solver l) in
    let ode := lsc_ode_tolerance (lg_solver l) in
    rs_resolution s = lsc_time_resolution (lg_solver l) /\
    ct_abs (lt_inner (rs_loop_tol s)) = tc_abs inner /\
    ct_rel (lt_inner (rs_loop_tol s)) = tc_rel inner /\
    ct_abs (lt_outer (rs_loop_tol s)) = tc_abs outer /\
    ct_rel (lt_outer (rs_loop_tol s)) = tc_rel outer /\
    ot_abs (rs_ode_tol s) = tc_abs ode /\ ot_rel (rs_ode_tol s) = tc_rel ode /\
    mi_inner (rs_max_iters s) = 20%N /\ mi_outer (rs_max_iters s) = 20%N.
End SpecLegacy.
