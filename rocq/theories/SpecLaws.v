(** * Specification in exact arithmetic: symmetries and cycles of the state equations *)
From Coq Require Import ZArith NArith List Reals.
From Verif Require Import Num ModelTypes ModelWs ModelHx ModelStateEq ModelEngine RNum
  SpecR SpecGas SpecKin SpecTraj.
Local Open Scope R_scope.

(** ** Speed *)

(** boundary motion and heat loss of a working space [k] times as fast *)
Definition faster_space (k : R) (w : WorkingSpaceIn R) : WorkingSpaceIn R :=
  mkWsIn (wi_vol w) (wi_dens w) (wi_inte w) (wi_enth w) (wi_dd_dP_T w) (wi_dd_dT_P w)
    (wi_du_dP_T w) (wi_du_dT_P w) (k * wi_dV_dt w) (k * wi_Q_dot w).
Definition faster (k : R) (i : Inputs R) : Inputs R :=
  mkInputs (in_pres i) (in_enth_norm i) (faster_space k (in_comp i)) (in_chx i) (in_regen i)
    (in_hhx i) (faster_space k (in_exp i)).
(** flows, heats and derivatives: mass flows and heats times [m], temperature
    derivatives times [t], pressure derivative times [p] *)
Definition scaled (m t p : R) (s : Solution R) : Solution R :=
  mkSolution (m * so_m_dot_ck s) (m * so_m_dot_kr s) (m * so_m_dot_rl s) (m * so_m_dot_le s)
    (m * so_Q_dot_k s) (m * so_Q_dot_r s) (m * so_Q_dot_l s)
    (t * so_dTc_dt s) (t * so_dTe_dt s) (p * so_dP_dt s).
Definition at_rest : Solution R := mkSolution 0 0 0 0 0 0 0 0 0 0.

(** the engine running [k] times as fast, its working spaces losing heat [k] times as fast *)
Definition faster_volume (k : R) (v : Volume R) : Volume R := mkVolume (v_value v) (k * v_deriv v).
Definition faster_loss (k : R) (p : ParasiticPower R) : ParasiticPower R :=
  mkPP (k * pp_thermal p) (pp_mechanical p) (pp_electrical p).
Definition faster_run (k : R) (r : Run R) : Run R :=
  mkRun (ru_enth_norm r) (ru_fluid r) (ru_period r / k) (ru_pres r) (ru_temp r)
    (ru_vol_chx r) (ru_vol_hhx r) (ru_vol_regen r)
    (mkPar (faster_loss k (par_comp (ru_ws_parasitics r))) (faster_loss k (par_exp (ru_ws_parasitics r))))
    (fun t => (faster_volume k (fst (ru_ws_vol_fn r (k * t))),
               faster_volume k (snd (ru_ws_vol_fn r (k * t))))).
Definition faster_sin (k : R) (d : SinusoidalDrive R) : SinusoidalDrive R :=
  mkSin (k * sd_frequency d) (sd_phase_angle d) (sd_comp_geometry d) (sd_exp_geometry d)
    (sd_thermal_resistance d) (sd_parasitics d).
Definition faster_rh (k : R) (d : RhombicDrive R) : RhombicDrive R :=
  mkRh (k * rd_frequency d) (rd_geometry d) (rd_parasitics d) (rd_R_comp d) (rd_R_exp d)
    (rd_V_clearance_c d) (rd_V_clearance_e d).

(** ** Zero of the enthalpy scale *)

Definition shift_space (h0 : R) (w : WorkingSpaceIn R) : WorkingSpaceIn R :=
  mkWsIn (wi_vol w) (wi_dens w) (wi_inte w + h0) (wi_enth w + h0) (wi_dd_dP_T w) (wi_dd_dT_P w)
    (wi_du_dP_T w) (wi_du_dT_P w) (wi_dV_dt w) (wi_Q_dot w).
Definition shift_hx (h0 : R) (x : HeatExchangerIn R) : HeatExchangerIn R :=
  mkHxIn (hi_vol x) (hi_dens x) (hi_inte x + h0) (hi_enth x + h0) (hi_dd_dP_T x) (hi_du_dP_T x).
Definition shift_regen (h0 : R) (x : RegeneratorIn R) : RegeneratorIn R :=
  mkRegIn (gi_vol x) (gi_dens x) (gi_inte x + h0) (gi_enth_cold x + h0) (gi_enth_hot x + h0)
    (gi_dd_dP_T x) (gi_du_dP_T x).
(** all enthalpies and internal energies [h0] higher, any norm [hn] *)
Definition shifted (h0 hn : R) (i : Inputs R) : Inputs R :=
  mkInputs (in_pres i) hn (shift_space h0 (in_comp i)) (shift_hx h0 (in_chx i))
    (shift_regen h0 (in_regen i)) (shift_hx h0 (in_hhx i)) (shift_space h0 (in_exp i)).

(** ** Left and right *)

(** the engine seen from the other side *)
Definition mirror (i : Inputs R) : Inputs R :=
  mkInputs (in_pres i) (in_enth_norm i) (in_exp i) (in_hhx i)
    (mkRegIn (gi_vol (in_regen i)) (gi_dens (in_regen i)) (gi_inte (in_regen i))
       (gi_enth_hot (in_regen i)) (gi_enth_cold (in_regen i))
       (gi_dd_dP_T (in_regen i)) (gi_du_dP_T (in_regen i)))
    (in_chx i) (in_comp i).
(** flows change direction; heat given off on one side is heat taken up on the other *)
Definition mirror_solution (s : Solution R) : Solution R :=
  mkSolution (- so_m_dot_le s) (- so_m_dot_rl s) (- so_m_dot_kr s) (- so_m_dot_ck s)
    (- so_Q_dot_l s) (so_Q_dot_r s) (- so_Q_dot_k s)
    (so_dTe_dt s) (so_dTc_dt s) (so_dP_dt s).
Definition mirror_temps (T : Temperatures R) : Temperatures R :=
  mkTemps (te_source T) (te_hhx T)
    (mkRegenTemp (rt_hot (te_regen T)) (rt_avg (te_regen T)) (rt_cold (te_regen T)))
    (te_chx T) (te_sink T).
Definition mirror_run (r : Run R) : Run R :=
  mkRun (ru_enth_norm r) (ru_fluid r) (ru_period r) (ru_pres r) (mirror_temps (ru_temp r))
    (ru_vol_hhx r) (ru_vol_chx r) (ru_vol_regen r)
    (mkPar (par_exp (ru_ws_parasitics r)) (par_comp (ru_ws_parasitics r)))
    (fun t => (snd (ru_ws_vol_fn r t), fst (ru_ws_vol_fn r t))).
Definition mirror_conditions (c : Conditions R) : Conditions R :=
  mkCond (cd_P c) (cd_T_e c) (cd_T_c c).

(** ** Charge pressure *)

(** the run with its thermal losses [k] times as large, and conditions at [k]
    times the pressure *)
Definition charged_loss (k : R) (p : ParasiticPower R) : ParasiticPower R :=
  mkPP (k * pp_thermal p) (pp_mechanical p) (pp_electrical p).
Definition charged_run (k : R) (r : Run R) : Run R :=
  mkRun (ru_enth_norm r) (ru_fluid r) (ru_period r) (ru_pres r) (ru_temp r)
    (ru_vol_chx r) (ru_vol_hhx r) (ru_vol_regen r)
    (mkPar (charged_loss k (par_comp (ru_ws_parasitics r)))
           (charged_loss k (par_exp (ru_ws_parasitics r))))
    (ru_ws_vol_fn r).
Definition charged (k : R) (c : Conditions R) : Conditions R :=
  mkCond (k * cd_P c) (cd_T_c c) (cd_T_e c).

(** ** Cycles *)

(** volume over temperature, summed over the engine *)
Definition reduced_volume (r : Run R) (t : R) (c : Conditions R) : R :=
  v_value (fst (ru_ws_vol_fn r t)) / cd_T_c c
  + ru_vol_chx r / te_chx (ru_temp r)
  + ru_vol_regen r / rt_avg (te_regen (ru_temp r))
  + ru_vol_hhx r / te_hhx (ru_temp r)
  + v_value (snd (ru_ws_vol_fn r t)) / cd_T_e c.

(** the working spaces have the same volumes and temperatures at [a] and [b] *)
Definition spaces_return (r : Run R) (c : R -> Conditions R) (a b : R) : Prop :=
  v_value (fst (ru_ws_vol_fn r b)) = v_value (fst (ru_ws_vol_fn r a)) /\
  v_value (snd (ru_ws_vol_fn r b)) = v_value (snd (ru_ws_vol_fn r a)) /\
  cd_T_c (c b) = cd_T_c (c a) /\ cd_T_e (c b) = cd_T_e (c a).

(** [heat] and [work] add up, from time [a] to [b], the heat taken up by the gas
    and the work done by it along the trajectory [c] *)
Definition accounts (D : Decomp R) (r : Run R) (c : R -> Conditions R) (heat work : R -> R) (t : R) : Prop :=
  positive_temps r (c t) /\ true_derivatives (ru_ws_vol_fn r) t /\
  exists hint s, solve D (Run_calculate_inputs r t (c t)) hint = Ok s /\ follows c s t /\
    has_deriv heat t
      (so_Q_dot_l s - so_Q_dot_k s - so_Q_dot_r s
       - pp_thermal (par_comp (ru_ws_parasitics r)) - pp_thermal (par_exp (ru_ws_parasitics r))) /\
    has_deriv work t
      (cd_P (c t) * (v_deriv (fst (ru_ws_vol_fn r t)) + v_deriv (snd (ru_ws_vol_fn r t)))).

(** ** Limits *)

Definition space_limit (w : nat -> WorkingSpaceIn R) (l : WorkingSpaceIn R) : Prop :=
  Un_cv (fun n => wi_vol (w n)) (wi_vol l) /\ Un_cv (fun n => wi_dens (w n)) (wi_dens l) /\
  Un_cv (fun n => wi_inte (w n)) (wi_inte l) /\ Un_cv (fun n => wi_enth (w n)) (wi_enth l) /\
  Un_cv (fun n => wi_dd_dP_T (w n)) (wi_dd_dP_T l) /\ Un_cv (fun n => wi_dd_dT_P (w n)) (wi_dd_dT_P l) /\
  Un_cv (fun n => wi_du_dP_T (w n)) (wi_du_dP_T l) /\ Un_cv (fun n => wi_du_dT_P (w n)) (wi_du_dT_P l) /\
  Un_cv (fun n => wi_dV_dt (w n)) (wi_dV_dt l) /\ Un_cv (fun n => wi_Q_dot (w n)) (wi_Q_dot l).
Definition hx_limit (x : nat -> HeatExchangerIn R) (l : HeatExchangerIn R) : Prop :=
  Un_cv (fun n => hi_vol (x n)) (hi_vol l) /\ Un_cv (fun n => hi_dens (x n)) (hi_dens l) /\
  Un_cv (fun n => hi_inte (x n)) (hi_inte l) /\ Un_cv (fun n => hi_enth (x n)) (hi_enth l) /\
  Un_cv (fun n => hi_dd_dP_T (x n)) (hi_dd_dP_T l) /\ Un_cv (fun n => hi_du_dP_T (x n)) (hi_du_dP_T l).
Definition regen_limit (x : nat -> RegeneratorIn R) (l : RegeneratorIn R) : Prop :=
  Un_cv (fun n => gi_vol (x n)) (gi_vol l) /\ Un_cv (fun n => gi_dens (x n)) (gi_dens l) /\
  Un_cv (fun n => gi_inte (x n)) (gi_inte l) /\
  Un_cv (fun n => gi_enth_cold (x n)) (gi_enth_cold l) /\
  Un_cv (fun n => gi_enth_hot (x n)) (gi_enth_hot l) /\
  Un_cv (fun n => gi_dd_dP_T (x n)) (gi_dd_dP_T l) /\ Un_cv (fun n => gi_du_dP_T (x n)) (gi_du_dP_T l).
(** the norm is not asked to converge *)
Definition inputs_limit (j : nat -> Inputs R) (i : Inputs R) : Prop :=
  Un_cv (fun n => in_pres (j n)) (in_pres i) /\
  space_limit (fun n => in_comp (j n)) (in_comp i) /\ hx_limit (fun n => in_chx (j n)) (in_chx i) /\
  regen_limit (fun n => in_regen (j n)) (in_regen i) /\ hx_limit (fun n => in_hhx (j n)) (in_hhx i) /\
  space_limit (fun n => in_exp (j n)) (in_exp i).
Definition solution_limit (s : nat -> Solution R) (l : Solution R) : Prop :=
  Un_cv (fun n => so_m_dot_ck (s n)) (so_m_dot_ck l) /\ Un_cv (fun n => so_m_dot_kr (s n)) (so_m_dot_kr l) /\
  Un_cv (fun n => so_m_dot_rl (s n)) (so_m_dot_rl l) /\ Un_cv (fun n => so_m_dot_le (s n)) (so_m_dot_le l) /\
  Un_cv (fun n => so_Q_dot_k (s n)) (so_Q_dot_k l) /\ Un_cv (fun n => so_Q_dot_r (s n)) (so_Q_dot_r l) /\
  Un_cv (fun n => so_Q_dot_l (s n)) (so_Q_dot_l l) /\ Un_cv (fun n => so_dTc_dt (s n)) (so_dTc_dt l) /\
  Un_cv (fun n => so_dTe_dt (s n)) (so_dTe_dt l) /\ Un_cv (fun n => so_dP_dt (s n)) (so_dP_dt l).
Definition conditions_limit (c : nat -> Conditions R) (l : Conditions R) : Prop :=
  Un_cv (fun n => cd_P (c n)) (cd_P l) /\ Un_cv (fun n => cd_T_c (c n)) (cd_T_c l) /\
  Un_cv (fun n => cd_T_e (c n)) (cd_T_e l).
Definition volumes_limit (r : Run R) (t : nat -> R) (l : R) : Prop :=
  Un_cv (fun n => v_value (fst (ru_ws_vol_fn r (t n)))) (v_value (fst (ru_ws_vol_fn r l))) /\
  Un_cv (fun n => v_deriv (fst (ru_ws_vol_fn r (t n)))) (v_deriv (fst (ru_ws_vol_fn r l))) /\
  Un_cv (fun n => v_value (snd (ru_ws_vol_fn r (t n)))) (v_value (snd (ru_ws_vol_fn r l))) /\
  Un_cv (fun n => v_deriv (snd (ru_ws_vol_fn r (t n)))) (v_deriv (snd (ru_ws_vol_fn r l))).
