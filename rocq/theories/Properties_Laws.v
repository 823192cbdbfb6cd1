(** * C58-C68, C71: symmetries, cycles, entropy and continuity of the state equations in exact arithmetic *)
From Coq Require Import ZArith NArith List Reals.
From Verif Require Import Num ModelTypes ModelWs ModelHx ModelStateEq ModelEngine ModelApi RNum
  Spec SpecR SpecGas SpecKin SpecTraj SpecLaws SpecHydro SpecInfl SpecSecond Fixture
  PolyInfl RSolve RGauss RFluid RKin RMass RCase RLaws RLimit RHydro RLeak RCase3 RSecond.
Import ListNotations.
Local Open Scope R_scope.

(** The cases of Properties_State ([gauss], [case_run], [case_inputs]) serve
    wherever physical inputs are asked for. *)
Example laws_case (t : R) (hint : FlowDirection) :
  sound gauss /\ complete gauss /\ physical (case_inputs t) /\
  exists s, solve gauss (case_inputs t) hint = Ok s.
Proof. exact (conj gauss_sound (conj gauss_complete (conj (case_physical t) (case_solves t hint)))). Qed.

(** C58: running faster *)
Theorem C58_faster (D : Decomp R) (i : Inputs R) (hint hint' : FlowDirection) (s : Solution R) (k : R) :
  sound D -> complete D -> physical i -> 0 <= k ->
  solve D i hint = Ok s -> solve D (faster k i) hint' = Ok (scaled k k k s).
Proof. exact (solve_faster D i hint hint' s k). Qed.
Print Assumptions C58_faster.
Theorem C58_run (D : Decomp R) (r : Run R) (t : R) (c : Conditions R) (hint hint' : FlowDirection)
    (s : Solution R) (k : R) :
  sound D -> complete D -> physical (Run_calculate_inputs r (k * t) c) -> 0 <= k ->
  solve D (Run_calculate_inputs r (k * t) c) hint = Ok s ->
  solve D (Run_calculate_inputs (faster_run k r) t c) hint' = Ok (scaled k k k s).
Proof. exact (run_faster D r t c hint hint' s k). Qed.
Print Assumptions C58_run.
(** both drives run [k] times as fast at [k] times the frequency *)
Theorem C58_sinusoidal (k : R) (d : SinusoidalDrive R) (t : R) :
  sin_volumes (faster_sin k d) t =
  (faster_volume k (fst (sin_volumes d (k * t))), faster_volume k (snd (sin_volumes d (k * t)))).
Proof. exact (sin_faster k d t). Qed.
Print Assumptions C58_sinusoidal.
Theorem C58_rhombic (k : R) (d : RhombicDrive R) (t : R) :
  rh_volumes (faster_rh k d) t =
  (faster_volume k (fst (rh_volumes d (k * t))), faster_volume k (snd (rh_volumes d (k * t)))).
Proof. exact (rh_faster k d t). Qed.
Print Assumptions C58_rhombic.

(** C59: an engine at rest stays at rest *)
Theorem C59_at_rest (D : Decomp R) (i : Inputs R) (hint : FlowDirection) :
  sound D -> complete D -> physical i ->
  wi_dV_dt (in_comp i) = 0 -> wi_dV_dt (in_exp i) = 0 ->
  wi_Q_dot (in_comp i) = 0 -> wi_Q_dot (in_exp i) = 0 ->
  solve D i hint = Ok at_rest.
Proof. exact (solve_at_rest D i hint). Qed.
Print Assumptions C59_at_rest.
Example C59_case (t : R) : physical (faster 0 (case_inputs t)) /\
  wi_dV_dt (in_comp (faster 0 (case_inputs t))) = 0 /\ wi_Q_dot (in_exp (faster 0 (case_inputs t))) = 0.
Proof. exact (conj (faster_physical 0 _ (case_physical t)) (conj (Rmult_0_l _) (Rmult_0_l _))). Qed.

(** C60: the two ends of the engine are interchangeable *)
Theorem C60_mirror (D : Decomp R) (i : Inputs R) (hint hint' : FlowDirection) (s : Solution R) :
  sound D -> complete D -> physical i ->
  solve D i hint = Ok s -> solve D (mirror i) hint' = Ok (mirror_solution s).
Proof. exact (solve_mirror D i hint hint' s). Qed.
Print Assumptions C60_mirror.
Theorem C60_run (D : Decomp R) (r : Run R) (t : R) (c : Conditions R) (hint hint' : FlowDirection)
    (s : Solution R) :
  sound D -> complete D -> physical (Run_calculate_inputs r t c) ->
  solve D (Run_calculate_inputs r t c) hint = Ok s ->
  solve D (Run_calculate_inputs (mirror_run r) t (mirror_conditions c)) hint' = Ok (mirror_solution s).
Proof. exact (run_mirror D r t c hint hint' s). Qed.
Print Assumptions C60_run.

(** C61: charge pressure *)
Theorem C61_charged (name : GasName) (r : Run R) (D : Decomp R) (k t : R) (c : Conditions R)
    (hint hint' : FlowDirection) (s : Solution R) :
  ru_fluid r = IdealGas_Fluid (IdealGas_new name) -> sound D -> complete D ->
  physical (Run_calculate_inputs r t c) -> 0 < k ->
  solve D (Run_calculate_inputs r t c) hint = Ok s ->
  solve D (Run_calculate_inputs (charged_run k r) t (charged k c)) hint' = Ok (scaled k 1 k s).
Proof. exact (fun Hf => run_charged (IdealGas_new name) r Hf D k t c hint hint' s). Qed.
Print Assumptions C61_charged.
Example C61_case : ru_fluid case_run = IdealGas_Fluid (IdealGas_new Helium) /\
  ru_fluid h2_run = IdealGas_Fluid (IdealGas_new Hydrogen).
Proof. exact (conj eq_refl eq_refl). Qed.

(** C62: the zero of the enthalpy scale *)
Theorem C62_shifted (D : Decomp R) (i : Inputs R) (hint hint' : FlowDirection) (s : Solution R) (h0 hn : R) :
  sound D -> complete D -> physical i -> hn <> 0 ->
  solve D i hint = Ok s -> solve D (shifted h0 hn i) hint' = Ok s.
Proof. exact (solve_shifted D i hint hint' s h0 hn). Qed.
Print Assumptions C62_shifted.

(** C63: the pressure is determined by volumes and temperatures *)
Theorem C63_pressure_law (name : GasName) (r : Run R) (D : Decomp R) (c : R -> Conditions R) (a b : R) :
  ru_fluid r = IdealGas_Fluid (IdealGas_new name) -> sound D -> a <= b ->
  (forall t, a <= t <= b -> on_trajectory D r c t) ->
  cd_P (c b) * reduced_volume r b (c b) = cd_P (c a) * reduced_volume r a (c a).
Proof. exact (fun Hf => pressure_law (IdealGas_new name) (gas_R_pos name) r Hf D c a b). Qed.
Print Assumptions C63_pressure_law.
Theorem C63_pressure_returns (name : GasName) (r : Run R) (D : Decomp R) (c : R -> Conditions R) (a b : R) :
  ru_fluid r = IdealGas_Fluid (IdealGas_new name) -> sound D -> a <= b ->
  (forall t, a <= t <= b -> on_trajectory D r c t) -> spaces_return r c a b ->
  reduced_volume r a (c a) <> 0 -> cd_P (c b) = cd_P (c a).
Proof. exact (fun Hf => pressure_returns (IdealGas_new name) (gas_R_pos name) r Hf D c a b). Qed.
Print Assumptions C63_pressure_returns.
Theorem C63_pressure_positive (name : GasName) (r : Run R) (D : Decomp R) (c : R -> Conditions R) (a b : R) :
  ru_fluid r = IdealGas_Fluid (IdealGas_new name) -> sound D -> a <= b ->
  (forall t, a <= t <= b -> on_trajectory D r c t) ->
  (forall t, a <= t <= b -> 0 < reduced_volume r t (c t)) -> 0 < cd_P (c a) -> 0 < cd_P (c b).
Proof. exact (fun Hf => pressure_positive (IdealGas_new name) (gas_R_pos name) r Hf D c a b). Qed.
Print Assumptions C63_pressure_positive.
Example C63_case : (forall t, on_trajectory gauss br_run br_traj t) /\
  spaces_return br_run br_traj 0 (2 * PI) /\ 0 < reduced_volume br_run 0 (br_traj 0) /\
  br_P (PI / 2) < br_P 0.
Proof. exact (conj br_on_trajectory (conj br_returns (conj br_reduced br_moves))). Qed.

(** C64: first law over an interval and over a cycle *)
Theorem C64_interval (r : Run R) (D : Decomp R) (c : R -> Conditions R) (heat work : R -> R) (a b : R) :
  ru_fluid r = IdealGas_Fluid he -> ru_enth_norm r <> 0 -> sound D -> a <= b ->
  (forall t, a <= t <= b -> accounts D r c heat work t) ->
  gas_energy r b (c b) - gas_energy r a (c a) = (heat b - heat a) - (work b - work a).
Proof. exact (fun Hf Hn => energy_account he (gas_R_pos Helium) r Hf he_du_deriv Hn D c heat work a b). Qed.
Print Assumptions C64_interval.
Theorem C64_cycle (r : Run R) (D : Decomp R) (c : R -> Conditions R) (heat work : R -> R) (a b : R) :
  ru_fluid r = IdealGas_Fluid he -> ru_enth_norm r <> 0 -> sound D -> a <= b ->
  (forall t, a <= t <= b -> accounts D r c heat work t) -> spaces_return r c a b ->
  reduced_volume r a (c a) <> 0 -> heat b - heat a = work b - work a.
Proof. exact (fun Hf Hn => cycle_account he (gas_R_pos Helium) r Hf he_du_deriv Hn D c heat work a b). Qed.
Print Assumptions C64_cycle.
Example C64_case : (forall t, accounts gauss br_run br_traj (fun _ => 0) br_work t) /\
  spaces_return br_run br_traj 0 (2 * PI) /\ 0 < reduced_volume br_run 0 (br_traj 0).
Proof. exact (conj br_accounts (conj br_returns br_reduced)). Qed.

(** C65: continuity *)
Theorem C65_solve (D D' : Decomp R) (j : nat -> Inputs R) (i : Inputs R)
    (hints : nat -> FlowDirection) (hint : FlowDirection) (s : nat -> Solution R) (l : Solution R) :
  sound D -> sound D' -> inputs_limit j i -> physical i -> (forall n, physical (j n)) ->
  (forall n, solve D (j n) (hints n) = Ok (s n)) -> solve D' i hint = Ok l ->
  solution_limit s l.
Proof. exact (solve_continuous D D' j i hints hint s l). Qed.
Print Assumptions C65_solve.
Theorem C65_run (name : GasName) (r : Run R) (D D' : Decomp R) (t : nat -> R) (c : nat -> Conditions R)
    (tl : R) (cl : Conditions R) (hints : nat -> FlowDirection) (hint : FlowDirection)
    (s : nat -> Solution R) (l : Solution R) :
  ru_fluid r = IdealGas_Fluid (IdealGas_new name) -> sound D -> sound D' ->
  positive_temps r cl -> conditions_limit c cl -> volumes_limit r t tl ->
  physical (Run_calculate_inputs r tl cl) ->
  (forall n, physical (Run_calculate_inputs r (t n) (c n))) ->
  (forall n, solve D (Run_calculate_inputs r (t n) (c n)) (hints n) = Ok (s n)) ->
  solve D' (Run_calculate_inputs r tl cl) hint = Ok l -> solution_limit s l.
Proof.
  exact (fun Hf => run_continuous (IdealGas_new name) (gas_R_pos name) r Hf D D' t c tl cl hints hint s l).
Qed.
Print Assumptions C65_run.
Theorem C65_sinusoidal (d : SinusoidalDrive R) (r : Run R) (t : nat -> R) (l : R) :
  ru_ws_vol_fn r = sin_volumes d -> Un_cv t l -> volumes_limit r t l.
Proof. exact (sin_volumes_limit d r t l). Qed.
Print Assumptions C65_sinusoidal.
Theorem C65_rhombic (d : RhombicDrive R) (r : Run R) (t : nat -> R) (l : R) :
  turns d -> ru_ws_vol_fn r = rh_volumes d -> rg_D_p (rd_geometry d) <> 0 ->
  Un_cv t l -> volumes_limit r t l.
Proof. exact (rh_volumes_limit d r t l). Qed.
Print Assumptions C65_rhombic.
Example C65_case : Un_cv (fun n => / (INR n + 1)) 0 /\
  conditions_limit (fun _ => case_conditions) case_conditions /\
  ru_ws_vol_fn case_run = sin_volumes case_drive /\
  (forall t, physical (Run_calculate_inputs case_run t case_conditions)).
Proof. exact (conj (proj1 case_limit) (conj (proj2 case_limit) (conj eq_refl case_physical))). Qed.

(** C66: what a run does not depend on; any number type *)
Theorem C66_same_run {F : Type} {ops : NumOps F} (E : Env F) (U : Decomp F) (a b : Components F)
    (fl : Fluid F) (i : RunInputs F) (settings : RunSettings F) :
  same_duties a b ->
  fst (Engine_run_counted E U a fl i settings) = fst (Engine_run_counted E U b fl i settings) /\
  same_run (Engine_run E U a fl i settings) (Engine_run E U b fl i settings).
Proof. exact (engine_run_same E U a b fl i settings). Qed.
Print Assumptions C66_same_run.
Theorem C66_exchangers {F : Type} {ops : NumOps F} (v x R0 R1 : F) (p q : ParasiticPower F) :
  same_duty (chx_FixedApproach (mkFA R0 v x p)) (chx_FixedApproach (mkFA R1 v x q)) /\
  same_duty (regen_FixedApproach (mkFA R0 v x p)) (regen_FixedApproach (mkFA R1 v x q)) /\
  same_duty (hhx_FixedApproach (mkFA R0 v x p)) (hhx_FixedApproach (mkFA R1 v x q)) /\
  same_duty (chx_FixedConductance (mkFC R0 v x p)) (chx_FixedConductance (mkFC R1 v x q)) /\
  same_duty (regen_FixedConductance (mkFC R0 v x p)) (regen_FixedConductance (mkFC R1 v x q)) /\
  same_duty (hhx_FixedConductance (mkFC R0 v x p)) (hhx_FixedConductance (mkFC R1 v x q)).
Proof.
  exact (conj (chx_fa_duty v x R0 R1 p q) (conj (regen_fa_duty v x R0 R1 p q) (conj (hhx_fa_duty v x R0 R1 p q)
    (conj (chx_fc_duty v x R0 R1 p q) (conj (regen_fc_duty v x R0 R1 p q) (hhx_fc_duty v x R0 R1 p q)))))).
Qed.
Print Assumptions C66_exchangers.
Theorem C66_sinusoidal {F : Type} {ops : NumOps F} (f ph : F) (c e : SinGeometry F) (tr : ThermalResistance F)
    (t1 t2 m1 m2 e1 e2 m1' m2' e1' e2' : F) :
  same_motion
    (SinusoidalDrive_ws (mkSin f ph c e tr (mkPar (mkPP t1 m1 e1) (mkPP t2 m2 e2))))
    (SinusoidalDrive_ws (mkSin f ph c e tr (mkPar (mkPP t1 m1' e1') (mkPP t2 m2' e2')))).
Proof. exact (sin_motion f ph c e tr t1 t2 m1 m2 e1 e2 m1' m2' e1' e2'). Qed.
Print Assumptions C66_sinusoidal.
Theorem C66_rhombic {F : Type} {ops : NumOps F} (f : F) (g : RhGeometry F)
    (t1 t2 m1 m2 e1 e2 m1' m2' e1' e2' Rc Re Vc Ve : F) :
  same_motion
    (RhombicDrive_ws (mkRh f g (mkPar (mkPP t1 m1 e1) (mkPP t2 m2 e2)) Rc Re Vc Ve))
    (RhombicDrive_ws (mkRh f g (mkPar (mkPP t1 m1' e1') (mkPP t2 m2' e2')) Rc Re Vc Ve)).
Proof. exact (rh_motion f g t1 t2 m1 m2 e1 e2 m1' m2' e1' e2' Rc Re Vc Ve). Qed.
Print Assumptions C66_rhombic.
(** two different engines to which this applies *)
Example C66_case : same_duties case_comps
  (mkComponents (co_ws case_comps)
    (chx_FixedApproach (mkFA 100 0.00004 10 (mkPP 0 7 0)))
    (regen_FixedApproach (mkFA 200 0.0001 10 (mkPP 50 0 0)))
    (hhx_FixedApproach (mkFA 300 0.0001 10 (mkPP 60 20 1)))).
Proof.
  exact (duties case_comps (mkComponents (co_ws case_comps)
      (chx_FixedApproach (mkFA 100 0.00004 10 (mkPP 0 7 0)))
      (regen_FixedApproach (mkFA 200 0.0001 10 (mkPP 50 0 0)))
      (hhx_FixedApproach (mkFA 300 0.0001 10 (mkPP 60 20 1))))
    (sin_motion _ _ _ _ _ _ _ _ _ _ _ _ _ _ _)
    (chx_fa_duty _ _ _ _ _ _) (regen_fa_duty _ _ _ _ _ _) (hhx_fa_duty _ _ _ _ _ _)).
Qed.

(** C67: hydrogen engines from 100 K up *)
Theorem C67_physical (r : Run R) (t : R) (c : Conditions R) :
  ru_fluid r = IdealGas_Fluid h2 -> ru_enth_norm r <> 0 ->
  hydrogen_conditions r t c -> physical (Run_calculate_inputs r t c).
Proof. exact (hydrogen_physical r t c). Qed.
Print Assumptions C67_physical.
Theorem C67_hydrogen_solves (D : Decomp R) (comps : Components R) (s : State R) (r : Run R) (t : R)
    (c : Conditions R) (hint : FlowDirection) :
  sound D -> complete D -> s_fluid s = IdealGas_Fluid h2 -> Run_new comps s = Ret r ->
  250 <= te_sink (s_temp s) -> 250 < te_source (s_temp s) -> hydrogen_conditions r t c ->
  exists sol, solve D (Run_calculate_inputs r t c) hint = Ok sol /\
    conserves (Run_calculate_inputs r t c) sol /\
    forall D' hint' sol', sound D' -> solve D' (Run_calculate_inputs r t c) hint' = Ok sol' -> sol' = sol.
Proof. exact (hydrogen_solves D comps s r t c hint). Qed.
Print Assumptions C67_hydrogen_solves.
Example C67_case (t : R) : Run_new case_comps h2_state = Ret h2_run /\
  hydrogen_conditions h2_run t case_conditions.
Proof. exact (conj h2_run_new (h2_conditions t)). Qed.

(** C68: the energy of hydrogen *)
Theorem C68_hydrogen_leak (r : Run R) (D : Decomp R) (c : R -> Conditions R) (t : R)
    (hint : FlowDirection) (s : Solution R) :
  ru_fluid r = IdealGas_Fluid h2 -> sound D -> ru_enth_norm r <> 0 ->
  positive_temps r (c t) -> true_derivatives (ru_ws_vol_fn r) t ->
  solve D (Run_calculate_inputs r t (c t)) hint = Ok s -> follows c s t ->
  has_deriv (fun u => gas_energy r u (c u)) t
    (so_Q_dot_l s - so_Q_dot_k s - so_Q_dot_r s
     - pp_thermal (par_comp (ru_ws_parasitics r)) - pp_thermal (par_exp (ru_ws_parasitics r))
     - cd_P (c t) * (v_deriv (fst (ru_ws_vol_fn r t)) + v_deriv (snd (ru_ws_vol_fn r t)))
     - energy_leak r t (c t) h2_true_du s).
Proof. exact (hydrogen_leak r D c t hint s). Qed.
Print Assumptions C68_hydrogen_leak.
Theorem C68_true_derivative (T P : R) :
  has_deriv (fun t => ig_inte (IdealGas_new Hydrogen) t P) T (h2_true_du T).
Proof. exact (h2_inte_true T P). Qed.
Print Assumptions C68_true_derivative.
Theorem C68_hydrogen_energy_refuted : exists c s hint,
  c 0 = h2_heat_start /\ positive_temps h2_heat_run (c 0) /\ true_derivatives (ru_ws_vol_fn h2_heat_run) 0 /\
  solve gauss (Run_calculate_inputs h2_heat_run 0 (c 0)) hint = Ok s /\ follows c s 0 /\
  ~ has_deriv (fun u => gas_energy h2_heat_run u (c u)) 0
    (so_Q_dot_l s - so_Q_dot_k s - so_Q_dot_r s
     - pp_thermal (par_comp (ru_ws_parasitics h2_heat_run)) - pp_thermal (par_exp (ru_ws_parasitics h2_heat_run))
     - cd_P (c 0) * (v_deriv (fst (ru_ws_vol_fn h2_heat_run 0)) + v_deriv (snd (ru_ws_vol_fn h2_heat_run 0)))).
Proof. exact hydrogen_energy_refuted. Qed.
Print Assumptions C68_hydrogen_energy_refuted.

(** C71: entropy *)
Theorem C71_mixing (cp a b : R) : 0 <= cp -> 0 < a -> 0 < b -> 0 <= mixing cp a b.
Proof. exact (mixing_nonneg cp a b). Qed.
Print Assumptions C71_mixing.
Theorem C71_balance (Rg cp h0 k : R) (r : Run R) (D : Decomp R) (c : R -> Conditions R) (t : R) (sol : Solution R) :
  0 < Rg -> perfect_gas (ru_fluid r) Rg cp h0 k -> ru_enth_norm r <> 0 -> sound D -> moves_along D r c t sol ->
  entropy_made Rg cp r c sol t
    (mixing_comp cp r (c t) sol + k * so_m_dot_ck sol / cd_T_c (c t))
    (mixing_chx cp r (c t) sol - k * (so_m_dot_ck sol - so_m_dot_kr sol) / te_chx (ru_temp r))
    (mixing_hhx cp r (c t) sol - k * (so_m_dot_rl sol - so_m_dot_le sol) / te_hhx (ru_temp r))
    (mixing_exp cp r (c t) sol - k * so_m_dot_le sol / cd_T_e (c t)).
Proof. exact (fun HR HG Hn => entropy_balance Rg cp h0 k HR r HG Hn D c t sol). Qed.
Print Assumptions C71_balance.
Theorem C71_second_law (Rg cp h0 : R) (r : Run R) (D : Decomp R) (c : R -> Conditions R) (t : R) (sol : Solution R) :
  0 < Rg -> 0 <= cp -> perfect_gas (ru_fluid r) Rg cp h0 0 -> ru_enth_norm r <> 0 -> sound D -> moves_along D r c t sol ->
  exists comp chx hhx exp, entropy_made Rg cp r c sol t comp chx hhx exp /\
    0 <= comp /\ 0 <= chx /\ 0 <= hhx /\ 0 <= exp.
Proof. exact (second_law Rg cp h0 r D c t sol). Qed.
Print Assumptions C71_second_law.
(** helium as the code has it is a perfect gas with k = R_he T_ref *)
Theorem C71_helium : perfect_gas (IdealGas_Fluid he) R_he cp_he (cp_he * T_ref) (R_he * T_ref).
Proof. exact he_perfect. Qed.
Print Assumptions C71_helium.
Theorem C71_helium_refuted :
  exists r c sol, ru_fluid r = IdealGas_Fluid he /\ moves_along gauss r c 0 sol /\
    (cd_T_c (c 0) = 300 /\ cd_T_e (c 0) = 300 /\
     ru_temp r = mkTemps 300 300 (mkRegenTemp 300 300 300) 300 300) /\
    (so_Q_dot_k sol = 0 /\ so_Q_dot_r sol = 0 /\ so_Q_dot_l sol = 0 /\
     pp_thermal (par_comp (ru_ws_parasitics r)) = 0 /\ pp_thermal (par_exp (ru_ws_parasitics r)) = 0) /\
    (so_dP_dt sol = 0 /\ v_deriv (fst (ru_ws_vol_fn r 0)) + v_deriv (snd (ru_ws_vol_fn r 0)) = 0) /\
    so_dTc_dt sol < 0 < so_dTe_dt sol /\
    exists comp chx hhx exp, entropy_made R_he cp_he r c sol 0 comp chx hhx exp /\ comp < 0.
Proof. exact he_separates. Qed.
Print Assumptions C71_helium_refuted.
Example C71_case : perfect_gas (ru_fluid he_true_push) R_he cp_he (cp_he * T_ref) 0 /\
  moves_along gauss he_true_push (push_traj 0) 0 (push_solution 0).
Proof. exact (conj he_consistent_perfect he_true_push_moves). Qed.
Example C71_case_helium : moves_along gauss he_push he_push_traj 0 he_push_solution.
Proof. exact he_push_moves. Qed.
