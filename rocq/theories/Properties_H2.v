(** * Theorems about the ranges and the steady cycles of hydrogen engines *)
From Coq Require Import ZArith NArith List Reals.
From Verif Require Import Num ModelTypes ModelWs ModelHx ModelStateEq ModelEngine RNum Spec SpecR SpecGas
  SpecKin SpecTraj SpecUnique SpecExist SpecSpaces SpecHydro SpecBounds SpecSteady SpecH2 Fixture RGauss RFluid RCase RCase3 RBounds
  RH2 RH2Case RH2Steady.
Local Open Scope R_scope.

(** C128: in hydrogen engines, gas temperatures and pressure stay in ranges, and engines run forever *)
Theorem C128_equations (r : Run R) (D : Decomp R) (c : R -> Conditions R) (t : R) (hint : FlowDirection) (s : Solution R) :
  ru_fluid r = IdealGas_Fluid h2 -> sound D -> ru_enth_norm r <> 0 ->
  solve D (Run_calculate_inputs r t (c t)) hint = Ok s -> h2_temperature_equations r c t s.
Proof. exact (fun Hf HD => h2_temperatures r Hf D HD c t hint s). Qed.
Print Assumptions C128_equations.
Theorem C128_entropy (V T P : R) : 0 < V -> 0 < T ->
  derivable_pt_lim (fun t => s_h2 V t) T (ig_du_dT_P h2 T P / T) /\
  derivable_pt_lim (fun v => s_h2 v T) V (ig_gas_constant h2 / V).
Proof. exact (h2_entropy V T P). Qed.
Print Assumptions C128_entropy.
Theorem C128_comp (r : Run R) (D : Decomp R) (c : R -> Conditions R) (a b lo hi z t : R) :
  ru_fluid r = IdealGas_Fluid h2 -> sound D -> (forall t, a <= t <= b -> physical_trajectory D r c t) ->
  between (V_comp r) lo hi a b -> 0 < z -> a <= t <= b ->
  (0 <= heat_lost_comp r -> ceiling (V_comp r a) (cd_T_c (c a)) lo hi (te_chx (ru_temp r)) z -> cd_T_c (c t) <= z) /\
  (heat_lost_comp r <= 0 -> floor (V_comp r a) (cd_T_c (c a)) lo hi (te_chx (ru_temp r)) z -> z <= cd_T_c (c t)).
Proof.
  exact (fun Hf HD HP HB HZ Ht => conj (fun HQ HC => h2_comp_hotter r Hf D HD c a b HP lo hi z t HB HQ HZ HC Ht)
    (fun HQ HC => h2_comp_colder r Hf D HD c a b HP lo hi z t HB HQ HZ HC Ht)).
Qed.
Print Assumptions C128_comp.
Theorem C128_exp (r : Run R) (D : Decomp R) (c : R -> Conditions R) (a b lo hi z t : R) :
  ru_fluid r = IdealGas_Fluid h2 -> sound D -> (forall t, a <= t <= b -> physical_trajectory D r c t) ->
  between (V_exp r) lo hi a b -> 0 < z -> a <= t <= b ->
  (0 <= heat_lost_exp r -> ceiling (V_exp r a) (cd_T_e (c a)) lo hi (te_hhx (ru_temp r)) z -> cd_T_e (c t) <= z) /\
  (heat_lost_exp r <= 0 -> floor (V_exp r a) (cd_T_e (c a)) lo hi (te_hhx (ru_temp r)) z -> z <= cd_T_e (c t)).
Proof.
  exact (fun Hf HD HP HB HZ Ht => conj (fun HQ HC => h2_exp_hotter r Hf D HD c a b HP lo hi z t HB HQ HZ HC Ht)
    (fun HQ HC => h2_exp_colder r Hf D HD c a b HP lo hi z t HB HQ HZ HC Ht)).
Qed.
Print Assumptions C128_exp.
Theorem C128_pressure (r : Run R) (D : Decomp R) (c : R -> Conditions R) (a b t : R) :
  ru_fluid r = IdealGas_Fluid h2 -> sound D -> a <= b -> (forall t, a <= t <= b -> physical_trajectory D r c t) ->
  a <= t <= b -> cd_P (c t) * ratio r t (c t) = cd_P (c a) * ratio r a (c a).
Proof. exact (fun Hf HD Hab HP => h2_pressure_ratio r Hf D HD c a b Hab HP t). Qed.
Print Assumptions C128_pressure.
Theorem C128_in_range (comps : Components R) (s : State R) (r : Run R) (D : Decomp R) (c0 : Conditions R)
    (cl ch el eh tcl tch tel teh : R) (c : R -> Conditions R) (T : R) :
  s_fluid s = IdealGas_Fluid h2 -> driven (co_ws comps) -> Run_new comps s = Ret r -> sound D ->
  (forall T, between (V_comp r) cl ch 0 T) -> (forall T, between (V_exp r) el eh 0 T) ->
  heat_lost_comp r = 0 -> heat_lost_exp r = 0 -> hydrogen_conditions r 0 c0 ->
  h2_lowest r c0 cl ch el eh tcl tel -> h2_highest r c0 cl ch el eh tch teh ->
  T_cold <= tcl -> T_cold <= tel -> 0 < tch -> 0 < teh ->
  0 <= T -> c 0 = c0 -> (forall t, 0 <= t <= T -> physical_trajectory D r c t) ->
  forall t, 0 <= t <= T -> in_box (h2_range_lo r c0 ch eh tcl tel) (h2_range_hi r c0 cl el tch teh) (c t).
Proof.
  exact (fun Hf Hd Hr HS VC VE QC QE H0 HL HH WC WE UC UE =>
    h2_stays comps s r D c0 cl ch el eh tcl tch tel teh Hf Hd Hr HS VC VE QC QE H0 HL HH WC WE UC UE c T).
Qed.
Print Assumptions C128_in_range.
Theorem C128_forever (comps : Components R) (s : State R) (r : Run R) (D : Decomp R) (c0 : Conditions R)
    (cl ch el eh tcl tch tel teh : R) :
  s_fluid s = IdealGas_Fluid h2 -> driven (co_ws comps) -> Run_new comps s = Ret r -> sound D ->
  (forall T, between (V_comp r) cl ch 0 T) -> (forall T, between (V_exp r) el eh 0 T) ->
  heat_lost_comp r = 0 -> heat_lost_exp r = 0 -> hydrogen_conditions r 0 c0 ->
  h2_lowest r c0 cl ch el eh tcl tel -> h2_highest r c0 cl ch el eh tch teh ->
  T_cold <= tcl -> T_cold <= tel -> 0 < tch -> 0 < teh -> complete D ->
  250 <= te_sink (s_temp s) -> 250 < te_source (s_temp s) -> lasts_forever r D c0.
Proof. exact (h2_forever comps s r D c0 cl ch el eh tcl tch tel teh). Qed.
Print Assumptions C128_forever.
Example C128_case : Run_new gl_comps h2_state = Ret hy_run /\ driven (co_ws gl_comps) /\
  (forall T, between (V_comp hy_run) 0.0001 0.0002 0 T /\ between (V_exp hy_run) 0.0001 0.0002 0 T) /\
  hydrogen_conditions hy_run 0 case_conditions /\
  h2_lowest hy_run case_conditions 0.0001 0.0002 0.0001 0.0002 100 100 /\
  h2_highest hy_run case_conditions 0.0001 0.0002 0.0001 0.0002 800 2600 /\
  lasts_forever hy_run gauss case_conditions.
Proof.
  exact (conj hy_new (conj gl_driven (conj hy_volumes (conj hy_start (conj hy_low (conj hy_high hy_forever)))))).
Qed.

(** C129: a hydrogen engine has a steady cycle for every pressure at its start *)
Theorem C129_exists (comps : Components R) (s : State R) (r : Run R) (D : Decomp R) (P0 cl ch el eh tcl tch tel teh : R) :
  s_fluid s = IdealGas_Fluid h2 -> driven (co_ws comps) -> Run_new comps s = Ret r ->
  250 <= te_sink (s_temp s) -> 250 < te_source (s_temp s) -> sound D -> complete D ->
  (forall T, between (V_comp r) cl ch 0 T) -> (forall T, between (V_exp r) el eh 0 T) ->
  heat_lost_comp r = 0 -> heat_lost_exp r = 0 -> h2_exchangers r -> 0 < P0 ->
  T_cold <= tcl -> T_cold <= tel -> 0 < tch -> 0 < teh ->
  rest_floor cl ch (te_chx (ru_temp r)) tcl -> rest_ceiling cl ch (te_chx (ru_temp r)) tch ->
  rest_floor el eh (te_hhx (ru_temp r)) tel -> rest_ceiling el eh (te_hhx (ru_temp r)) teh ->
  exists c, cd_P (c 0) = P0 /\ steady_cycle D r c /\ forall t, 0 <= t <= ru_period r ->
    tcl <= cd_T_c (c t) <= tch /\ tel <= cd_T_e (c t) <= teh.
Proof. exact (h2_steady comps s r D P0 cl ch el eh tcl tch tel teh). Qed.
Print Assumptions C129_exists.
Example C129_case : Run_new gl_comps h2_state = Ret hy_run /\ driven (co_ws gl_comps) /\
  (forall T, between (V_comp hy_run) 0.0001 0.0002 0 T /\ between (V_exp hy_run) 0.0001 0.0002 0 T) /\ h2_exchangers hy_run /\
  (rest_floor 0.0001 0.0002 (te_chx (ru_temp hy_run)) 100 /\ rest_ceiling 0.0001 0.0002 (te_chx (ru_temp hy_run)) 800 /\
   rest_floor 0.0001 0.0002 (te_hhx (ru_temp hy_run)) 100 /\ rest_ceiling 0.0001 0.0002 (te_hhx (ru_temp hy_run)) 2600) /\
  forall P0, 0 < P0 -> exists c, cd_P (c 0) = P0 /\ steady_cycle gauss hy_run c.
Proof. exact (conj hy_new (conj gl_driven (conj hy_volumes (conj hy_exchangers (conj hy_rest hy_steady))))). Qed.
