(** * Theorems about the ranges of temperature and pressure in helium engines *)
From Coq Require Import ZArith NArith List Reals.
From Verif Require Import Num ModelTypes ModelWs ModelHx ModelStateEq ModelEngine RNum Spec SpecR SpecGas
  SpecKin SpecTraj SpecUnique SpecExist SpecSpaces SpecBounds Fixture RGauss RFluid RCase RBounds.
Local Open Scope R_scope.

(** C95: gas temperatures and pressure stay in ranges that follow from volumes and exchanger temperatures *)
Theorem C95_equations (r : Run R) (D : Decomp R) (c : R -> Conditions R) (t : R) (hint : FlowDirection) (s : Solution R) :
  ru_fluid r = IdealGas_Fluid he -> sound D -> ru_enth_norm r <> 0 ->
  solve D (Run_calculate_inputs r t (c t)) hint = Ok s -> follows c s t -> positive_temps r (c t) ->
  true_derivatives (ru_ws_vol_fn r) t -> temperature_equations r c t s.
Proof. exact (fun Hf HD => temperatures r Hf D HD c t hint s). Qed.
Print Assumptions C95_equations.
Theorem C95_direction (r : Run R) (D : Decomp R) (c : R -> Conditions R) (t : R) :
  ru_fluid r = IdealGas_Fluid he -> sound D -> physical_trajectory D r c t ->
  drawn_back (V_comp r) (fun u => cd_T_c (c u)) (heat_lost_comp r) (te_chx (ru_temp r)) t /\
  drawn_back (V_exp r) (fun u => cd_T_e (c u)) (heat_lost_exp r) (te_hhx (ru_temp r)) t.
Proof. exact (fun Hf HD => both_back r Hf D HD c t). Qed.
Print Assumptions C95_direction.
Theorem C95_comp (r : Run R) (D : Decomp R) (c : R -> Conditions R) (a b lo hi : R) :
  ru_fluid r = IdealGas_Fluid he -> sound D -> a <= b -> (forall t, a <= t <= b -> physical_trajectory D r c t) ->
  between (V_comp r) lo hi a b ->
  (0 <= heat_lost_comp r -> never_hotter_comp r c a b lo hi) /\
  (heat_lost_comp r <= 0 -> warm (te_chx (ru_temp r)) -> never_colder_comp r c a b lo hi).
Proof.
  exact (fun Hf HD Hab HP HB => conj (comp_hotter r Hf D HD c a b HP lo hi HB) (comp_colder r Hf D HD c a b Hab HP lo hi HB)).
Qed.
Print Assumptions C95_comp.
Theorem C95_exp (r : Run R) (D : Decomp R) (c : R -> Conditions R) (a b lo hi : R) :
  ru_fluid r = IdealGas_Fluid he -> sound D -> a <= b -> (forall t, a <= t <= b -> physical_trajectory D r c t) ->
  between (V_exp r) lo hi a b ->
  (0 <= heat_lost_exp r -> never_hotter_exp r c a b lo hi) /\
  (heat_lost_exp r <= 0 -> warm (te_hhx (ru_temp r)) -> never_colder_exp r c a b lo hi).
Proof.
  exact (fun Hf HD Hab HP HB => conj (exp_hotter r Hf D HD c a b HP lo hi HB) (exp_colder r Hf D HD c a b Hab HP lo hi HB)).
Qed.
Print Assumptions C95_exp.
Theorem C95_pressure (r : Run R) (D : Decomp R) (c : R -> Conditions R) (a b t : R) :
  ru_fluid r = IdealGas_Fluid he -> sound D -> a <= b -> (forall t, a <= t <= b -> physical_trajectory D r c t) ->
  a <= t <= b -> cd_P (c t) * ratio r t (c t) = cd_P (c a) * ratio r a (c a).
Proof. exact (fun Hf HD Hab HP => pressure_ratio r Hf D HD c a b Hab HP t). Qed.
Print Assumptions C95_pressure.
Example C95_case : ru_fluid gl_run = IdealGas_Fluid he /\ heat_lost_comp gl_run = 0 /\ heat_lost_exp gl_run = 0 /\
  warm (te_chx (ru_temp gl_run)) /\ warm (te_hhx (ru_temp gl_run)) /\
  (forall T, between (V_comp gl_run) 0.0001 0.0002 0 T /\ between (V_exp gl_run) 0.0001 0.0002 0 T) /\
  exists c, c 0 = case_conditions /\ forall t, 0 <= t -> physical_trajectory gauss gl_run c t.
Proof.
  exact (conj eq_refl (conj eq_refl (conj eq_refl (conj (proj1 gl_exchangers) (conj (proj2 gl_exchangers)
    (conj gl_volumes gl_forever)))))).
Qed.

(** C96: helium engines run forever when no temperature in range is too cold for the state equations *)
Theorem C96_forever (comps : Components R) (s : State R) (r : Run R) (D : Decomp R) (c0 : Conditions R) (cl ch el eh : R) :
  s_fluid s = IdealGas_Fluid he -> driven (co_ws comps) -> Run_new comps s = Ret r ->
  te_sink (s_temp s) + te_source (s_temp s) <> 500 -> sound D -> complete D ->
  (forall T, between (V_comp r) cl ch 0 T) -> (forall T, between (V_exp r) el eh 0 T) ->
  heat_lost_comp r = 0 -> heat_lost_exp r = 0 -> helium_conditions r 0 c0 ->
  warm (T_c_lo r c0 cl ch) -> warm (T_e_lo r c0 el eh) -> lasts_forever r D c0.
Proof. exact (forever comps s r D c0 cl ch el eh). Qed.
Print Assumptions C96_forever.
Theorem C96_in_range (comps : Components R) (s : State R) (r : Run R) (D : Decomp R) (c0 : Conditions R) (cl ch el eh : R)
    (c : R -> Conditions R) (T : R) :
  s_fluid s = IdealGas_Fluid he -> driven (co_ws comps) -> Run_new comps s = Ret r -> sound D ->
  (forall T, between (V_comp r) cl ch 0 T) -> (forall T, between (V_exp r) el eh 0 T) ->
  heat_lost_comp r = 0 -> heat_lost_exp r = 0 -> helium_conditions r 0 c0 ->
  warm (T_c_lo r c0 cl ch) -> warm (T_e_lo r c0 el eh) ->
  0 <= T -> c 0 = c0 -> (forall t, 0 <= t <= T -> physical_trajectory D r c t) ->
  forall t, 0 <= t <= T -> in_box (range_lo r c0 cl ch el eh) (range_hi r c0 cl ch el eh) (c t).
Proof.
  exact (fun Hf Hd Hr HS VC VE QC QE H0 WC WE => stays comps s r D c0 cl ch el eh Hf Hd Hr HS VC VE QC QE H0 WC WE c T).
Qed.
Print Assumptions C96_in_range.
Example C96_case : Run_new gl_comps case_state = Ret gl_run /\ driven (co_ws gl_comps) /\
  (forall T, between (V_comp gl_run) 0.0001 0.0002 0 T /\ between (V_exp gl_run) 0.0001 0.0002 0 T) /\
  helium_conditions gl_run 0 case_conditions /\
  (warm (T_c_lo gl_run case_conditions 0.0001 0.0002) /\ warm (T_e_lo gl_run case_conditions 0.0001 0.0002)) /\
  lasts_forever gl_run gauss case_conditions.
Proof. exact (conj gl_new (conj gl_driven (conj gl_volumes (conj gl_start (conj gl_warm gl_forever))))). Qed.
