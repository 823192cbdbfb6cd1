(** * C89, C90: default components, and the sign of approach temperature differences *)
From Coq Require Import ZArith NArith List Reals.
From Flocq Require Import Core BinarySingleNaN.
From Verif Require Import Num ModelTypes ModelWs ModelHx ModelStateEq ModelEngine RNum B64 SpecR SpecKin SpecUnique SpecHydro
  SpecExist SpecDepend SpecDefault SpecF64 SpecSign Fixture RFluid RHydro RDefault F64Default F64Mean F64Sign.
Import ListNotations.
Local Open Scope R_scope.

(** C89: default components *)
Theorem C89_exchangers (F : Type) (ops : NumOps F) :
  chx_FixedApproach_from (F:=F) ChxFAConfig_default = chx_FixedApproach_default /\
  hhx_FixedApproach_from (F:=F) HhxFAConfig_default = hhx_FixedApproach_default /\
  chx_FixedConductance_from (F:=F) ChxFCConfig_default = chx_FixedConductance_default /\
  regen_FixedConductance_from (F:=F) RegenFCConfig_default = regen_FixedConductance_default /\
  hhx_FixedConductance_from (F:=F) HhxFCConfig_default = hhx_FixedConductance_default.
Proof. exact exchangers_agree. Qed.
Print Assumptions C89_exchangers.
Theorem C89_regenerator :
  regen_FixedApproach_from RegenFAConfig_default = (regen_FixedApproach_default : FixedApproach R) /\
  forall lm nt, let ops := b64_ops lm nt in
    regen_FixedApproach_from RegenFAConfig_default = (regen_FixedApproach_default : FixedApproach b64).
Proof. exact (conj regenerator_agrees regenerator_agrees64). Qed.
Print Assumptions C89_regenerator.
Theorem C89_rhombic (F : Type) (ops : NumOps F) :
  RhombicDrive_from (F:=F) RhConfig_default = piston_wide RhombicDrive_default.
Proof. exact rhombic_default. Qed.
Print Assumptions C89_rhombic.
(** The expectation that the default configuration makes the default drive is
    false for the rhombic drive *)
Theorem C89_rhombic_refuted :
  RhombicDrive_from RhConfig_default <> (RhombicDrive_default : RhombicDrive R) /\
  forall lm nt, let ops := b64_ops lm nt in
    RhombicDrive_from RhConfig_default <> (RhombicDrive_default : RhombicDrive b64).
Proof. exact (conj rhombic_differs rhombic_differs64). Qed.
Print Assumptions C89_rhombic_refuted.
Theorem C89_lossless (F : Type) (ops : NumOps F) :
  (lossless (F:=F) (chx_FixedApproach chx_FixedApproach_default) /\
   lossless (F:=F) (regen_FixedApproach regen_FixedApproach_default) /\
   lossless (F:=F) (hhx_FixedApproach hhx_FixedApproach_default)) /\
  (lossless (F:=F) (chx_FixedConductance chx_FixedConductance_default) /\
   lossless (F:=F) (regen_FixedConductance regen_FixedConductance_default) /\
   lossless (F:=F) (hhx_FixedConductance hhx_FixedConductance_default)) /\
  adiabatic_lossless (F:=F) (RhombicDrive_ws RhombicDrive_default) /\
  adiabatic_lossless (F:=F) (RhombicDrive_ws (RhombicDrive_from RhConfig_default)) /\
  adiabatic_lossless (F:=F) (SinusoidalDrive_ws (SinusoidalDrive_from SinConfig_default)).
Proof. exact defaults_lossless. Qed.
Print Assumptions C89_lossless.
Theorem C89_turning :
  driven (SinusoidalDrive_ws (SinusoidalDrive_from SinConfig_default)) /\
  driven (RhombicDrive_ws RhombicDrive_default) /\ driven (RhombicDrive_ws (RhombicDrive_from RhConfig_default)).
Proof. exact (conj sinusoidal_default_driven rhombic_default_driven). Qed.
Print Assumptions C89_turning.
Theorem C89_approach_built (F : Type) (v r a : F) (p : ParasiticPower F) :
  (reports (chx_FixedApproach (FixedApproach_new v r a p)) v r p /\
   reports (regen_FixedApproach (FixedApproach_new v r a p)) v r p /\
   reports (hhx_FixedApproach (FixedApproach_new v r a p)) v r p) /\
  (forall s, ex_approach (chx_FixedApproach (FixedApproach_new v r a p)) s = Ret a) /\
  (forall s, ex_approach (regen_FixedApproach (FixedApproach_new v r a p)) s = Ret a) /\
  (forall s, ex_approach (hhx_FixedApproach (FixedApproach_new v r a p)) s = Ret a).
Proof. exact (approach_built v r a p). Qed.
Print Assumptions C89_approach_built.
Theorem C89_conductance_built (F : Type) (ops : NumOps F) (v r ua : F) (p : ParasiticPower F) :
  (reports (chx_FixedConductance (FixedConductance_new v r ua p)) v r p /\
   reports (regen_FixedConductance (FixedConductance_new v r ua p)) v r p /\
   reports (hhx_FixedConductance (FixedConductance_new v r ua p)) v r p) /\
  fc_UA (FixedConductance_new v r ua p) = ua.
Proof. exact (conductance_built v r ua p). Qed.
Print Assumptions C89_conductance_built.
(** working spaces are adiabatic and without losses by default *)
Theorem C89_ws_defaults (F : Type) (ops : NumOps F) :
  let t := @ThermalResistance_default F ops in let c := par_comp (@Parasitics_default F ops) in
  let e := par_exp (@Parasitics_default F ops) in
  (tr_comp t = n_inf /\ tr_exp t = n_inf) /\
  (pp_thermal c = n0 /\ pp_mechanical c = n0 /\ pp_electrical c = n0) /\
  (pp_thermal e = n0 /\ pp_mechanical e = n0 /\ pp_electrical e = n0).
Proof.
  exact (conj (conj eq_refl eq_refl) (conj (conj eq_refl (conj eq_refl eq_refl)) (conj eq_refl (conj eq_refl eq_refl)))).
Qed.
Print Assumptions C89_ws_defaults.
(** the engine of the test [run_simple_engine]: every initial value problem it poses has a solution
    that lasts while pressure and temperatures stay in range *)
Theorem C89_simple_engine : exists s r,
  State_new_hint simple_comps (IdealGas_Fluid h2) simple_inputs = Ret s /\ Run_new simple_comps s = Ret r /\
  cy_pres_zero (Run_Cycle r) = 10000000 /\ te_chx (ru_temp r) = 340 /\ te_hhx (ru_temp r) = 800 /\
  cy_period (Run_Cycle r) = 15 / 1000 /\ smooth_volumes (ru_ws_vol_fn r) /\
  forall lo hi, 0 < cd_P lo -> T_cold <= cd_T_c lo -> T_cold <= cd_T_e lo ->
    (forall a b, physical_box r lo hi a b) /\
    forall D c0 T, sound D -> complete D -> 0 <= T -> in_box lo hi c0 -> lasts D r lo hi c0 0 T.
Proof. exact simple_well_posed. Qed.
Print Assumptions C89_simple_engine.

(** C90: in f64 a fixed-conductance exchanger's approach has the sign of the heat, a
    regenerator's that of the temperature difference across it *)
Theorem C90_cold (lm : Libm) (nt : bool) (f : FixedConductance b64) (s : ChxState b64) :
  let ops := b64_ops lm nt in exponential_bounded lm ->
  unsigned (fc_UA f) -> unsigned (hx_cp (chs_hxr s)) -> unsigned (hx_m_dot (chs_hxr s)) ->
  signed_like (chx_fc_approach f s) (hx_Q_dot (chs_hxr s)).
Proof. exact (chx_sign lm nt f s). Qed.
Print Assumptions C90_cold.
Theorem C90_hot (lm : Libm) (nt : bool) (f : FixedConductance b64) (s : HhxState b64) :
  let ops := b64_ops lm nt in exponential_bounded lm ->
  unsigned (fc_UA f) -> unsigned (hx_cp (hhs_hxr s)) -> unsigned (hx_m_dot (hhs_hxr s)) ->
  signed_like (hhx_fc_approach f s) (hx_Q_dot (hhs_hxr s)).
Proof. exact (hhx_sign lm nt f s). Qed.
Print Assumptions C90_hot.
Theorem C90_regenerator (lm : Libm) (nt : bool) (f : FixedConductance b64) (s : RegenState b64) :
  let ops := b64_ops lm nt in
  unsigned (fc_UA f) -> unsigned (hx_cp (res_hxr s)) -> unsigned (hx_m_dot (res_hxr s)) ->
  signed_like (regen_fc_approach f s) (n_sub (res_temp_hhx s) (res_temp_chx s)).
Proof. exact (regen_sign lm nt f s). Qed.
Print Assumptions C90_regenerator.
Theorem C90_flows (lm : Libm) (nt : bool) (v : Values b64) (m : MassFlows b64) (t : b64) :
  let ops := b64_ops lm nt in
  (forall a b, In (a, b) (windows2 (vs_time v)) -> unsigned (n_sub b a)) ->
  last_unwrap (vs_time v) = Ret t -> unsigned t -> MassFlows_from_values v = Ret m ->
  unsigned (mf_chx m) /\ unsigned (mf_regen m) /\ unsigned (mf_hhx m).
Proof. exact (flows_unsigned lm nt v m t). Qed.
Print Assumptions C90_flows.
Example C90_case :
  exponential_bounded sign_libm /\ unsigned (fc_UA sign_fc) /\
  unsigned (hx_cp (sign_hx (b64_lit 500 0))) /\ unsigned (hx_m_dot (sign_hx (b64_lit 500 0))) /\
  Bltb (b64_lit 1 (-2)) (@chx_fc_approach b64 (b64_ops sign_libm true) sign_fc (cold_state (b64_lit 500 0))) = true /\
  Bltb (@chx_fc_approach b64 (b64_ops sign_libm true) sign_fc (cold_state (b64_lit (-500) 0))) (b64_lit (-1) (-2)) = true /\
  Bltb (b64_lit 1 0) (@regen_fc_approach b64 (b64_ops sign_libm true) sign_fc regen_state) = true.
Proof. exact sign_case. Qed.
Example C90_case_flows :
  (forall a b, In (a, b) (windows2 (vs_time swinging)) -> unsigned (n_sub b a)) /\ unsigned (n_lit 3 (-2)).
Proof. exact swinging_steps. Qed.
