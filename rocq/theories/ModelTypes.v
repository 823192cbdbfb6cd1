(** * Model of [src/types.rs], [src/fluid.rs], [src/fluid/ideal_gas.rs] *)
From Coq Require Import ZArith NArith List.
From Verif Require Import Num.
Import ListNotations.
Local Open Scope num_scope.

(** ** src/types.rs *)

(** src/types.rs:3 *)
Definition DEFAULT_MAX_ITERS : N := 20%N.

(** src/types.rs:9-12 *)
Inductive RunError := InnerLoop | OuterLoop.

(** src/types.rs:16-20 *)
Record RunInputs (F : Type) := mkRunInputs {
  ri_pres_zero : F; ri_temp_sink : F; ri_temp_source : F }.
(** src/types.rs:40-43 *)
Record OdeTolerance (F : Type) := mkOdeTol { ot_abs : F; ot_rel : F }.
(** src/types.rs:47-50 *)
Record ConvergenceTolerance (F : Type) := mkConvTol { ct_abs : F; ct_rel : F }.
(** src/types.rs:33-36 *)
Record LoopTolerance (F : Type) := mkLoopTol {
  lt_inner : ConvergenceTolerance F; lt_outer : ConvergenceTolerance F }.
(** src/types.rs:54-57; [usize] values as [N] *)
Record MaxIters := mkMaxIters { mi_inner : N; mi_outer : N }.
(** src/types.rs:24-29; [u32] as [N] *)
Record RunSettings (F : Type) := mkRunSettings {
  rs_resolution : N; rs_loop_tol : LoopTolerance F;
  rs_ode_tol : OdeTolerance F; rs_max_iters : MaxIters }.
(** src/types.rs:63-67 *)
Record ParasiticPower (F : Type) := mkPP {
  pp_thermal : F; pp_mechanical : F; pp_electrical : F }.
(** src/types.rs:72-79 *)
Record HeatExchanger (F : Type) := mkHxr {
  hx_temp : F; hx_pres : F; hx_dens : F; hx_cp : F; hx_m_dot : F; hx_Q_dot : F }.
(** src/types.rs:123-126 *)
Record ToleranceConfig (F : Type) := mkTolCfg { tc_abs : F; tc_rel : F }.
(** src/types.rs:105-108 *)
Record InnerLoopConfig (F : Type) := mkInnerCfg {
  ilc_tolerance : ToleranceConfig F; ilc_max_iterations : N }.
(** src/types.rs:111-114 *)
Record OuterLoopConfig (F : Type) := mkOuterCfg {
  olc_tolerance : ToleranceConfig F; olc_max_iterations : N }.
(** src/types.rs:117-120 *)
Record OdeConfig (F : Type) := mkOdeCfg {
  oc_tolerance : ToleranceConfig F; oc_num_timesteps : N }.
(** src/types.rs:82-86 *)
Record SolverConfig (F : Type) := mkSolverCfg {
  sc_inner_loop : InnerLoopConfig F; sc_outer_loop : OuterLoopConfig F; sc_ode : OdeConfig F }.
(** src/types.rs:100-102 *)
Inductive LegacyOdeSolver := Ode45.
(** src/types.rs:90-96 *)
Record LegacySolverConfig (F : Type) := mkLegacySolverCfg {
  lsc_inner_loop_tolerance : ToleranceConfig F;
  lsc_outer_loop_tolerance : ToleranceConfig F;
  lsc_ode_tolerance : ToleranceConfig F;
  lsc_ode_solver : LegacyOdeSolver;
  lsc_time_resolution : N }.
(** src/types.rs:129-133 *)
Record ConditionsConfig (F : Type) := mkCondCfg {
  cc_temp_sink : F; cc_temp_source : F; cc_pres_zero : F }.
(** src/types.rs:137-141 *)
Record LegacyConditionsConfig (F : Type) := mkLegacyCondCfg {
  lcc_T_cold : F; lcc_T_hot : F; lcc_P_0 : F }.
(** src/types.rs:144-148 *)
Inductive Material := SS304 | Multimet | StainlessSteel.

Arguments mkRunInputs {F}. Arguments ri_pres_zero {F}. Arguments ri_temp_sink {F}.
Arguments ri_temp_source {F}.
Arguments mkOdeTol {F}. Arguments ot_abs {F}. Arguments ot_rel {F}.
Arguments mkConvTol {F}. Arguments ct_abs {F}. Arguments ct_rel {F}.
Arguments mkLoopTol {F}. Arguments lt_inner {F}. Arguments lt_outer {F}.
Arguments mkRunSettings {F}. Arguments rs_resolution {F}. Arguments rs_loop_tol {F}.
Arguments rs_ode_tol {F}. Arguments rs_max_iters {F}.
Arguments mkPP {F}. Arguments pp_thermal {F}. Arguments pp_mechanical {F}.
Arguments pp_electrical {F}.
Arguments mkHxr {F}. Arguments hx_temp {F}. Arguments hx_pres {F}. Arguments hx_dens {F}.
Arguments hx_cp {F}. Arguments hx_m_dot {F}. Arguments hx_Q_dot {F}.
Arguments mkTolCfg {F}. Arguments tc_abs {F}. Arguments tc_rel {F}.
Arguments mkInnerCfg {F}. Arguments ilc_tolerance {F}. Arguments ilc_max_iterations {F}.
Arguments mkOuterCfg {F}. Arguments olc_tolerance {F}. Arguments olc_max_iterations {F}.
Arguments mkOdeCfg {F}. Arguments oc_tolerance {F}. Arguments oc_num_timesteps {F}.
Arguments mkSolverCfg {F}. Arguments sc_inner_loop {F}. Arguments sc_outer_loop {F}.
Arguments sc_ode {F}.
Arguments mkLegacySolverCfg {F}. Arguments lsc_inner_loop_tolerance {F}.
Arguments lsc_outer_loop_tolerance {F}. Arguments lsc_ode_tolerance {F}.
Arguments lsc_ode_solver {F}. Arguments lsc_time_resolution {F}.
Arguments mkCondCfg {F}. Arguments cc_temp_sink {F}. Arguments cc_temp_source {F}.
Arguments cc_pres_zero {F}.
Arguments mkLegacyCondCfg {F}. Arguments lcc_T_cold {F}. Arguments lcc_T_hot {F}.
Arguments lcc_P_0 {F}.

Section Types.
  Context {F : Type} {ops : NumOps F}.

  (** [#[derive(Default)]] of [ParasiticPower], src/types.rs:62 *)
  Definition ParasiticPower_default : ParasiticPower F := mkPP n0 n0 n0.

  (** src/types.rs:165-169 *)
  Definition is_converged (tol : ConvergenceTolerance F) (old new : F) : bool :=
    let abs_change := new - old in
    let rel_change := abs_change / old in
    n_lt (n_abs abs_change) (ct_abs tol) && n_lt (n_abs rel_change) (ct_rel tol).

  (** src/types.rs:172-179 *)
  Definition ConvergenceTolerance_from (c : ToleranceConfig F) : ConvergenceTolerance F :=
    mkConvTol (tc_abs c) (tc_rel c).

  (** src/types.rs:181-199; [as usize] from [u32] is the identity on 32/64 bit targets *)
  Definition RunSettings_from (config : SolverConfig F) : RunSettings F :=
    {| rs_resolution := oc_num_timesteps (sc_ode config);
       rs_loop_tol :=
         {| lt_inner := ConvergenceTolerance_from (ilc_tolerance (sc_inner_loop config));
            lt_outer := ConvergenceTolerance_from (olc_tolerance (sc_outer_loop config)) |};
       rs_ode_tol :=
         {| ot_abs := tc_abs (oc_tolerance (sc_ode config));
            ot_rel := tc_rel (oc_tolerance (sc_ode config)) |};
       rs_max_iters :=
         {| mi_inner := ilc_max_iterations (sc_inner_loop config);
            mi_outer := olc_max_iterations (sc_outer_loop config) |} |}.

  (** src/types.rs:201-218 *)
  Definition SolverConfig_from (config : LegacySolverConfig F) : SolverConfig F :=
    {| sc_inner_loop :=
         {| ilc_tolerance := lsc_inner_loop_tolerance config;
            ilc_max_iterations := DEFAULT_MAX_ITERS |};
       sc_outer_loop :=
         {| olc_tolerance := lsc_outer_loop_tolerance config;
            olc_max_iterations := DEFAULT_MAX_ITERS |};
       sc_ode :=
         {| oc_tolerance := lsc_ode_tolerance config;
            oc_num_timesteps := lsc_time_resolution config |} |}.

  (** src/types.rs:220-228 *)
  Definition RunInputs_from (config : ConditionsConfig F) : RunInputs F :=
    {| ri_pres_zero := cc_pres_zero config;
       ri_temp_sink := cc_temp_sink config;
       ri_temp_source := cc_temp_source config |}.

  (** src/types.rs:230-238 *)
  Definition ConditionsConfig_from (config : LegacyConditionsConfig F) : ConditionsConfig F :=
    {| cc_temp_sink := lcc_T_cold config;
       cc_temp_source := lcc_T_hot config;
       cc_pres_zero := lcc_P_0 config |}.
End Types.

(** ** src/fluid.rs *)

(** The trait [Fluid], src/fluid.rs:10-86, as a record of its methods.
    Simplification: fluid methods are assumed pure and total (they are for
    [IdealGas], the only implementation in the repository). *)
Record Fluid (F : Type) := mkFluid {
  fl_dens : F -> F -> F;
  fl_inte : F -> F -> F;
  fl_enth : F -> F -> F;
  fl_cp : F -> F -> F;
  fl_dd_dP_T : F -> F -> F;
  fl_dd_dT_P : F -> F -> F;
  fl_du_dP_T : F -> F -> F;
  fl_du_dT_P : F -> F -> F }.
Arguments mkFluid {F}. Arguments fl_dens {F}. Arguments fl_inte {F}. Arguments fl_enth {F}.
Arguments fl_cp {F}. Arguments fl_dd_dP_T {F}. Arguments fl_dd_dT_P {F}.
Arguments fl_du_dP_T {F}. Arguments fl_du_dT_P {F}.

(** src/fluid.rs:97-102 *)
Inductive FluidModelConfig := FM_Custom | FM_Fit | FM_IdealGas | FM_RefProp.
(** src/fluid.rs:90-93 *)
Inductive FluidConfig := FC_Hydrogen (m : FluidModelConfig) | FC_Helium (m : FluidModelConfig).
(** src/fluid.rs:123-126 *)
Inductive LegacyFluidOption := LF_Hydrogen | LF_Helium.
(** src/fluid.rs:106-120; the one-field parameter structs are flattened *)
Inductive LegacyFluidConfig :=
| LFC_Hydrogen
| LFC_RealGasRefprop (name : LegacyFluidOption)
| LFC_IdealGas (name : LegacyFluidOption).

(** src/fluid.rs:130-142 *)
Definition LegacyFluidConfig_into (c : LegacyFluidConfig) : FluidConfig :=
  match c with
  | LFC_Hydrogen => FC_Hydrogen FM_Custom
  | LFC_RealGasRefprop name =>
      match name with
      | LF_Hydrogen => FC_Hydrogen FM_RefProp
      | LF_Helium => FC_Helium FM_RefProp
      end
  | LFC_IdealGas name =>
      match name with
      | LF_Hydrogen => FC_Hydrogen FM_IdealGas
      | LF_Helium => FC_Helium FM_IdealGas
      end
  end.

(** ** src/fluid/ideal_gas.rs *)

(** src/fluid/ideal_gas.rs:13-16 *)
Inductive GasName := Helium | Hydrogen.

(** [[f64; 6]] *)
Record arr6 (F : Type) := A6 { a6_0 : F; a6_1 : F; a6_2 : F; a6_3 : F; a6_4 : F; a6_5 : F }.
Arguments A6 {F}. Arguments a6_0 {F}. Arguments a6_1 {F}. Arguments a6_2 {F}.
Arguments a6_3 {F}. Arguments a6_4 {F}. Arguments a6_5 {F}.
Definition arr6_map {F} (f : F -> F) (a : arr6 F) : arr6 F :=
  A6 (f (a6_0 a)) (f (a6_1 a)) (f (a6_2 a)) (f (a6_3 a)) (f (a6_4 a)) (f (a6_5 a)).

(** src/fluid/ideal_gas.rs:3-9 *)
Record IdealGas (F : Type) := mkIdealGas {
  ig_name : GasName; ig_gas_constant : F; ig_ref_temp : F;
  ig_cp_coefs : arr6 F; ig_enth_coefs : arr6 F }.
Arguments mkIdealGas {F}. Arguments ig_name {F}. Arguments ig_gas_constant {F}.
Arguments ig_ref_temp {F}. Arguments ig_cp_coefs {F}. Arguments ig_enth_coefs {F}.

Section Gas.
  Context {F : Type} {ops : NumOps F}.

  (** The parameter table, src/fluid/ideal_gas.rs:37-55 *)
  Definition gas_parameters (name : GasName) : F * F * arr6 F :=
    match name with
    | Helium => (n_lit 207723 (-2), n_lit 250 0, A6 (n_lit 519317 (-2)) n0 n0 n0 n0 n0)
    | Hydrogen =>
        (n_lit 41242 (-1), n_lit 250 0,
         A6 (n_lit 124714839 (-4)) (n_lit 133194432 (-7)) (n_lit (-347782806) (-10))
            (n_lit 431784838 (-13)) (n_lit (-242883335) (-16)) (n_lit 514289838 (-20)))
    end.

  (** src/fluid/ideal_gas.rs:32-74 *)
  Definition IdealGas_new (name : GasName) : IdealGas F :=
    let '(gas_constant, ref_temp, cp_coefs) := gas_parameters name in
    let enth_coefs :=
      A6 (a6_0 cp_coefs)
         (a6_1 cp_coefs / n_lit 2 0)
         (a6_2 cp_coefs / n_lit 3 0)
         (a6_3 cp_coefs / n_lit 4 0)
         (a6_4 cp_coefs / n_lit 5 0)
         (a6_5 cp_coefs / n_lit 6 0) in
    {| ig_name := name; ig_gas_constant := gas_constant; ig_ref_temp := ref_temp;
       ig_cp_coefs := cp_coefs; ig_enth_coefs := enth_coefs |}.

  (** src/fluid/ideal_gas.rs:132-134 *)
  Definition poly (a : arr6 F) (x : F) : F :=
    ((((a6_5 a * x + a6_4 a) * x + a6_3 a) * x + a6_2 a) * x + a6_1 a) * x + a6_0 a.

  (** src/fluid/ideal_gas.rs:85-87 *)
  Definition ig_dens (g : IdealGas F) (temp pres : F) : F :=
    pres / (ig_gas_constant g * temp).

  (** src/fluid/ideal_gas.rs:94-99 *)
  Definition ig_enth (g : IdealGas F) (temp pres : F) : F :=
    let ref_diff := temp - ig_ref_temp g in
    let coefs := arr6_map (fun x => x * ref_diff) (ig_enth_coefs g) in
    poly coefs temp.

  (** src/fluid/ideal_gas.rs:89-92 *)
  Definition ig_inte (g : IdealGas F) (temp pres : F) : F :=
    let enth := ig_enth g temp pres in
    enth - ig_gas_constant g * (temp - ig_ref_temp g).

  (** src/fluid/ideal_gas.rs:101-103 *)
  Definition ig_cp (g : IdealGas F) (temp pres : F) : F := poly (ig_cp_coefs g) temp.

  (** src/fluid/ideal_gas.rs:105-107 *)
  Definition ig_dd_dP_T (g : IdealGas F) (temp pres : F) : F :=
    n1 / (ig_gas_constant g * temp).

  (** src/fluid/ideal_gas.rs:109-111 *)
  Definition ig_dd_dT_P (g : IdealGas F) (temp pres : F) : F :=
    - pres / (ig_gas_constant g * powi2 temp).

  (** src/fluid/ideal_gas.rs:113-115 *)
  Definition ig_du_dP_T (g : IdealGas F) (temp pres : F) : F := n0.

  (** src/fluid/ideal_gas.rs:117-120 *)
  Definition ig_du_dT_P (g : IdealGas F) (temp pres : F) : F :=
    let cp := ig_cp g temp pres in
    cp - ig_gas_constant g.

  (** [impl Fluid for IdealGas], src/fluid/ideal_gas.rs:84-121 *)
  Definition IdealGas_Fluid (g : IdealGas F) : Fluid F :=
    {| fl_dens := ig_dens g; fl_inte := ig_inte g; fl_enth := ig_enth g; fl_cp := ig_cp g;
       fl_dd_dP_T := ig_dd_dP_T g; fl_dd_dT_P := ig_dd_dT_P g;
       fl_du_dP_T := ig_du_dP_T g; fl_du_dT_P := ig_du_dT_P g |}.

  (** src/fluid/ideal_gas.rs:21-29 *)
  Definition IdealGas_helium : IdealGas F := IdealGas_new Helium.
  Definition IdealGas_hydrogen : IdealGas F := IdealGas_new Hydrogen.
End Gas.
