(** * Model of [src/chx*], [src/regen*], [src/hhx*] *)
From Coq Require Import ZArith NArith List.
From Verif Require Import Num ModelTypes.
Import ListNotations.
Local Open Scope num_scope.

(** src/chx.rs:44-47 *)
Record ChxState (F : Type) := mkChxState { chs_hxr : HeatExchanger F; chs_sink_temp : F }.
Arguments mkChxState {F}. Arguments chs_hxr {F}. Arguments chs_sink_temp {F}.
(** src/regen.rs:46-50 *)
Record RegenState (F : Type) := mkRegenState {
  res_hxr : HeatExchanger F; res_temp_chx : F; res_temp_hhx : F }.
Arguments mkRegenState {F}. Arguments res_hxr {F}. Arguments res_temp_chx {F}.
Arguments res_temp_hhx {F}.
(** src/hhx.rs:47-50 *)
Record HhxState (F : Type) := mkHhxState { hhs_hxr : HeatExchanger F; hhs_source_temp : F }.
Arguments mkHhxState {F}. Arguments hhs_hxr {F}. Arguments hhs_source_temp {F}.

(** The traits [ColdHeatExchanger] (src/chx.rs:17-41), [Regenerator]
    (src/regen.rs:18-43) and [HotHeatExchanger] (src/hhx.rs:20-44) have the same
    five methods and differ only in their state type [S].
    Methods may panic.  Simplification: methods are pure. *)
Record Exchanger (F S : Type) := mkExch {
  ex_volume : outcome F;
  ex_approach : S -> outcome F;
  ex_hydraulic_resistance : S -> outcome F;
  ex_parasitics : S -> outcome (ParasiticPower F);
  ex_initial_approach : outcome F }.
Arguments mkExch {F S}. Arguments ex_volume {F S}. Arguments ex_approach {F S}.
Arguments ex_hydraulic_resistance {F S}. Arguments ex_parasitics {F S}.
Arguments ex_initial_approach {F S}.

Definition ColdHeatExchanger F := Exchanger F (ChxState F).
Definition Regenerator F := Exchanger F (RegenState F).
Definition HotHeatExchanger F := Exchanger F (HhxState F).

(** The [FixedApproach] structs: src/chx/fixed_approach.rs:14-19,
    src/regen/fixed_approach.rs:9-14, src/hhx/fixed_approach.rs:15-20 *)
Record FixedApproach (F : Type) := mkFA {
  fa_R_hyd : F; fa_volume : F; fa_approach : F; fa_parasitics : ParasiticPower F }.
Arguments mkFA {F}. Arguments fa_R_hyd {F}. Arguments fa_volume {F}. Arguments fa_approach {F}.
Arguments fa_parasitics {F}.

(** The [FixedConductance] structs: src/chx/fixed_conductance.rs:16-21,
    src/regen/fixed_conductance.rs:16-21, src/hhx/fixed_conductance.rs:17-22 *)
Record FixedConductance (F : Type) := mkFC {
  fc_R_hyd : F; fc_volume : F; fc_UA : F; fc_parasitics : ParasiticPower F }.
Arguments mkFC {F}. Arguments fc_R_hyd {F}. Arguments fc_volume {F}. Arguments fc_UA {F}.
Arguments fc_parasitics {F}.

(** *** Configurations *)

(** src/chx/fixed_approach.rs:24-29 *)
Record ChxFAConfig (F : Type) := mkChxFACfg {
  cfa_vol : F; cfa_DT : F; cfa_R_hyd : F; cfa_W_parasitic : F }.
(** src/chx/fixed_conductance.rs:26-31 *)
Record ChxFCConfig (F : Type) := mkChxFCCfg {
  cfc_vol : F; cfc_UA : F; cfc_R_hyd : F; cfc_W_parasitic : F }.
(** src/regen/fixed_approach.rs:18-23 *)
Record RegenFAConfig (F : Type) := mkRegenFACfg {
  rfa_vol : F; rfa_DT : F; rfa_R_hyd : F; rfa_Q_parasitic : F }.
(** src/regen/fixed_conductance.rs:26-31 *)
Record RegenFCConfig (F : Type) := mkRegenFCCfg {
  rfc_vol : F; rfc_UA : F; rfc_R_hyd : F; rfc_Q_parasitic : F }.
(** src/hhx/fixed_approach.rs:24-30 *)
Record HhxFAConfig (F : Type) := mkHhxFACfg {
  hfa_vol : F; hfa_DT : F; hfa_R_hyd : F; hfa_W_parasitic : F; hfa_Q_parasitic : F }.
(** src/hhx/fixed_conductance.rs:27-33 *)
Record HhxFCConfig (F : Type) := mkHhxFCCfg {
  hfc_vol : F; hfc_UA : F; hfc_R_hyd : F; hfc_W_parasitic : F; hfc_Q_parasitic : F }.
Arguments mkChxFACfg {F}. Arguments cfa_vol {F}. Arguments cfa_DT {F}. Arguments cfa_R_hyd {F}.
Arguments cfa_W_parasitic {F}.
Arguments mkChxFCCfg {F}. Arguments cfc_vol {F}. Arguments cfc_UA {F}. Arguments cfc_R_hyd {F}.
Arguments cfc_W_parasitic {F}.
Arguments mkRegenFACfg {F}. Arguments rfa_vol {F}. Arguments rfa_DT {F}. Arguments rfa_R_hyd {F}.
Arguments rfa_Q_parasitic {F}.
Arguments mkRegenFCCfg {F}. Arguments rfc_vol {F}. Arguments rfc_UA {F}. Arguments rfc_R_hyd {F}.
Arguments rfc_Q_parasitic {F}.
Arguments mkHhxFACfg {F}. Arguments hfa_vol {F}. Arguments hfa_DT {F}. Arguments hfa_R_hyd {F}.
Arguments hfa_W_parasitic {F}. Arguments hfa_Q_parasitic {F}.
Arguments mkHhxFCCfg {F}. Arguments hfc_vol {F}. Arguments hfc_UA {F}. Arguments hfc_R_hyd {F}.
Arguments hfc_W_parasitic {F}. Arguments hfc_Q_parasitic {F}.

(** src/chx/gpu3.rs:12-33 *)
Inductive Coolant := Coolant_Water.
Record ChxGpu3Config (F : Type) := mkChxGpu3Cfg {
  cg_length_total : F; cg_length_ht : F; cg_D_inner : F; cg_D_outer : F;
  cg_N_total : N; cg_N_shell : N; cg_D_sh : F; cg_Ac_d : F; cg_roughness : F; cg_vol_h : F;
  cg_m_dot_w : F; cg_coolant : Coolant; cg_m_dot_a : F; cg_UA_a : F; cg_W_parasitic : F }.
(** src/chx/mod2.rs:12-57, src/hhx/mod2.rs:55-59, src/regen/mod2.rs:45-49 *)
Inductive Correlation := Oscillating | Steady.
Inductive Chx2Fluid := Chx2_Water.
Record ChxMod2Config (F : Type) := mkChxMod2Cfg {
  cm_length : F; cm_length_ht : F; cm_D_outer : F; cm_D_inner : F; cm_N_total : N;
  cm_roughness : F; cm_material : Material;
  cm_R_inner : F; cm_V_header : F; cm_Ac_header : F;
  cm_m_dot_p_fs : F; cm_W_dot_p_fs : F; cm_n_fs : F; cm_fluid : Chx2Fluid;
  cm_correlation : Correlation }.
(** src/regen/types.rs:3-11, src/regen/gpu3.rs:14-43 *)
Inductive FrictionFactorCorrelation := FF_GedeonWood.
Inductive JFactorCorrelation := JF_GedeonWood.
Record RegenGpu3Config (F : Type) := mkRegenGpu3Cfg {
  rgp_vol_h : F; rgp_material : Material; rgp_D_wire : F; rgp_pitch : F;
  rgp_diameter : F; rgp_length : F; rgp_number : N;
  rgp_Q_parasitic : F; rgp_bypass : F;
  rgp_correlationf : FrictionFactorCorrelation; rgp_correlationj : JFactorCorrelation }.
(** src/regen/mod2.rs:14-49 *)
Record RegenMod2Config (F : Type) := mkRegenMod2Cfg {
  rm_mesh_material : Material; rm_D_wire : F; rm_pitch : F;
  rm_shell_material : Material; rm_R_sh : F; rm_th_sh_cold : F; rm_th_sh_hot : F; rm_length : F;
  rm_correlationtype : Correlation;
  rm_correlationf : FrictionFactorCorrelation; rm_correlationj : JFactorCorrelation }.
(** src/hhx/gpu3.rs:11-23 *)
Record HhxGpu3Config (F : Type) := mkHhxGpu3Cfg {
  hg_L_total : F; hg_L_htr : F; hg_R_tc : F; hg_D_outer : F; hg_D_inner : F; hg_roughness : F;
  hg_N_total : N; hg_vol_h : F; hg_eta_comb : F; hg_R_c_loss : F; hg_W_parasitic : F }.
(** src/hhx/mod2.rs:12-59 *)
Record HhxMod2Config (F : Type) := mkHhxMod2Cfg {
  hm_L_front : F; hm_L_rear : F; hm_L_inactive : F; hm_D_outer : F; hm_D_inner : F;
  hm_roughness : F; hm_N_total : N; hm_materialtube : Material; hm_materialfin : Material;
  hm_R_outer : F; hm_R_inner : F; hm_V_header : F;
  hm_thickness : F; hm_pitch : F; hm_L_fin : F; hm_correlation : Correlation }.
(** src/hhx/ni_gpu3.rs:11-23 and src/hhx/ni_mod2.rs:11-23 (same fields) *)
Record HhxNIConfig (F : Type) := mkHhxNICfg {
  hn_R_f : F; hn_L_f : F; hn_R_regen : F; hn_D_outer : F; hn_D_inner : F; hn_k_f : F;
  hn_roughness : F; hn_N_total : N; hn_vol_h : F; hn_R_ins : F; hn_W_parasitic : F }.

(** src/chx.rs:52-57 and 62-67 *)
Inductive ChxConfig (F : Type) :=
| CC_FixedApproach (c : ChxFAConfig F)
| CC_FixedConductance (c : ChxFCConfig F)
| CC_GPU3 (c : ChxGpu3Config F)
| CC_Mod2 (c : ChxMod2Config F).
Inductive LegacyChxConfig (F : Type) :=
| LCC_FixedApproach (c : ChxFAConfig F)
| LCC_FixedConductance (c : ChxFCConfig F)
| LCC_GPU3 (c : ChxGpu3Config F)
| LCC_Mod2 (c : ChxMod2Config F).
Arguments CC_FixedApproach {F}. Arguments CC_FixedConductance {F}. Arguments CC_GPU3 {F}.
Arguments CC_Mod2 {F}. Arguments LCC_FixedApproach {F}. Arguments LCC_FixedConductance {F}.
Arguments LCC_GPU3 {F}. Arguments LCC_Mod2 {F}.
(** src/regen.rs:55-60 and 65-70 *)
Inductive RegenConfig (F : Type) :=
| RC_FixedApproach (c : RegenFAConfig F)
| RC_FixedConductance (c : RegenFCConfig F)
| RC_GPU3 (c : RegenGpu3Config F)
| RC_Mod2 (c : RegenMod2Config F).
Inductive LegacyRegenConfig (F : Type) :=
| LRC_FixedApproach (c : RegenFAConfig F)
| LRC_FixedConductance (c : RegenFCConfig F)
| LRC_GPU3 (c : RegenGpu3Config F)
| LRC_Mod2 (c : RegenMod2Config F).
Arguments RC_FixedApproach {F}. Arguments RC_FixedConductance {F}. Arguments RC_GPU3 {F}.
Arguments RC_Mod2 {F}. Arguments LRC_FixedApproach {F}. Arguments LRC_FixedConductance {F}.
Arguments LRC_GPU3 {F}. Arguments LRC_Mod2 {F}.
(** src/hhx.rs:55-62 and 67-74 *)
Inductive HhxConfig (F : Type) :=
| HC_FixedApproach (c : HhxFAConfig F)
| HC_FixedConductance (c : HhxFCConfig F)
| HC_GPU3 (c : HhxGpu3Config F)
| HC_Mod2 (c : HhxMod2Config F)
| HC_GPU3NI (c : HhxNIConfig F)
| HC_Mod2NI (c : HhxNIConfig F).
Inductive LegacyHhxConfig (F : Type) :=
| LHC_FixedApproach (c : HhxFAConfig F)
| LHC_FixedConductance (c : HhxFCConfig F)
| LHC_GPU3 (c : HhxGpu3Config F)
| LHC_Mod2 (c : HhxMod2Config F)
| LHC_GPU3NI (c : HhxNIConfig F)
| LHC_Mod2NI (c : HhxNIConfig F).
Arguments HC_FixedApproach {F}. Arguments HC_FixedConductance {F}. Arguments HC_GPU3 {F}.
Arguments HC_Mod2 {F}. Arguments HC_GPU3NI {F}. Arguments HC_Mod2NI {F}.
Arguments LHC_FixedApproach {F}. Arguments LHC_FixedConductance {F}. Arguments LHC_GPU3 {F}.
Arguments LHC_Mod2 {F}. Arguments LHC_GPU3NI {F}. Arguments LHC_Mod2NI {F}.

(** src/chx.rs:71-78 *)
Definition LegacyChxConfig_into {F} (c : LegacyChxConfig F) : ChxConfig F :=
  match c with
  | LCC_FixedApproach p => CC_FixedApproach p
  | LCC_FixedConductance p => CC_FixedConductance p
  | LCC_GPU3 p => CC_GPU3 p
  | LCC_Mod2 p => CC_Mod2 p
  end.
(** src/regen.rs:74-81 *)
Definition LegacyRegenConfig_into {F} (c : LegacyRegenConfig F) : RegenConfig F :=
  match c with
  | LRC_FixedApproach p => RC_FixedApproach p
  | LRC_FixedConductance p => RC_FixedConductance p
  | LRC_GPU3 p => RC_GPU3 p
  | LRC_Mod2 p => RC_Mod2 p
  end.
(** src/hhx.rs:78-87 *)
Definition LegacyHhxConfig_into {F} (c : LegacyHhxConfig F) : HhxConfig F :=
  match c with
  | LHC_FixedApproach p => HC_FixedApproach p
  | LHC_FixedConductance p => HC_FixedConductance p
  | LHC_GPU3 p => HC_GPU3 p
  | LHC_Mod2 p => HC_Mod2 p
  | LHC_GPU3NI p => HC_GPU3NI p
  | LHC_Mod2NI p => HC_Mod2NI p
  end.

Section Hx.
  Context {F : Type} {ops : NumOps F}.

  (** *** Fixed approach *)

  (** [impl ColdHeatExchanger for FixedApproach], src/chx/fixed_approach.rs:53-73 *)
  Definition chx_FixedApproach (f : FixedApproach F) : ColdHeatExchanger F :=
    {| ex_volume := Ret (fa_volume f);
       ex_approach := fun _ => Ret (fa_approach f);
       ex_hydraulic_resistance := fun _ => Ret (fa_R_hyd f);
       ex_parasitics := fun _ => Ret (fa_parasitics f);
       ex_initial_approach := Ret (fa_approach f) |}.
  (** [impl Regenerator for FixedApproach], src/regen/fixed_approach.rs:47-67 *)
  Definition regen_FixedApproach (f : FixedApproach F) : Regenerator F :=
    {| ex_volume := Ret (fa_volume f);
       ex_approach := fun _ => Ret (fa_approach f);
       ex_hydraulic_resistance := fun _ => Ret (fa_R_hyd f);
       ex_parasitics := fun _ => Ret (fa_parasitics f);
       ex_initial_approach := Ret (fa_approach f) |}.
  (** [impl HotHeatExchanger for FixedApproach], src/hhx/fixed_approach.rs:54-74 *)
  Definition hhx_FixedApproach (f : FixedApproach F) : HotHeatExchanger F :=
    {| ex_volume := Ret (fa_volume f);
       ex_approach := fun _ => Ret (fa_approach f);
       ex_hydraulic_resistance := fun _ => Ret (fa_R_hyd f);
       ex_parasitics := fun _ => Ret (fa_parasitics f);
       ex_initial_approach := Ret (fa_approach f) |}.

  (** src/chx/fixed_approach.rs:43-50, src/regen/fixed_approach.rs:37-44,
      src/hhx/fixed_approach.rs:44-51 (the same constructor) *)
  Definition FixedApproach_new (volume R_hyd approach : F) (parasitics : ParasiticPower F)
    : FixedApproach F :=
    {| fa_R_hyd := R_hyd; fa_volume := volume; fa_approach := approach;
       fa_parasitics := parasitics |}.

  (** src/chx/fixed_approach.rs:7-10, 75-84 *)
  Definition chx_FixedApproach_default : FixedApproach F :=
    mkFA n0 (n_lit 40 (-6)) (n_lit 40 0) ParasiticPower_default.
  (** src/regen/fixed_approach.rs:69-78 *)
  Definition regen_FixedApproach_default : FixedApproach F :=
    mkFA n0 (n_lit 10 (-5)) (n_lit 10 0) ParasiticPower_default.
  (** src/hhx/fixed_approach.rs:7-11, 76-85 *)
  Definition hhx_FixedApproach_default : FixedApproach F :=
    mkFA n0 (n_lit 10 (-5)) (n_lit 100 0) ParasiticPower_default.

  (** src/chx/fixed_approach.rs:97-110 *)
  Definition chx_FixedApproach_from (c : ChxFAConfig F) : FixedApproach F :=
    {| fa_R_hyd := cfa_R_hyd c; fa_volume := cfa_vol c; fa_approach := cfa_DT c;
       fa_parasitics := {| pp_thermal := n0; pp_mechanical := cfa_W_parasitic c;
                           pp_electrical := n0 |} |}.
  (** src/regen/fixed_approach.rs:91-104 *)
  Definition regen_FixedApproach_from (c : RegenFAConfig F) : FixedApproach F :=
    {| fa_R_hyd := rfa_R_hyd c; fa_volume := rfa_vol c; fa_approach := rfa_DT c;
       fa_parasitics := {| pp_thermal := rfa_Q_parasitic c; pp_mechanical := n0;
                           pp_electrical := n0 |} |}.
  (** src/hhx/fixed_approach.rs:99-113 *)
  Definition hhx_FixedApproach_from (c : HhxFAConfig F) : FixedApproach F :=
    {| fa_R_hyd := hfa_R_hyd c; fa_volume := hfa_vol c; fa_approach := hfa_DT c;
       fa_parasitics := {| pp_thermal := hfa_Q_parasitic c; pp_mechanical := hfa_W_parasitic c;
                           pp_electrical := n0 |} |}.

  (** *** Fixed conductance *)

  (** src/chx/fixed_conductance.rs:61-67 *)
  Definition chx_fc_approach (f : FixedConductance F) (state : ChxState F) : F :=
    let C_dot_avg := hx_cp (chs_hxr state) * hx_m_dot (chs_hxr state) in
    let NTU := fc_UA f / C_dot_avg in
    let effectiveness := n1 - n_exp (- NTU) in
    (hx_Q_dot (chs_hxr state) / C_dot_avg) * (n1 / effectiveness - n1).
  (** src/hhx/fixed_conductance.rs:54-60 *)
  Definition hhx_fc_approach (f : FixedConductance F) (state : HhxState F) : F :=
    let C_dot_avg := hx_cp (hhs_hxr state) * hx_m_dot (hhs_hxr state) in
    let NTU := fc_UA f / C_dot_avg in
    let effectiveness := n1 - n_exp (- NTU) in
    (hx_Q_dot (hhs_hxr state) / C_dot_avg) * (n1 / effectiveness - n1).
  (** src/regen/fixed_conductance.rs:52-58 *)
  Definition regen_fc_approach (f : FixedConductance F) (state : RegenState F) : F :=
    let C_dot_avg := hx_cp (res_hxr state) * hx_m_dot (res_hxr state) in
    let NTU := fc_UA f / C_dot_avg in
    let effectiveness := (NTU / n2) / (n1 + (NTU / n2)) in
    (n1 - effectiveness) * (res_temp_hhx state - res_temp_chx state).

  (** src/chx/fixed_conductance.rs:7, src/regen/fixed_conductance.rs:7,
      src/hhx/fixed_conductance.rs:7 *)
  Definition INITIAL_APPROACH : F := n_lit 10 0.

  (** [impl ColdHeatExchanger for FixedConductance], src/chx/fixed_conductance.rs:55-84 *)
  Definition chx_FixedConductance (f : FixedConductance F) : ColdHeatExchanger F :=
    {| ex_volume := Ret (fc_volume f);
       ex_approach := fun s => Ret (chx_fc_approach f s);
       ex_hydraulic_resistance := fun _ => Ret (fc_R_hyd f);
       ex_parasitics := fun _ => Ret (fc_parasitics f);
       ex_initial_approach := Ret (if n_lt (fc_UA f) n0 then n0 else INITIAL_APPROACH) |}.
  (** [impl Regenerator for FixedConductance], src/regen/fixed_conductance.rs:46-71 *)
  Definition regen_FixedConductance (f : FixedConductance F) : Regenerator F :=
    {| ex_volume := Ret (fc_volume f);
       ex_approach := fun s => Ret (regen_fc_approach f s);
       ex_hydraulic_resistance := fun _ => Ret (fc_R_hyd f);
       ex_parasitics := fun _ => Ret (fc_parasitics f);
       ex_initial_approach := Ret INITIAL_APPROACH |}.
  (** [impl HotHeatExchanger for FixedConductance], src/hhx/fixed_conductance.rs:48-73 *)
  Definition hhx_FixedConductance (f : FixedConductance F) : HotHeatExchanger F :=
    {| ex_volume := Ret (fc_volume f);
       ex_approach := fun s => Ret (hhx_fc_approach f s);
       ex_hydraulic_resistance := fun _ => Ret (fc_R_hyd f);
       ex_parasitics := fun _ => Ret (fc_parasitics f);
       ex_initial_approach := Ret INITIAL_APPROACH |}.

  (** src/chx/fixed_conductance.rs:45-52, src/regen/fixed_conductance.rs:36-43,
      src/hhx/fixed_conductance.rs:38-45 (the same constructor) *)
  Definition FixedConductance_new (volume R_hyd UA : F) (parasitics : ParasiticPower F)
    : FixedConductance F :=
    {| fc_R_hyd := R_hyd; fc_volume := volume; fc_UA := UA; fc_parasitics := parasitics |}.

  (** src/chx/fixed_conductance.rs:9-12, 86-95 *)
  Definition chx_FixedConductance_default : FixedConductance F :=
    mkFC n0 (n_lit 40 (-6)) (n_lit 400 0) ParasiticPower_default.
  (** src/regen/fixed_conductance.rs:9-12, 73-82 *)
  Definition regen_FixedConductance_default : FixedConductance F :=
    mkFC n0 (n_lit 10 (-5)) (n_lit 70000 0) ParasiticPower_default.
  (** src/hhx/fixed_conductance.rs:9-13, 75-84 *)
  Definition hhx_FixedConductance_default : FixedConductance F :=
    mkFC n0 (n_lit 10 (-5)) (n_lit 100 0) ParasiticPower_default.

  (** src/chx/fixed_conductance.rs:108-121 *)
  Definition chx_FixedConductance_from (c : ChxFCConfig F) : FixedConductance F :=
    {| fc_R_hyd := cfc_R_hyd c; fc_volume := cfc_vol c; fc_UA := cfc_UA c;
       fc_parasitics := {| pp_thermal := n0; pp_mechanical := cfc_W_parasitic c;
                           pp_electrical := n0 |} |}.
  (** src/regen/fixed_conductance.rs:95-108 *)
  Definition regen_FixedConductance_from (c : RegenFCConfig F) : FixedConductance F :=
    {| fc_R_hyd := rfc_R_hyd c; fc_volume := rfc_vol c; fc_UA := rfc_UA c;
       fc_parasitics := {| pp_thermal := rfc_Q_parasitic c; pp_mechanical := n0;
                           pp_electrical := n0 |} |}.
  (** src/hhx/fixed_conductance.rs:98-112 *)
  Definition hhx_FixedConductance_from (c : HhxFCConfig F) : FixedConductance F :=
    {| fc_R_hyd := hfc_R_hyd c; fc_volume := hfc_vol c; fc_UA := hfc_UA c;
       fc_parasitics := {| pp_thermal := hfc_Q_parasitic c; pp_mechanical := hfc_W_parasitic c;
                           pp_electrical := n0 |} |}.

  (** src/chx/fixed_approach.rs:86-95, src/regen/fixed_approach.rs:80-89,
      src/hhx/fixed_approach.rs:87-97 *)
  Definition ChxFAConfig_default : ChxFAConfig F :=
    mkChxFACfg (n_lit 40 (-6)) (n_lit 40 0) n0 n0.
  Definition RegenFAConfig_default : RegenFAConfig F :=
    mkRegenFACfg (n_lit 1 (-4)) (n_lit 10 0) n0 n0.
  Definition HhxFAConfig_default : HhxFAConfig F :=
    mkHhxFACfg (n_lit 10 (-5)) (n_lit 100 0) n0 n0 n0.
  (** src/chx/fixed_conductance.rs:97-106, src/regen/fixed_conductance.rs:84-93,
      src/hhx/fixed_conductance.rs:86-96 *)
  Definition ChxFCConfig_default : ChxFCConfig F :=
    mkChxFCCfg (n_lit 40 (-6)) (n_lit 400 0) n0 n0.
  Definition RegenFCConfig_default : RegenFCConfig F :=
    mkRegenFCCfg (n_lit 10 (-5)) (n_lit 70000 0) n0 n0.
  Definition HhxFCConfig_default : HhxFCConfig F :=
    mkHhxFCCfg (n_lit 10 (-5)) (n_lit 100 0) n0 n0 n0.

  (** *** Building components, src/engine.rs:102-129.  The GPU3, Mod2 and
      nuclear-isomer conversions are [todo!()] (src/chx/gpu3.rs:57-61,
      src/chx/mod2.rs:81-85, src/regen/gpu3.rs:67-71, src/regen/mod2.rs:73-77,
      src/hhx/gpu3.rs:47-51, src/hhx/mod2.rs:82-86, src/hhx/ni_gpu3.rs:47-51,
      src/hhx/ni_mod2.rs:47-51). *)
  Definition chx_from_config (c : ChxConfig F) : outcome (ColdHeatExchanger F) :=
    match c with
    | CC_FixedApproach c => Ret (chx_FixedApproach (chx_FixedApproach_from c))
    | CC_FixedConductance c => Ret (chx_FixedConductance (chx_FixedConductance_from c))
    | CC_GPU3 _ => Panic PTodo
    | CC_Mod2 _ => Panic PTodo
    end.
  Definition regen_from_config (c : RegenConfig F) : outcome (Regenerator F) :=
    match c with
    | RC_FixedApproach c => Ret (regen_FixedApproach (regen_FixedApproach_from c))
    | RC_FixedConductance c => Ret (regen_FixedConductance (regen_FixedConductance_from c))
    | RC_GPU3 _ => Panic PTodo
    | RC_Mod2 _ => Panic PTodo
    end.
  Definition hhx_from_config (c : HhxConfig F) : outcome (HotHeatExchanger F) :=
    match c with
    | HC_FixedApproach c => Ret (hhx_FixedApproach (hhx_FixedApproach_from c))
    | HC_FixedConductance c => Ret (hhx_FixedConductance (hhx_FixedConductance_from c))
    | HC_GPU3 _ => Panic PTodo
    | HC_Mod2 _ => Panic PTodo
    | HC_GPU3NI _ => Panic PTodo
    | HC_Mod2NI _ => Panic PTodo
    end.
End Hx.
