(** * Specification: what a configuration document spells *)
From Coq Require Import ZArith NArith List String Permutation.
From Verif Require Import Num ModelTypes ModelWs ModelHx ModelStateEq ModelEngine ModelApi ModelSerde.
Import ListNotations.
Local Open Scope string_scope.

Section Spells.
  Context {V F : Type}.
  Variable r : Reader V F.
  Notation D := (doc V).

  (** the value of the one entry named [k] *)
  Definition child (d : D) (k : string) : option D :=
    match d with
    | Table l => match filter (fun kd => String.eqb (fst kd) k) l with [(_, d')] => Some d' | _ => None end
    | Leaf _ => None
    end.
  Fixpoint at_path (d : D) (path : list string) : option D :=
    match path with
    | [] => Some d
    | k :: path' => match child d k with Some d' => at_path d' path' | None => None end
    end.

  (** scalars *)
  Definition number (d : D) (path : list string) (x : F) : Prop :=
    exists v, at_path d path = Some (Leaf v) /\ rd_f64 r v = Some x.
  Definition count (d : D) (path : list string) (n : N) : Prop :=
    exists v, at_path d path = Some (Leaf v) /\ rd_u32 r v = Some n.
  (** the name [name], as far as the reader tells names apart *)
  Definition names (d : D) (path : list string) (name : string) : Prop :=
    exists d' s, at_path d path = Some d' /\ rd_unit r d' = Some s /\ rd_fold r s = rd_fold r name.
  Definition text (d : D) (path : list string) (s : string) : Prop :=
    exists v, at_path d path = Some (Leaf v) /\ rd_str r v = Some s.
  (** a table with nothing but one entry of that name *)
  Definition chooses (d : D) (path : list string) (name : string) (inside : D -> Prop) : Prop :=
    exists k d', at_path d path = Some (Table [(k, d')]) /\ rd_fold r k = rd_fold r name /\ inside d'.

  Definition ode_solver_name (x : LegacyOdeSolver) : string :=
    match x with Ode45 => "ode45" end.

  Definition coolant_name (x : Coolant) : string :=
    match x with Coolant_Water => "Water" end.

  Definition material_name (x : Material) : string :=
    match x with SS304 => "SS304" | Multimet => "Multimet" | StainlessSteel => "StainlessSteel" end.

  Definition chx2_fluid_name (x : Chx2Fluid) : string :=
    match x with Chx2_Water => "Water" end.

  Definition correlation_name (x : Correlation) : string :=
    match x with Oscillating => "Oscillating" | Steady => "Steady" end.

  Definition friction_name (x : FrictionFactorCorrelation) : string :=
    match x with FF_GedeonWood => "GedeonWood" end.

  Definition jfactor_name (x : JFactorCorrelation) : string :=
    match x with JF_GedeonWood => "GedeonWood" end.

  Definition fluid_option_name (x : LegacyFluidOption) : string :=
    match x with LF_Hydrogen => "Hydrogen" | LF_Helium => "Helium" end.

  Definition spells_solver (d : D) (c : SolverConfig F) : Prop :=
    number d ["inner_loop"; "tolerance"; "abs"] (tc_abs (ilc_tolerance (sc_inner_loop c))) /\
    number d ["inner_loop"; "tolerance"; "rel"] (tc_rel (ilc_tolerance (sc_inner_loop c))) /\
    count d ["inner_loop"; "max_iterations"] (ilc_max_iterations (sc_inner_loop c)) /\
    number d ["outer_loop"; "tolerance"; "abs"] (tc_abs (olc_tolerance (sc_outer_loop c))) /\
    number d ["outer_loop"; "tolerance"; "rel"] (tc_rel (olc_tolerance (sc_outer_loop c))) /\
    count d ["outer_loop"; "max_iterations"] (olc_max_iterations (sc_outer_loop c)) /\
    number d ["ode"; "tolerance"; "abs"] (tc_abs (oc_tolerance (sc_ode c))) /\
    number d ["ode"; "tolerance"; "rel"] (tc_rel (oc_tolerance (sc_ode c))) /\
    count d ["ode"; "num_timesteps"] (oc_num_timesteps (sc_ode c)).

  Definition spells_conditions (d : D) (c : ConditionsConfig F) : Prop :=
    number d ["temp_sink"] (cc_temp_sink c) /\
    number d ["temp_source"] (cc_temp_source c) /\
    number d ["pres_zero"] (cc_pres_zero c).

  Definition spells_legacy_solver (d : D) (c : LegacySolverConfig F) : Prop :=
    number d ["innerLoopTolerance"; "abs"] (tc_abs (lsc_inner_loop_tolerance c)) /\
    number d ["innerLoopTolerance"; "rel"] (tc_rel (lsc_inner_loop_tolerance c)) /\
    number d ["outerLoopTolerance"; "abs"] (tc_abs (lsc_outer_loop_tolerance c)) /\
    number d ["outerLoopTolerance"; "rel"] (tc_rel (lsc_outer_loop_tolerance c)) /\
    number d ["odeTolerance"; "abs"] (tc_abs (lsc_ode_tolerance c)) /\
    number d ["odeTolerance"; "rel"] (tc_rel (lsc_ode_tolerance c)) /\
    names d ["odeSolver"] (ode_solver_name (lsc_ode_solver c)) /\
    count d ["timeResolution"] (lsc_time_resolution c).

  Definition spells_legacy_conditions (d : D) (c : LegacyConditionsConfig F) : Prop :=
    number d ["T_cold"] (lcc_T_cold c) /\
    number d ["T_hot"] (lcc_T_hot c) /\
    number d ["P_0"] (lcc_P_0 c).

  Definition spells_chx_fa (d : D) (c : ChxFAConfig F) : Prop :=
    number d ["vol"] (cfa_vol c) /\
    number d ["DT"] (cfa_DT c) /\
    number d ["R_hyd"] (cfa_R_hyd c) /\
    number d ["W_parasitic"] (cfa_W_parasitic c).

  Definition spells_chx_fc (d : D) (c : ChxFCConfig F) : Prop :=
    number d ["vol"] (cfc_vol c) /\
    number d ["UA"] (cfc_UA c) /\
    number d ["R_hyd"] (cfc_R_hyd c) /\
    number d ["W_parasitic"] (cfc_W_parasitic c).

  Definition spells_regen_fa (d : D) (c : RegenFAConfig F) : Prop :=
    number d ["vol"] (rfa_vol c) /\
    number d ["DT"] (rfa_DT c) /\
    number d ["R_hyd"] (rfa_R_hyd c) /\
    number d ["Q_parasitic"] (rfa_Q_parasitic c).

  Definition spells_regen_fc (d : D) (c : RegenFCConfig F) : Prop :=
    number d ["vol"] (rfc_vol c) /\
    number d ["UA"] (rfc_UA c) /\
    number d ["R_hyd"] (rfc_R_hyd c) /\
    number d ["Q_parasitic"] (rfc_Q_parasitic c).

  Definition spells_hhx_fa (d : D) (c : HhxFAConfig F) : Prop :=
    number d ["vol"] (hfa_vol c) /\
    number d ["DT"] (hfa_DT c) /\
    number d ["R_hyd"] (hfa_R_hyd c) /\
    number d ["W_parasitic"] (hfa_W_parasitic c) /\
    number d ["Q_parasitic"] (hfa_Q_parasitic c).

  Definition spells_hhx_fc (d : D) (c : HhxFCConfig F) : Prop :=
    number d ["vol"] (hfc_vol c) /\
    number d ["UA"] (hfc_UA c) /\
    number d ["R_hyd"] (hfc_R_hyd c) /\
    number d ["W_parasitic"] (hfc_W_parasitic c) /\
    number d ["Q_parasitic"] (hfc_Q_parasitic c).

  Definition spells_chx_gpu3 (d : D) (c : ChxGpu3Config F) : Prop :=
    number d ["length_total"] (cg_length_total F c) /\
    number d ["length_ht"] (cg_length_ht F c) /\
    number d ["D_inner"] (cg_D_inner F c) /\
    number d ["D_outer"] (cg_D_outer F c) /\
    count d ["N_total"] (cg_N_total F c) /\
    count d ["N_shell"] (cg_N_shell F c) /\
    number d ["D_sh"] (cg_D_sh F c) /\
    number d ["Ac_d"] (cg_Ac_d F c) /\
    number d ["roughness"] (cg_roughness F c) /\
    number d ["vol_h"] (cg_vol_h F c) /\
    number d ["m_dot_w"] (cg_m_dot_w F c) /\
    names d ["coolant"] (coolant_name (cg_coolant F c)) /\
    number d ["m_dot_a"] (cg_m_dot_a F c) /\
    number d ["UA_a"] (cg_UA_a F c) /\
    number d ["W_parasitic"] (cg_W_parasitic F c).

  Definition spells_chx_mod2 (d : D) (c : ChxMod2Config F) : Prop :=
    number d ["geometry"; "tubes"; "length"] (cm_length F c) /\
    number d ["geometry"; "tubes"; "length_ht"] (cm_length_ht F c) /\
    number d ["geometry"; "tubes"; "D_outer"] (cm_D_outer F c) /\
    number d ["geometry"; "tubes"; "D_inner"] (cm_D_inner F c) /\
    count d ["geometry"; "tubes"; "N_total"] (cm_N_total F c) /\
    number d ["geometry"; "tubes"; "roughness"] (cm_roughness F c) /\
    names d ["geometry"; "tubes"; "material"] (material_name (cm_material F c)) /\
    number d ["geometry"; "shell"; "R_inner"] (cm_R_inner F c) /\
    number d ["geometry"; "shell"; "V_header"] (cm_V_header F c) /\
    number d ["geometry"; "shell"; "Ac_header"] (cm_Ac_header F c) /\
    number d ["m_dot_p_fs"] (cm_m_dot_p_fs F c) /\
    number d ["W_dot_p_fs"] (cm_W_dot_p_fs F c) /\
    number d ["n_fs"] (cm_n_fs F c) /\
    names d ["fluid"] (chx2_fluid_name (cm_fluid F c)) /\
    names d ["correlation"] (correlation_name (cm_correlation F c)).

  Definition spells_regen_gpu3 (d : D) (c : RegenGpu3Config F) : Prop :=
    number d ["geometry"; "vol_h"] (rgp_vol_h F c) /\
    names d ["geometry"; "mesh"; "material"] (material_name (rgp_material F c)) /\
    number d ["geometry"; "mesh"; "D_wire"] (rgp_D_wire F c) /\
    number d ["geometry"; "mesh"; "pitch"] (rgp_pitch F c) /\
    number d ["geometry"; "shell"; "diameter"] (rgp_diameter F c) /\
    number d ["geometry"; "shell"; "length"] (rgp_length F c) /\
    count d ["geometry"; "shell"; "number"] (rgp_number F c) /\
    number d ["Q_parasitic"] (rgp_Q_parasitic F c) /\
    number d ["bypass"] (rgp_bypass F c) /\
    names d ["correlationf"] (friction_name (rgp_correlationf F c)) /\
    names d ["correlationj"] (jfactor_name (rgp_correlationj F c)).

  Definition spells_regen_mod2 (d : D) (c : RegenMod2Config F) : Prop :=
    names d ["geometry"; "mesh"; "material"] (material_name (rm_mesh_material F c)) /\
    number d ["geometry"; "mesh"; "D_wire"] (rm_D_wire F c) /\
    number d ["geometry"; "mesh"; "pitch"] (rm_pitch F c) /\
    names d ["geometry"; "shell"; "material"] (material_name (rm_shell_material F c)) /\
    number d ["geometry"; "shell"; "R_sh"] (rm_R_sh F c) /\
    number d ["geometry"; "shell"; "th_sh_cold"] (rm_th_sh_cold F c) /\
    number d ["geometry"; "shell"; "th_sh_hot"] (rm_th_sh_hot F c) /\
    number d ["geometry"; "shell"; "length"] (rm_length F c) /\
    names d ["correlationtype"] (correlation_name (rm_correlationtype F c)) /\
    names d ["correlationf"] (friction_name (rm_correlationf F c)) /\
    names d ["correlationj"] (jfactor_name (rm_correlationj F c)).

  Definition spells_hhx_gpu3 (d : D) (c : HhxGpu3Config F) : Prop :=
    number d ["L_total"] (hg_L_total F c) /\
    number d ["L_htr"] (hg_L_htr F c) /\
    number d ["R_tc"] (hg_R_tc F c) /\
    number d ["D_outer"] (hg_D_outer F c) /\
    number d ["D_inner"] (hg_D_inner F c) /\
    number d ["roughness"] (hg_roughness F c) /\
    count d ["N_total"] (hg_N_total F c) /\
    number d ["vol_h"] (hg_vol_h F c) /\
    number d ["eta_comb"] (hg_eta_comb F c) /\
    number d ["R_c_loss"] (hg_R_c_loss F c) /\
    number d ["W_parasitic"] (hg_W_parasitic F c).

  Definition spells_hhx_mod2 (d : D) (c : HhxMod2Config F) : Prop :=
    number d ["geometry"; "tubes"; "L_front"] (hm_L_front F c) /\
    number d ["geometry"; "tubes"; "L_rear"] (hm_L_rear F c) /\
    number d ["geometry"; "tubes"; "L_inactive"] (hm_L_inactive F c) /\
    number d ["geometry"; "tubes"; "D_outer"] (hm_D_outer F c) /\
    number d ["geometry"; "tubes"; "D_inner"] (hm_D_inner F c) /\
    number d ["geometry"; "tubes"; "roughness"] (hm_roughness F c) /\
    count d ["geometry"; "tubes"; "N_total"] (hm_N_total F c) /\
    names d ["geometry"; "tubes"; "materialtube"] (material_name (hm_materialtube F c)) /\
    names d ["geometry"; "tubes"; "materialfin"] (material_name (hm_materialfin F c)) /\
    number d ["geometry"; "shell"; "R_outer"] (hm_R_outer F c) /\
    number d ["geometry"; "shell"; "R_inner"] (hm_R_inner F c) /\
    number d ["geometry"; "shell"; "V_header"] (hm_V_header F c) /\
    number d ["geometry"; "fins"; "thickness"] (hm_thickness F c) /\
    number d ["geometry"; "fins"; "pitch"] (hm_pitch F c) /\
    number d ["geometry"; "fins"; "L_fin"] (hm_L_fin F c) /\
    names d ["correlation"] (correlation_name (hm_correlation F c)).

  Definition spells_hhx_ni (d : D) (c : HhxNIConfig F) : Prop :=
    number d ["R_f"] (hn_R_f F c) /\
    number d ["L_f"] (hn_L_f F c) /\
    number d ["R_regen"] (hn_R_regen F c) /\
    number d ["D_outer"] (hn_D_outer F c) /\
    number d ["D_inner"] (hn_D_inner F c) /\
    number d ["k_f"] (hn_k_f F c) /\
    number d ["roughness"] (hn_roughness F c) /\
    count d ["N_total"] (hn_N_total F c) /\
    number d ["vol_h"] (hn_vol_h F c) /\
    number d ["R_ins"] (hn_R_ins F c) /\
    number d ["W_parasitic"] (hn_W_parasitic F c).

  Definition spells_sinusoidal (d : D) (c : SinConfig F) : Prop :=
    number d ["frequency"] (sdc_frequency c) /\
    number d ["phase_angle"] (sdc_phase_angle c) /\
    number d ["V_swept_c"] (sdc_V_swept_c c) /\
    number d ["V_clearance_c"] (sdc_V_clearance_c c) /\
    number d ["R_c"] (sdc_R_c c) /\
    number d ["W_parasitic_c"] (sdc_W_parasitic_c c) /\
    number d ["V_swept_e"] (sdc_V_swept_e c) /\
    number d ["V_clearance_e"] (sdc_V_clearance_e c) /\
    number d ["R_e"] (sdc_R_e c) /\
    number d ["W_parasitic_e"] (sdc_W_parasitic_e c) /\
    number d ["Q_parasitic_e"] (sdc_Q_parasitic_e c).

  Definition spells_rhombic (d : D) (c : RhConfig F) : Prop :=
    number d ["frequency"] (rdc_frequency c) /\
    number d ["V_clearance_c"] (rdc_V_clearance_c c) /\
    number d ["R_c"] (rdc_R_c c) /\
    number d ["W_parasitic_c"] (rdc_W_parasitic_c c) /\
    number d ["V_clearance_e"] (rdc_V_clearance_e c) /\
    number d ["R_e"] (rdc_R_e c) /\
    number d ["W_parasitic_e"] (rdc_W_parasitic_e c) /\
    number d ["Q_parasitic_e"] (rdc_Q_parasitic_e c) /\
    number d ["r_crank"] (rdc_r_crank c) /\
    number d ["L_conn"] (rdc_L_conn c) /\
    number d ["eccentricity"] (rdc_eccentricity c) /\
    number d ["D_p"] (rdc_D_p c) /\
    number d ["D_d"] (rdc_D_d c).

  Definition spells_ws_gpu3 (d : D) (c : WsGpu3Config F) : Prop :=
    number d ["frequency"] (wg_frequency F c) /\
    number d ["V_clearance_c"] (wg_V_clearance_c F c) /\
    number d ["R_c"] (wg_R_c F c) /\
    number d ["V_clearance_e"] (wg_V_clearance_e F c) /\
    number d ["R_e"] (wg_R_e F c) /\
    number d ["r_crank"] (wg_r_crank F c) /\
    number d ["L_conn"] (wg_L_conn F c) /\
    number d ["eccentricity"] (wg_eccentricity F c) /\
    number d ["D"] (wg_D F c) /\
    number d ["D_dr"] (wg_D_dr F c) /\
    number d ["L"] (wg_L F c) /\
    number d ["h"] (wg_h F c).

  Definition spells_ws_mod2 (d : D) (c : WsMod2Config F) : Prop :=
    number d ["frequency"] (wm_frequency F c) /\
    number d ["phaseAngle"] (wm_phaseAngle F c) /\
    number d ["D"] (wm_D F c) /\
    number d ["h"] (wm_h F c) /\
    number d ["L"] (wm_L F c) /\
    number d ["stroke"] (wm_stroke F c) /\
    number d ["V_clearance_c"] (wm_V_clearance_c F c) /\
    number d ["R_c"] (wm_R_c F c) /\
    number d ["V_clearance_e"] (wm_V_clearance_e F c) /\
    number d ["R_e"] (wm_R_e F c) /\
    names d ["material_p"] (material_name (wm_material_p F c)) /\
    names d ["material_c"] (material_name (wm_material_c F c)) /\
    number d ["th_pw"] (wm_th_pw F c) /\
    number d ["th_cw"] (wm_th_cw F c) /\
    number d ["L_cond"] (wm_L_cond F c) /\
    number d ["e"] (wm_e F c).

  Definition fluid_model_name (m : FluidModelConfig) : string :=
    match m with FM_Custom => "custom" | FM_Fit => "fit" | FM_IdealGas => "ideal_gas" | FM_RefProp => "ref_prop" end.
  Definition spells_fluid (d : D) (path : list string) (c : FluidConfig) : Prop :=
    match c with
    | FC_Hydrogen m => chooses d path "hydrogen" (fun d' => text d' ["model"] (fluid_model_name m))
    | FC_Helium m => chooses d path "helium" (fun d' => text d' ["model"] (fluid_model_name m))
    end.
  Definition spells_chx (d : D) (path : list string) (c : ChxConfig F) : Prop :=
    match c with
    | CC_FixedApproach c => chooses d path "fixed_approach" (fun d' => spells_chx_fa d' c)
    | CC_FixedConductance c => chooses d path "fixed_conductance" (fun d' => spells_chx_fc d' c)
    | CC_GPU3 c => chooses d path "g_p_u3" (fun d' => spells_chx_gpu3 d' c)
    | CC_Mod2 c => chooses d path "mod2" (fun d' => spells_chx_mod2 d' c)
    end.
  Definition spells_regen (d : D) (path : list string) (c : RegenConfig F) : Prop :=
    match c with
    | RC_FixedApproach c => chooses d path "fixed_approach" (fun d' => spells_regen_fa d' c)
    | RC_FixedConductance c => chooses d path "fixed_conductance" (fun d' => spells_regen_fc d' c)
    | RC_GPU3 c => chooses d path "g_p_u3" (fun d' => spells_regen_gpu3 d' c)
    | RC_Mod2 c => chooses d path "mod2" (fun d' => spells_regen_mod2 d' c)
    end.
  Definition spells_hhx (d : D) (path : list string) (c : HhxConfig F) : Prop :=
    match c with
    | HC_FixedApproach c => chooses d path "fixed_approach" (fun d' => spells_hhx_fa d' c)
    | HC_FixedConductance c => chooses d path "fixed_conductance" (fun d' => spells_hhx_fc d' c)
    | HC_GPU3 c => chooses d path "g_p_u3" (fun d' => spells_hhx_gpu3 d' c)
    | HC_Mod2 c => chooses d path "mod2" (fun d' => spells_hhx_mod2 d' c)
    | HC_GPU3NI c => chooses d path "g_p_u3_n_i" (fun d' => spells_hhx_ni d' c)
    | HC_Mod2NI c => chooses d path "mod2_n_i" (fun d' => spells_hhx_ni d' c)
    end.
  Definition spells_ws (d : D) (path : list string) (c : WsConfig F) : Prop :=
    match c with
    | WC_Sinusoidal c => chooses d path "sinusoidal" (fun d' => spells_sinusoidal d' c)
    | WC_Rhombic c => chooses d path "rhombic" (fun d' => spells_rhombic d' c)
    | WC_GPU3 c => chooses d path "g_p_u3" (fun d' => spells_ws_gpu3 d' c)
    | WC_Mod2 c => chooses d path "mod2" (fun d' => spells_ws_mod2 d' c)
    end.

  Definition spells (d : D) (c : Config F) : Prop :=
    spells_fluid d ["engine"; "fluid"] (ec_fluid (cf_engine c)) /\
    spells_chx d ["engine"; "components"; "chx"] (ccf_chx (ec_components (cf_engine c))) /\
    spells_hhx d ["engine"; "components"; "hhx"] (ccf_hhx (ec_components (cf_engine c))) /\
    spells_regen d ["engine"; "components"; "regen"] (ccf_regen (ec_components (cf_engine c))) /\
    spells_ws d ["engine"; "components"; "ws"] (ccf_ws (ec_components (cf_engine c))) /\
    (exists d', at_path d ["solver"] = Some d' /\ spells_solver d' (cf_solver c)) /\
    (exists d', at_path d ["conditions"] = Some d' /\ spells_conditions d' (cf_conditions c)).
End Spells.

(** the reader tells the variant names of every enum apart *)
Definition tells_apart {V F} (r : Reader V F) (ns : list string) : Prop :=
  forall n m, In n ns -> In m ns -> rd_fold r n = rd_fold r m -> n = m.
Definition tells_names_apart {V F} (r : Reader V F) : Prop :=
  tells_apart r ["hydrogen"; "helium"] /\
  tells_apart r ["fixed_approach"; "fixed_conductance"; "g_p_u3"; "mod2"; "g_p_u3_n_i"; "mod2_n_i"] /\
  tells_apart r ["sinusoidal"; "rhombic"; "g_p_u3"; "mod2"] /\
  tells_apart r ["SS304"; "Multimet"; "StainlessSteel"] /\
  tells_apart r ["Oscillating"; "Steady"] /\
  tells_apart r ["Hydrogen"; "Helium"].

(** the same document with the entries of its tables in another order *)
Inductive reordered {V} : doc V -> doc V -> Prop :=
| reordered_leaf v : reordered (Leaf v) (Leaf v)
| reordered_table l l' l'' :
    Forall2 (fun a b => fst a = fst b /\ reordered (snd a) (snd b)) l l' ->
    Permutation l' l'' -> reordered (Table l) (Table l'').
(** the name in a unit variant does not depend on the order of entries *)
Definition unit_unordered {V F} (r : Reader V F) : Prop :=
  forall d d', reordered d d' -> rd_unit r d = rd_unit r d'.

(** ** Legacy documents *)
Section Legacy.
  Context {V F : Type}.
  Variables direct buffered : Reader V F.
  Notation D := (doc V).

  (** an entry [a] comes before all entries [b] *)
  Definition precedes (a b : string) (d : D) : Prop :=
    exists l1 x l2, d = Table (l1 ++ (a, x) :: l2)%list /\ ~ In b (map fst l1).
  (** the reader that reads "params": serde reads them as they come if it has seen
      "model" before, and from its buffer otherwise *)
  Definition reads (d : D) (r : Reader V F) : Prop :=
    (precedes "model" "params" d /\ r = direct) \/ (precedes "params" "model" d /\ r = buffered).
  Definition model_params (d : D) (name : string) (inside : Reader V F -> D -> Prop) : Prop :=
    text direct d ["model"] name /\ exists r d', at_path d ["params"] = Some d' /\ reads d r /\ inside r d'.

  Definition spells_legacy_fluid (d : D) (c : LegacyFluidConfig) : Prop :=
    match c with
    | LFC_Hydrogen => text direct d ["model"] "Hydrogen" /\
        ((forall l, d = Table l -> ~ In "params" (map fst l)) \/
         exists r v, at_path d ["params"] = Some (Leaf v) /\ reads d r /\ rd_nil r v = true)
    | LFC_RealGasRefprop g => model_params d "RealGasRefprop" (fun r d' => names r d' ["name"] (fluid_option_name g))
    | LFC_IdealGas g => model_params d "IdealGas" (fun r d' => names r d' ["name"] (fluid_option_name g))
    end.
  Definition spells_legacy_chx (d : D) (c : LegacyChxConfig F) : Prop :=
    match c with
    | LCC_FixedApproach c => model_params d "FixedApproach" (fun r d' => spells_chx_fa r d' c)
    | LCC_FixedConductance c => model_params d "FixedConductance" (fun r d' => spells_chx_fc r d' c)
    | LCC_GPU3 c => model_params d "GPU3" (fun r d' => spells_chx_gpu3 r d' c)
    | LCC_Mod2 c => model_params d "Mod2" (fun r d' => spells_chx_mod2 r d' c)
    end.
  Definition spells_legacy_regen (d : D) (c : LegacyRegenConfig F) : Prop :=
    match c with
    | LRC_FixedApproach c => model_params d "FixedApproach" (fun r d' => spells_regen_fa r d' c)
    | LRC_FixedConductance c => model_params d "FixedConductance" (fun r d' => spells_regen_fc r d' c)
    | LRC_GPU3 c => model_params d "GPU3" (fun r d' => spells_regen_gpu3 r d' c)
    | LRC_Mod2 c => model_params d "Mod2" (fun r d' => spells_regen_mod2 r d' c)
    end.
  Definition spells_legacy_hhx (d : D) (c : LegacyHhxConfig F) : Prop :=
    match c with
    | LHC_FixedApproach c => model_params d "FixedApproach" (fun r d' => spells_hhx_fa r d' c)
    | LHC_FixedConductance c => model_params d "FixedConductance" (fun r d' => spells_hhx_fc r d' c)
    | LHC_GPU3 c => model_params d "GPU3" (fun r d' => spells_hhx_gpu3 r d' c)
    | LHC_Mod2 c => model_params d "Mod2" (fun r d' => spells_hhx_mod2 r d' c)
    | LHC_GPU3NI c => model_params d "GPU3NI" (fun r d' => spells_hhx_ni r d' c)
    | LHC_Mod2NI c => model_params d "Mod2NI" (fun r d' => spells_hhx_ni r d' c)
    end.
  Definition spells_legacy_ws (d : D) (c : LegacyWsConfig F) : Prop :=
    match c with
    | LWC_Sinusoidal c => model_params d "Sinusoidal" (fun r d' => spells_sinusoidal r d' c)
    | LWC_Rhombic c => model_params d "Rhombic" (fun r d' => spells_rhombic r d' c)
    | LWC_GPU3 c => model_params d "GPU3" (fun r d' => spells_ws_gpu3 r d' c)
    | LWC_Mod2 c => model_params d "Mod2" (fun r d' => spells_ws_mod2 r d' c)
    end.

  Definition spells_legacy (d : D) (c : Legacy F) : Prop :=
    (exists d', at_path d ["fluid"] = Some d' /\ spells_legacy_fluid d' (lg_fluid c)) /\
    (exists d', at_path d ["ws"] = Some d' /\ spells_legacy_ws d' (lg_ws c)) /\
    (exists d', at_path d ["chx"] = Some d' /\ spells_legacy_chx d' (lg_chx c)) /\
    (exists d', at_path d ["regen"] = Some d' /\ spells_legacy_regen d' (lg_regen c)) /\
    (exists d', at_path d ["hhx"] = Some d' /\ spells_legacy_hhx d' (lg_hhx c)) /\
    (exists d', at_path d ["solver"] = Some d' /\ spells_legacy_solver direct d' (lg_solver c)) /\
    (exists d', at_path d ["conditions"] = Some d' /\ spells_legacy_conditions direct d' (lg_conditions c)).
End Legacy.

(** ** From the document to the run *)
Section Run.
  Context {V F : Type}.
  Variable r : Reader V F.
  Notation D := (doc V).

  Definition file_settings (d : D) (s : RunSettings F) : Prop :=
    number r d ["solver"; "inner_loop"; "tolerance"; "abs"] (ct_abs (lt_inner (rs_loop_tol s))) /\
    number r d ["solver"; "inner_loop"; "tolerance"; "rel"] (ct_rel (lt_inner (rs_loop_tol s))) /\
    count r d ["solver"; "inner_loop"; "max_iterations"] (mi_inner (rs_max_iters s)) /\
    number r d ["solver"; "outer_loop"; "tolerance"; "abs"] (ct_abs (lt_outer (rs_loop_tol s))) /\
    number r d ["solver"; "outer_loop"; "tolerance"; "rel"] (ct_rel (lt_outer (rs_loop_tol s))) /\
    count r d ["solver"; "outer_loop"; "max_iterations"] (mi_outer (rs_max_iters s)) /\
    number r d ["solver"; "ode"; "tolerance"; "abs"] (ot_abs (rs_ode_tol s)) /\
    number r d ["solver"; "ode"; "tolerance"; "rel"] (ot_rel (rs_ode_tol s)) /\
    count r d ["solver"; "ode"; "num_timesteps"] (rs_resolution s).
  Definition file_inputs (d : D) (i : RunInputs F) : Prop :=
    number r d ["conditions"; "temp_sink"] (ri_temp_sink i) /\
    number r d ["conditions"; "temp_source"] (ri_temp_source i) /\
    number r d ["conditions"; "pres_zero"] (ri_pres_zero i).

  Definition legacy_file_settings (d : D) (s : RunSettings F) : Prop :=
    number r d ["solver"; "innerLoopTolerance"; "abs"] (ct_abs (lt_inner (rs_loop_tol s))) /\
    number r d ["solver"; "innerLoopTolerance"; "rel"] (ct_rel (lt_inner (rs_loop_tol s))) /\
    number r d ["solver"; "outerLoopTolerance"; "abs"] (ct_abs (lt_outer (rs_loop_tol s))) /\
    number r d ["solver"; "outerLoopTolerance"; "rel"] (ct_rel (lt_outer (rs_loop_tol s))) /\
    number r d ["solver"; "odeTolerance"; "abs"] (ot_abs (rs_ode_tol s)) /\
    number r d ["solver"; "odeTolerance"; "rel"] (ot_rel (rs_ode_tol s)) /\
    count r d ["solver"; "timeResolution"] (rs_resolution s) /\
    mi_inner (rs_max_iters s) = 20%N /\ mi_outer (rs_max_iters s) = 20%N.
  Definition legacy_file_inputs (d : D) (i : RunInputs F) : Prop :=
    number r d ["conditions"; "T_cold"] (ri_temp_sink i) /\
    number r d ["conditions"; "T_hot"] (ri_temp_source i) /\
    number r d ["conditions"; "P_0"] (ri_pres_zero i).
End Run.
