(** * Configuration documents: [#[derive(Deserialize)]] of the configuration types

    A document is what the [config] crate hands to serde: tables and scalars.
    Arrays are not modelled; the scalars and how they are read as numbers and
    strings are left open ([Reader]).  All errors are one ([None]): serde's error
    messages and which of several errors is met first are not modelled.

    serde reads a struct from a table: every field from the entry of its name,
    a missing or repeated entry is an error, entries of other names are ignored.
    Because errors are not told apart, reading field by field gives the same as
    serde's one pass over the entries. *)
From Coq Require Import ZArith NArith List String Ascii Bool.
From Verif Require Import Num ModelTypes ModelWs ModelHx ModelStateEq ModelEngine ModelApi.
Import ListNotations.
Local Open Scope string_scope.

Inductive doc (V : Type) :=
| Leaf (v : V)
| Table (l : list (string * doc V)).
Arguments Leaf {V}. Arguments Table {V}.

(** How a deserialiser reads scalars: as a float, as an unsigned integer, as a
    string, and whether it is a null value; [rd_unit] is the name in a unit
    variant (a string, with the [config] crate also a table with one entry); [rd_fold] is applied to variant names of
    externally tagged enums before they are compared (the [config] crate
    compares them in lower case, serde's buffer and other formats as they are) *)
Record Reader (V F : Type) := mkReader {
  rd_f64 : V -> option F;
  rd_u32 : V -> option N;
  rd_str : V -> option string;
  rd_nil : V -> bool;
  rd_unit : doc V -> option string;
  rd_fold : string -> string }.
Arguments mkReader {V F}. Arguments rd_f64 {V F}. Arguments rd_u32 {V F}. Arguments rd_str {V F}.
Arguments rd_nil {V F}. Arguments rd_unit {V F}. Arguments rd_fold {V F}.

Definition bind {A B} (o : option A) (f : A -> option B) : option B :=
  match o with Some a => f a | None => None end.
Notation "'let?' x := m 'in' k" := (bind m (fun x => k)) (at level 200, x binder, right associativity).

(** serde's [rename_all = "snake_case"] for variants: an underscore before every
    upper case letter but the first, everything in lower case *)
Definition is_upper (c : ascii) : bool :=
  let n := nat_of_ascii c in ((65 <=? n) && (n <=? 90))%nat.
Definition lower (c : ascii) : ascii :=
  if is_upper c then ascii_of_nat (nat_of_ascii c + 32) else c.
Fixpoint snake_rest (s : string) : string :=
  match s with
  | "" => ""
  | String c s' => if is_upper c then String "_" (String (lower c) (snake_rest s')) else String c (snake_rest s')
  end.
Definition snake_case (s : string) : string :=
  match s with "" => "" | String c s' => String (lower c) (snake_rest s') end.
(** [rename_all = "camelCase"]: for fields, underscores are dropped and the letter
    after one is put in upper case; for variants, the first letter is put in
    lower case *)
Definition upper (c : ascii) : ascii :=
  let n := nat_of_ascii c in if ((97 <=? n) && (n <=? 122))%nat then ascii_of_nat (n - 32) else c.
Fixpoint camel_field (s : string) : string :=
  match s with
  | "" => ""
  | String c s' =>
      if Ascii.eqb c "_" then match s' with "" => "" | String c' s'' => String (upper c') (camel_field s'') end
      else String c (camel_field s')
  end.
Definition camel_variant (s : string) : string :=
  match s with "" => "" | String c s' => String (lower c) s' end.

Section Serde.
  Context {V F : Type}.
  Notation D := (doc V).
  Notation Rd := (Reader V F).

  (** the entries of a table in turn; [slot] is the field's value so far *)
  Fixpoint scan {A} (k : string) (read : D -> option A) (l : list (string * D)) (slot : option A) : option A :=
    match l with
    | [] => slot
    | (k', d) :: l' =>
        if String.eqb k' k then
          match slot with
          | Some _ => None
          | None => let? x := read d in scan k read l' (Some x)
          end
        else scan k read l' slot
    end.
  Definition field {A} (k : string) (read : D -> option A) (d : D) : option A :=
    match d with Table l => scan k read l None | Leaf _ => None end.
  (** a field of nested structs *)
  Fixpoint fields {A} (path : list string) (read : D -> option A) (d : D) : option A :=
    match path with [] => read d | k :: path' => field k (fields path' read) d end.

  Definition de_leaf {A} (read : V -> option A) (d : D) : option A :=
    match d with Leaf v => read v | Table _ => None end.
  Definition de_f64 (r : Rd) : D -> option F := de_leaf (rd_f64 r).
  Definition de_u32 (r : Rd) : D -> option N := de_leaf (rd_u32 r).
  Definition de_str (r : Rd) : D -> option string := de_leaf (rd_str r).

  (** the first variant whose name is [s] *)
  Fixpoint pick {A} (fold : string -> string) (cases : list (string * A)) (s : string) : option A :=
    match cases with
    | [] => None
    | (n, a) :: cases' => if String.eqb (fold s) (fold n) then Some a else pick fold cases' s
    end.
  (** unit variants of externally tagged enums *)
  Definition de_unit_enum {A} (r : Rd) (cases : list (string * A)) (d : D) : option A :=
    let? s := rd_unit r d in pick (rd_fold r) cases s.
  (** externally tagged: a table with one entry named like the variant *)
  Definition de_external {A} (r : Rd) (cases : list (string * (D -> option A))) (d : D) : option A :=
    match d with
    | Table [(k, d')] => let? read := pick (rd_fold r) cases k in read d'
    | _ => None
    end.
  (** internally tagged unit variants: entry [tag] names the variant, others are ignored *)
  Definition de_internal_unit {A} (r : Rd) (tag : string) (cases : list (string * A)) (d : D) : option A :=
    let? s := field tag (de_str r) d in pick (fun s => s) cases s.
  (** adjacently tagged: entry [tag] names the variant, entry [content] is what it
      holds.  If the content comes first it is kept in serde's buffer and read from
      there once the tag is known. *)
  Fixpoint first_of (a b : string) (l : list (string * D)) : bool :=
    match l with
    | [] => true
    | (k, _) :: l' => if String.eqb k a then true else if String.eqb k b then false else first_of a b l'
    end.
  Definition keep (d : D) : option D := Some d.
  Definition absent (k : string) (l : list (string * D)) : bool :=
    negb (existsb (fun '(k', _) => String.eqb k' k) l).
  (** a variant holds a value ([inl]) or nothing ([inr]) *)
  Definition de_adjacent {A} (direct buffered : Rd) (tag content : string)
      (cases : list (string * ((Rd -> D -> option A) + A))) (d : D) : option A :=
    match d with
    | Leaf _ => None
    | Table l =>
        let? s := field tag (de_str direct) d in
        let? case := pick (fun s => s) cases s in
        let r := if first_of tag content l then direct else buffered in
        match case with
        | inl read => let? c := field content keep d in read r c
        | inr a =>
            if absent content l then Some a
            else let? _ := field content (de_leaf (fun v => if rd_nil r v then Some tt else None)) d in Some a
        end
    end.

  (** src/types.rs:98-102, renamed to camelCase *)
  Definition de_ode_solver (r : Rd) : D -> option LegacyOdeSolver :=
    de_unit_enum r [(camel_variant "Ode45", Ode45)].

  (** src/chx/gpu3.rs:30-33 *)
  Definition de_coolant (r : Rd) : D -> option Coolant :=
    de_unit_enum r [("Water", Coolant_Water)].

  (** src/types.rs:143-148 *)
  Definition de_material (r : Rd) : D -> option Material :=
    de_unit_enum r [("SS304", SS304); ("Multimet", Multimet); ("StainlessSteel", StainlessSteel)].

  (** src/chx/mod2.rs:48-51 *)
  Definition de_chx2_fluid (r : Rd) : D -> option Chx2Fluid :=
    de_unit_enum r [("Water", Chx2_Water)].

  (** src/chx/mod2.rs:53-57, src/hhx/mod2.rs:55-59, src/regen/mod2.rs:45-49 *)
  Definition de_correlation (r : Rd) : D -> option Correlation :=
    de_unit_enum r [("Oscillating", Oscillating); ("Steady", Steady)].

  (** src/regen/types.rs:3-6 *)
  Definition de_friction (r : Rd) : D -> option FrictionFactorCorrelation :=
    de_unit_enum r [("GedeonWood", FF_GedeonWood)].

  (** src/regen/types.rs:8-11 *)
  Definition de_jfactor (r : Rd) : D -> option JFactorCorrelation :=
    de_unit_enum r [("GedeonWood", JF_GedeonWood)].

  (** src/fluid.rs:122-126 *)
  Definition de_fluid_option (r : Rd) : D -> option LegacyFluidOption :=
    de_unit_enum r [("Hydrogen", LF_Hydrogen); ("Helium", LF_Helium)].

  (** src/types.rs:123-126 *)
  Definition de_tolerance (r : Rd) (d : D) : option (ToleranceConfig F) :=
    let? x0 := field "abs" (de_f64 r) d in
    let? x1 := field "rel" (de_f64 r) d in
    Some (mkTolCfg x0 x1).

  (** src/types.rs:105-108 *)
  Definition de_inner_loop (r : Rd) (d : D) : option (InnerLoopConfig F) :=
    let? x0 := field "tolerance" (de_tolerance r) d in
    let? x1 := field "max_iterations" (de_u32 r) d in
    Some (mkInnerCfg x0 x1).

  (** src/types.rs:111-114 *)
  Definition de_outer_loop (r : Rd) (d : D) : option (OuterLoopConfig F) :=
    let? x0 := field "tolerance" (de_tolerance r) d in
    let? x1 := field "max_iterations" (de_u32 r) d in
    Some (mkOuterCfg x0 x1).

  (** src/types.rs:117-120 *)
  Definition de_ode (r : Rd) (d : D) : option (OdeConfig F) :=
    let? x0 := field "tolerance" (de_tolerance r) d in
    let? x1 := field "num_timesteps" (de_u32 r) d in
    Some (mkOdeCfg x0 x1).

  (** src/types.rs:82-86 *)
  Definition de_solver (r : Rd) (d : D) : option (SolverConfig F) :=
    let? x0 := field "inner_loop" (de_inner_loop r) d in
    let? x1 := field "outer_loop" (de_outer_loop r) d in
    let? x2 := field "ode" (de_ode r) d in
    Some (mkSolverCfg x0 x1 x2).

  (** src/types.rs:129-133 *)
  Definition de_conditions (r : Rd) (d : D) : option (ConditionsConfig F) :=
    let? x0 := field "temp_sink" (de_f64 r) d in
    let? x1 := field "temp_source" (de_f64 r) d in
    let? x2 := field "pres_zero" (de_f64 r) d in
    Some (mkCondCfg x0 x1 x2).

  (** src/types.rs:88-96, renamed to camelCase *)
  Definition de_legacy_solver (r : Rd) (d : D) : option (LegacySolverConfig F) :=
    let? x0 := field (camel_field "inner_loop_tolerance") (de_tolerance r) d in
    let? x1 := field (camel_field "outer_loop_tolerance") (de_tolerance r) d in
    let? x2 := field (camel_field "ode_tolerance") (de_tolerance r) d in
    let? x3 := field (camel_field "ode_solver") (de_ode_solver r) d in
    let? x4 := field (camel_field "time_resolution") (de_u32 r) d in
    Some (mkLegacySolverCfg x0 x1 x2 x3 x4).

  (** src/types.rs:137-141 *)
  Definition de_legacy_conditions (r : Rd) (d : D) : option (LegacyConditionsConfig F) :=
    let? x0 := field "T_cold" (de_f64 r) d in
    let? x1 := field "T_hot" (de_f64 r) d in
    let? x2 := field "P_0" (de_f64 r) d in
    Some (mkLegacyCondCfg x0 x1 x2).

  (** src/chx/fixed_approach.rs:22-29 *)
  Definition de_chx_fa (r : Rd) (d : D) : option (ChxFAConfig F) :=
    let? x0 := field "vol" (de_f64 r) d in
    let? x1 := field "DT" (de_f64 r) d in
    let? x2 := field "R_hyd" (de_f64 r) d in
    let? x3 := field "W_parasitic" (de_f64 r) d in
    Some (mkChxFACfg x0 x1 x2 x3).

  (** src/chx/fixed_conductance.rs:24-31 *)
  Definition de_chx_fc (r : Rd) (d : D) : option (ChxFCConfig F) :=
    let? x0 := field "vol" (de_f64 r) d in
    let? x1 := field "UA" (de_f64 r) d in
    let? x2 := field "R_hyd" (de_f64 r) d in
    let? x3 := field "W_parasitic" (de_f64 r) d in
    Some (mkChxFCCfg x0 x1 x2 x3).

  (** src/regen/fixed_approach.rs:17-23 *)
  Definition de_regen_fa (r : Rd) (d : D) : option (RegenFAConfig F) :=
    let? x0 := field "vol" (de_f64 r) d in
    let? x1 := field "DT" (de_f64 r) d in
    let? x2 := field "R_hyd" (de_f64 r) d in
    let? x3 := field "Q_parasitic" (de_f64 r) d in
    Some (mkRegenFACfg x0 x1 x2 x3).

  (** src/regen/fixed_conductance.rs:24-31 *)
  Definition de_regen_fc (r : Rd) (d : D) : option (RegenFCConfig F) :=
    let? x0 := field "vol" (de_f64 r) d in
    let? x1 := field "UA" (de_f64 r) d in
    let? x2 := field "R_hyd" (de_f64 r) d in
    let? x3 := field "Q_parasitic" (de_f64 r) d in
    Some (mkRegenFCCfg x0 x1 x2 x3).

  (** src/hhx/fixed_approach.rs:23-30 *)
  Definition de_hhx_fa (r : Rd) (d : D) : option (HhxFAConfig F) :=
    let? x0 := field "vol" (de_f64 r) d in
    let? x1 := field "DT" (de_f64 r) d in
    let? x2 := field "R_hyd" (de_f64 r) d in
    let? x3 := field "W_parasitic" (de_f64 r) d in
    let? x4 := field "Q_parasitic" (de_f64 r) d in
    Some (mkHhxFACfg x0 x1 x2 x3 x4).

  (** src/hhx/fixed_conductance.rs:25-33 *)
  Definition de_hhx_fc (r : Rd) (d : D) : option (HhxFCConfig F) :=
    let? x0 := field "vol" (de_f64 r) d in
    let? x1 := field "UA" (de_f64 r) d in
    let? x2 := field "R_hyd" (de_f64 r) d in
    let? x3 := field "W_parasitic" (de_f64 r) d in
    let? x4 := field "Q_parasitic" (de_f64 r) d in
    Some (mkHhxFCCfg x0 x1 x2 x3 x4).

  (** src/chx/gpu3.rs:10-28 *)
  Definition de_chx_gpu3 (r : Rd) (d : D) : option (ChxGpu3Config F) :=
    let? x0 := field "length_total" (de_f64 r) d in
    let? x1 := field "length_ht" (de_f64 r) d in
    let? x2 := field "D_inner" (de_f64 r) d in
    let? x3 := field "D_outer" (de_f64 r) d in
    let? x4 := field "N_total" (de_u32 r) d in
    let? x5 := field "N_shell" (de_u32 r) d in
    let? x6 := field "D_sh" (de_f64 r) d in
    let? x7 := field "Ac_d" (de_f64 r) d in
    let? x8 := field "roughness" (de_f64 r) d in
    let? x9 := field "vol_h" (de_f64 r) d in
    let? x10 := field "m_dot_w" (de_f64 r) d in
    let? x11 := field "coolant" (de_coolant r) d in
    let? x12 := field "m_dot_a" (de_f64 r) d in
    let? x13 := field "UA_a" (de_f64 r) d in
    let? x14 := field "W_parasitic" (de_f64 r) d in
    Some (mkChxGpu3Cfg F x0 x1 x2 x3 x4 x5 x6 x7 x8 x9 x10 x11 x12 x13 x14).

  (** src/chx/mod2.rs:10-51 *)
  Definition de_chx_mod2 (r : Rd) (d : D) : option (ChxMod2Config F) :=
    let? x0 := fields ["geometry"; "tubes"; "length"] (de_f64 r) d in
    let? x1 := fields ["geometry"; "tubes"; "length_ht"] (de_f64 r) d in
    let? x2 := fields ["geometry"; "tubes"; "D_outer"] (de_f64 r) d in
    let? x3 := fields ["geometry"; "tubes"; "D_inner"] (de_f64 r) d in
    let? x4 := fields ["geometry"; "tubes"; "N_total"] (de_u32 r) d in
    let? x5 := fields ["geometry"; "tubes"; "roughness"] (de_f64 r) d in
    let? x6 := fields ["geometry"; "tubes"; "material"] (de_material r) d in
    let? x7 := fields ["geometry"; "shell"; "R_inner"] (de_f64 r) d in
    let? x8 := fields ["geometry"; "shell"; "V_header"] (de_f64 r) d in
    let? x9 := fields ["geometry"; "shell"; "Ac_header"] (de_f64 r) d in
    let? x10 := field "m_dot_p_fs" (de_f64 r) d in
    let? x11 := field "W_dot_p_fs" (de_f64 r) d in
    let? x12 := field "n_fs" (de_f64 r) d in
    let? x13 := field "fluid" (de_chx2_fluid r) d in
    let? x14 := field "correlation" (de_correlation r) d in
    Some (mkChxMod2Cfg F x0 x1 x2 x3 x4 x5 x6 x7 x8 x9 x10 x11 x12 x13 x14).

  (** src/regen/gpu3.rs:13-43 *)
  Definition de_regen_gpu3 (r : Rd) (d : D) : option (RegenGpu3Config F) :=
    let? x0 := fields ["geometry"; "vol_h"] (de_f64 r) d in
    let? x1 := fields ["geometry"; "mesh"; "material"] (de_material r) d in
    let? x2 := fields ["geometry"; "mesh"; "D_wire"] (de_f64 r) d in
    let? x3 := fields ["geometry"; "mesh"; "pitch"] (de_f64 r) d in
    let? x4 := fields ["geometry"; "shell"; "diameter"] (de_f64 r) d in
    let? x5 := fields ["geometry"; "shell"; "length"] (de_f64 r) d in
    let? x6 := fields ["geometry"; "shell"; "number"] (de_u32 r) d in
    let? x7 := field "Q_parasitic" (de_f64 r) d in
    let? x8 := field "bypass" (de_f64 r) d in
    let? x9 := field "correlationf" (de_friction r) d in
    let? x10 := field "correlationj" (de_jfactor r) d in
    Some (mkRegenGpu3Cfg F x0 x1 x2 x3 x4 x5 x6 x7 x8 x9 x10).

  (** src/regen/mod2.rs:13-43 *)
  Definition de_regen_mod2 (r : Rd) (d : D) : option (RegenMod2Config F) :=
    let? x0 := fields ["geometry"; "mesh"; "material"] (de_material r) d in
    let? x1 := fields ["geometry"; "mesh"; "D_wire"] (de_f64 r) d in
    let? x2 := fields ["geometry"; "mesh"; "pitch"] (de_f64 r) d in
    let? x3 := fields ["geometry"; "shell"; "material"] (de_material r) d in
    let? x4 := fields ["geometry"; "shell"; "R_sh"] (de_f64 r) d in
    let? x5 := fields ["geometry"; "shell"; "th_sh_cold"] (de_f64 r) d in
    let? x6 := fields ["geometry"; "shell"; "th_sh_hot"] (de_f64 r) d in
    let? x7 := fields ["geometry"; "shell"; "length"] (de_f64 r) d in
    let? x8 := field "correlationtype" (de_correlation r) d in
    let? x9 := field "correlationf" (de_friction r) d in
    let? x10 := field "correlationj" (de_jfactor r) d in
    Some (mkRegenMod2Cfg F x0 x1 x2 x3 x4 x5 x6 x7 x8 x9 x10).

  (** src/hhx/gpu3.rs:10-23 *)
  Definition de_hhx_gpu3 (r : Rd) (d : D) : option (HhxGpu3Config F) :=
    let? x0 := field "L_total" (de_f64 r) d in
    let? x1 := field "L_htr" (de_f64 r) d in
    let? x2 := field "R_tc" (de_f64 r) d in
    let? x3 := field "D_outer" (de_f64 r) d in
    let? x4 := field "D_inner" (de_f64 r) d in
    let? x5 := field "roughness" (de_f64 r) d in
    let? x6 := field "N_total" (de_u32 r) d in
    let? x7 := field "vol_h" (de_f64 r) d in
    let? x8 := field "eta_comb" (de_f64 r) d in
    let? x9 := field "R_c_loss" (de_f64 r) d in
    let? x10 := field "W_parasitic" (de_f64 r) d in
    Some (mkHhxGpu3Cfg F x0 x1 x2 x3 x4 x5 x6 x7 x8 x9 x10).

  (** src/hhx/mod2.rs:10-53 *)
  Definition de_hhx_mod2 (r : Rd) (d : D) : option (HhxMod2Config F) :=
    let? x0 := fields ["geometry"; "tubes"; "L_front"] (de_f64 r) d in
    let? x1 := fields ["geometry"; "tubes"; "L_rear"] (de_f64 r) d in
    let? x2 := fields ["geometry"; "tubes"; "L_inactive"] (de_f64 r) d in
    let? x3 := fields ["geometry"; "tubes"; "D_outer"] (de_f64 r) d in
    let? x4 := fields ["geometry"; "tubes"; "D_inner"] (de_f64 r) d in
    let? x5 := fields ["geometry"; "tubes"; "roughness"] (de_f64 r) d in
    let? x6 := fields ["geometry"; "tubes"; "N_total"] (de_u32 r) d in
    let? x7 := fields ["geometry"; "tubes"; "materialtube"] (de_material r) d in
    let? x8 := fields ["geometry"; "tubes"; "materialfin"] (de_material r) d in
    let? x9 := fields ["geometry"; "shell"; "R_outer"] (de_f64 r) d in
    let? x10 := fields ["geometry"; "shell"; "R_inner"] (de_f64 r) d in
    let? x11 := fields ["geometry"; "shell"; "V_header"] (de_f64 r) d in
    let? x12 := fields ["geometry"; "fins"; "thickness"] (de_f64 r) d in
    let? x13 := fields ["geometry"; "fins"; "pitch"] (de_f64 r) d in
    let? x14 := fields ["geometry"; "fins"; "L_fin"] (de_f64 r) d in
    let? x15 := field "correlation" (de_correlation r) d in
    Some (mkHhxMod2Cfg F x0 x1 x2 x3 x4 x5 x6 x7 x8 x9 x10 x11 x12 x13 x14 x15).

  (** src/hhx/ni_gpu3.rs:10-23, src/hhx/ni_mod2.rs:10-23 *)
  Definition de_hhx_ni (r : Rd) (d : D) : option (HhxNIConfig F) :=
    let? x0 := field "R_f" (de_f64 r) d in
    let? x1 := field "L_f" (de_f64 r) d in
    let? x2 := field "R_regen" (de_f64 r) d in
    let? x3 := field "D_outer" (de_f64 r) d in
    let? x4 := field "D_inner" (de_f64 r) d in
    let? x5 := field "k_f" (de_f64 r) d in
    let? x6 := field "roughness" (de_f64 r) d in
    let? x7 := field "N_total" (de_u32 r) d in
    let? x8 := field "vol_h" (de_f64 r) d in
    let? x9 := field "R_ins" (de_f64 r) d in
    let? x10 := field "W_parasitic" (de_f64 r) d in
    Some (mkHhxNICfg F x0 x1 x2 x3 x4 x5 x6 x7 x8 x9 x10).

  (** src/ws/sinusoidal_drive.rs:23-37 *)
  Definition de_sinusoidal (r : Rd) (d : D) : option (SinConfig F) :=
    let? x0 := field "frequency" (de_f64 r) d in
    let? x1 := field "phase_angle" (de_f64 r) d in
    let? x2 := field "V_swept_c" (de_f64 r) d in
    let? x3 := field "V_clearance_c" (de_f64 r) d in
    let? x4 := field "R_c" (de_f64 r) d in
    let? x5 := field "W_parasitic_c" (de_f64 r) d in
    let? x6 := field "V_swept_e" (de_f64 r) d in
    let? x7 := field "V_clearance_e" (de_f64 r) d in
    let? x8 := field "R_e" (de_f64 r) d in
    let? x9 := field "W_parasitic_e" (de_f64 r) d in
    let? x10 := field "Q_parasitic_e" (de_f64 r) d in
    Some (mkSinCfg x0 x1 x2 x3 x4 x5 x6 x7 x8 x9 x10).

  (** src/ws/rhombic_drive.rs:43-59 *)
  Definition de_rhombic (r : Rd) (d : D) : option (RhConfig F) :=
    let? x0 := field "frequency" (de_f64 r) d in
    let? x1 := field "V_clearance_c" (de_f64 r) d in
    let? x2 := field "R_c" (de_f64 r) d in
    let? x3 := field "W_parasitic_c" (de_f64 r) d in
    let? x4 := field "V_clearance_e" (de_f64 r) d in
    let? x5 := field "R_e" (de_f64 r) d in
    let? x6 := field "W_parasitic_e" (de_f64 r) d in
    let? x7 := field "Q_parasitic_e" (de_f64 r) d in
    let? x8 := field "r_crank" (de_f64 r) d in
    let? x9 := field "L_conn" (de_f64 r) d in
    let? x10 := field "eccentricity" (de_f64 r) d in
    let? x11 := field "D_p" (de_f64 r) d in
    let? x12 := field "D_d" (de_f64 r) d in
    Some (mkRhCfg x0 x1 x2 x3 x4 x5 x6 x7 x8 x9 x10 x11 x12).

  (** src/ws/gpu3.rs:7-22 *)
  Definition de_ws_gpu3 (r : Rd) (d : D) : option (WsGpu3Config F) :=
    let? x0 := field "frequency" (de_f64 r) d in
    let? x1 := field "V_clearance_c" (de_f64 r) d in
    let? x2 := field "R_c" (de_f64 r) d in
    let? x3 := field "V_clearance_e" (de_f64 r) d in
    let? x4 := field "R_e" (de_f64 r) d in
    let? x5 := field "r_crank" (de_f64 r) d in
    let? x6 := field "L_conn" (de_f64 r) d in
    let? x7 := field "eccentricity" (de_f64 r) d in
    let? x8 := field "D" (de_f64 r) d in
    let? x9 := field "D_dr" (de_f64 r) d in
    let? x10 := field "L" (de_f64 r) d in
    let? x11 := field "h" (de_f64 r) d in
    Some (mkWsGpu3Cfg F x0 x1 x2 x3 x4 x5 x6 x7 x8 x9 x10 x11).

  (** src/ws/mod2.rs:9-28 *)
  Definition de_ws_mod2 (r : Rd) (d : D) : option (WsMod2Config F) :=
    let? x0 := field "frequency" (de_f64 r) d in
    let? x1 := field "phaseAngle" (de_f64 r) d in
    let? x2 := field "D" (de_f64 r) d in
    let? x3 := field "h" (de_f64 r) d in
    let? x4 := field "L" (de_f64 r) d in
    let? x5 := field "stroke" (de_f64 r) d in
    let? x6 := field "V_clearance_c" (de_f64 r) d in
    let? x7 := field "R_c" (de_f64 r) d in
    let? x8 := field "V_clearance_e" (de_f64 r) d in
    let? x9 := field "R_e" (de_f64 r) d in
    let? x10 := field "material_p" (de_material r) d in
    let? x11 := field "material_c" (de_material r) d in
    let? x12 := field "th_pw" (de_f64 r) d in
    let? x13 := field "th_cw" (de_f64 r) d in
    let? x14 := field "L_cond" (de_f64 r) d in
    let? x15 := field "e" (de_f64 r) d in
    Some (mkWsMod2Cfg F x0 x1 x2 x3 x4 x5 x6 x7 x8 x9 x10 x11 x12 x13 x14 x15).

  (** src/fluid.rs:95-102 *)
  Definition de_fluid_model (r : Rd) : D -> option FluidModelConfig :=
    de_internal_unit r "model"
      [(snake_case "Custom", FM_Custom); (snake_case "Fit", FM_Fit);
       (snake_case "IdealGas", FM_IdealGas); (snake_case "RefProp", FM_RefProp)].
  Definition variant {A B} (read : D -> option A) (con : A -> B) (d : D) : option B :=
    let? a := read d in Some (con a).
  (** src/fluid.rs:88-93 *)
  Definition de_fluid (r : Rd) : D -> option FluidConfig :=
    de_external r
      [(snake_case "Hydrogen", variant (de_fluid_model r) FC_Hydrogen);
       (snake_case "Helium", variant (de_fluid_model r) FC_Helium)].
  (** src/chx.rs:50-57 *)
  Definition de_chx (r : Rd) : D -> option (ChxConfig F) :=
    de_external r
      [(snake_case "FixedApproach", variant (de_chx_fa r) CC_FixedApproach);
       (snake_case "FixedConductance", variant (de_chx_fc r) CC_FixedConductance);
       (snake_case "GPU3", variant (de_chx_gpu3 r) CC_GPU3);
       (snake_case "Mod2", variant (de_chx_mod2 r) CC_Mod2)].
  (** src/regen.rs:53-60 *)
  Definition de_regen (r : Rd) : D -> option (RegenConfig F) :=
    de_external r
      [(snake_case "FixedApproach", variant (de_regen_fa r) RC_FixedApproach);
       (snake_case "FixedConductance", variant (de_regen_fc r) RC_FixedConductance);
       (snake_case "GPU3", variant (de_regen_gpu3 r) RC_GPU3);
       (snake_case "Mod2", variant (de_regen_mod2 r) RC_Mod2)].
  (** src/hhx.rs:53-62 *)
  Definition de_hhx (r : Rd) : D -> option (HhxConfig F) :=
    de_external r
      [(snake_case "FixedApproach", variant (de_hhx_fa r) HC_FixedApproach);
       (snake_case "FixedConductance", variant (de_hhx_fc r) HC_FixedConductance);
       (snake_case "GPU3", variant (de_hhx_gpu3 r) HC_GPU3);
       (snake_case "Mod2", variant (de_hhx_mod2 r) HC_Mod2);
       (snake_case "GPU3NI", variant (de_hhx_ni r) HC_GPU3NI);
       (snake_case "Mod2NI", variant (de_hhx_ni r) HC_Mod2NI)].
  (** src/ws.rs:76-83 *)
  Definition de_ws (r : Rd) : D -> option (WsConfig F) :=
    de_external r
      [(snake_case "Sinusoidal", variant (de_sinusoidal r) WC_Sinusoidal);
       (snake_case "Rhombic", variant (de_rhombic r) WC_Rhombic);
       (snake_case "GPU3", variant (de_ws_gpu3 r) WC_GPU3);
       (snake_case "Mod2", variant (de_ws_mod2 r) WC_Mod2)].
  (** src/engine.rs:85-91 *)
  Definition de_components (r : Rd) (d : D) : option (ComponentsConfig F) :=
    let? chx := field "chx" (de_chx r) d in
    let? hhx := field "hhx" (de_hhx r) d in
    let? regen := field "regen" (de_regen r) d in
    let? ws := field "ws" (de_ws r) d in
    Some (mkComponentsCfg chx hhx regen ws).
  (** src/engine.rs:79-83 *)
  Definition de_engine (r : Rd) (d : D) : option (EngineConfig F) :=
    let? fluid := field "fluid" (de_fluid r) d in
    let? components := field "components" (de_components r) d in
    Some (mkEngineCfg fluid components).
  (** src/config.rs:9-14 *)
  Definition de_config (r : Rd) (d : D) : option (Config F) :=
    let? engine := field "engine" (de_engine r) d in
    let? solver := field "solver" (de_solver r) d in
    let? conditions := field "conditions" (de_conditions r) d in
    Some (mkConfig engine solver conditions).

  (** ** Legacy documents *)
  Section Legacy.
  Variables direct buffered : Rd.
  Definition holds {A B} (read : Rd -> D -> option A) (con : A -> B) : (Rd -> D -> option B) + B :=
    inl (fun r d => let? a := read r d in Some (con a)).
  (** src/fluid.rs:112-120 *)
  Definition de_legacy_gas (r : Rd) (d : D) : option LegacyFluidOption := field "name" (de_fluid_option r) d.
  (** src/fluid.rs:104-110 *)
  Definition de_legacy_fluid : D -> option LegacyFluidConfig :=
    de_adjacent direct buffered "model" "params"
      [("Hydrogen", inr LFC_Hydrogen); ("RealGasRefprop", holds de_legacy_gas LFC_RealGasRefprop);
       ("IdealGas", holds de_legacy_gas LFC_IdealGas)].
  (** src/ws.rs:85-92 *)
  Definition de_legacy_ws : D -> option (LegacyWsConfig F) :=
    de_adjacent direct buffered "model" "params"
      [("Sinusoidal", holds de_sinusoidal LWC_Sinusoidal); ("Rhombic", holds de_rhombic LWC_Rhombic);
       ("GPU3", holds de_ws_gpu3 LWC_GPU3); ("Mod2", holds de_ws_mod2 LWC_Mod2)].
  (** src/chx.rs:60-67 *)
  Definition de_legacy_chx : D -> option (LegacyChxConfig F) :=
    de_adjacent direct buffered "model" "params"
      [("FixedApproach", holds de_chx_fa LCC_FixedApproach); ("FixedConductance", holds de_chx_fc LCC_FixedConductance);
       ("GPU3", holds de_chx_gpu3 LCC_GPU3); ("Mod2", holds de_chx_mod2 LCC_Mod2)].
  (** src/regen.rs:63-70 *)
  Definition de_legacy_regen : D -> option (LegacyRegenConfig F) :=
    de_adjacent direct buffered "model" "params"
      [("FixedApproach", holds de_regen_fa LRC_FixedApproach); ("FixedConductance", holds de_regen_fc LRC_FixedConductance);
       ("GPU3", holds de_regen_gpu3 LRC_GPU3); ("Mod2", holds de_regen_mod2 LRC_Mod2)].
  (** src/hhx.rs:65-74 *)
  Definition de_legacy_hhx : D -> option (LegacyHhxConfig F) :=
    de_adjacent direct buffered "model" "params"
      [("FixedApproach", holds de_hhx_fa LHC_FixedApproach); ("FixedConductance", holds de_hhx_fc LHC_FixedConductance);
       ("GPU3", holds de_hhx_gpu3 LHC_GPU3); ("Mod2", holds de_hhx_mod2 LHC_Mod2);
       ("GPU3NI", holds de_hhx_ni LHC_GPU3NI); ("Mod2NI", holds de_hhx_ni LHC_Mod2NI)].
  (** src/config.rs:16-25 *)
  Definition de_legacy (d : D) : option (Legacy F) :=
    let? fluid := field "fluid" de_legacy_fluid d in
    let? ws := field "ws" de_legacy_ws d in
    let? chx := field "chx" de_legacy_chx d in
    let? regen := field "regen" de_legacy_regen d in
    let? hhx := field "hhx" de_legacy_hhx d in
    let? solver := field "solver" (de_legacy_solver direct) d in
    let? conditions := field "conditions" (de_legacy_conditions direct) d in
    Some (mkLegacy fluid ws chx regen hhx solver conditions).
  End Legacy.
End Serde.
