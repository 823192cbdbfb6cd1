(** * Model: the program examples/run_simple_engine.rs *)
From Coq Require Import ZArith NArith List.
From Verif Require Import Num ModelTypes ModelWs ModelHx ModelStateEq ModelEngine ModelApi.
Import ListNotations.
Local Open Scope num_scope.

Section Examples.
  Context {F : Type} `{NumOps F}.

  (** examples/run_simple_engine.rs:9-12, the source temperature of a step; [step] is an [i32] that
      is never negative, [f64::from] of it is modelled by that of the same [u32] *)
  Definition sweep_temp_source (step : N) : F := n_lit 500 0 + n_lit 5 0 * n_of_u32 step.

  (** examples/run_simple_engine.rs:14-32 *)
  Definition sweep_drive : SinusoidalDrive F :=
    {| sd_frequency := n_lit 70 0; sd_phase_angle := n_lit 90 0;
       sd_comp_geometry := {| sg_clearance_volume := n_lit 2 (-5); sg_swept_volume := n_lit 5 (-4) |};
       sd_exp_geometry := {| sg_clearance_volume := n_lit 2 (-5); sg_swept_volume := n_lit 5 (-4) |};
       sd_thermal_resistance := ThermalResistance_default; sd_parasitics := Parasitics_default |}.
  Definition sweep_components : Components F :=
    {| co_ws := SinusoidalDrive_ws sweep_drive; co_chx := chx_FixedApproach chx_FixedApproach_default;
       co_regen := regen_FixedApproach regen_FixedApproach_default;
       co_hhx := hhx_FixedApproach hhx_FixedApproach_default |}.

  (** examples/run_simple_engine.rs:33-38 *)
  Definition sweep_inputs (temp_source : F) : RunInputs F :=
    {| ri_pres_zero := n_lit 10 6; ri_temp_sink := n_lit 300 0; ri_temp_source := temp_source |}.

  (** examples/run_simple_engine.rs:39-58 *)
  Definition sweep_settings : RunSettings F :=
    {| rs_resolution := 30;
       rs_loop_tol :=
         {| lt_inner := {| ct_abs := n_lit 1 (-2); ct_rel := n_lit 1 (-4) |};
            lt_outer := {| ct_abs := n_lit 1 (-2); ct_rel := n_lit 1 (-4) |} |};
       rs_ode_tol := {| ot_abs := n_lit 1 (-6); ot_rel := n_lit 1 (-6) |};
       rs_max_iters := {| mi_inner := 20; mi_outer := 20 |} |}.

  (** examples/run_simple_engine.rs:63-68, what one step prints *)
  Record Printed := mkPrinted {
    pr_T_hot : F; pr_time : list F; pr_P : list F; pr_T_c : list F; pr_T_e : list F }.

  (** examples/run_simple_engine.rs:12-69, one step of the loop; [LuSolver] is the decomposition [U] *)
  Definition sweep_step (E : Env F) (U : Decomp F) (step : N) : outcome Printed :=
    let temp_source := sweep_temp_source step in
    let! r := Engine_run E U sweep_components (IdealGas_Fluid IdealGas_hydrogen) (sweep_inputs temp_source) sweep_settings in
    match r with
    | Err _ => Panic PNotConverged
    | Ok engine =>
        let values := en_values engine in
        Ret {| pr_T_hot := temp_source; pr_time := vs_time values; pr_P := vs_P values;
               pr_T_c := vs_T_c values; pr_T_e := vs_T_e values |}
    end.

  (** examples/run_simple_engine.rs:8-70: what has been printed, and whether the program panicked *)
  Fixpoint sweep_from (E : Env F) (U : Decomp F) (steps : list N) : list Printed * option panic_reason :=
    match steps with
    | [] => ([], None)
    | step :: steps' =>
        match sweep_step E U step with
        | Panic p => ([], Some p)
        | Ret line => let (lines, p) := sweep_from E U steps' in (line :: lines, p)
        end
    end.
  Definition sweep_main (E : Env F) (U : Decomp F) : list Printed * option panic_reason :=
    sweep_from E U (map N.of_nat (seq 0 101)).
End Examples.
