(** * C106: the programs in examples/ *)
From Coq Require Import ZArith NArith List Reals Rpower Ranalysis.
From Flocq Require Import Core BinarySingleNaN.
From Verif Require Import Num ModelTypes ModelWs ModelHx ModelStateEq ModelEngine ModelApi ModelSerde ModelExamples RNum B64 Spec SpecR
  SpecGas SpecKin SpecTraj SpecLaws SpecUnique SpecHydro SpecExist SpecDepend SpecDefault SpecExamples RFluid RStart SerdeDocs
  PolyExamples Fixture Demo F64Examples RExamples.
Import ListNotations.
Local Open Scope R_scope.

(** every line the sweep prints shows a converged engine of its step; it prints all 101 lines, or ends
    at the first step whose run fails *)
Theorem C106_main {F} {ops : NumOps F} (E : Env F) (U : Decomp F) : let (lines, p) := sweep_main E U in
  (forall i line, nth_error lines i = Some line -> shows E U i line) /\
  match p with
  | None => length lines = 101%nat
  | Some q => (length lines < 101)%nat /\ stops E U (length lines) q
  end.
Proof. exact (sweep_output E U). Qed.
Print Assumptions C106_main.
(** the source temperatures are computed without rounding *)
Theorem C106_temps (lm : Libm) (nt : bool) (k : N) : (k <= 100)%N ->
  B2R (@sweep_temp_source b64 (b64_ops lm nt) k) = 500 + 5 * IZR (Z.of_N k) /\
  is_finite (@sweep_temp_source b64 (b64_ops lm nt) k) = true.
Proof. exact (sweep_exact lm nt k). Qed.
Print Assumptions C106_temps.
(** the other two examples run the first step of the sweep, the legacy one to a tighter outer tolerance *)
Theorem C106_config (lm : Libm) (nt : bool) : let ops := b64_ops lm nt in
  exists c, de_config config_reader example_document = Some c /\
    forall E U, run_from_config E U c =
      (let! r := step_run E U 0 in match r with Err _ => Panic PNotConverged | Ok engine => RunResults_from engine end).
Proof. exact (example_runs_f64 lm nt). Qed.
Print Assumptions C106_config.
Theorem C106_legacy (lm : Libm) (nt : bool) : let ops := b64_ops lm nt in
  exists l, de_legacy config_reader buffer_reader example_legacy_document = Some l /\
    forall E U, run_from_config E U (Config_from_legacy l) =
      (let! r := Engine_run E U sweep_components (IdealGas_Fluid IdealGas_hydrogen) (sweep_inputs (sweep_temp_source 0))
         {| rs_resolution := 30;
            rs_loop_tol := {| lt_inner := {| ct_abs := n_lit 1 (-2); ct_rel := n_lit 1 (-4) |};
                              lt_outer := {| ct_abs := n_lit 1 (-4); ct_rel := n_lit 1 (-4) |} |};
            rs_ode_tol := {| ot_abs := n_lit 1 (-6); ot_rel := n_lit 1 (-6) |}; rs_max_iters := {| mi_inner := 20; mi_outer := 20 |} |} in
       match r with Err _ => Panic PNotConverged | Ok engine => RunResults_from engine end).
Proof. exact (legacy_runs_f64 lm nt). Qed.
Print Assumptions C106_legacy.
(** in exact arithmetic the first integration of every step is a solvable problem *)
Theorem C106_sweep (k : N) : exists s r,
  State_new_hint sweep_components (IdealGas_Fluid IdealGas_hydrogen) (sweep_inputs (sweep_temp_source k)) = Ret s /\
  Run_new sweep_components s = Ret r /\
  cy_pres_zero (Run_Cycle r) = 10000000 /\ te_chx (ru_temp r) = 340 /\ te_hhx (ru_temp r) = 400 + 5 * IZR (Z.of_N k) /\
  cy_period (Run_Cycle r) = 1 / 70 /\ smooth_volumes (ru_ws_vol_fn r) /\
  forall lo hi, 0 < cd_P lo -> T_cold <= cd_T_c lo -> T_cold <= cd_T_e lo ->
    (forall a b, physical_box r lo hi a b) /\
    forall D c0 T, sound D -> complete D -> 0 <= T -> in_box lo hi c0 -> lasts D r lo hi c0 0 T.
Proof. exact (sweep_well_posed k). Qed.
Print Assumptions C106_sweep.
Example C106_case : (exists e, step_run frozen_env gauss 0 = Ret (Ok e) /\ length (vs_time (en_values e)) = 2%nat) /\
  (exists e, step_run frozen_env gauss 100 = Ret (Ok e) /\ length (vs_time (en_values e)) = 2%nat) /\
  sweep_main demo_env gauss = ([], Some PSolveFailed).
Proof. exact sweep_case. Qed.
