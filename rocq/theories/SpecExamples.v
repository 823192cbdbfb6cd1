(** * Specification: the program examples/run_simple_engine.rs *)
From Coq Require Import ZArith NArith List.
From Verif Require Import Num ModelTypes ModelWs ModelHx ModelStateEq ModelEngine ModelApi ModelExamples.
Import ListNotations.

(** the run of one step of the sweep *)
Definition step_run {F} {ops : NumOps F} (E : Env F) (U : Decomp F) (k : N) : outcome (result (Engine F) RunError) :=
  Engine_run E U sweep_components (IdealGas_Fluid IdealGas_hydrogen) (sweep_inputs (sweep_temp_source k)) sweep_settings.
(** [line] shows the series of a converged engine of step [k] *)
Definition shows {F} {ops : NumOps F} (E : Env F) (U : Decomp F) (k : nat) (line : Printed (F := F)) : Prop :=
  exists e, step_run E U (N.of_nat k) = Ret (Ok e) /\
    pr_T_hot line = sweep_temp_source (N.of_nat k) /\ pr_time line = vs_time (en_values e) /\ pr_P line = vs_P (en_values e) /\
    pr_T_c line = vs_T_c (en_values e) /\ pr_T_e line = vs_T_e (en_values e).
(** step [k] ends the program with panic [p] *)
Definition stops {F} {ops : NumOps F} (E : Env F) (U : Decomp F) (k : nat) (p : panic_reason) : Prop :=
  step_run E U (N.of_nat k) = Panic p \/ (exists e, step_run E U (N.of_nat k) = Ret (Err e)) /\ p = PNotConverged.
