(** * Theorems about the accuracy of the gas properties in f64 *)
From Coq Require Import ZArith NArith List Reals.
From Flocq Require Import Core BinarySingleNaN.
From Verif Require Import Num ModelTypes B64 SpecF64 SpecRound SpecRange SpecProps F64Props F64PropsCase.
Local Open Scope R_scope.

(** C130: in f64 the properties of both ideal gases are right up to a few roundings *)
Theorem C130_accuracy (lm : Libm) (nan_top : bool) (g : GasName) (T P : b64) : ordinary_temp T -> ordinary_pres P ->
  accurate_properties g (IdealGas_Fluid (ops := b64_ops lm nan_top) (IdealGas_new (ops := b64_ops lm nan_top) g)) T P.
Proof. exact (accuracy lm nan_top g T P). Qed.
Print Assumptions C130_accuracy.
Theorem C130_case (lm : Libm) (nt : bool) : let fl := IdealGas_Fluid (ops := b64_ops lm nt) (IdealGas_new (ops := b64_ops lm nt) Hydrogen) in
  ordinary_temp warm /\ ordinary_pres ten_bar /\
  Rabs (value (fl_cp fl warm ten_bar) - 14318.8524103134) <= 0.0000000001 /\
  Rabs (value (fl_enth fl warm ten_bar) - 684012.125061195) <= 0.00000001.
Proof. exact (warm_hydrogen lm nt). Qed.
Print Assumptions C130_case.
