(** * Theorems about the temperatures of the regenerator in f64 *)
From Coq Require Import ZArith NArith List Reals.
From Flocq Require Import Core BinarySingleNaN.
From Verif Require Import Num ModelTypes ModelEngine B64 SpecF64 SpecRound SpecRange SpecLogMean F64LogMean F64LogMeanCase.
Local Open Scope R_scope.

(** C135: in f64 the effective regenerator temperature is the log mean up to rounding and the accuracy of the logarithm *)
Theorem C135_temperatures (lm : Libm) (nan_top : bool) (eps top : R) (imbalance chx hhx approach : b64) :
  ln_accurate lm eps top -> resolved_regen eps top imbalance chx hhx approach ->
  near_log_mean eps imbalance chx hhx approach (regen_temp (ops := b64_ops lm nan_top) imbalance chx hhx approach).
Proof. exact (log_mean_f64 lm nan_top eps top imbalance chx hhx approach). Qed.
Print Assumptions C135_temperatures.
Theorem C135_case (nan_top : bool) : ln_accurate floored_log (/ 2 ^ 52) 2.65 /\
  resolved_regen (/ 2 ^ 52) 2.65 (lm_im nan_top) (lm_cold nan_top) (lm_hot nan_top) (lm_app nan_top) /\
  Rabs (value (rt_avg (regen_temp (ops := b64_ops floored_log nan_top) (lm_im nan_top) (lm_cold nan_top) (lm_hot nan_top) (lm_app nan_top)))
    - (794 - 305) / ln (794 / 305)) <= 0.0000000002.
Proof. exact (log_mean_case nan_top). Qed.
Print Assumptions C135_case.
