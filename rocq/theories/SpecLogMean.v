(** * Specification over f64: temperatures of the regenerator *)
From Coq Require Import ZArith NArith List Reals.
From Flocq Require Import Core BinarySingleNaN.
From Verif Require Import Num ModelTypes ModelEngine B64 SpecF64 SpecRound SpecRange.
Import ListNotations.
Local Open Scope R_scope.

(** the system's logarithm is right within [eps] from 1/2 to [top] *)
Definition ln_accurate (lm : Libm) (eps top : R) : Prop :=
  forall x, finite x -> / 2 <= value x <= top -> finite (lm_ln lm x) /\ Rabs (value (lm_ln lm x) - ln (value x)) <= eps.

(** approach temperature differences at both ends of the regenerator, the larger one where the imbalance is *)
Definition cold_end (imbalance approach : R) : R := approach + Rmax 0 (- imbalance).
Definition hot_end (imbalance approach : R) : R := approach + Rmax 0 imbalance.
(** temperatures halfway between the exchangers and the ends of the regenerator *)
Definition cold_mid (imbalance chx approach : R) : R := chx + cold_end imbalance approach / 2.
Definition hot_mid (imbalance hhx approach : R) : R := hhx - hot_end imbalance approach / 2.

(** error of the computed logarithm of the ratio of these temperatures, for sizes [s] *)
Definition log_error (eps s cold : R) : R := eps + 2 * unit_roundoff + 4 * growth 4 * s / cold.

(** temperatures up to 2^18 K whose logarithms differ by twice what can be resolved *)
Definition resolved_regen (eps top : R) (imbalance chx hhx approach : b64) : Prop :=
  let i := value imbalance in let a := value approach in
  let lo := cold_mid i (value chx) a in let hi := hot_mid i (value hhx) a in
  let s := Rabs (value hhx) + Rabs (value chx) + Rabs a + Rabs i in
  Forall (upto 18) [imbalance; chx; hhx; approach] /\ 1 <= lo <= hi /\ 1.001 * hi <= top * lo /\
  2 * log_error eps s lo <= ln (hi / lo).

(** both ends right up to two roundings, the effective temperature is the log mean up to
    roundings of the temperatures and the error of the logarithm, both divided by the logarithm *)
Definition near_log_mean (eps : R) (imbalance chx hhx approach : b64) (r : RegenTemp b64) : Prop :=
  let i := value imbalance in let a := value approach in
  let lo := cold_mid i (value chx) a in let hi := hot_mid i (value hhx) a in
  let s := Rabs (value hhx) + Rabs (value chx) + Rabs a + Rabs i in
  let mean := (hi - lo) / ln (hi / lo) in
  Rabs (value (rt_cold r) - (value chx + cold_end i a)) <= growth 2 * s /\
  Rabs (value (rt_hot r) - (value hhx - hot_end i a)) <= growth 2 * s /\
  Rabs (value (rt_avg r) - mean) <= growth 6 * (2 * s / ln (hi / lo)) + 2 * mean * log_error eps s lo / ln (hi / lo) + / 2 ^ 900.
