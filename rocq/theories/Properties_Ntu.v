(** * Theorems about the approach of fixed-conductance exchangers in f64 *)
From Coq Require Import ZArith NArith List Reals.
From Flocq Require Import Core BinarySingleNaN.
From Verif Require Import Num ModelTypes ModelHx B64 SpecF64 SpecRound SpecRange SpecNtu F64Ntu F64NtuCase F64NtuRegen.
Local Open Scope R_scope.

(** C136: in f64 the approach of a fixed-conductance exchanger follows the effectiveness-NTU relation up to errors relative to the temperature change of the gas *)
Theorem C136_chx (lm : Libm) (nan_top : bool) (eps : R) (f : FixedConductance b64) (x : HeatExchanger b64) (T : b64) :
  exp_accurate lm eps -> ordinary_exchanger eps (fc_UA f) x ->
  near_ntu eps (fc_UA f) x (chx_fc_approach (ops := b64_ops lm nan_top) f (mkChxState x T)).
Proof. exact (chx_ntu lm nan_top eps f x T). Qed.
Print Assumptions C136_chx.
Theorem C136_hhx (lm : Libm) (nan_top : bool) (eps : R) (f : FixedConductance b64) (x : HeatExchanger b64) (T : b64) :
  exp_accurate lm eps -> ordinary_exchanger eps (fc_UA f) x ->
  near_ntu eps (fc_UA f) x (hhx_fc_approach (ops := b64_ops lm nan_top) f (mkHhxState x T)).
Proof. exact (hhx_ntu lm nan_top eps f x T). Qed.
Print Assumptions C136_hhx.
Theorem C136_case (nan_top : bool) (T : b64) : exp_accurate floored_exp (/ 2 ^ 52) /\
  ordinary_exchanger (/ 2 ^ 52) (fc_UA (ntu_exchanger nan_top (ntu_1 nan_top))) (ntu_gas nan_top) /\
  Rabs (value (chx_fc_approach (ops := b64_ops floored_exp nan_top) (ntu_exchanger nan_top (ntu_1 nan_top)) (mkChxState (ntu_gas nan_top) T))
    - (1 / (1 - exp (- (1))) - 1)) <= 0.0000000000001.
Proof. exact (ntu_case nan_top T). Qed.
Print Assumptions C136_case.
(** where the exponential is below 2^-55 (38 transfer units and more) the approach is exactly zero *)
Theorem C136_vanishes (lm : Libm) (nan_top : bool) (f : FixedConductance b64) (x : HeatExchanger b64) (T : b64) :
  let C := Bmult mode_NE (hx_cp x) (hx_m_dot x) in let e := lm_exp lm (Bopp (Bdiv mode_NE (fc_UA f) C)) in
  upto 100 (Bdiv mode_NE (hx_Q_dot x) C) -> finite e -> 0 <= value e <= / 2 ^ 55 ->
  value (chx_fc_approach (ops := b64_ops lm nan_top) f (mkChxState x T)) = 0.
Proof. exact (vanishes lm nan_top f x T). Qed.
Print Assumptions C136_vanishes.
(** so it is not always positive when heat flows, as it is in exact arithmetic (C32) *)
Theorem C136_positive_refuted (nan_top : bool) (T : b64) :
  ordinary_exchanger (/ 2 ^ 52) (fc_UA (ntu_exchanger nan_top (ntu_40 nan_top))) (ntu_gas nan_top) /\
  0 < value (hx_Q_dot (ntu_gas nan_top)) / 2600 * (1 / (1 - exp (-40)) - 1) /\
  value (chx_fc_approach (ops := b64_ops floored_exp nan_top) (ntu_exchanger nan_top (ntu_40 nan_top)) (mkChxState (ntu_gas nan_top) T)) = 0.
Proof. exact (ntu_zero nan_top T). Qed.
Print Assumptions C136_positive_refuted.
(** C137: in f64 the approach of a fixed-conductance regenerator is that of a balanced counterflow exchanger up to errors relative to the temperature difference *)
Theorem C137_regen (lm : Libm) (nan_top : bool) (f : FixedConductance b64) (x : HeatExchanger b64) (T_chx T_hhx : b64) : ordinary_regen (fc_UA f) x T_chx T_hhx ->
  near_counterflow (fc_UA f) x T_chx T_hhx (regen_fc_approach (ops := b64_ops lm nan_top) f (mkRegenState x T_chx T_hhx)).
Proof. exact (regen_ntu lm nan_top f x T_chx T_hhx). Qed.
Print Assumptions C137_regen.
Theorem C137_case (lm : Libm) (nan_top : bool) :
  ordinary_regen (fc_UA (ntu_exchanger nan_top (ntu_1 nan_top))) (ntu_gas nan_top) (ntu_cold lm nan_top) (ntu_hot lm nan_top) /\
  Rabs (value (regen_fc_approach (ops := b64_ops lm nan_top) (ntu_exchanger nan_top (ntu_1 nan_top)) (mkRegenState (ntu_gas nan_top) (ntu_cold lm nan_top) (ntu_hot lm nan_top))) - 400)
    <= 0.000000000002.
Proof. exact (regen_ntu_case lm nan_top). Qed.
Print Assumptions C137_case.
