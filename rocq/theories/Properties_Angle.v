(** * Theorems about the accuracy of the sinusoidal drive in f64 *)
From Coq Require Import ZArith NArith List Reals.
From Flocq Require Import Core BinarySingleNaN.
From Verif Require Import Num ModelTypes ModelWs B64 SpecF64 SpecRound SpecRange SpecAngle F64Angle F64AngleCase.
Local Open Scope R_scope.

(** C131: in f64 the sinusoidal drive moves harmonically up to rounding and the accuracy of sine and cosine *)
Theorem C131_volumes (lm : Libm) (nan_top : bool) (eps : R) (d : SinusoidalDrive b64) (t : b64) :
  cosine_bounded lm -> sine_bounded lm -> trig_accurate lm eps -> ordinary_drive d -> upto 40 t ->
  let v := sin_volumes (ops := b64_ops lm nan_top) d t in
  harmonic eps (value (sd_frequency d)) (value t) 0 (sd_comp_geometry d) (fst v) /\
  harmonic eps (value (sd_frequency d)) (value t) (value (sd_phase_angle d)) (sd_exp_geometry d) (snd v).
Proof. exact (drive_harmonic lm nan_top eps d t). Qed.
Print Assumptions C131_volumes.
Theorem C131_turn (eps f t phi : R) : Rabs (f * t) <= 1 -> Rabs phi <= 360 -> trig_error eps f t phi <= eps + 0.00000000000004.
Proof. exact (first_turn eps f t phi). Qed.
Print Assumptions C131_turn.
Theorem C131_case (nan_top : bool) : cosine_bounded floored_libm /\ sine_bounded floored_libm /\ trig_accurate floored_libm (/ 2 ^ 52) /\
  ordinary_drive (default_drive nan_top) /\ upto 40 (quarter nan_top) /\
  let d := default_drive nan_top in let t := quarter nan_top in
  let v := sin_volumes (ops := b64_ops floored_libm nan_top) d t in
  let c := value (sg_clearance_volume (sd_exp_geometry d)) in
  let s := value (sg_swept_volume (sd_exp_geometry d)) in
  let a := crank_angle (value (sd_frequency d)) (value t) (value (sd_phase_angle d)) in
  Rabs (value (v_value (snd v)) - (c + s / 2 * (1 + cos a))) <= 0.0000000000001 * (Rabs c + Rabs s) + / 2 ^ 900.
Proof. exact (default_case nan_top). Qed.
Print Assumptions C131_case.
