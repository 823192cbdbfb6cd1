(** * Specification over f64: volumes of the sinusoidal drive *)
From Coq Require Import ZArith NArith List Reals.
From Flocq Require Import Core BinarySingleNaN.
From Verif Require Import Num ModelWs B64 SpecF64 SpecRound SpecRange.
Local Open Scope R_scope.

(** the system's sine and cosine are right within [eps] *)
Definition trig_accurate (lm : Libm) (eps : R) : Prop :=
  forall x, finite x -> Rabs (value (lm_sin lm x) - sin (value x)) <= eps /\
                        Rabs (value (lm_cos lm x) - cos (value x)) <= eps.

(** the crank angle at time [t], for a frequency [f] in Hz and a lead of [phi] degrees *)
Definition crank_angle (f t phi : R) : R := 2 * PI * f * t + phi * PI / 180.
(** error of sine and cosine of the computed angle: the system's own, four
    roundings of the turns made and of the lead, and underflow *)
Definition trig_error (eps f t phi : R) : R := eps + growth 4 * (2 * PI * Rabs (f * t) + Rabs phi * PI / 180) + / 2 ^ 900.

(** a piston moving harmonically: volume and rate up to a few roundings and that error *)
Definition harmonic (eps f t phi : R) (g : SinGeometry b64) (v : Volume b64) : Prop :=
  let c := value (sg_clearance_volume g) in let s := value (sg_swept_volume g) in let a := crank_angle f t phi in
  Rabs (value (v_value v) - (c + s / 2 * (1 + cos a))) <= growth 4 * (Rabs c + Rabs s) + Rabs s / 2 * trig_error eps f t phi + / 2 ^ 900 /\
  Rabs (value (v_deriv v) - - (s * PI * f * sin a)) <= growth 5 * (Rabs s * PI * Rabs f) + Rabs s * PI * Rabs f * trig_error eps f t phi + / 2 ^ 900.
