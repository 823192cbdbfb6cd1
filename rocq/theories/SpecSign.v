(** * Specification in f64: signs *)
From Coq Require Import ZArith NArith List Reals.
From Flocq Require Import Core BinarySingleNaN.
From Verif Require Import Num B64 SpecF64.
Local Open Scope R_scope.

(** the sign bit is clear: +0, a positive number, or NaN *)
Definition unsigned (x : b64) : Prop := Bsign x = false.
(** unless it is NaN, [x] carries the sign bit of [y] *)
Definition signed_like (x y : b64) : Prop := is_nan x = true \/ Bsign x = Bsign y.
(** the exponential of a negative number lies between 0 and 1, that of NaN is NaN *)
Definition exponential_bounded (lm : Libm) : Prop :=
  lm_exp lm B754_nan = B754_nan /\
  forall x, is_nan x = false -> Bsign x = true -> finite (lm_exp lm x) /\ 0 <= value (lm_exp lm x) <= 1.
