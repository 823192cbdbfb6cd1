(** * IEEE-754 double precision: the model over Flocq's binary64

    Round to nearest, ties to even; signed zeros, infinities, one NaN.  Rust's
    [f64] has many NaNs (sign and payload); none of the modelled operations
    looks at them except [total_cmp], which puts a NaN above or below all other
    values depending on its sign: the flag [nan_top] says which, and theorems
    hold for both.  [exp], [ln], [cos] and [sin] are arbitrary functions. *)
From Coq Require Import ZArith NArith Reals Lia.
From Flocq Require Import Core BinarySingleNaN.
From Verif Require Import Num.

Definition b64 : Set := binary_float 53 1024.
#[global] Instance prec_53 : Prec_gt_0 53 := eq_refl.
#[global] Instance prec_lt_1024 : Prec_lt_emax 53 1024 := eq_refl.

(** [m * 2^e] rounded; a zero has the sign of nothing (+0) *)
Definition b64_norm (m e : Z) : b64 := binary_normalize 53 1024 _ _ mode_NE m e false.

(** A decimal literal.  Negative exponents: one division of two integers, which
    are exactly representable (hence the literal correctly rounded) for
    [|m| <= 2^53] and [-e <= 22]; all literals of the source satisfy this. *)
Definition b64_lit (m e : Z) : b64 :=
  match e with
  | Z0 => b64_norm m 0
  | Zpos p => b64_norm (m * Z.pow_pos 10 p) 0
  | Zneg p => Bdiv mode_NE (b64_norm m 0) (b64_norm (Z.pow_pos 10 p) 0)
  end.

(** the system's mathematical library *)
Record Libm := mkLibm { lm_exp : b64 -> b64; lm_ln : b64 -> b64; lm_cos : b64 -> b64; lm_sin : b64 -> b64 }.

Definition b64_is_inf (x : b64) : bool := match x with B754_infinity _ => true | _ => false end.

(** [f64::total_cmp]: like [<=], but -0 below +0 and NaN at the top (or bottom) *)
Definition b64_total_le (nan_top : bool) (x y : b64) : bool :=
  match x, y with
  | B754_nan, B754_nan => true
  | B754_nan, _ => negb nan_top
  | _, B754_nan => nan_top
  | B754_zero sx, B754_zero sy => orb sx (negb sy)
  | _, _ => Bleb x y
  end.

(** [std::f64::consts::PI] is 0x400921FB54442D18 *)
Definition b64_pi : b64 := b64_norm 7074237752028440 (-51).

#[global] Instance b64_ops (lm : Libm) (nan_top : bool) : NumOps b64 := {|
  n_lit := b64_lit;
  n_of_u32 := fun n => b64_norm (Z.of_N n) 0;
  n_add := Bplus mode_NE; n_sub := Bminus mode_NE; n_mul := Bmult mode_NE; n_div := Bdiv mode_NE;
  n_opp := Bopp; n_abs := Babs; n_sqrt := Bsqrt mode_NE;
  n_exp := lm_exp lm; n_ln := lm_ln lm; n_cos := lm_cos lm; n_sin := lm_sin lm;
  n_pi := b64_pi;
  n_inf := B754_infinity false; n_is_inf := b64_is_inf;
  n_lt := Bltb; n_le := Bleb;
  n_total_le := b64_total_le nan_top |}.
