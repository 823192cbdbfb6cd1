(** * Specification over f64: what floating point answers mean in real numbers *)
From Coq Require Import ZArith NArith List Reals Bool.
From Flocq Require Import Core BinarySingleNaN.
From Verif Require Import Num B64 ModelTypes ModelWs ModelHx ModelStateEq ModelEngine.
Import ListNotations.
Local Open Scope R_scope.

(** The real number a finite [f64] stands for *)
Definition value (x : b64) : R := B2R x.
Definition finite (x : b64) : Prop := is_finite x = true.
Definition not_a_number (x : b64) : Prop := is_nan x = true.
(** Rounding to the nearest [f64] value, as if the exponent had no upper bound;
    magnitudes from 2^1024 overflow *)
Definition rounded (x : R) : R := round radix2 (SpecFloat.fexp 53 1024) ZnearestE x.
Definition overflows (x : R) : Prop := bpow radix2 1024 <= Rabs x.

(** [x < t] in the reals, for a possibly infinite or NaN threshold *)
Definition below (x : R) (t : b64) : Prop :=
  match t with
  | B754_infinity false => True
  | B754_infinity true => False
  | B754_nan => False
  | _ => x < B2R t
  end.
(** a threshold greater than zero (not NaN) *)
Definition above_zero (t : b64) : Prop := below 0 t.

(** The meaning of the convergence test: both values finite, the old one not
    zero, the rounded change and the rounded quotient below the tolerances *)
Definition small_change (tol : ConvergenceTolerance b64) (old new : b64) : Prop :=
  finite old /\ finite new /\ value old <> 0 /\
  let d := rounded (value new - value old) in
  let q := rounded (d / value old) in
  ~ overflows d /\ below (Rabs d) (ct_abs tol) /\
  ~ overflows q /\ below (Rabs q) (ct_rel tol).

(** tolerance at least as loose *)
Definition looser (tol tol' : ConvergenceTolerance b64) : Prop :=
  Bleb (ct_abs tol) (ct_abs tol') = true /\ Bleb (ct_rel tol) (ct_rel tol') = true.

(** all temperatures of an engine *)
Definition temperatures (T : Temperatures b64) : list b64 :=
  [te_chx T; te_hhx T; rt_cold (te_regen T); rt_avg (te_regen T); rt_hot (te_regen T)].

(** maximum and minimum of a list of floats, by the IEEE comparison *)
Definition highest (x : b64) (l : list b64) : Prop := In x l /\ forall y, In y l -> Bleb y x = true.
Definition lowest (x : b64) (l : list b64) : Prop := In x l /\ forall y, In y l -> Bleb x y = true.
