(** * Specification: accuracy of f64 results *)
From Coq Require Import ZArith NArith List Reals.
From Flocq Require Import Core BinarySingleNaN.
From Verif Require Import Num ModelTypes ModelWs ModelHx ModelStateEq ModelEngine B64 SpecF64 SpecSeries.
Import ListNotations.
Local Open Scope R_scope.

(** relative rounding error of one operation, and the absolute one near zero *)
Definition unit_roundoff : R := / 2 ^ 53.
Definition tiny : R := / 2 ^ 1075.
(** relative error after [n] operations *)
Definition growth (n : nat) : R := (1 + unit_roundoff) ^ n - 1.
(** the trapezoids, all counted positively *)
Fixpoint magnitude (pts : list (R * R)) : R :=
  match pts with
  | (x0, y0) :: (((x1, y1) :: _) as pts') => Rabs (y0 + y1) / 2 * Rabs (x1 - x0) + magnitude pts'
  | _ => 0
  end.
Definition panels {A} (pts : list A) : nat := Nat.pred (length pts).
(** points of a time series as exact numbers *)
Definition points (x y : list b64) : list (R * R) := combine (map value x) (map value y).

(** absolute error of an average of [n] panels over [t], all operations together *)
Definition underflow (n : nat) (t : R) : R :=
  (2 * INR n * (1 + unit_roundoff) ^ (n + 1) / t + 1) * tiny.
(** a reported average against the exact trapezoidal average of the samples *)
Definition accurate (got : b64) (x y : list b64) (t : b64) : Prop :=
  let pts := points x y in
  Rabs (value got - average (map value x) (map value y) (value t))
    <= growth (panels pts + 5) * (magnitude pts / value t) + underflow (panels pts) (value t).
(** ... and relative to that average, where [k] roundings precede the average *)
Definition relatively_accurate (k n : nat) (got t exact : R) : Prop :=
  Rabs (got - exact) <= growth (n + 5 + k) * exact + (underflow n t + (1 + unit_roundoff) ^ (n + 5) * tiny).

(** an exchanger whose finite approach temperature differences are not negative *)
Definition approaches_forward {S} (x : Exchanger b64 S) : Prop :=
  (forall a, ex_initial_approach x = Ret a -> finite a -> 0 <= value a) /\
  (forall s a, ex_approach x s = Ret a -> finite a -> 0 <= value a).
(** cosines of finite angles lie between -1 and 1 *)
Definition cosine_bounded (lm : Libm) : Prop :=
  forall x, finite x -> finite (lm_cos lm x) /\ -1 <= value (lm_cos lm x) <= 1.
(** zero or at least the least normal number times two *)
Definition halvable (x : b64) : Prop := value x = 0 \/ bpow radix2 (-1021) <= value x.
