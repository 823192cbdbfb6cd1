(** * Specification: iteration limits (any number type) *)
From Coq Require Import NArith.
From Verif Require Import Num ModelTypes.

(** the same settings with other limits for the two loops *)
Definition with_limits {F} (s : RunSettings F) (inner outer : N) : RunSettings F :=
  mkRunSettings (rs_resolution s) (rs_loop_tol s) (rs_ode_tol s) (mkMaxIters inner outer).
(** an outcome that is [yes] from the limit [k] up and [no] below *)
Definition from_limit {A} (k n : N) (no yes : A) : A := if (n <? k)%N then no else yes.
