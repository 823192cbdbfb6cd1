(** * Specification: when rounding cannot mislead the search for flow directions *)
From Coq Require Import ZArith NArith List Reals.
From Flocq Require Import Core BinarySingleNaN.
From Verif Require Import Num ModelTypes ModelWs ModelHx ModelStateEq ModelEngine RNum B64 Spec SpecR SpecF64 SpecBalance.
Local Open Scope R_scope.

(** a computed flow whose error is smaller than the flow itself *)
Definition resolves (m : R) (m' : b64) : Prop := finite m' /\ Rabs (value m' - m) < Rabs m.
Definition resolves_flows (s : Solution R) (s' : Solution b64) : Prop :=
  resolves (so_m_dot_ck s) (so_m_dot_ck s') /\ resolves (so_m_dot_kr s) (so_m_dot_kr s') /\
  resolves (so_m_dot_rl s) (so_m_dot_rl s') /\ resolves (so_m_dot_le s) (so_m_dot_le s').
(** for all flow directions the solver [D'] in f64 computes such flows for the
    state equations of the f64 inputs [i], which [D] solves exactly *)
Definition resolving {ops : NumOps b64} (D : Decomp R) (D' : Decomp b64) (i : Inputs b64) : Prop :=
  forall d s, solves_for D (input_values i) d s -> exists s', solves_for D' i d s' /\ resolves_flows s s'.
