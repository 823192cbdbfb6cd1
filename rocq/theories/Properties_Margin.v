(** * C93, C94: rounding and the search for flow directions *)
From Coq Require Import ZArith NArith List Reals.
From Flocq Require Import Core BinarySingleNaN.
From Verif Require Import Num ModelTypes ModelWs ModelHx ModelStateEq ModelEngine RNum B64 Fixture Spec SpecR SpecF64
  SpecBalance SpecMargin RGauss F64BalanceCase F64Margin F64MarginCase F64Fragile.
Import ListNotations.
Local Open Scope R_scope.

Theorem C93_same_search (lm : Libm) (nt : bool) (D : Decomp R) (D' : Decomp b64) (i : Inputs b64)
    (hint : FlowDirection) :
  let _ : NumOps b64 := b64_ops lm nt in
  sound D -> complete D -> physical (input_values i) -> resolving D D' i ->
  exists tr s s', solve_traced D (input_values i) hint = (tr, Ok s) /\ solve_traced D' i hint = (tr, Ok s') /\
    resolves_flows s s'.
Proof. exact (margin lm nt D D' i hint). Qed.
Print Assumptions C93_same_search.
Example C93_case : sound gauss /\ complete gauss /\ physical (input_values steady_inputs) /\
  resolving gauss known_flows steady_inputs.
Proof. exact (conj gauss_sound (conj gauss_complete (conj steady_physical steady_resolving))). Qed.

(** expectation: a careful linear solver always leads to a solution for physical inputs *)
Theorem C94_search_settles_refuted : exists (D : Decomp b64) (i : Inputs b64),
  (forall i', careful D (bpow radix2 (-40)) i') /\ physical (input_values i) /\
  (forall hint, solve D i hint = Err FlowDirectionsNotFound) /\
  (forall c p, cy_calculate_inputs c (pt_time p) (pt_conditions p) = i -> into_state_values D c [p] = Panic PSolveFailed) /\
  (forall (Dx : Decomp R) hint, sound Dx -> complete Dx -> exists s, solve Dx (input_values i) hint = Ok s).
Proof.
  exact (ex_intro _ checked_gauss (ex_intro _ turning_inputs
    (conj checked_careful (conj turning_physical (conj turning_fails (conj turning_panics turning_exact)))))).
Qed.
Print Assumptions C94_search_settles_refuted.
