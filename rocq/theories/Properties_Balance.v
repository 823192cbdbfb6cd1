(** * C92: f64 solutions balance mass and energy up to rounding and the accuracy of the linear solver *)
From Coq Require Import ZArith NArith List Reals.
From Flocq Require Import Core BinarySingleNaN.
From Verif Require Import Num ModelTypes ModelWs ModelHx ModelStateEq ModelEngine B64 Fixture Replay SpecR SpecF64 SpecRound
  SpecBalance F64Balance F64BalanceCase.
Local Open Scope R_scope.

Theorem C92_balances (lm : Libm) (nt : bool) (D : Decomp b64) (e : R) (i : Inputs b64) (hint : FlowDirection)
    (s : Solution b64) :
  let _ : NumOps b64 := b64_ops lm nt in
  careful D e i -> 0 <= e -> solve D i hint = Ok s -> finite_system i s -> finite_solution s ->
  value (in_enth_norm i) <> 0 -> nearly_conserves e (input_values i) (solution_values s).
Proof. exact (balances lm nt D e i hint s). Qed.
Print Assumptions C92_balances.
Theorem C92_totals (lm : Libm) (nt : bool) (D : Decomp b64) (e : R) (i : Inputs b64) (hint : FlowDirection)
    (s : Solution b64) :
  let _ : NumOps b64 := b64_ops lm nt in
  careful D e i -> 0 <= e -> solve D i hint = Ok s -> finite_system i s -> finite_solution s ->
  value (in_enth_norm i) <> 0 -> totals_nearly e (input_values i) (solution_values s).
Proof. exact (fun Hc He Hs HF HS HN => total_balances _ _ _ (balances lm nt D e i hint s Hc He Hs HF HS HN)). Qed.
Print Assumptions C92_totals.
Theorem C92_state_values (lm : Libm) (nt : bool) (D : Decomp b64) (e : R) (c : Cycle b64) (pts : list (Point b64))
    (vs : list (SeValues b64)) :
  let _ : NumOps b64 := b64_ops lm nt in
  0 <= e -> into_state_values D c pts = Ret vs ->
  Forall (fun v => let i := cy_calculate_inputs c (sv_time v) (sv_conditions v) in
    careful D e i -> finite_system i (sv_solution v) -> finite_solution (sv_solution v) ->
    value (in_enth_norm i) <> 0 -> nearly_conserves e (input_values i) (solution_values (sv_solution v))) vs.
Proof. exact (values_balance lm nt D e c pts vs). Qed.
Print Assumptions C92_state_values.
Example C92_case : (forall i, careful checked_gauss (bpow radix2 (-40)) i) /\ exists s,
  solve checked_gauss refprop_hydrogen_inputs FlowDirection_default = Ok s /\ finite_system refprop_hydrogen_inputs s /\
  finite_solution s /\ value (in_enth_norm refprop_hydrogen_inputs) <> 0 /\ n_le n0 (so_m_dot_ck s) = false.
Proof. exact (conj checked_careful balance_case). Qed.
