(** * Number and places of the points of a run, for a solver that adds up steps, f64 *)
From Coq Require Import ZArith NArith List Reals.
From Verif Require Import Num ModelTypes ModelWs ModelHx ModelStateEq ModelEngine ModelApi ModelExamples Spec
  B64 SpecF64 SpecPoints F64Points F64PointsCase Fixture.
Import ListNotations.
Local Open Scope R_scope.

(** C121: a run has exactly the points that were asked for *)
Theorem C121_points (lm : Libm) (nt : bool) (E : Env b64) (D : Decomp b64) (comps : Components b64) (fl : Fluid b64)
    (inputs : RunInputs b64) (settings : RunSettings b64) (e : Engine b64) (freq : b64) :
  adds_times E -> @Engine_run b64 (b64_ops lm nt) E D comps fl inputs settings = Ret (Ok e) ->
  ws_frequency (co_ws comps) (mkWsState (s_pres (en_state e))) = Ret freq ->
  let n := rs_resolution settings in let p := @n_div b64 (b64_ops lm nt) n1 freq in
  (2 <= n < 2 ^ 32)%N -> finite p -> 3 / 10 ^ 14 * (INR (N.to_nat n) - 1) <= value p ->
  (INR (N.to_nat n) + 9) * value p <= 179 ->
  length (vs_time (en_values e)) = N.to_nat n /\
  nth_error (vs_time (en_values e)) 0 = Some (@n0 b64 (b64_ops lm nt)) /\
  forall k t, nth_error (vs_time (en_values e)) k = Some t ->
    finite t /\ Rabs (value t - INR k * (value p / (INR (N.to_nat n) - 1))) <= / 10 ^ 14.
Proof. exact (run_points lm nt E D comps fl inputs settings e freq). Qed.
Print Assumptions C121_points.
Example C121_case : adds_times adding_env /\ (exists e, speed_run (n_lit 70 0) 30 = Ret (Ok e) /\
    ws_frequency (co_ws (at_speed (n_lit 70 0))) (mkWsState (s_pres (en_state e))) = Ret (n_lit 70 0)) /\
  let p := n_div n1 (n_lit 70 0) in
  finite p /\ 3 / 10 ^ 14 * (INR (N.to_nat 30) - 1) <= value p /\ (INR (N.to_nat 30) + 9) * value p <= 179.
Proof. exact speed_case. Qed.

(** the integration that is tested for convergence ends exactly after one period *)
Theorem C121_two (lm : Libm) (nt : bool) (E : Env b64) (D : Decomp b64) (c : Cycle b64) (ic : Conditions b64)
    (tol : OdeTolerance b64) (pts : list (Point b64)) : adds_times E ->
  finite (cy_period c) -> 3 / 10 ^ 14 <= value (cy_period c) <= 16 ->
  @integrates b64 (b64_ops lm nt) E D c ic 1 tol pts ->
  exists first last, pts = [first; last] /\ pt_time first = @n0 b64 (b64_ops lm nt) /\
    finite (pt_time last) /\ value (pt_time last) = value (cy_period c).
Proof. exact (two_points lm nt E D c ic tol pts). Qed.
Print Assumptions C121_two.
Example C121_two_case : exists c ic pts, adds_times adding_env /\ finite (cy_period c) /\ 3 / 10 ^ 14 <= value (cy_period c) <= 16 /\
  integrates adding_env gauss c ic 1 (rs_ode_tol (with_points 30)) pts.
Proof. exact two_case. Qed.

(** it is false for long periods: one cycle in ten seconds, 54 points asked for, 53 reported *)
Theorem C121_refuted : ~ (forall (E : Env b64) (D : Decomp b64) (comps : Components b64) (fl : Fluid b64)
    (inputs : RunInputs b64) (settings : RunSettings b64) (e : Engine b64) (freq : b64),
  adds_times E -> Engine_run E D comps fl inputs settings = Ret (Ok e) ->
  ws_frequency (co_ws comps) (mkWsState (s_pres (en_state e))) = Ret freq ->
  let n := rs_resolution settings in let p := n_div n1 freq in
  (2 <= n < 2 ^ 32)%N -> finite p -> 3 / 10 ^ 14 * (INR (N.to_nat n) - 1) <= value p ->
  length (vs_time (en_values e)) = N.to_nat n).
Proof. exact slow_refutes. Qed.
Print Assumptions C121_refuted.
Example C121_slow : exists e, speed_run (n_lit 1 (-1)) 54 = Ret (Ok e) /\
    ws_frequency (co_ws (at_speed (n_lit 1 (-1)))) (mkWsState (s_pres (en_state e))) = Ret (n_lit 1 (-1)) /\
    length (vs_time (en_values e)) = 53%nat.
Proof. exact slow_run. Qed.

(** the guard is needed: the last of 11 added times at 50 cycles per second is beyond the period *)
Theorem C121_guard_needed : let p := n_div n1 (n_lit 50 0) in
  finite p /\ 3 / 10 ^ 14 * 10 <= value p /\ (11 + 9) * value p <= 179 /\
  value p < value (added n0 (n_div p (n_of_u32 10)) 10).
Proof. exact guard_needed. Qed.
Print Assumptions C121_guard_needed.
