(** * C08, C09, C16, C17: state equations and integration, any number type *)
From Coq Require Import ZArith NArith List.
From Verif Require Import Num ModelTypes ModelWs ModelHx ModelStateEq ModelEngine ModelApi
  Spec SpecLoop SpecApi PolySolve PolyMore B64 Fixture Replay Demo Witness.
Import ListNotations.

(** C08: a solution the solver accepts solves the equations whose interface
    enthalpies are the donor values of its own mass flows - and every such
    solution is accepted when its own directions are the hint *)
Theorem C08_solve_upwind (F : Type) (ops : NumOps F) (T : Decomp F) (i : Inputs F)
    (hint : FlowDirection) (s : Solution F) :
  solve T i hint = Ok s -> upwind_solution T i s.
Proof. exact (solve_upwind T i hint s). Qed.
Print Assumptions C08_solve_upwind.

Theorem C08_solve_accepts (F : Type) (ops : NumOps F) (T : Decomp F) (i : Inputs F) (s : Solution F) :
  upwind_solution T i s -> solve T i (signs s) = Ok s.
Proof. exact (solve_accepts T i s). Qed.
Print Assumptions C08_solve_accepts.

(** C09: the search is bounded and stops for a reason.  [tr] are the flow
    directions tried, in order. *)
Theorem C09_solve_search (F : Type) (ops : NumOps F) (T : Decomp F) (i : Inputs F)
    (hint : FlowDirection) (tr : list FlowDirection) (r : result (Solution F) SolveError) :
  solve_traced T i hint = (tr, r) ->
  (1 <= length tr <= 4)%nat /\
  (exists tr', tr = hint :: tr') /\
  (forall j a b, nth_error tr j = Some a -> nth_error tr (S j) = Some b ->
     exists s, solves_for T i a s /\ b = signs s /\ a <> b) /\
  (exists pre a, tr = pre ++ [a] /\
    (forall s, r = Ok s <-> solves_for T i a s /\ a = signs s) /\
    (r = Err LinearSolveFailed <-> fails_for T i a) /\
    (r = Err FlowDirectionsNotFound <->
       length tr = 4%nat /\ exists s, solves_for T i a s /\ a <> signs s)) /\
  (hint = FlowDirection_default -> forall s, r = Ok s -> (2 <= length tr)%nat).
Proof. exact (solve_search T i hint tr r). Qed.
Print Assumptions C09_solve_search.

(** The traced search is the search *)
Theorem C09_traced_is_solve (F : Type) (ops : NumOps F) (T : Decomp F) (i : Inputs F)
    (hint : FlowDirection) : snd (solve_traced T i hint) = solve T i hint.
Proof. exact eq_refl. Qed.
Print Assumptions C09_traced_is_solve.

(** hydrogen at engine conditions is solved from the default hint, in two solves, with backward flow *)
Example C08_C09_case : exists tr s,
  solve_traced gauss ideal_gas_hydrogen_inputs FlowDirection_default = (tr, Ok s) /\
  length tr = 2%nat /\ n_le n0 (so_m_dot_ck s) = false.
Proof. exact hydrogen_solves. Qed.
(** a solver that always contradicts the hint exhausts the four trials *)
Example C09_exhausted_case : exists tr,
  solve_traced contrary ideal_gas_hydrogen_inputs FlowDirection_default
    = (tr, Err FlowDirectionsNotFound) /\ length tr = 4%nat.
Proof. exact contrary_fails. Qed.

(** C16: the integrator is told the state-equation derivatives and nothing else *)
Theorem C16_integration (F : Type) (ops : NumOps F) (E : Env F) (T : Decomp F) (c : Cycle F)
    (ic : Conditions F) (n : N) (tol : OdeTolerance F) (qs : list (Query F))
    (r : outcome (result (list (Point F)) CycleError)) :
  try_from_traced E T c ic n tol = (qs, r) ->
  Forall (fun q => derivative_at T c (q_time q) (q_y q) (q_dy q)) qs /\
  ((r = Panic POverflow /\ qs = [] /\ n = 0%N /\ env_overflow_checks E = true) \/
   exists k out,
     intervals_for E n k /\
     dialogue T c (env_ode E (period_args c ic k tol)) qs out /\
     match out with
     | Panic p => r = Panic p
     | Ret (Err e) => r = Ret (Err e)
     | Ret (Ok (xs, ys)) => exists pts, r = Ret (Ok pts) /\ points_are xs ys pts
     end).
Proof. exact (integration_spec E T c ic n tol qs r). Qed.
Print Assumptions C16_integration.

(** one question answered, two points reported *)
Example C16_case : exists q pts,
  try_from_traced ask_env gauss constant_cycle any_ic 2 any_tol = ([q], Ret (Ok pts)) /\
  length pts = 2%nat.
Proof. exact constant_integration. Qed.

(** C17: one state value per point, or a panic at the first point whose search fails *)
Theorem C17_state_values (F : Type) (ops : NumOps F) (T : Decomp F) (c : Cycle F)
    (pts : list (Point F)) :
  match into_state_values T c pts with
  | Ret vs => values_of_points T c pts vs
  | Panic r =>
      r = PSolveFailed /\
      exists pre p post vs, pts = pre ++ p :: post /\ values_of_points T c pre vs /\
        search_fails T (cy_calculate_inputs c (pt_time p) (pt_conditions p))
          (last_signs FlowDirection_default vs)
  end.
Proof. exact (into_state_values_from_spec T c pts FlowDirection_default). Qed.
Print Assumptions C17_state_values.

Example C17_case : exists vs,
  into_state_values gauss constant_cycle [mkPoint n0 any_ic; mkPoint n1 any_ic] = Ret vs /\
  length vs = 2%nat.
Proof. exact constant_values. Qed.
Example C17_panic_case :
  into_state_values never constant_cycle [mkPoint n0 any_ic] = Panic PSolveFailed.
Proof. exact Witness.no_values. Qed.
