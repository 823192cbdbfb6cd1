(** * Specification of the two iteration loops, for any number type

    The loops are described as runs of a step relation; how one integration is
    computed and how its points become state values is left abstract here. *)
From Coq Require Import ZArith NArith List.
From Verif Require Import Num ModelTypes ModelWs ModelHx ModelStateEq ModelEngine ModelApi Spec.
Import ListNotations.
Local Open Scope num_scope.

Section SpecLoop.
  Context {F : Type} {ops : NumOps F}.

  (** ** Inner loop: the search for a cyclic steady state *)

  (** an integration that ends where it started, within tolerance *)
  Definition cyclic (tol : ConvergenceTolerance F) (pts : list (Point F)) : Prop :=
    exists first last pre post,
      pts = first :: post /\ pts = pre ++ [last] /\
      close tol (cd_T_c (pt_conditions first)) (cd_T_c (pt_conditions last)) /\
      close tol (cd_T_e (pt_conditions first)) (cd_T_e (pt_conditions last)).

  (** one unsuccessful round: integrate between two points from [ic], not
      cyclic, continue from the final temperatures and the same pressure *)
  Definition inner_round (integ : Conditions F -> N -> outcome (result (list (Point F)) CycleError))
      (P0 : F) (tol : ConvergenceTolerance F) (ic ic' : Conditions F) : Prop :=
    exists pts pre last,
      integ ic 2%N = Ret (Ok pts) /\ pts = pre ++ [last] /\ ~ cyclic tol pts /\
      ic' = mkCond P0 (cd_T_c (pt_conditions last)) (cd_T_e (pt_conditions last)).

  (** All outcomes of a search with at most [n] rounds and [pn] points in the
      final integration; [k] is the number of integrations performed. *)
  Inductive inner_search (integ : Conditions F -> N -> outcome (result (list (Point F)) CycleError))
      (to_values : list (Point F) -> outcome (list (SeValues F)))
      (P0 : F) (tol : ConvergenceTolerance F) (pn : N) (n : nat) (ic0 : Conditions F)
    : nat -> outcome (result (list (SeValues F)) CycleError) -> Prop :=
  | inner_exhausted ic :
      steps (inner_round integ P0 tol) n ic0 ic ->
      inner_search integ to_values P0 tol pn n ic0 n (Ret (Err DidNotConverge))
  | inner_round_error j ic e : (j < n)%nat ->
      steps (inner_round integ P0 tol) j ic0 ic -> integ ic 2%N = Ret (Err e) ->
      inner_search integ to_values P0 tol pn n ic0 (j + 1) (Ret (Err e))
  | inner_round_panic j ic p : (j < n)%nat ->
      steps (inner_round integ P0 tol) j ic0 ic -> integ ic 2%N = Panic p ->
      inner_search integ to_values P0 tol pn n ic0 (j + 1) (Panic p)
  | inner_round_empty j ic : (j < n)%nat ->
      steps (inner_round integ P0 tol) j ic0 ic -> integ ic 2%N = Ret (Ok []) ->
      inner_search integ to_values P0 tol pn n ic0 (j + 1) (Panic PEmpty)
  | inner_final_error j ic pts e : (j < n)%nat ->
      steps (inner_round integ P0 tol) j ic0 ic -> integ ic 2%N = Ret (Ok pts) -> cyclic tol pts ->
      integ ic pn = Ret (Err e) ->
      inner_search integ to_values P0 tol pn n ic0 (j + 2) (Ret (Err e))
  | inner_final_panic j ic pts p : (j < n)%nat ->
      steps (inner_round integ P0 tol) j ic0 ic -> integ ic 2%N = Ret (Ok pts) -> cyclic tol pts ->
      integ ic pn = Panic p ->
      inner_search integ to_values P0 tol pn n ic0 (j + 2) (Panic p)
  | inner_values_panic j ic pts pts' p : (j < n)%nat ->
      steps (inner_round integ P0 tol) j ic0 ic -> integ ic 2%N = Ret (Ok pts) -> cyclic tol pts ->
      integ ic pn = Ret (Ok pts') -> to_values pts' = Panic p ->
      inner_search integ to_values P0 tol pn n ic0 (j + 2) (Panic p)
  | inner_found j ic pts pts' vs : (j < n)%nat ->
      steps (inner_round integ P0 tol) j ic0 ic -> integ ic 2%N = Ret (Ok pts) -> cyclic tol pts ->
      integ ic pn = Ret (Ok pts') -> to_values pts' = Ret vs ->
      inner_search integ to_values P0 tol pn n ic0 (j + 2) (Ret (Ok vs)).

  (** ** Outer loop *)

  (** the state an engine starts from *)
  Definition initial_state (comps : Components F) (fl : Fluid F) (inputs : RunInputs F)
      (s : State F) : Prop :=
    exists a_k a_r a_l,
      ex_initial_approach (co_chx comps) = Ret a_k /\
      ex_initial_approach (co_regen comps) = Ret a_r /\
      ex_initial_approach (co_hhx comps) = Ret a_l /\
      temperatures_follow (ri_temp_sink inputs) (ri_temp_source inputs) a_k a_r a_l n0 (s_temp s) /\
      s_fluid s = fl /\ s_regen_imbalance s = n0 /\
      s_pres s = mkPressure (ri_pres_zero inputs) (ri_pres_zero inputs) (ri_pres_zero inputs)
                   (ri_pres_zero inputs) /\
      s_mass_flow s = mkMassFlows n0 n0 n0 /\
      s_heat_flow s = mkHeatFlows n0 n0 n0.

  (** [v] are steady-state values found for state [s] after [k] integrations,
      or the search fails: the inner search on the cycle of [s], started at the
      state's initial pressure and the exchanger temperatures *)
  Definition steady_search (E : Env F) (U : Decomp F) (comps : Components F)
      (settings : RunSettings F) (s : State F) (k : nat)
      (r : outcome (result (list (SeValues F)) CycleError)) : Prop :=
    exists c, is_cycle_of comps (s_fluid s) (s_pres s) (s_temp s) c /\
      inner_search
        (fun ic n => try_from E U c ic n (rs_ode_tol settings))
        (into_state_values U c)
        (pr_t_zero (s_pres s)) (lt_inner (rs_loop_tol settings)) (rs_resolution settings)
        (N.to_nat (mi_inner (rs_max_iters settings)))
        (mkCond (pr_t_zero (s_pres s)) (te_chx (s_temp s)) (te_hhx (s_temp s)))
        k r.

  (** the averages of [v] *)
  Definition averages (comps : Components F) (s : State F) (v : Values F)
      (p : Pressure F) (m : MassFlows F) (q : HeatFlows F) : Prop :=
    time_average (vs_time v) (vs_P v) (pr_avg p) /\
    (exists P', vs_P v = pr_t_zero p :: P') /\
    In (pr_max p) (vs_P v) /\ In (pr_min p) (vs_P v) /\
    mass_flow_averages v m /\
    exists R, ws_thermal_resistance (co_ws comps) (mkWsState (s_pres s)) = Ret R /\
              heat_flow_averages v (te_chx (s_temp s)) (te_hhx (s_temp s)) R q.

  (** the state [s] reproduces itself: temperatures recomputed from [v] are
      within tolerance of its own *)
  Definition outer_converged (comps : Components F) (tol : ConvergenceTolerance F)
      (s : State F) (v : Values F) : Prop :=
    exists P m q T',
      recomputed comps (s_fluid s) (s_pres s) (s_temp s) (s_regen_imbalance s) v P m q T' /\
      temperatures_close tol (s_temp s) T'.

  (** one unconverged outer iteration from [s] to [s'], performing [k]
      integrations *)
  Definition outer_round (E : Env F) (U : Decomp F) (comps : Components F)
      (settings : RunSettings F) (s : State F) (k : nat) (v : Values F) (s' : State F) : Prop :=
    exists vs,
      steady_search E U comps settings s k (Ret (Ok vs)) /\ series_of vs v /\
      averages comps s v (s_pres s') (s_mass_flow s') (s_heat_flow s') /\
      recomputed comps (s_fluid s) (s_pres s) (s_temp s) (s_regen_imbalance s) v
        (pr_avg (s_pres s')) (s_mass_flow s') (s_heat_flow s') (s_temp s') /\
      ~ temperatures_close (lt_outer (rs_loop_tol settings)) (s_temp s) (s_temp s') /\
      s_fluid s' = s_fluid s /\ s_regen_imbalance s' = s_regen_imbalance s.

  (** [n] unconverged outer iterations with [k] integrations altogether *)
  Inductive outer_rounds (E : Env F) (U : Decomp F) (comps : Components F)
      (settings : RunSettings F) : nat -> State F -> nat -> State F -> Prop :=
  | outer_rounds_O s : outer_rounds E U comps settings 0 s 0 s
  | outer_rounds_S n s1 k v s2 k' s3 :
      outer_round E U comps settings s1 k v s2 -> outer_rounds E U comps settings n s2 k' s3 ->
      outer_rounds E U comps settings (S n) s1 (k + k') s3.
End SpecLoop.
