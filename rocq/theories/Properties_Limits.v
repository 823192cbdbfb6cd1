(** * C102: iteration limits, any number type *)
From Coq Require Import ZArith NArith List.
From Verif Require Import Num ModelTypes ModelWs ModelHx ModelStateEq ModelEngine ModelApi
  Spec SpecLoop SpecLimits PolyLimits B64 Fixture Demo Witness LimitsCase.

(** raising the limits changes no engine and no panic *)
Theorem C102_raised (F : Type) (ops : NumOps F) (E : Env F) (U : Decomp F) (comps : Components F) (fl : Fluid F)
    (inputs : RunInputs F) (settings : RunSettings F) (inner outer : N) :
  (mi_inner (rs_max_iters settings) <= inner)%N -> (mi_outer (rs_max_iters settings) <= outer)%N ->
  (forall e, Engine_run E U comps fl inputs settings <> Ret (Err e)) ->
  Engine_run E U comps fl inputs (with_limits settings inner outer) = Engine_run E U comps fl inputs settings.
Proof. exact (limits_raised E U comps fl inputs settings inner outer). Qed.
Print Assumptions C102_raised.

(** an engine that is found has a smallest outer limit: below it the outer loop
    gives up, and from it on the limit makes no difference *)
Theorem C102_outer (F : Type) (ops : NumOps F) (E : Env F) (U : Decomp F) (comps : Components F) (fl : Fluid F)
    (inputs : RunInputs F) (settings : RunSettings F) (e : Engine F) :
  Engine_run E U comps fl inputs settings = Ret (Ok e) ->
  exists k, (0 < k <= mi_outer (rs_max_iters settings))%N /\
    forall outer, Engine_run E U comps fl inputs (with_limits settings (mi_inner (rs_max_iters settings)) outer) =
      from_limit k outer (Ret (Err OuterLoop)) (Ret (Ok e)).
Proof. exact (outer_limit_needed E U comps fl inputs settings e). Qed.
Print Assumptions C102_outer.

(** and a smallest inner limit, below which the inner loop gives up *)
Theorem C102_inner (F : Type) (ops : NumOps F) (E : Env F) (U : Decomp F) (comps : Components F) (fl : Fluid F)
    (inputs : RunInputs F) (settings : RunSettings F) (e : Engine F) :
  Engine_run E U comps fl inputs settings = Ret (Ok e) ->
  exists k, (0 < k <= mi_inner (rs_max_iters settings))%N /\
    forall inner, Engine_run E U comps fl inputs (with_limits settings inner (mi_outer (rs_max_iters settings))) =
      from_limit k inner (Ret (Err InnerLoop)) (Ret (Ok e)).
Proof. exact (inner_limit_needed E U comps fl inputs settings e). Qed.
Print Assumptions C102_inner.

(** the limit of one loop does not cure the failure of the other *)
Theorem C102_inner_fails (F : Type) (ops : NumOps F) (E : Env F) (U : Decomp F) (comps : Components F) (fl : Fluid F)
    (inputs : RunInputs F) (settings : RunSettings F) (outer : N) :
  (mi_outer (rs_max_iters settings) <= outer)%N -> Engine_run E U comps fl inputs settings = Ret (Err InnerLoop) ->
  Engine_run E U comps fl inputs (with_limits settings (mi_inner (rs_max_iters settings)) outer) = Ret (Err InnerLoop).
Proof. exact (inner_error_stays E U comps fl inputs settings outer). Qed.
Print Assumptions C102_inner_fails.
Theorem C102_outer_fails (F : Type) (ops : NumOps F) (E : Env F) (U : Decomp F) (comps : Components F) (fl : Fluid F)
    (inputs : RunInputs F) (settings : RunSettings F) (inner : N) :
  (mi_inner (rs_max_iters settings) <= inner)%N -> Engine_run E U comps fl inputs settings = Ret (Err OuterLoop) ->
  Engine_run E U comps fl inputs (with_limits settings inner (mi_outer (rs_max_iters settings))) = Ret (Err OuterLoop).
Proof. exact (outer_error_stays E U comps fl inputs settings inner). Qed.
Print Assumptions C102_outer_fails.

(** with fixed approach temperatures the first pass decides *)
Theorem C102_fixed (F : Type) (ops : NumOps F) (E : Env F) (U : Decomp F) (comps : Components F) (fl : Fluid F)
    (inputs : RunInputs F) (settings : RunSettings F) (outer : N) :
  fixed_approach (co_chx comps) -> fixed_approach (co_regen comps) -> fixed_approach (co_hhx comps) ->
  (forall s0, initial_state comps fl inputs s0 ->
     temperatures_close (lt_outer (rs_loop_tol settings)) (s_temp s0) (s_temp s0)) ->
  (0 < outer)%N ->
  Engine_run E U comps fl inputs (with_limits settings (mi_inner (rs_max_iters settings)) outer) =
    Engine_run E U comps fl inputs (with_limits settings (mi_inner (rs_max_iters settings)) 1) /\
  Engine_run E U comps fl inputs (with_limits settings (mi_inner (rs_max_iters settings)) outer) <> Ret (Err OuterLoop).
Proof. exact (fixed_one_pass E U comps fl inputs settings outer). Qed.
Print Assumptions C102_fixed.

(** an f64 run that needs more than one pass, and any larger limits *)
Example C102_outer_case : exists e k, (1 < k <= 5)%N /\
  forall outer, Engine_run demo_env gauss fc_comps helium demo_inputs (with_limits (settings_of fc_config) 10 outer) =
    from_limit k outer (Ret (Err OuterLoop)) (Ret (Ok e)).
Proof. exact fc_needs. Qed.
Example C102_raised_case (inner outer : N) (e : Engine b64) : (10 <= inner)%N -> (5 <= outer)%N ->
  Engine_run demo_env gauss fc_comps helium demo_inputs (settings_of fc_config) = Ret (Ok e) ->
  Engine_run demo_env gauss fc_comps helium demo_inputs (with_limits (settings_of fc_config) inner outer) = Ret (Ok e).
Proof. exact (fc_reached inner outer e). Qed.
Example C102_inner_fails_case :
  Engine_run demo_env gauss fa_comps helium demo_inputs (settings_of inner_config) = Ret (Err InnerLoop).
Proof. exact inner_runs. Qed.
Example C102_outer_fails_case :
  Engine_run demo_env gauss fc_comps helium demo_inputs (settings_of outer_config) = Ret (Err OuterLoop).
Proof. exact outer_runs. Qed.
Example C102_fixed_case :
  (fixed_approach (co_chx fa_comps) /\ fixed_approach (co_regen fa_comps) /\ fixed_approach (co_hhx fa_comps)) /\
  (forall s0, initial_state fa_comps helium demo_inputs s0 ->
    temperatures_close (lt_outer (rs_loop_tol (settings_of fa_config))) (s_temp s0) (s_temp s0)).
Proof. exact (conj fa_fixed fa_close). Qed.
