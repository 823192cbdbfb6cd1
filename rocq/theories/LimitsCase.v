(** * Concrete cases for C102 *)
From Coq Require Import ZArith NArith List Lia.
From Verif Require Import Num ModelTypes ModelWs ModelHx ModelStateEq ModelEngine ModelApi
  Spec SpecLoop SpecLimits PolyLimits B64 Fixture Demo Witness.

Notation fc_run_with inner outer :=
  (Engine_run demo_env gauss fc_comps helium demo_inputs (with_limits (settings_of fc_config) inner outer)).
(** the engine with fixed conductances needs more than one pass, and at most five *)
Lemma fc_needs : exists e k, (1 < k <= 5)%N /\
  forall outer, fc_run_with 10 outer = from_limit k outer (Ret (Err OuterLoop)) (Ret (Ok e)).
Proof.
  destruct fc_runs as (e & H & _). exists e.
  destruct (outer_limit_needed demo_env gauss fc_comps helium demo_inputs (settings_of fc_config) e H) as (k & Hk & K).
  change (mi_inner (rs_max_iters (settings_of fc_config))) with 10%N in K.
  change (mi_outer (rs_max_iters (settings_of fc_config))) with 5%N in Hk.
  exists k. split; [split; [|apply Hk]|exact K].
  pose proof (K 1%N) as K1. unfold from_limit in K1. destruct (N.ltb_spec 1 k) as [L|L]; [exact L|]. exfalso.
  assert (Z : fc_run_with 10 1 = Ret (Err OuterLoop)) by exact outer_runs.
  rewrite Z in K1. discriminate K1.
Qed.
Lemma fc_reached inner outer e : (10 <= inner)%N -> (5 <= outer)%N ->
  Engine_run demo_env gauss fc_comps helium demo_inputs (settings_of fc_config) = Ret (Ok e) ->
  fc_run_with inner outer = Ret (Ok e).
Proof.
  intros Hi Ho H. rewrite <- H. apply limits_raised; [exact Hi|exact Ho|]. intros e'. rewrite H. discriminate.
Qed.
