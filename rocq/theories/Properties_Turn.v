(** * Properties of engines turned end for end *)
From Coq Require Import ZArith NArith List Reals.
From Verif Require Import Num ModelTypes ModelWs ModelHx ModelStateEq ModelEngine ModelApi RNum Spec SpecR SpecGas
  SpecKin SpecTraj SpecLaws SpecUnique SpecSteady SpecSeries SpecReport SpecSample SpecSimilar SpecTurn Fixture RGauss RCase RBounds RSampleCase
  RTurn RTurnCase.
Import ListNotations.
Local Open Scope R_scope.

(** C123: an engine with hot and cold end exchanged passes through the same states seen from the other
    end, does the same work, and takes up heat where the other gives it off. *)
Theorem C123_solution (t0 : R) (pr : Pressure R) (r : Run R) (D : Decomp R) (t : R) (c : Conditions R)
    (hint hint' : FlowDirection) (s : Solution R) :
  sound D -> complete D -> physical (Run_calculate_inputs r (t + t0) c) ->
  solve D (Run_calculate_inputs r (t + t0) c) hint = Ok s ->
  solve D (Run_calculate_inputs (turned_run t0 pr r) t (mirror_conditions c)) hint' = Ok (mirror_solution s).
Proof. exact (turned_solves t0 pr r D t c hint hint' s). Qed.
Print Assumptions C123_solution.
Theorem C123_trajectory (t0 : R) (pr : Pressure R) (r : Run R) (D : Decomp R) (c : R -> Conditions R) (t : R) :
  sound D -> complete D -> physical_trajectory D r c (t + t0) ->
  physical_trajectory D (turned_run t0 pr r) (turned_trajectory t0 c) t.
Proof. exact (turned_physical_trajectory t0 pr r D c t). Qed.
Print Assumptions C123_trajectory.
Theorem C123_steady (t0 : R) (pr : Pressure R) (r : Run R) (D : Decomp R) (c : R -> Conditions R) :
  sound D -> complete D -> 0 <= t0 -> steady_cycle D r c ->
  steady_cycle D (turned_run t0 pr r) (turned_trajectory t0 c).
Proof. exact (turned_steady t0 pr r D c). Qed.
Print Assumptions C123_steady.
(** exchanging the pistons of a sinusoidal drive and reversing the phase *)
Theorem C123_sinusoidal (d : SinusoidalDrive R) (t0 t : R) : turned_by d t0 ->
  sin_volumes (turned_sin d) t = turned_volumes t0 (sin_volumes d) t.
Proof. exact (turned_sin_volumes d t0 t). Qed.
Print Assumptions C123_sinusoidal.
(** engines with fixed approaches: the turned engine between the same two temperatures, exchanged *)
Theorem C123_initial (fl : Fluid R) (d : SinusoidalDrive R) (a b c : FixedApproach R) (i i' : RunInputs R) (s s' : State R) :
  0 < ri_temp_source i - fa_approach c - / 2 * fa_approach b -> 0 < ri_temp_sink i + fa_approach a + / 2 * fa_approach b ->
  ri_temp_sink i' = ri_temp_source i -> ri_temp_source i' = ri_temp_sink i ->
  State_new_hint (fixed_engine (SinusoidalDrive_ws d) a b c) fl i = Ret s ->
  State_new_hint (turned_engine d a b c) fl i' = Ret s' -> turned_state s s'.
Proof. exact (turned_initial fl d a b c i i' s s'). Qed.
Print Assumptions C123_initial.
Theorem C123_engine (t0 : R) (name : GasName) (d : SinusoidalDrive R) (a b c : FixedApproach R) (s s' : State R) (r : Run R) :
  s_fluid s = IdealGas_Fluid (IdealGas_new name) -> turned_by d t0 -> turned_state s s' ->
  Run_new (fixed_engine (SinusoidalDrive_ws d) a b c) s = Ret r ->
  Run_new (turned_engine d a b c) s' = Ret (turned_run t0 (s_pres s') r).
Proof. exact (turned_new t0 name d a b c s s' r). Qed.
Print Assumptions C123_engine.
Theorem C123_report (t0 : R) (e e' : Engine R) (a : Replies R) (vs : list (SeValues R)) :
  turned_state (en_state e) (en_state e') -> series_of vs (en_values e) -> replies e a ->
  series_of (map (turned_sample t0) vs) (en_values e') -> replies e' (turned_replies t0 a) ->
  exists rep rep', RunResults_from e = Ret rep /\ RunResults_from e' = Ret rep' /\ turned_report t0 a rep rep'.
Proof. exact (report_turned t0 e e' a vs). Qed.
Print Assumptions C123_report.
Theorem C123_replies (t0 : R) (d : SinusoidalDrive R) (a b c : FixedApproach R) (e e' : Engine R) (x : Replies R) :
  turned_by d t0 -> en_components e = fixed_engine (SinusoidalDrive_ws d) a b c -> en_components e' = turned_engine d a b c ->
  replies e x -> replies e' (turned_replies t0 x).
Proof. exact (turned_replied t0 d a b c e e' x). Qed.
Print Assumptions C123_replies.
Example C123_case :
  turned_by gl_drive tn_later /\
  Run_new tn_comps tn_state = Ret (turned_run tn_later (s_pres case_state) gl_run) /\
  exists c s, steady_cycle gauss gl_run c /\
    steady_cycle gauss (turned_run tn_later (s_pres case_state) gl_run) (turned_trajectory tn_later c) /\
    (forall t, 0 <= t <= ru_period gl_run -> solved_at gauss gl_run t (c t) (s t)) /\
    forall n, (0 < n)%nat -> let vs := samples_of c s (ru_period gl_run / INR n) n in
      let e' := mkEngine tn_comps tn_state (Values_from (map (turned_sample tn_later) vs)) in
      exists rep rep', RunResults_from (gl_engine c s n) = Ret rep /\ RunResults_from e' = Ret rep' /\
        turned_report tn_later gl_replies rep rep'.
Proof. exact (conj tn_by (conj tn_new tn_case)). Qed.
