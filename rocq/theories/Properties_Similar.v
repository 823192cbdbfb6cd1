(** * Properties of similar engines *)
From Coq Require Import ZArith NArith List Reals.
From Verif Require Import Num ModelTypes ModelWs ModelHx ModelStateEq ModelEngine ModelApi RNum Spec SpecR SpecGas
  SpecKin SpecTraj SpecLaws SpecUnique SpecSteady SpecSeries SpecReport SpecSample SpecSimilar Fixture RGauss RCase RBounds RSampleCase
  RSimilar RSimilarCase.
Import ListNotations.
Local Open Scope R_scope.

(** C107: an engine at p times the pressure, w times the speed and with v times the volumes passes
    through the same temperatures, and its powers are p w v times as large. *)
Theorem C107_larger (D : Decomp R) (i : Inputs R) (hint hint' : FlowDirection) (s : Solution R) (k : R) :
  sound D -> complete D -> physical i -> 0 < k ->
  solve D i hint = Ok s -> solve D (larger k i) hint' = Ok (scaled k 1 1 s).
Proof. exact (solve_larger D i hint hint' s k). Qed.
Print Assumptions C107_larger.
Theorem C107_sinusoidal (w v : R) (d : SinusoidalDrive R) (t : R) :
  sin_volumes (larger_sin v (faster_sin w d)) t = similar_volumes w v (sin_volumes d) t.
Proof. exact (sin_similar w v d t). Qed.
Print Assumptions C107_sinusoidal.
Theorem C107_rhombic (w k : R) (d : RhombicDrive R) (t : R) : 0 < k ->
  rh_volumes (longer_rh k (faster_rh w d)) t = similar_volumes w (k ^ 3) (rh_volumes d) t.
Proof. exact (rh_similar w k d t). Qed.
Print Assumptions C107_rhombic.
Theorem C107_solution (p w v : R) (g : IdealGas R) (r : Run R) (D : Decomp R) (t : R) (c : Conditions R)
    (hint hint' : FlowDirection) (s : Solution R) :
  0 < p -> 0 < w -> 0 < v -> ru_fluid r = IdealGas_Fluid g -> sound D -> complete D ->
  physical (Run_calculate_inputs r (w * t) c) -> solve D (Run_calculate_inputs r (w * t) c) hint = Ok s ->
  solve D (Run_calculate_inputs (similar_run p w v r) t (charged p c)) hint' = Ok (similar_solution p w v s).
Proof. exact (fun Hp Hw Hv Hf => similar_solves p w v Hp Hw Hv g r Hf D t c hint hint' s). Qed.
Print Assumptions C107_solution.
Theorem C107_trajectory (p w v : R) (g : IdealGas R) (r : Run R) (D : Decomp R) (c : R -> Conditions R) (t : R) :
  0 < p -> 0 < w -> 0 < v -> ru_fluid r = IdealGas_Fluid g -> sound D -> complete D ->
  physical_trajectory D r c (w * t) ->
  physical_trajectory D (similar_run p w v r) (similar_trajectory p w c) t.
Proof. exact (fun Hp Hw Hv Hf => similar_physical_trajectory p w v Hp Hw Hv g r Hf D c t). Qed.
Print Assumptions C107_trajectory.
Theorem C107_steady (p w v : R) (g : IdealGas R) (r : Run R) (D : Decomp R) (c : R -> Conditions R) :
  0 < p -> 0 < w -> 0 < v -> ru_fluid r = IdealGas_Fluid g -> sound D -> complete D -> steady_cycle D r c ->
  steady_cycle D (similar_run p w v r) (similar_trajectory p w c).
Proof. exact (fun Hp Hw Hv Hf => similar_steady p w v Hp Hw Hv g r Hf D c). Qed.
Print Assumptions C107_steady.
Theorem C107_engine (p w v : R) (name : GasName) (comps comps' : Components R) (s s' : State R) (r : Run R) :
  s_fluid s = IdealGas_Fluid (IdealGas_new name) -> similar_state p s s' -> similar_components p w v comps comps' s s' ->
  Run_new comps s = Ret r -> Run_new comps' s' = Ret (similar_run p w v r).
Proof. exact (similar_new p w v name comps comps' s s' r). Qed.
Print Assumptions C107_engine.
Theorem C107_report (p w v : R) (name : GasName) (e e' : Engine R) (a : Replies R) (vs : list (SeValues R)) :
  0 < p -> 0 < w -> 0 < v ->
  s_fluid (en_state e) = IdealGas_Fluid (IdealGas_new name) -> s_fluid (en_state e') = IdealGas_Fluid (IdealGas_new name) ->
  s_temp (en_state e') = s_temp (en_state e) -> series_of vs (en_values e) -> replies e a ->
  series_of (map (similar_sample p w v) vs) (en_values e') -> replies e' (similar_replies p w v a) ->
  exists rep rep', RunResults_from e = Ret rep /\ RunResults_from e' = Ret rep' /\ similar_report p w v rep rep'.
Proof. exact (fun Hp Hw Hv Hf Hf' HT => report_similar p w v Hp Hw Hv name e e' a vs Hf Hf' HT). Qed.
Print Assumptions C107_report.
(** engines with fixed approach temperatures, whose parts are in proportion *)
Theorem C107_fixed (p w v : R) (ws ws' : WorkingSpaces R) (a b c : FixedApproach R) :
  in_proportion p w v ws ws' ->
  let comps := fixed_engine ws a b c in
  let comps' := fixed_engine ws' (similar_exchanger p w v a) (similar_exchanger p w v b) (similar_exchanger p w v c) in
  (forall s s', similar_components p w v comps comps' s s') /\
  (forall e e' x, en_components e = comps -> en_components e' = comps' ->
     replies e x -> replies e' (similar_replies p w v x)).
Proof.
  exact (fun H => conj (fun s s' => fixed_components p w v ws ws' a b c s s' H)
                       (fun e e' x => fixed_replies p w v e e' ws ws' a b c x H)).
Qed.
Print Assumptions C107_fixed.
Example C107_case (p w v : R) : 0 < p -> 0 < w -> 0 < v ->
  Run_new (sm_comps p w v) (sm_state p) = Ret (similar_run p w v gl_run) /\
  exists c s, steady_cycle gauss gl_run c /\
    steady_cycle gauss (similar_run p w v gl_run) (similar_trajectory p w c) /\
    (forall t, 0 <= t <= ru_period gl_run -> solved_at gauss gl_run t (c t) (s t)) /\
    forall n, (0 < n)%nat -> let vs := samples_of c s (ru_period gl_run / INR n) n in
      let e' := mkEngine (sm_comps p w v) (sm_state p) (Values_from (map (similar_sample p w v) vs)) in
      exists rep rep', RunResults_from (gl_engine c s n) = Ret rep /\ RunResults_from e' = Ret rep' /\ similar_report p w v rep rep'.
Proof. exact (fun Hp Hw Hv => conj (sm_new p w v) (sm_case p w v Hp Hw Hv)). Qed.
