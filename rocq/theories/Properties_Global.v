(** * Theorems about errors that add up over a cycle *)
From Coq Require Import ZArith NArith List Reals.
From Verif Require Import Num ModelTypes ModelWs ModelHx ModelStateEq ModelEngine ModelApi RNum Spec SpecR SpecGas
  SpecKin SpecTraj SpecUnique SpecExist SpecDepend SpecSeries SpecQuad SpecReport SpecSteady SpecSample SpecGlobal Fixture RGauss
  RFluid RCase RBounds RSteady RSample RSampleCase RGlobal RGlobalReport RNearby.
Import ListNotations.
Local Open Scope R_scope.

(** C104: the errors of single integration steps bound the error of the whole cycle and of its report *)
Theorem C104_stays (name : GasName) (r : Run R) (D : Decomp R) (c : R -> Conditions R) (tau : R) :
  ru_fluid r = IdealGas_Fluid (IdealGas_new name) -> sound D -> (forall t, 0 <= t <= tau -> physical_trajectory D r c t) ->
  exists K d, 0 <= K /\ 0 < d /\ forall (D' : Decomp R) (z : R -> Conditions R) (a b : R), sound D' -> 0 <= a -> b <= tau ->
    (forall t, a <= t <= b -> on_trajectory D' r z t) -> gap (z a) (c a) <= d ->
    forall t, a <= t <= b -> gap (z t) (c t) <= K * gap (z a) (c a).
Proof. exact (fun Hf HD HT => stays_near _ (gas_R_pos name) r Hf D c tau HD HT). Qed.
Print Assumptions C104_stays.
Theorem C104_samples (name : GasName) (r : Run R) (D : Decomp R) (c : R -> Conditions R) (tau : R) :
  ru_fluid r = IdealGas_Fluid (IdealGas_new name) -> sound D -> (forall t, 0 <= t <= tau -> physical_trajectory D r c t) ->
  exists K d, 0 <= K /\ 0 < d /\ forall (D' : Decomp R) (vs : list (SeValues R)) (e0 e : R), sound D' ->
    nondecreasing (map (@sv_time R) vs) -> (forall v, In v vs -> 0 <= sv_time v <= tau) ->
    0 <= e -> 0 <= e0 -> e0 + e <= d -> starts_near e0 c vs -> accurate_steps e D' r vs ->
    Forall (fun v => gap (sv_conditions v) (c (sv_time v)) <= K * (e0 + e)) vs.
Proof. exact (fun Hf HD HT => samples_near _ (gas_R_pos name) r Hf D c tau HD HT). Qed.
Print Assumptions C104_samples.
Theorem C104_report (name : GasName) (r : Run R) (D : Decomp R) (c : R -> Conditions R) (tau : R)
    (T : Temperatures R) (a : Replies R) :
  ru_fluid r = IdealGas_Fluid (IdealGas_new name) -> sound D -> 0 <= tau ->
  (forall t, 0 <= t <= tau -> physical_trajectory D r c t) -> steady_motion (ru_ws_vol_fn r) 0 tau ->
  (forall t, 0 <= t <= tau -> rp_vols a t = ru_ws_vol_fn r t) ->
  exists K d, 0 < d /\ forall (s : R -> Solution R) (X : Totals) (e : Engine R) (vs : list (SeValues R)) (h e0 e1 : R) (D' : Decomp R),
  (forall t, 0 <= t <= tau -> solved_at D r t (c t) (s t)) ->
  totals (IdealGas_Fluid (IdealGas_new name)) T a c s tau X ->
  s_fluid (en_state e) = IdealGas_Fluid (IdealGas_new name) -> s_temp (en_state e) = T ->
  replies e a -> series_of vs (en_values e) -> sound D' ->
  grid_to (map (@sv_time R) vs) tau -> steps_within h (map (@sv_time R) vs) ->
  0 <= e0 -> 0 <= e1 -> e0 + e1 <= d -> starts_near e0 c vs -> accurate_steps e1 D' r vs -> all_solved D' r vs ->
  exists rep, RunResults_from e = Ret rep /\ report_within a X (K * (h + (e0 + e1))) rep.
Proof. exact (fun Hf HD H0 HT HW HV => report_of_steps _ (gas_R_pos name) r Hf D c tau HD H0 HT HW T a HV). Qed.
Print Assumptions C104_report.
Example C104_case : exists c s, steady_cycle gauss gl_run c /\
  forall e n, 0 <= e -> (0 < n)%nat -> let vs := moved_samples c s e (ru_period gl_run / INR n) n in
    grid_to (map (@sv_time R) vs) (ru_period gl_run) /\ steps_within (ru_period gl_run / INR n) (map (@sv_time R) vs) /\
    starts_near 0 c vs /\ accurate_steps e gauss gl_run vs /\ (e = 0 -> all_solved gauss gl_run vs).
Proof. exact gl_moved. Qed.

(** C105: every start near one that completes a cycle completes it too *)
Theorem C105_nearby (name : GasName) (r : Run R) (D : Decomp R) (c : R -> Conditions R) (tau : R) :
  ru_fluid r = IdealGas_Fluid (IdealGas_new name) -> smooth_volumes (ru_ws_vol_fn r) -> sound D ->
  (forall t, 0 <= t <= tau -> physical_trajectory D r c t) ->
  exists K d, 0 <= K /\ 0 < d /\ forall (D' : Decomp R) (a : R) (x : Conditions R),
    sound D' -> complete D' -> 0 <= a <= tau -> gap x (c a) <= d ->
    exists z, z a = x /\ forall t, a <= t <= tau -> physical_trajectory D' r z t /\ gap (z t) (c t) <= K * gap x (c a).
Proof. exact (fun Hf Hv HD HT => nearby name r Hf Hv D c tau HD HT). Qed.
Print Assumptions C105_nearby.
Theorem C105_engine (name : GasName) (comps : Components R) (s : State R) (r : Run R) (D : Decomp R) (c : R -> Conditions R) :
  s_fluid s = IdealGas_Fluid (IdealGas_new name) -> driven (co_ws comps) -> Run_new comps s = Ret r -> sound D ->
  (forall t, 0 <= t <= ru_period r -> physical_trajectory D r c t) ->
  exists K d, 0 <= K /\ 0 < d /\ forall (D' : Decomp R) (x : Conditions R), sound D' -> complete D' -> gap x (c 0) <= d ->
    exists z, z 0 = x /\ (forall t, 0 <= t <= ru_period r -> physical_trajectory D' r z t /\ gap (z t) (c t) <= K * gap x (c 0)) /\
      forall (D'' : Decomp R) (z' : R -> Conditions R), sound D'' -> z' 0 = x ->
        (forall t, 0 <= t <= ru_period r -> physical_trajectory D'' r z' t) ->
        forall t, 0 <= t <= ru_period r -> z' t = z t.
Proof. exact (nearby_engine name comps s r D c). Qed.
Print Assumptions C105_engine.
Example C105_case : Run_new gl_comps case_state = Ret gl_run /\ driven (co_ws gl_comps) /\
  exists c, cd_P (c 0) = 1000000 /\ steady_cycle gauss gl_run c.
Proof. exact gl_start. Qed.
