(** * Theorems about gas that is pushed from one end of the engine to the other *)
From Coq Require Import ZArith NArith List Reals.
From Verif Require Import Num ModelTypes ModelWs ModelHx ModelStateEq ModelEngine ModelApi RNum Spec SpecApi SpecR SpecGas SpecKin SpecLaws SpecSpaces
  SpecUnique SpecReport SpecQuad SpecBounds SpecSteady SpecContract SpecSample SpecSearch SpecAccurate SpecMeans SpecPush Fixture RGauss RFluid RSearchCase
  RConvergeCase RAccurate RAccurateCase RReturned RKin RBounds RPush RPushDrive RApproach RConsistent RConsistentCase.
Import ListNotations.
Local Open Scope R_scope.

(** C113: while one working space shrinks and the other does not, all gas flows towards the other *)
Theorem C113_out (i : Inputs R) (s : Solution R) : physical i -> conserves i s -> expands_when_heated i ->
  squeezed (in_comp i) -> relaxed (in_exp i) -> to_expansion s.
Proof. exact (push_out i s). Qed.
Print Assumptions C113_out.
Theorem C113_in (i : Inputs R) (s : Solution R) : physical i -> conserves i s -> expands_when_heated i ->
  squeezed (in_exp i) -> relaxed (in_comp i) -> to_compression s.
Proof. exact (push_in i s). Qed.
Print Assumptions C113_in.
(** along trajectories of engines whose working spaces lose no heat *)
Theorem C113_along (name : GasName) (D : Decomp R) (r : Run R) (c : R -> Conditions R) :
  ru_fluid r = IdealGas_Fluid (IdealGas_new name) -> sound D -> heat_lost_comp r = 0 -> heat_lost_exp r = 0 ->
  forall t s, physical_trajectory D r c t -> solved_at D r t (c t) s ->
  let vc := fst (ru_ws_vol_fn r t) in let ve := snd (ru_ws_vol_fn r t) in
  (v_deriv vc < 0 -> 0 <= v_deriv ve -> to_expansion s) /\ (v_deriv ve < 0 -> 0 <= v_deriv vc -> to_compression s).
Proof. exact (pushed_along name D r c). Qed.
Print Assumptions C113_along.
(** so the mean flows that the exchangers see are not zero *)
Theorem C113_means (T : Temperatures R) (res : ThermalResistance R) (name : GasName) (D : Decomp R) (r : Run R) (c : R -> Conditions R)
    (s : R -> Solution R) (tau : R) (M : Means) (t : R) :
  ru_fluid r = IdealGas_Fluid (IdealGas_new name) -> sound D -> heat_lost_comp r = 0 -> heat_lost_exp r = 0 ->
  (forall u, 0 <= u <= tau -> physical_trajectory D r c u) -> (forall u, 0 <= u <= tau -> solved_at D r u (c u) (s u)) ->
  means T res c s tau M -> 0 < t < tau -> pushes_at r t ->
  0 < mn_flow_k M /\ 0 < mn_flow_r M /\ 0 < mn_flow_l M.
Proof. exact (flows_positive T res name D r c s tau M t). Qed.
Print Assumptions C113_means.
(** both drives push once a revolution, unless they move the two volumes in step *)
Theorem C113_sinusoidal (d : SinusoidalDrive R) (r : Run R) : ru_ws_vol_fn r = sin_volumes d -> 0 < sd_frequency d ->
  0 < sg_swept_volume (sd_comp_geometry d) -> sin (sd_phase_angle d * PI / 180) <> 0 ->
  exists t, 0 < t < 1 / sd_frequency d /\ pushes_at r t.
Proof. exact (sin_pushes d r). Qed.
Print Assumptions C113_sinusoidal.
Theorem C113_rhombic (d : RhombicDrive R) (r : Run R) : ru_ws_vol_fn r = rh_volumes d -> 0 < rd_frequency d -> turns d ->
  0 < rg_eccentricity (rd_geometry d) -> 0 < rg_r_crank (rd_geometry d) -> rg_D_p (rd_geometry d) <> 0 ->
  exists t, 0 < t < 1 / rd_frequency d /\ pushes_at r t.
Proof. exact (rh_pushes d r). Qed.
Print Assumptions C113_rhombic.
Example C113_drives_case : (0 < sd_frequency gl_drive /\ 0 < sg_swept_volume (sd_comp_geometry gl_drive) /\ sin (sd_phase_angle gl_drive * PI / 180) <> 0) /\
  (0 < rd_frequency rh_long_crank /\ turns rh_long_crank /\ 0 < rg_eccentricity (rd_geometry rh_long_crank) /\
    0 < rg_r_crank (rd_geometry rh_long_crank) /\ rg_D_p (rd_geometry rh_long_crank) <> 0).
Proof. exact drives_case. Qed.
Print Assumptions C113_drives_case.
(** the engine of C109 a quarter of a revolution after the start *)
Example C113_case : pushes_at st_run (1 / 240) /\ exists i s, physical i /\ conserves i s /\ expands_when_heated i /\
  squeezed (in_comp i) /\ relaxed (in_exp i) /\ to_expansion s.
Proof. exact push_case. Qed.
