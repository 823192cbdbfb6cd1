(** * Specification: default components, and the engine of the crate's end-to-end test *)
From Coq Require Import ZArith NArith List Reals.
From Verif Require Import Num ModelTypes ModelWs ModelHx ModelStateEq ModelEngine RNum.

(** an exchanger that reports this volume, hydraulic resistance and these parasitics *)
Definition reports {F S} (x : Exchanger F S) (volume R_hyd : F) (parasitics : ParasiticPower F) : Prop :=
  ex_volume x = Ret volume /\
  (forall s, ex_hydraulic_resistance x s = Ret R_hyd) /\ (forall s, ex_parasitics x s = Ret parasitics).
(** an exchanger that takes no power and resists no flow *)
Definition lossless {F S} {ops : NumOps F} (x : Exchanger F S) : Prop :=
  exists volume, reports x volume n0 (mkPP n0 n0 n0).
(** working spaces that take no power and exchange no heat with their walls *)
Definition adiabatic_lossless {F} {ops : NumOps F} (ws : WorkingSpaces F) : Prop := forall s,
  ws_parasitics ws s = Ret (mkPar (mkPP n0 n0 n0) (mkPP n0 n0 n0)) /\
  ws_thermal_resistance ws s = Ret (mkTR n_inf n_inf).

(** the rhombic drive with its displacer as wide as its piston *)
Definition piston_wide {F} (d : RhombicDrive F) : RhombicDrive F :=
  mkRh (rd_frequency d)
    (mkRhGeo (rg_eccentricity (rd_geometry d)) (rg_r_crank (rd_geometry d)) (rg_D_p (rd_geometry d))
       (rg_D_p (rd_geometry d)) (rg_L_conn (rd_geometry d)))
    (rd_parasitics d) (rd_R_comp d) (rd_R_exp d) (rd_V_clearance_c d) (rd_V_clearance_e d).

(** the engine, gas and inputs of the test [run_simple_engine], src/engine.rs, in exact arithmetic *)
Local Open Scope R_scope.
Definition simple_drive : SinusoidalDrive R :=
  {| sd_frequency := 4000 / 60; sd_phase_angle := 90;
     sd_comp_geometry := {| sg_clearance_volume := 2 / 100000; sg_swept_volume := 5 / 10000 |};
     sd_exp_geometry := {| sg_clearance_volume := 2 / 100000; sg_swept_volume := 5 / 10000 |};
     sd_thermal_resistance := ThermalResistance_default; sd_parasitics := Parasitics_default |}.
Definition simple_comps : Components R :=
  {| co_ws := SinusoidalDrive_ws simple_drive; co_chx := chx_FixedApproach chx_FixedApproach_default;
     co_regen := regen_FixedApproach regen_FixedApproach_default;
     co_hhx := hhx_FixedApproach hhx_FixedApproach_default |}.
Definition simple_inputs : RunInputs R :=
  {| ri_pres_zero := 10000000; ri_temp_sink := 300; ri_temp_source := 900 |}.
