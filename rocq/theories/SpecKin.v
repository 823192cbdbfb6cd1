(** * Specification in exact arithmetic: kinematics of the working spaces *)
From Coq Require Import ZArith NArith List Reals.
From Verif Require Import Num ModelTypes ModelWs RNum SpecGas.
Local Open Scope R_scope.

(** For both spaces the reported derivative is the derivative of the reported volume *)
Definition true_derivatives (vol : R -> Volume R * Volume R) (t : R) : Prop :=
  has_deriv (fun u => v_value (fst (vol u))) t (v_deriv (fst (vol t))) /\
  has_deriv (fun u => v_value (snd (vol u))) t (v_deriv (snd (vol t))).

(** crank, connecting rod and eccentricity can turn through a full revolution *)
Definition turns (d : RhombicDrive R) : Prop :=
  let g := rd_geometry d in
  0 <= rg_eccentricity g /\ 0 <= rg_r_crank g /\ rg_eccentricity g + rg_r_crank g < rg_L_conn g.

(** the drive that uses the configured displacer diameter *)
Definition intended (c : RhConfig R) : RhombicDrive R :=
  let d := RhombicDrive_from c in
  mkRh (rd_frequency d)
    (mkRhGeo (rdc_eccentricity c) (rdc_r_crank c) (rdc_D_p c) (rdc_D_d c) (rdc_L_conn c))
    (rd_parasitics d) (rd_R_comp d) (rd_R_exp d) (rd_V_clearance_c d) (rd_V_clearance_e d).
