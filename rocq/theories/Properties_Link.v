(** * Theorems about the accuracy of the rhombic drive in f64 *)
From Coq Require Import ZArith NArith List Reals.
From Flocq Require Import Core BinarySingleNaN.
From Verif Require Import Num ModelTypes ModelWs B64 SpecF64 SpecRound SpecRange SpecAngle SpecDrive SpecLink F64AngleCase F64Link F64LinkCase.
Local Open Scope R_scope.

(** C133: in f64 the volumes of the rhombic drive are those of the linkage up to rounding and the accuracy of sine and cosine *)
Theorem C133_volumes (lm : Libm) (nan_top : bool) (eps low : R) (d : RhombicDrive b64) (t : b64) :
  cosine_bounded lm -> sine_bounded lm -> trig_accurate lm eps -> ordinary_rhombic d low -> upto 40 t ->
  near_linkage eps d low t (rh_volumes (ops := b64_ops lm nan_top) d t).
Proof. exact (linkage_volumes lm nan_top eps low d t). Qed.
Print Assumptions C133_volumes.
Theorem C133_linkage (low : R) (d : RhombicDrive b64) (angle : R) : ordinary_rhombic d low ->
  exists above below, linkage (value (rg_eccentricity (rd_geometry d))) (value (rg_r_crank (rd_geometry d))) (value (rg_L_conn (rd_geometry d))) angle above below.
Proof. exact (fun H => linkage_exists low d H angle). Qed.
Print Assumptions C133_linkage.
Theorem C133_case (nan_top : bool) : cosine_bounded floored_libm /\ sine_bounded floored_libm /\ trig_accurate floored_libm (/ 2 ^ 52) /\
  ordinary_rhombic (default_rhombic nan_top) 0.024 /\ upto 40 (rh_quarter nan_top) /\
  let d := default_rhombic nan_top in let t := rh_quarter nan_top in
  let v := rh_volumes (ops := b64_ops floored_libm nan_top) d t in let g := rd_geometry d in
  let e := value (rg_eccentricity g) in let r := value (rg_r_crank g) in let l := value (rg_L_conn g) in
  exists above below above' below' highest,
  linkage e r l (turn_angle (value (rd_frequency d)) (value t)) above below /\ linkage e r l PI above' below' /\
  highest <= 0 /\ e * e + highest * highest = (l - r) * (l - r) /\
  Rabs (value (v_value (fst v)) - (value (rd_V_clearance_c d) + disc (value (rg_D_p g)) * ((above' - below') - (above - below)))) <= 0.0000000000000002 /\
  Rabs (value (v_value (snd v)) - (value (rd_V_clearance_e d) + disc (value (rg_D_d g)) * (highest - below))) <= 0.0000000000000002.
Proof. exact (rhombic_case nan_top). Qed.
Print Assumptions C133_case.
(** C134: the rates are the derivatives of those volumes up to the same kind of errors *)
Theorem C134_rates (lm : Libm) (nan_top : bool) (eps low : R) (d : RhombicDrive b64) (t : b64) :
  cosine_bounded lm -> sine_bounded lm -> trig_accurate lm eps -> ordinary_rhombic d low -> upto 40 t ->
  ordinary_rates d low (trig_error eps (value (rd_frequency d)) (value t) 0) ->
  near_linkage_rates eps d low t (rh_volumes (ops := b64_ops lm nan_top) d t).
Proof. exact (linkage_rates lm nan_top eps low d t). Qed.
Print Assumptions C134_rates.
Theorem C134_case (nan_top : bool) : ordinary_rhombic (default_rhombic nan_top) 0.024 /\ upto 40 (rh_quarter nan_top) /\
  let d := default_rhombic nan_top in let t := rh_quarter nan_top in let g := rd_geometry d in let f := value (rd_frequency d) in
  let v := rh_volumes (ops := b64_ops floored_libm nan_top) d t in
  ordinary_rates d 0.024 (trig_error (/ 2 ^ 52) f (value t) 0) /\
  exists (above below : R -> R) (rate_c rate_e : R),
  (forall u, linkage (value (rg_eccentricity g)) (value (rg_r_crank g)) (value (rg_L_conn g)) (turn_angle f u) (above u) (below u)) /\
  derivable_pt_lim (fun u => 0 - disc (value (rg_D_p g)) * (above u - below u)) (value t) rate_c /\
  derivable_pt_lim (fun u => 0 - disc (value (rg_D_d g)) * below u) (value t) rate_e /\
  Rabs (value (v_deriv (fst v)) - rate_c) <= 0.00000000000005 /\ Rabs (value (v_deriv (snd v)) - rate_e) <= 0.00000000000005.
Proof. exact (rhombic_rate_case nan_top). Qed.
Print Assumptions C134_case.
