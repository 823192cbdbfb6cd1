(** * Specification over f64: volumes of the rhombic drive *)
From Coq Require Import ZArith NArith List Reals.
From Flocq Require Import Core BinarySingleNaN.
From Verif Require Import Num ModelTypes ModelWs B64 SpecF64 SpecRound SpecRange SpecAngle SpecDrive.
Import ListNotations.
Local Open Scope R_scope.

(** a rhombic drive of up to 128 m and 2^20 Hz whose rods are never flat: with crank and
    lower rod in one line the yoke is at least [low] away, at least 2^-20 m *)
Definition ordinary_rhombic (d : RhombicDrive b64) (low : R) : Prop :=
  let g := rd_geometry d in
  let e := value (rg_eccentricity g) in let r := value (rg_r_crank g) in let l := value (rg_L_conn g) in
  upto 20 (rd_frequency d) /\
  Forall (upto 7) [rg_eccentricity g; rg_r_crank g; rg_L_conn g; rg_D_p g; rg_D_d g; rd_V_clearance_c d; rd_V_clearance_e d] /\
  0 <= e /\ 0 <= r <= l /\ / 2 ^ 20 <= low /\ low * low + e * e <= (l - r) * (l - r).

(** error of the computed height of a rod of length [l], when the cosine is off by [T] *)
Definition rod_error (l r low T : R) : R := (growth 11 * (l * l) + 3 * l * r * T) / low + / 2 ^ 900.

(** the volumes are those the linkage describes, up to the errors of the rods, of the sine and a few roundings *)
Definition near_linkage (eps : R) (d : RhombicDrive b64) (low : R) (t : b64) (v : Volume b64 * Volume b64) : Prop :=
  let g := rd_geometry d in
  let e := value (rg_eccentricity g) in let r := value (rg_r_crank g) in let l := value (rg_L_conn g) in
  let T := trig_error eps (value (rd_frequency d)) (value t) 0 in
  let moving := rod_error l r low T in let fixed := rod_error l r low 0 in
  let A_p := disc (value (rg_D_p g)) in let A_d := disc (value (rg_D_d g)) in
  let c := value (rd_V_clearance_c d) in let c' := value (rd_V_clearance_e d) in
  forall above below above' below' highest,
    linkage e r l (turn_angle (value (rd_frequency d)) (value t)) above below ->
    linkage e r l PI above' below' ->
    highest <= 0 -> e * e + highest * highest = (l - r) * (l - r) ->
    Rabs (value (v_value (fst v)) - (c + A_p * ((above' - below') - (above - below)))) <=
      growth 8 * (Rabs c + 8 * A_p * l) + 2 * A_p * (fixed + moving) + / 2 ^ 900 /\
    Rabs (value (v_value (snd v)) - (c' + A_d * (highest - below))) <=
      growth 8 * (Rabs c' + 8 * A_d * l) + A_d * (fixed + moving + r * T) + / 2 ^ 900.

(** where the error of the rods is less than half the distance to the yokes and the piston is
    at least a millimetre wide *)
Definition ordinary_rates (d : RhombicDrive b64) (low T : R) : Prop :=
  let g := rd_geometry d in
  from (-10) (rg_D_p g) /\ rod_error (value (rg_L_conn g)) (value (rg_r_crank g)) low T <= low / 2.
(** error of the slope of a rod *)
Definition slope_error (l r low T : R) : R :=
  2 * (l * T + (growth 2 * l + r * T + / 2 ^ 900) + l * rod_error l r low T / low) / low.
(** for yokes that follow the linkage all the time, the rates are the derivatives of the volumes they describe *)
Definition near_linkage_rates (eps : R) (d : RhombicDrive b64) (low : R) (t : b64) (v : Volume b64 * Volume b64) : Prop :=
  let g := rd_geometry d in let f := value (rd_frequency d) in
  let e := value (rg_eccentricity g) in let r := value (rg_r_crank g) in let l := value (rg_L_conn g) in
  let T := trig_error eps f (value t) 0 in
  let A_p := disc (value (rg_D_p g)) in let A_d := disc (value (rg_D_d g)) in
  forall (above below : R -> R) (rate_c rate_e C_c C_e : R),
    (forall u, linkage e r l (turn_angle f u) (above u) (below u)) ->
    derivable_pt_lim (fun u => C_c - A_p * (above u - below u)) (value t) rate_c ->
    derivable_pt_lim (fun u => C_e - A_d * below u) (value t) rate_e ->
    Rabs (value (v_deriv (fst v)) - rate_c) <=
      (growth 12 * (4 * A_p * r * l / low) + 2 * A_p * r * slope_error l r low T) * (2 * PI * Rabs f) + / 2 ^ 900 /\
    Rabs (value (v_deriv (snd v)) - rate_e) <=
      A_d * (growth 14 * (2 * r * l / low + r) + r * slope_error l r low T + r * T) * (2 * PI * Rabs f) + / 2 ^ 900.
