(** * Specification: engines of ordinary size, in f64 *)
From Coq Require Import ZArith NArith List Reals.
From Flocq Require Import Core BinarySingleNaN.
From Verif Require Import Num ModelTypes ModelWs ModelHx ModelStateEq ModelEngine B64 SpecF64 SpecRound.
Import ListNotations.
Local Open Scope R_scope.

(** a number of magnitude at most, at least, 2^e *)
Definition upto (e : Z) (x : b64) : Prop := finite x /\ Rabs (value x) <= bpow radix2 e.
Definition from (e : Z) (x : b64) : Prop := bpow radix2 e <= Rabs (value x).

(** 1 K to 16384 K *)
Definition ordinary_temp (x : b64) : Prop := finite x /\ 1 <= value x <= 16384.
(** up to 2^40 Pa, about 10^12 *)
Definition ordinary_pres (x : b64) : Prop := upto 40 x.
Definition ordinary_conditions (c : Conditions b64) : Prop :=
  ordinary_pres (cd_P c) /\ ordinary_temp (cd_T_c c) /\ ordinary_temp (cd_T_e c).
(** up to 1024 m^3, changing by up to 2^40 m^3/s *)
Definition ordinary_volume (v : Volume b64) : Prop := upto 10 (v_value v) /\ upto 40 (v_deriv v).
(** heat losses of the working spaces up to 2^40 W; the norm of the enthalpies
    is at least 2^-20 J/kg, about 10^-6 *)
Definition ordinary_run (r : Run b64) : Prop :=
  Forall ordinary_temp (temperatures (ru_temp r)) /\
  Forall (upto 10) [ru_vol_chx r; ru_vol_regen r; ru_vol_hhx r] /\
  Forall (upto 40) [pp_thermal (par_comp (ru_ws_parasitics r)); pp_thermal (par_exp (ru_ws_parasitics r))] /\
  from (-20) (ru_enth_norm r).

(** the system's sine stays between -1 and 1 *)
Definition sine_bounded (lm : Libm) : Prop :=
  forall x, finite x -> finite (lm_sin lm x) /\ -1 <= value (lm_sin lm x) <= 1.
(** volumes up to 128 m^3, up to 2^20 Hz, any finite phase angle up to 2^20 degrees *)
Definition ordinary_drive (d : SinusoidalDrive b64) : Prop :=
  upto 20 (sd_frequency d) /\ upto 20 (sd_phase_angle d) /\
  Forall (fun g => upto 7 (sg_clearance_volume g) /\ upto 7 (sg_swept_volume g)) [sd_comp_geometry d; sd_exp_geometry d].

(** every property of the gas is a finite number *)
Definition finite_properties (fl : Fluid b64) (T P : b64) : Prop :=
  Forall (fun f => finite (f T P))
    [fl_dens fl; fl_inte fl; fl_enth fl; fl_cp fl; fl_dd_dP_T fl; fl_dd_dT_P fl; fl_du_dP_T fl; fl_du_dT_P fl].

(** an engine with a sinusoidal drive *)
Definition ordinary_engine (comps : Components b64) (d : SinusoidalDrive b64) (st : State b64) : Prop :=
  ordinary_drive d /\
  Forall (upto 40) [pp_thermal (par_comp (sd_parasitics d)); pp_thermal (par_exp (sd_parasitics d))] /\
  (forall V, In (Ret V) [ex_volume (co_chx comps); ex_volume (co_regen comps); ex_volume (co_hhx comps)] -> upto 10 V) /\
  Forall ordinary_temp (temperatures (s_temp st)) /\
  ordinary_temp (te_sink (s_temp st)) /\ ordinary_temp (te_source (s_temp st)).
