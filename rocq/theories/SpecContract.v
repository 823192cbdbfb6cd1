(** * Specification in exact arithmetic: how fast the temperatures of an engine settle *)
From Coq Require Import ZArith NArith List Reals.
From Verif Require Import Num ModelTypes ModelWs ModelHx ModelStateEq ModelEngine RNum SpecGas SpecTraj SpecUnique
  SpecSpaces SpecBounds SpecSteady.
Local Open Scope R_scope.

(** difference of the temperatures of two states, measured in 1/T *)
Definition spread (c c' : Conditions R) : R :=
  Rabs (/ cd_T_c c - / cd_T_c c') + Rabs (/ cd_T_e c - / cd_T_e c').
(** coldest warm temperature: helium that leaves a space at this temperature carries nothing out *)
Definition T_nil : R := R_he * T_ref / cp_he.

(** [V] grows at some time during the first [tau] so that at most [rho] of it was there before, to at
    least [V_hi / rv] *)
Definition breathes (V : R -> R) (tau V_hi rho rv : R) : Prop :=
  exists t1 t2, 0 <= t1 <= t2 /\ t2 <= tau /\ 0 < V t2 /\ V t1 <= V t2 /\ V t1 <= rho * V t2 /\ V_hi <= rv * V t2.

Section Engine.
  Variables (r : Run R) (T_low V_hi v_hi : R).
  Let tau := ru_period r.
  (** no working space is larger than [V_hi] or changes faster than [v_hi] *)
  Definition moderate : Prop := forall t, 0 <= t ->
    V_comp r t <= V_hi /\ V_exp r t <= V_hi /\
    Rabs (v_deriv (fst (ru_ws_vol_fn r t))) <= v_hi /\ Rabs (v_deriv (snd (ru_ws_vol_fn r t))) <= v_hi.
  (** the gas in the working spaces is never colder than [T_low] *)
  Definition kept_warm (c : R -> Conditions R) (a b : R) : Prop :=
    forall t, a <= t <= b -> T_low <= cd_T_c (c t) /\ T_low <= cd_T_e (c t).

  (** bounds on the relative change of pressure and on the flow of volume into a space, and how much
      the flow of mass depends on temperature *)
  Definition pressure_rate : R := 2 * v_hi / ((T_low - T_nil) * fixed_ratio r).
  Definition volume_flow : R := cv_he / cp_he * V_hi * pressure_rate + v_hi.
  Definition steepness : R := (T_low / (T_low - T_nil)) ^ 2.
  (** how much a difference of temperatures changes the temperatures through the common pressure, in
      one revolution *)
  Definition through_pressure : R :=
    2 * (/ T_low + cv_he / cp_he / (T_low - T_nil)) * (steepness * volume_flow / fixed_ratio r)
    * tau * exp (pressure_rate * tau).
  (** what is left of a difference of temperatures after one revolution, and the most that becomes of
      it in between *)
  Definition left_over (rho rv : R) : R :=
    exp (pressure_rate * tau) * (rho + rv * (through_pressure / (1 - through_pressure))).
  Definition meanwhile : R := exp (pressure_rate * tau) / (1 - through_pressure).

  (** a helium engine without loss of heat from its cylinders and with such motions; its gas and
      exchangers are not colder than [T_low]; its exchangers hold enough gas to steady the pressure *)
  Definition settles (rho rv : R) : Prop :=
    ru_fluid r = IdealGas_Fluid IdealGas_helium /\ heat_lost_comp r = 0 /\ heat_lost_exp r = 0 /\ 0 <= tau /\
    T_nil < T_low /\ T_low <= te_chx (ru_temp r) /\ T_low <= te_hhx (ru_temp r) /\ 0 < fixed_ratio r /\ moderate /\
    breathes (V_comp r) tau V_hi rho rv /\ breathes (V_exp r) tau V_hi rho rv /\ through_pressure < 1.
End Engine.

(** an exact trajectory for all time with gas that is never colder than [T_low] *)
Definition warm_trajectory (D : Decomp R) (r : Run R) (T_low : R) (c : R -> Conditions R) : Prop :=
  forall t, 0 <= t -> physical_trajectory D r c t /\ T_low <= cd_T_c (c t) /\ T_low <= cd_T_e (c t).
(** with every revolution the temperatures along [c] come closer to those along [c'] by the factor [q],
    and they never differ by more than [m] times what they differ by when the revolution begins *)
Definition approaches (tau q m : R) (c c' : R -> Conditions R) : Prop :=
  forall n, spread (c (INR n * tau)) (c' 0) <= q ^ n * spread (c 0) (c' 0) /\
    forall t, 0 <= t <= tau -> spread (c (t + INR n * tau)) (c' t) <= m * (q ^ n * spread (c 0) (c' 0)).
