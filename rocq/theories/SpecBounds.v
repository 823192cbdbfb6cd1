(** * Specification in exact arithmetic: ranges of temperature and pressure in a helium engine *)
From Coq Require Import ZArith NArith List Reals.
From Verif Require Import Num ModelTypes ModelWs ModelHx ModelStateEq ModelEngine RNum SpecGas SpecTraj SpecUnique SpecSpaces SpecExist.
Local Open Scope R_scope.

(** heat capacity of helium at constant volume *)
Definition cv_he : R := cp_he - R_he.
(** what stays constant when a fixed amount of helium is compressed without heat *)
Definition adiabat (V T : R) : R := T * Rpower V (R_he / cv_he).
(** temperature that stationary gas reaches with the enthalpy of gas which flows in at [T_in] *)
Definition filling (T_in : R) : R := T_ref + cp_he / cv_he * (T_in - T_ref).
(** a working space next to an exchanger of temperature [T_in] that starts with volume [V0] and
    temperature [T0], and keeps its volume between [V_lo] and [V_hi] *)
Definition coldest (V0 T0 V_lo V_hi T_in : R) : R :=
  Rmin (adiabat V0 T0) (adiabat V_lo (Rmin T_ref (filling T_in))) / Rpower V_hi (R_he / cv_he).
Definition hottest (V0 T0 V_lo V_hi T_in : R) : R :=
  Rmax (adiabat V0 T0) (adiabat V_hi (Rmax T_ref (filling T_in))) / Rpower V_lo (R_he / cv_he).

(** [T V^(R/cv)] does not rise in a space hotter than gas that has filled a volume and hotter than
    [T_ref], unless heated, and does not fall in a colder one, unless cooled *)
Definition drawn_back (V T : R -> R) (Q T_in t : R) : Prop :=
  exists d, has_deriv (fun u => adiabat (V u) (T u)) t d /\
    (0 <= Q -> Rmax T_ref (filling T_in) <= T t -> d <= 0) /\
    (Q <= 0 -> T t <= Rmin T_ref (filling T_in) -> 0 <= d).

Section Engine.
  Variable r : Run R.
  Definition V_comp (t : R) : R := v_value (fst (ru_ws_vol_fn r t)).
  Definition V_exp (t : R) : R := v_value (snd (ru_ws_vol_fn r t)).
  Definition heat_lost_comp : R := pp_thermal (par_comp (ru_ws_parasitics r)).
  Definition heat_lost_exp : R := pp_thermal (par_exp (ru_ws_parasitics r)).
  (** volume of the exchangers and the regenerator over their temperatures *)
  Definition fixed_ratio : R :=
    ru_vol_chx r / te_chx (ru_temp r) + ru_vol_regen r / rt_avg (te_regen (ru_temp r)) + ru_vol_hhx r / te_hhx (ru_temp r).
  (** volume of all gas over its temperature *)
  Definition ratio (t : R) (c : Conditions R) : R :=
    V_comp t / cd_T_c c + fixed_ratio + V_exp t / cd_T_e c.

  (** how gas warms and cools: by flow work measured from [T_ref] when it flows out, by mixing with
      what flows in, by compression, and by loss of heat *)
  Definition temperature_equations (c : R -> Conditions R) (t : R) (s : Solution R) : Prop :=
    let P := cd_P (c t) in
    stored_mass r (V_comp t) (cd_T_c (c t)) P * cv_he * so_dTc_dt s + P * v_deriv (fst (ru_ws_vol_fn r t)) =
      Rmax (so_m_dot_ck s) 0 * R_he * (T_ref - cd_T_c (c t))
      + Rmax (- so_m_dot_ck s) 0 * cv_he * (filling (te_chx (ru_temp r)) - cd_T_c (c t)) - heat_lost_comp /\
    stored_mass r (V_exp t) (cd_T_e (c t)) P * cv_he * so_dTe_dt s + P * v_deriv (snd (ru_ws_vol_fn r t)) =
      Rmax (- so_m_dot_le s) 0 * R_he * (T_ref - cd_T_e (c t))
      + Rmax (so_m_dot_le s) 0 * cv_he * (filling (te_hhx (ru_temp r)) - cd_T_e (c t)) - heat_lost_exp.

  (** the temperatures stay in these ranges from time [a] to time [b] *)
  Definition never_colder_comp (c : R -> Conditions R) (a b V_lo V_hi : R) : Prop :=
    forall t, a <= t <= b -> coldest (V_comp a) (cd_T_c (c a)) V_lo V_hi (te_chx (ru_temp r)) <= cd_T_c (c t).
  Definition never_hotter_comp (c : R -> Conditions R) (a b V_lo V_hi : R) : Prop :=
    forall t, a <= t <= b -> cd_T_c (c t) <= hottest (V_comp a) (cd_T_c (c a)) V_lo V_hi (te_chx (ru_temp r)).
  Definition never_colder_exp (c : R -> Conditions R) (a b V_lo V_hi : R) : Prop :=
    forall t, a <= t <= b -> coldest (V_exp a) (cd_T_e (c a)) V_lo V_hi (te_hhx (ru_temp r)) <= cd_T_e (c t).
  Definition never_hotter_exp (c : R -> Conditions R) (a b V_lo V_hi : R) : Prop :=
    forall t, a <= t <= b -> cd_T_e (c t) <= hottest (V_exp a) (cd_T_e (c a)) V_lo V_hi (te_hhx (ru_temp r)).
  Definition between (f : R -> R) (lo hi a b : R) : Prop := 0 < lo /\ forall t, a <= t <= b -> lo <= f t <= hi.

  (** an exact trajectory starts from [c0] at time 0 and never ends *)
  Definition lasts_forever (D : Decomp R) (c0 : Conditions R) : Prop :=
    exists c, c 0 = c0 /\ forall t, 0 <= t -> physical_trajectory D r c t.

  (** ranges of temperature and pressure of an engine that starts from [c0] at time 0 and keeps the
      volumes of its working spaces within [cl], [ch] and [el], [eh] *)
  Variables (c0 : Conditions R) (cl ch el eh : R).
  Definition T_c_lo := coldest (V_comp 0) (cd_T_c c0) cl ch (te_chx (ru_temp r)).
  Definition T_c_hi := hottest (V_comp 0) (cd_T_c c0) cl ch (te_chx (ru_temp r)).
  Definition T_e_lo := coldest (V_exp 0) (cd_T_e c0) el eh (te_hhx (ru_temp r)).
  Definition T_e_hi := hottest (V_exp 0) (cd_T_e c0) el eh (te_hhx (ru_temp r)).
  Definition range_lo : Conditions R :=
    mkCond (cd_P c0 * ratio 0 c0 / (ch / T_c_lo + fixed_ratio + eh / T_e_lo)) T_c_lo T_e_lo.
  Definition range_hi : Conditions R :=
    mkCond (cd_P c0 * ratio 0 c0 / (cl / T_c_hi + fixed_ratio + el / T_e_hi)) T_c_hi T_e_hi.
End Engine.
