(** * Specification in exact arithmetic: gas in the five spaces of an engine, and streams between them *)
From Coq Require Import ZArith NArith List Reals.
From Verif Require Import Num ModelTypes ModelWs ModelHx ModelStateEq ModelEngine RNum SpecGas.
Local Open Scope R_scope.

(** mass and internal energy of gas at temperature [T] and pressure [P] that fills the volume [V] *)
Definition stored_mass (r : Run R) (V T P : R) : R := V * fl_dens (ru_fluid r) T P.
Definition stored_energy (r : Run R) (V T P : R) : R :=
  V * (fl_dens (ru_fluid r) T P * fl_inte (ru_fluid r) T P).
(** enthalpy carried by a stream [m]: forward with gas of temperature [T_from], backward with gas of
    temperature [T_to] *)
Definition carried (r : Run R) (P m T_from T_to : R) : R :=
  Rmax m 0 * fl_enth (ru_fluid r) T_from P + Rmin m 0 * fl_enth (ru_fluid r) T_to P.

Section Streams.
  Variables (r : Run R) (c : R -> Conditions R) (t : R) (s : Solution R).
  Let temp := ru_temp r.
  Let P := cd_P (c t).
  Definition stream_ck := carried r P (so_m_dot_ck s) (cd_T_c (c t)) (te_chx temp).
  Definition stream_kr := carried r P (so_m_dot_kr s) (te_chx temp) (rt_cold (te_regen temp)).
  Definition stream_rl := carried r P (so_m_dot_rl s) (rt_hot (te_regen temp)) (te_hhx temp).
  Definition stream_le := carried r P (so_m_dot_le s) (te_hhx temp) (cd_T_e (c t)).

  (** masses change by what flows in and out *)
  Definition masses_balance : Prop :=
    has_deriv (fun u => stored_mass r (v_value (fst (ru_ws_vol_fn r u))) (cd_T_c (c u)) (cd_P (c u))) t (- so_m_dot_ck s) /\
    has_deriv (fun u => stored_mass r (ru_vol_chx r) (te_chx temp) (cd_P (c u))) t (so_m_dot_ck s - so_m_dot_kr s) /\
    has_deriv (fun u => stored_mass r (ru_vol_regen r) (rt_avg (te_regen temp)) (cd_P (c u))) t (so_m_dot_kr s - so_m_dot_rl s) /\
    has_deriv (fun u => stored_mass r (ru_vol_hhx r) (te_hhx temp) (cd_P (c u))) t (so_m_dot_rl s - so_m_dot_le s) /\
    has_deriv (fun u => stored_mass r (v_value (snd (ru_ws_vol_fn r u))) (cd_T_e (c u)) (cd_P (c u))) t (so_m_dot_le s).
  (** energies of the exchangers change by what streams carry and by heat *)
  Definition exchangers_balance : Prop :=
    has_deriv (fun u => stored_energy r (ru_vol_chx r) (te_chx temp) (cd_P (c u))) t (stream_ck - stream_kr - so_Q_dot_k s) /\
    has_deriv (fun u => stored_energy r (ru_vol_regen r) (rt_avg (te_regen temp)) (cd_P (c u))) t
      (stream_kr - stream_rl - so_Q_dot_r s) /\
    has_deriv (fun u => stored_energy r (ru_vol_hhx r) (te_hhx temp) (cd_P (c u))) t (stream_rl - stream_le + so_Q_dot_l s).
  (** energies of the working spaces also change by work on the pistons *)
  Definition spaces_balance : Prop :=
    has_deriv (fun u => stored_energy r (v_value (fst (ru_ws_vol_fn r u))) (cd_T_c (c u)) (cd_P (c u))) t
      (- stream_ck - P * v_deriv (fst (ru_ws_vol_fn r t)) - pp_thermal (par_comp (ru_ws_parasitics r))) /\
    has_deriv (fun u => stored_energy r (v_value (snd (ru_ws_vol_fn r u))) (cd_T_e (c u)) (cd_P (c u))) t
      (stream_le - P * v_deriv (snd (ru_ws_vol_fn r t)) - pp_thermal (par_exp (ru_ws_parasitics r))).
End Streams.
