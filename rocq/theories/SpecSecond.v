(** * Specification in exact arithmetic: entropy of the gas *)
From Coq Require Import ZArith NArith List Reals.
From Verif Require Import Num ModelTypes ModelWs ModelHx ModelStateEq ModelEngine RNum SpecR SpecGas SpecKin SpecTraj.
Local Open Scope R_scope.

(** An ideal gas with constant heat capacity [cp], gas constant [Rg], enthalpy
    cp T - h0 and internal energy h - Rg T + k; the flow work P / rho being Rg T,
    [k] is what the internal energy is off by *)
Definition perfect_gas (fl : Fluid R) (Rg cp h0 k : R) : Prop := forall T P, 0 < T ->
  fl_dens fl T P = P / (Rg * T) /\ fl_dd_dP_T fl T P = 1 / (Rg * T) /\
  fl_dd_dT_P fl T P = - P / (Rg * (T * T)) /\ fl_enth fl T P = cp * T - h0 /\
  fl_inte fl T P = cp * T - h0 - Rg * T + k /\ fl_du_dP_T fl T P = 0 /\ fl_du_dT_P fl T P = cp - Rg.

(** specific entropy, up to a constant *)
Definition entropy (Rg cp T P : R) : R := cp * ln T - Rg * ln P.

(** entropy made when a kilogram of gas of temperature [from] mixes into gas of
    temperature [T] *)
Definition mixing (cp from T : R) : R := cp * (from / T - 1 - ln (from / T)).
Definition inflow (m : R) : R := Rmax 0 m.

(** [amount] is the entropy of a volume over time; besides what the gas streams
    [carried] in and the heat [q], given off at temperature [T], took out, it
    changes at time [t] at the rate [made] *)
Definition makes_entropy (amount : R -> R) (t carried q T made : R) : Prop :=
  has_deriv amount t (carried - q / T + made).

Section Entropy.
  Variables Rg cp : R.
  Variable r : @Run R.
  Let rho T P := fl_dens (ru_fluid r) T P.
  Let s := entropy Rg cp.
  Definition comp_entropy (c : R -> Conditions R) (t : R) : R :=
    v_value (fst (ru_ws_vol_fn r t)) * rho (cd_T_c (c t)) (cd_P (c t)) * s (cd_T_c (c t)) (cd_P (c t)).
  Definition exp_entropy (c : R -> Conditions R) (t : R) : R :=
    v_value (snd (ru_ws_vol_fn r t)) * rho (cd_T_e (c t)) (cd_P (c t)) * s (cd_T_e (c t)) (cd_P (c t)).
  Definition chx_entropy (c : R -> Conditions R) (t : R) : R :=
    ru_vol_chx r * rho (te_chx (ru_temp r)) (cd_P (c t)) * s (te_chx (ru_temp r)) (cd_P (c t)).
  Definition hhx_entropy (c : R -> Conditions R) (t : R) : R :=
    ru_vol_hhx r * rho (te_hhx (ru_temp r)) (cd_P (c t)) * s (te_hhx (ru_temp r)) (cd_P (c t)).

  (** the entropy made in the four volumes other than the regenerator, the gas
      streams carrying the entropy of the gas where they come from, if the
      volumes make entropy at the rates given *)
  Definition entropy_made (c : R -> Conditions R) (sol : Solution R) (t : R)
      (comp chx hhx exp : R) : Prop :=
    let P := cd_P (c t) in
    let T_k := te_chx (ru_temp r) in let T_l := te_hhx (ru_temp r) in
    exists s_ck s_kr s_rl s_le,
      donor_R (so_m_dot_ck sol) (s (cd_T_c (c t)) P) (s T_k P) s_ck /\
      donor_R (so_m_dot_kr sol) (s T_k P) (s (rt_cold (te_regen (ru_temp r))) P) s_kr /\
      donor_R (so_m_dot_rl sol) (s (rt_hot (te_regen (ru_temp r))) P) (s T_l P) s_rl /\
      donor_R (so_m_dot_le sol) (s T_l P) (s (cd_T_e (c t)) P) s_le /\
      makes_entropy (comp_entropy c) t (- (so_m_dot_ck sol * s_ck))
        (pp_thermal (par_comp (ru_ws_parasitics r))) (cd_T_c (c t)) comp /\
      makes_entropy (chx_entropy c) t (so_m_dot_ck sol * s_ck - so_m_dot_kr sol * s_kr)
        (so_Q_dot_k sol) T_k chx /\
      makes_entropy (hhx_entropy c) t (so_m_dot_rl sol * s_rl - so_m_dot_le sol * s_le)
        (- so_Q_dot_l sol) T_l hhx /\
      makes_entropy (exp_entropy c) t (so_m_dot_le sol * s_le)
        (pp_thermal (par_exp (ru_ws_parasitics r))) (cd_T_e (c t)) exp.

  (** what mixing of inflowing gas makes *)
  Definition mixing_comp (c : Conditions R) (sol : Solution R) : R :=
    inflow (- so_m_dot_ck sol) * mixing cp (te_chx (ru_temp r)) (cd_T_c c).
  Definition mixing_chx (c : Conditions R) (sol : Solution R) : R :=
    inflow (so_m_dot_ck sol) * mixing cp (cd_T_c c) (te_chx (ru_temp r))
    + inflow (- so_m_dot_kr sol) * mixing cp (rt_cold (te_regen (ru_temp r))) (te_chx (ru_temp r)).
  Definition mixing_hhx (c : Conditions R) (sol : Solution R) : R :=
    inflow (so_m_dot_rl sol) * mixing cp (rt_hot (te_regen (ru_temp r))) (te_hhx (ru_temp r))
    + inflow (- so_m_dot_le sol) * mixing cp (cd_T_e c) (te_hhx (ru_temp r)).
  Definition mixing_exp (c : Conditions R) (sol : Solution R) : R :=
    inflow (so_m_dot_le sol) * mixing cp (te_hhx (ru_temp r)) (cd_T_e c).
End Entropy.

(** an exact trajectory, with the solution it follows *)
Definition moves_along (D : Decomp R) (r : Run R) (c : R -> Conditions R) (t : R) (sol : Solution R) : Prop :=
  positive_temps r (c t) /\ 0 < rt_cold (te_regen (ru_temp r)) /\ 0 < rt_hot (te_regen (ru_temp r)) /\
  0 < cd_P (c t) /\ true_derivatives (ru_ws_vol_fn r) t /\
  (exists hint, solve D (Run_calculate_inputs r t (c t)) hint = Ok sol) /\ follows c sol t.
