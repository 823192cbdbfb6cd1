(** * Specification in exact arithmetic: the balances behind the state equations *)
From Coq Require Import ZArith NArith List Reals.
From Verif Require Import Num ModelTypes ModelWs ModelHx ModelStateEq ModelEngine ModelApi RNum Spec.
Import ListNotations.
Local Open Scope R_scope.

(** ** Linear systems *)

Definition dot (a x : vec10 R) : R :=
  v0 a * v0 x + v1 a * v1 x + v2 a * v2 x + v3 a * v3 x + v4 a * v4 x +
  v5 a * v5 x + v6 a * v6 x + v7 a * v7 x + v8 a * v8 x + v9 a * v9 x.
Definition mat_vec (A : Matrix R) (x : Vector R) : Vector R :=
  V10 (dot (v0 A) x) (dot (v1 A) x) (dot (v2 A) x) (dot (v3 A) x) (dot (v4 A) x)
      (dot (v5 A) x) (dot (v6 A) x) (dot (v7 A) x) (dot (v8 A) x) (dot (v9 A) x).

(** What is asked of a matrix decomposition in exact arithmetic: what it
    returns is a solution, and it does not fail on a uniquely solvable system *)
Definition sound (D : Decomp R) : Prop := forall A b x, D A b = Some x -> mat_vec A x = b.
Definition complete (D : Decomp R) : Prop :=
  forall A b, (exists! x, mat_vec A x = b) -> D A b <> None.

(** ** Rates of change of mass and internal energy (chain rule)

    A working space has density and specific internal energy depending on its
    own temperature and the pressure, and a moving boundary; the other volumes
    have fixed temperature and volume. *)

Definition mass_rate_space (w : WorkingSpaceIn R) (dT dP : R) : R :=
  wi_vol w * (wi_dd_dT_P w * dT + wi_dd_dP_T w * dP) + wi_dens w * wi_dV_dt w.
Definition mass_rate_hx (x : HeatExchangerIn R) (dP : R) : R := hi_vol x * hi_dd_dP_T x * dP.
Definition mass_rate_regen (x : RegeneratorIn R) (dP : R) : R := gi_vol x * gi_dd_dP_T x * dP.

Definition energy_rate_space (w : WorkingSpaceIn R) (dT dP : R) : R :=
  wi_vol w * wi_dens w * (wi_du_dT_P w * dT + wi_du_dP_T w * dP) +
  wi_inte w * mass_rate_space w dT dP.
Definition energy_rate_hx (x : HeatExchangerIn R) (dP : R) : R :=
  hi_vol x * hi_dens x * (hi_du_dP_T x * dP) + hi_inte x * mass_rate_hx x dP.
Definition energy_rate_regen (x : RegeneratorIn R) (dP : R) : R :=
  gi_vol x * gi_dens x * (gi_du_dP_T x * dP) + gi_inte x * mass_rate_regen x dP.

(** ** Balances of the five control volumes

    compression space - m_ck -> chx - m_kr -> regenerator - m_rl -> hhx - m_le -> expansion space *)

Definition mass_balances (i : Inputs R) (s : Solution R) : Prop :=
  mass_rate_space (in_comp i) (so_dTc_dt s) (so_dP_dt s) = - so_m_dot_ck s /\
  mass_rate_hx (in_chx i) (so_dP_dt s) = so_m_dot_ck s - so_m_dot_kr s /\
  mass_rate_regen (in_regen i) (so_dP_dt s) = so_m_dot_kr s - so_m_dot_rl s /\
  mass_rate_hx (in_hhx i) (so_dP_dt s) = so_m_dot_rl s - so_m_dot_le s /\
  mass_rate_space (in_exp i) (so_dTe_dt s) (so_dP_dt s) = so_m_dot_le s.

(** enthalpies [h_..] of the gas crossing the four interfaces; [wi_Q_dot] is
    heat lost by a working space, Q_k and Q_r heat given off by the gas in the
    cold exchanger and the regenerator, Q_l heat taken up in the hot exchanger *)
Definition energy_balances (i : Inputs R) (h_ck h_kr h_rl h_le : R) (s : Solution R) : Prop :=
  let P := in_pres i in
  energy_rate_space (in_comp i) (so_dTc_dt s) (so_dP_dt s) =
    - (h_ck * so_m_dot_ck s) - P * wi_dV_dt (in_comp i) - wi_Q_dot (in_comp i) /\
  energy_rate_hx (in_chx i) (so_dP_dt s) =
    h_ck * so_m_dot_ck s - h_kr * so_m_dot_kr s - so_Q_dot_k s /\
  energy_rate_regen (in_regen i) (so_dP_dt s) =
    h_kr * so_m_dot_kr s - h_rl * so_m_dot_rl s - so_Q_dot_r s /\
  energy_rate_hx (in_hhx i) (so_dP_dt s) =
    h_rl * so_m_dot_rl s - h_le * so_m_dot_le s + so_Q_dot_l s /\
  energy_rate_space (in_exp i) (so_dTe_dt s) (so_dP_dt s) =
    h_le * so_m_dot_le s - P * wi_dV_dt (in_exp i) - wi_Q_dot (in_exp i).

(** gas carries the enthalpy of the volume it comes from *)
Definition donor_R (m cold hot h : R) : Prop := (0 <= m -> h = cold) /\ (m < 0 -> h = hot).

(** all balances, with the enthalpies of the volumes the gas comes from *)
Definition conserves (i : Inputs R) (s : Solution R) : Prop :=
  mass_balances i s /\
  exists h_ck h_kr h_rl h_le,
    donor_R (so_m_dot_ck s) (wi_enth (in_comp i)) (hi_enth (in_chx i)) h_ck /\
    donor_R (so_m_dot_kr s) (hi_enth (in_chx i)) (gi_enth_cold (in_regen i)) h_kr /\
    donor_R (so_m_dot_rl s) (gi_enth_hot (in_regen i)) (hi_enth (in_hhx i)) h_rl /\
    donor_R (so_m_dot_le s) (hi_enth (in_hhx i)) (wi_enth (in_exp i)) h_le /\
    energy_balances i h_ck h_kr h_rl h_le s.

Definition total_mass_rate (i : Inputs R) (s : Solution R) : R :=
  mass_rate_space (in_comp i) (so_dTc_dt s) (so_dP_dt s) + mass_rate_hx (in_chx i) (so_dP_dt s) +
  mass_rate_regen (in_regen i) (so_dP_dt s) + mass_rate_hx (in_hhx i) (so_dP_dt s) +
  mass_rate_space (in_exp i) (so_dTe_dt s) (so_dP_dt s).
Definition total_energy_rate (i : Inputs R) (s : Solution R) : R :=
  energy_rate_space (in_comp i) (so_dTc_dt s) (so_dP_dt s) + energy_rate_hx (in_chx i) (so_dP_dt s) +
  energy_rate_regen (in_regen i) (so_dP_dt s) + energy_rate_hx (in_hhx i) (so_dP_dt s) +
  energy_rate_space (in_exp i) (so_dTe_dt s) (so_dP_dt s).

(** the same inputs with another normalising enthalpy *)
Definition with_norm (i : Inputs R) (hn : R) : Inputs R :=
  mkInputs (in_pres i) hn (in_comp i) (in_chx i) (in_regen i) (in_hhx i) (in_exp i).

(** [x] solves the linear system for the flow directions [d] *)
Definition solves_system (i : Inputs R) (d : FlowDirection) (x : Vector R) : Prop :=
  let hn := in_enth_norm i in
  mat_vec
    (state_matrix i
       (by_direction (fd_ck d) (wi_enth (in_comp i) / hn) (hi_enth (in_chx i) / hn))
       (by_direction (fd_kr d) (hi_enth (in_chx i) / hn) (gi_enth_cold (in_regen i) / hn))
       (by_direction (fd_rl d) (gi_enth_hot (in_regen i) / hn) (hi_enth (in_hhx i) / hn))
       (by_direction (fd_le d) (hi_enth (in_hhx i) / hn) (wi_enth (in_exp i) / hn)))
    x = state_rhs i.

(** [x] solves the linear system the code sets up *)
Definition solves_code_system (i : Inputs R) (d : FlowDirection) (x : Vector R) : Prop :=
  mat_vec (create_matrix (sys_stencil (System_new i)) d) x = sys_b (System_new i).

(** ** Physical inputs *)

(** positive volume, density and heat capacity; positive compressibility at
    constant entropy; and the enthalpy of inflowing gas (own or of the
    neighbouring volume, [h]) large enough that inflow at constant pressure does
    not shrink the gas *)
Definition physical_space (w : WorkingSpaceIn R) (h : R) : Prop :=
  0 < wi_vol w /\ 0 < wi_dens w /\ 0 < wi_du_dT_P w /\
  wi_dd_dT_P w * wi_du_dP_T w < wi_dd_dP_T w * wi_du_dT_P w /\
  wi_dd_dT_P w * (wi_enth w - wi_inte w) < wi_dens w * wi_du_dT_P w /\
  wi_dd_dT_P w * (h - wi_inte w) < wi_dens w * wi_du_dT_P w.
Definition physical (i : Inputs R) : Prop :=
  in_enth_norm i <> 0 /\
  physical_space (in_comp i) (hi_enth (in_chx i)) /\
  physical_space (in_exp i) (hi_enth (in_hhx i)) /\
  0 <= hi_vol (in_chx i) /\ 0 <= hi_dd_dP_T (in_chx i) /\
  0 <= gi_vol (in_regen i) /\ 0 <= gi_dd_dP_T (in_regen i) /\
  0 <= hi_vol (in_hhx i) /\ 0 <= hi_dd_dP_T (in_hhx i).

(** ** Integrations of physical points *)

(** the integrator asks only for points with physical inputs, as long as its
    questions are answered with derivatives of the cycle *)
Fixpoint asks_physical (D : Decomp R) (c : Cycle R) (p : ode_prog R) : Prop :=
  match p with
  | ODone _ _ => True
  | OErr => True
  | OAsk t y k =>
      physical (cy_calculate_inputs c t (mkCond (fst (fst y)) (snd (fst y)) (snd y))) /\
      forall dy, derivative_at D c t y dy -> asks_physical D c (k dy)
  end.
