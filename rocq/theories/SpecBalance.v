(** * Specification: balances that hold up to rounding and to the accuracy of the linear solver *)
From Coq Require Import ZArith NArith List Reals.
From Flocq Require Import Core BinarySingleNaN.
From Verif Require Import Num ModelTypes ModelWs ModelHx ModelStateEq ModelEngine RNum B64 Spec SpecR SpecF64 SpecRound.
Import ListNotations.
Local Open Scope R_scope.

(** the exact numbers that f64 records stand for *)
Definition ws_values (w : WorkingSpaceIn b64) : WorkingSpaceIn R :=
  mkWsIn (value (wi_vol w)) (value (wi_dens w)) (value (wi_inte w)) (value (wi_enth w))
    (value (wi_dd_dP_T w)) (value (wi_dd_dT_P w)) (value (wi_du_dP_T w)) (value (wi_du_dT_P w))
    (value (wi_dV_dt w)) (value (wi_Q_dot w)).
Definition hx_values (x : HeatExchangerIn b64) : HeatExchangerIn R :=
  mkHxIn (value (hi_vol x)) (value (hi_dens x)) (value (hi_inte x)) (value (hi_enth x))
    (value (hi_dd_dP_T x)) (value (hi_du_dP_T x)).
Definition reg_values (x : RegeneratorIn b64) : RegeneratorIn R :=
  mkRegIn (value (gi_vol x)) (value (gi_dens x)) (value (gi_inte x)) (value (gi_enth_cold x))
    (value (gi_enth_hot x)) (value (gi_dd_dP_T x)) (value (gi_du_dP_T x)).
Definition input_values (i : Inputs b64) : Inputs R :=
  mkInputs (value (in_pres i)) (value (in_enth_norm i)) (ws_values (in_comp i)) (hx_values (in_chx i))
    (reg_values (in_regen i)) (hx_values (in_hhx i)) (ws_values (in_exp i)).
Definition solution_values (s : Solution b64) : Solution R :=
  mkSolution (value (so_m_dot_ck s)) (value (so_m_dot_kr s)) (value (so_m_dot_rl s)) (value (so_m_dot_le s))
    (value (so_Q_dot_k s)) (value (so_Q_dot_r s)) (value (so_Q_dot_l s))
    (value (so_dTc_dt s)) (value (so_dTe_dt s)) (value (so_dP_dt s)).
Definition vec_map {A B} (f : A -> B) (v : vec10 A) : vec10 B :=
  V10 (f (v0 v)) (f (v1 v)) (f (v2 v)) (f (v3 v)) (f (v4 v)) (f (v5 v)) (f (v6 v)) (f (v7 v)) (f (v8 v)) (f (v9 v)).
Definition all10 {A} (P : A -> Prop) (v : vec10 A) : Prop :=
  P (v0 v) /\ P (v1 v) /\ P (v2 v) /\ P (v3 v) /\ P (v4 v) /\ P (v5 v) /\ P (v6 v) /\ P (v7 v) /\ P (v8 v) /\ P (v9 v).
Definition finite_solution (s : Solution b64) : Prop :=
  Forall finite [so_m_dot_ck s; so_m_dot_kr s; so_m_dot_rl s; so_m_dot_le s; so_Q_dot_k s; so_Q_dot_r s;
    so_Q_dot_l s; so_dTc_dt s; so_dTe_dt s; so_dP_dt s].

(** An answer [x] to the equation [a x = b] that is accurate to [e]: the two
    sides differ by at most [e] times the sum of the magnitudes of all terms *)
Definition row_holds (e : R) (a x : vec10 b64) (b : b64) : Prop :=
  Rabs (dot (vec_map value a) (vec_map value x) - value b)
    <= e * (dot (vec_map (fun y => Rabs (value y)) a) (vec_map (fun y => Rabs (value y)) x) + Rabs (value b)).

Section System.
  Context {ops : NumOps b64}.
  (** the state equations for given flow directions *)
  Definition directed_matrix (i : Inputs b64) (d : FlowDirection) : Matrix b64 :=
    let hn := in_enth_norm i in
    state_matrix i
      (by_direction (fd_ck d) (n_div (wi_enth (in_comp i)) hn) (n_div (hi_enth (in_chx i)) hn))
      (by_direction (fd_kr d) (n_div (hi_enth (in_chx i)) hn) (n_div (gi_enth_cold (in_regen i)) hn))
      (by_direction (fd_rl d) (n_div (gi_enth_hot (in_regen i)) hn) (n_div (hi_enth (in_hhx i)) hn))
      (by_direction (fd_le d) (n_div (hi_enth (in_hhx i)) hn) (n_div (wi_enth (in_exp i)) hn)).
  (** the linear solver answers the state equations accurately to [e],
      whatever the flow directions, unless something overflows *)
  Definition careful (D : Decomp b64) (e : R) (i : Inputs b64) : Prop := forall d x,
    D (directed_matrix i d) (state_rhs i) = Some x ->
    all10 (all10 finite) (directed_matrix i d) -> all10 finite (state_rhs i) -> all10 finite x ->
    forall j : ix, row_holds e (vget (directed_matrix i d) j) x (vget (state_rhs i) j).
  (** the coefficients of the state equations for the flow directions of [s] do not overflow *)
  Definition finite_system (i : Inputs b64) (s : Solution b64) : Prop :=
    all10 (all10 finite) (directed_matrix i (signs s)) /\ all10 finite (state_rhs i).
End System.

(** relative error of [k] operations and of the linear solver *)
Definition compound (e : R) (k : nat) : R := (1 + e) * (1 + unit_roundoff) ^ k - 1.
(** [x] is zero but for these errors in terms of magnitude [m], and for underflow *)
Definition vanishes (e : R) (k : nat) (m slack x : R) : Prop :=
  Rabs x <= compound e k * m + (1 + e) * slack * tiny.

(** ** Mass: the five balances of [mass_balances] *)
Definition masses_nearly (e : R) (i : Inputs R) (s : Solution R) : Prop :=
  let dP := so_dP_dt s in
  let space w dT m := vanishes e 1
    (Rabs (wi_vol w * wi_dd_dT_P w * dT) + Rabs (wi_vol w * wi_dd_dP_T w * dP) + Rabs (wi_dens w * wi_dV_dt w) + Rabs m)
    (Rabs dT + Rabs dP + 1) in
  let fixed V dd m m' := vanishes e 1 (Rabs (V * dd * dP) + Rabs m + Rabs m') (Rabs dP) in
  let ck := so_m_dot_ck s in let kr := so_m_dot_kr s in let rl := so_m_dot_rl s in let le := so_m_dot_le s in
  space (in_comp i) (so_dTc_dt s) ck (mass_rate_space (in_comp i) (so_dTc_dt s) dP + ck) /\
  fixed (hi_vol (in_chx i)) (hi_dd_dP_T (in_chx i)) ck kr (mass_rate_hx (in_chx i) dP - (ck - kr)) /\
  fixed (gi_vol (in_regen i)) (gi_dd_dP_T (in_regen i)) kr rl (mass_rate_regen (in_regen i) dP - (kr - rl)) /\
  fixed (hi_vol (in_hhx i)) (hi_dd_dP_T (in_hhx i)) rl le (mass_rate_hx (in_hhx i) dP - (rl - le)) /\
  space (in_exp i) (so_dTe_dt s) le (mass_rate_space (in_exp i) (so_dTe_dt s) dP - le).

(** ** Energy: the five balances of [energy_balances] *)

(** magnitude of the energy stored per unit of a rate *)
Definition content (V dens du inte dd : R) : R := Rabs V * (Rabs (dens * du) + Rabs (inte * dd)).
Definition energies_nearly (e : R) (i : Inputs R) (h_ck h_kr h_rl h_le : R) (s : Solution R) : Prop :=
  let P := in_pres i in let hn := Rabs (in_enth_norm i) in
  let dP := so_dP_dt s in
  let under V x := (16 * Rabs V + 2 + hn) * Rabs x in
  let space w dT h m := vanishes e 5
    (content (wi_vol w) (wi_dens w) (wi_du_dT_P w) (wi_inte w) (wi_dd_dT_P w) * Rabs dT +
     content (wi_vol w) (wi_dens w) (wi_du_dP_T w) (wi_inte w) (wi_dd_dP_T w) * Rabs dP +
     Rabs (h * m) + (Rabs P + Rabs (wi_dens w * wi_inte w)) * Rabs (wi_dV_dt w) + Rabs (wi_Q_dot w))
    (under (wi_vol w) dT + under (wi_vol w) dP + hn * Rabs m + (16 * Rabs (wi_dV_dt w) + 4 + hn)) in
  let fixed V dens du inte dd h m h' m' Q := vanishes e 5
    (content V dens du inte dd * Rabs dP + Rabs (h * m) + Rabs (h' * m') + Rabs Q)
    (under V dP + hn * (Rabs m + Rabs m' + Rabs Q)) in
  let ck := so_m_dot_ck s in let kr := so_m_dot_kr s in let rl := so_m_dot_rl s in let le := so_m_dot_le s in
  let c := in_comp i in let k := in_chx i in let r := in_regen i in let l := in_hhx i in let x := in_exp i in
  space c (so_dTc_dt s) h_ck ck
    (energy_rate_space c (so_dTc_dt s) dP - (- (h_ck * ck) - P * wi_dV_dt c - wi_Q_dot c)) /\
  fixed (hi_vol k) (hi_dens k) (hi_du_dP_T k) (hi_inte k) (hi_dd_dP_T k) h_ck ck h_kr kr (so_Q_dot_k s)
    (energy_rate_hx k dP - (h_ck * ck - h_kr * kr - so_Q_dot_k s)) /\
  fixed (gi_vol r) (gi_dens r) (gi_du_dP_T r) (gi_inte r) (gi_dd_dP_T r) h_kr kr h_rl rl (so_Q_dot_r s)
    (energy_rate_regen r dP - (h_kr * kr - h_rl * rl - so_Q_dot_r s)) /\
  fixed (hi_vol l) (hi_dens l) (hi_du_dP_T l) (hi_inte l) (hi_dd_dP_T l) h_rl rl h_le le (so_Q_dot_l s)
    (energy_rate_hx l dP - (h_rl * rl - h_le * le + so_Q_dot_l s)) /\
  space x (so_dTe_dt s) h_le le
    (energy_rate_space x (so_dTe_dt s) dP - (h_le * le - P * wi_dV_dt x - wi_Q_dot x)).

(** all balances up to these errors, with the enthalpies of the volumes the gas comes from *)
Definition nearly_conserves (e : R) (i : Inputs R) (s : Solution R) : Prop :=
  masses_nearly e i s /\
  exists h_ck h_kr h_rl h_le,
    donor_R (so_m_dot_ck s) (wi_enth (in_comp i)) (hi_enth (in_chx i)) h_ck /\
    donor_R (so_m_dot_kr s) (hi_enth (in_chx i)) (gi_enth_cold (in_regen i)) h_kr /\
    donor_R (so_m_dot_rl s) (gi_enth_hot (in_regen i)) (hi_enth (in_hhx i)) h_rl /\
    donor_R (so_m_dot_le s) (hi_enth (in_hhx i)) (wi_enth (in_exp i)) h_le /\
    energies_nearly e i h_ck h_kr h_rl h_le s.

(** ** The gas as a whole *)
Definition mass_magnitude (i : Inputs R) (s : Solution R) : R :=
  let c := in_comp i in let x := in_exp i in let dP := so_dP_dt s in
  Rabs (wi_vol c * wi_dd_dT_P c * so_dTc_dt s) + Rabs (wi_vol x * wi_dd_dT_P x * so_dTe_dt s) +
  Rabs (wi_vol c * wi_dd_dP_T c * dP) + Rabs (hi_vol (in_chx i) * hi_dd_dP_T (in_chx i) * dP) +
  Rabs (gi_vol (in_regen i) * gi_dd_dP_T (in_regen i) * dP) +
  Rabs (hi_vol (in_hhx i) * hi_dd_dP_T (in_hhx i) * dP) + Rabs (wi_vol x * wi_dd_dP_T x * dP) +
  Rabs (wi_dens c * wi_dV_dt c) + Rabs (wi_dens x * wi_dV_dt x) +
  2 * (Rabs (so_m_dot_ck s) + Rabs (so_m_dot_kr s) + Rabs (so_m_dot_rl s) + Rabs (so_m_dot_le s)).
Definition energy_magnitude (i : Inputs R) (h_ck h_kr h_rl h_le : R) (s : Solution R) : R :=
  let c := in_comp i in let k := in_chx i in let r := in_regen i in let l := in_hhx i in let x := in_exp i in
  let P := Rabs (in_pres i) in
  content (wi_vol c) (wi_dens c) (wi_du_dT_P c) (wi_inte c) (wi_dd_dT_P c) * Rabs (so_dTc_dt s) +
  content (wi_vol x) (wi_dens x) (wi_du_dT_P x) (wi_inte x) (wi_dd_dT_P x) * Rabs (so_dTe_dt s) +
  (content (wi_vol c) (wi_dens c) (wi_du_dP_T c) (wi_inte c) (wi_dd_dP_T c) +
   content (hi_vol k) (hi_dens k) (hi_du_dP_T k) (hi_inte k) (hi_dd_dP_T k) +
   content (gi_vol r) (gi_dens r) (gi_du_dP_T r) (gi_inte r) (gi_dd_dP_T r) +
   content (hi_vol l) (hi_dens l) (hi_du_dP_T l) (hi_inte l) (hi_dd_dP_T l) +
   content (wi_vol x) (wi_dens x) (wi_du_dP_T x) (wi_inte x) (wi_dd_dP_T x)) * Rabs (so_dP_dt s) +
  2 * (Rabs (h_ck * so_m_dot_ck s) + Rabs (h_kr * so_m_dot_kr s) + Rabs (h_rl * so_m_dot_rl s) + Rabs (h_le * so_m_dot_le s)) +
  (P + Rabs (wi_dens c * wi_inte c)) * Rabs (wi_dV_dt c) + (P + Rabs (wi_dens x * wi_inte x)) * Rabs (wi_dV_dt x) +
  Rabs (wi_Q_dot c) + Rabs (wi_Q_dot x) + Rabs (so_Q_dot_k s) + Rabs (so_Q_dot_r s) + Rabs (so_Q_dot_l s).
Definition energy_slack (i : Inputs R) (s : Solution R) : R :=
  let c := in_comp i in let x := in_exp i in let hn := Rabs (in_enth_norm i) in
  let V := Rabs (hi_vol (in_chx i)) + Rabs (gi_vol (in_regen i)) + Rabs (hi_vol (in_hhx i)) in
  (16 * Rabs (wi_vol c) + 2 + hn) * Rabs (so_dTc_dt s) + (16 * Rabs (wi_vol x) + 2 + hn) * Rabs (so_dTe_dt s) +
  (16 * (Rabs (wi_vol c) + V + Rabs (wi_vol x)) + 10 + 5 * hn) * Rabs (so_dP_dt s) +
  hn * (2 * (Rabs (so_m_dot_ck s) + Rabs (so_m_dot_kr s) + Rabs (so_m_dot_rl s) + Rabs (so_m_dot_le s)) +
        Rabs (so_Q_dot_k s) + Rabs (so_Q_dot_r s) + Rabs (so_Q_dot_l s)) +
  (16 * Rabs (wi_dV_dt c) + 4 + hn) + (16 * Rabs (wi_dV_dt x) + 4 + hn).
(** no mass is created, and the energy of the gas changes by the work done by
    the moving boundaries and by the heat exchanged *)
Definition totals_nearly (e : R) (i : Inputs R) (s : Solution R) : Prop :=
  vanishes e 1 (mass_magnitude i s) (Rabs (so_dTc_dt s) + Rabs (so_dTe_dt s) + 5 * Rabs (so_dP_dt s) + 2)
    (total_mass_rate i s) /\
  exists h_ck h_kr h_rl h_le,
    donor_R (so_m_dot_ck s) (wi_enth (in_comp i)) (hi_enth (in_chx i)) h_ck /\
    donor_R (so_m_dot_kr s) (hi_enth (in_chx i)) (gi_enth_cold (in_regen i)) h_kr /\
    donor_R (so_m_dot_rl s) (gi_enth_hot (in_regen i)) (hi_enth (in_hhx i)) h_rl /\
    donor_R (so_m_dot_le s) (hi_enth (in_hhx i)) (wi_enth (in_exp i)) h_le /\
    vanishes e 5 (energy_magnitude i h_ck h_kr h_rl h_le s) (energy_slack i s)
      (total_energy_rate i s -
        (- in_pres i * (wi_dV_dt (in_comp i) + wi_dV_dt (in_exp i)) - wi_Q_dot (in_comp i) - wi_Q_dot (in_exp i)
         - so_Q_dot_k s - so_Q_dot_r s + so_Q_dot_l s)).
