(** * Specification over f64: approach of a fixed-conductance exchanger *)
From Coq Require Import ZArith NArith List Reals.
From Flocq Require Import Core BinarySingleNaN.
From Verif Require Import Num ModelTypes ModelHx B64 SpecF64 SpecRound SpecRange.
Import ListNotations.
Local Open Scope R_scope.

(** the system's exponential is right within [eps] for negative arguments *)
Definition exp_accurate (lm : Libm) (eps : R) : Prop :=
  forall x, finite x -> value x <= 0 -> finite (lm_exp lm x) /\ Rabs (value (lm_exp lm x) - exp (value x)) <= eps.

(** conductance [UA] and gas of up to 2^40, a capacity rate of at least 2^-40 W/K, and an
    effectiveness at least twice its error *)
Definition ordinary_exchanger (eps : R) (UA : b64) (x : HeatExchanger b64) : Prop :=
  let C := value (hx_cp x) * value (hx_m_dot x) in
  Forall (upto 40) [UA; hx_cp x; hx_m_dot x; hx_Q_dot x] /\ 0 <= value UA /\ / 2 ^ 40 <= C /\
  2 * (eps + growth 12) <= 1 - exp (- (value UA / C)).

(** the effectiveness-NTU relation: the approach is what the exchanger leaves of the
    temperature change [Q / C], up to errors relative to that change, not to the approach *)
Definition near_ntu (eps : R) (UA : b64) (x : HeatExchanger b64) (approach : b64) : Prop :=
  let C := value (hx_cp x) * value (hx_m_dot x) in let Q := value (hx_Q_dot x) in
  let effectiveness := 1 - exp (- (value UA / C)) in
  Rabs (value approach - Q / C * (1 / effectiveness - 1)) <=
    Rabs Q / C * (12 * growth 4 / effectiveness + 2 * (eps + growth 12) / (effectiveness * effectiveness)) + / 2 ^ 900.

(** a regenerator of such sizes between gas of the given temperatures *)
Definition ordinary_regen (UA : b64) (x : HeatExchanger b64) (T_chx T_hhx : b64) : Prop :=
  Forall (upto 40) [UA; hx_cp x; hx_m_dot x; hx_Q_dot x; T_chx; T_hhx] /\ 0 <= value UA /\ / 2 ^ 40 <= value (hx_cp x) * value (hx_m_dot x).
(** the approach of a balanced counterflow exchanger, up to errors relative to the temperature difference *)
Definition near_counterflow (UA : b64) (x : HeatExchanger b64) (T_chx T_hhx approach : b64) : Prop :=
  let n := value UA / (value (hx_cp x) * value (hx_m_dot x)) in let D := value T_hhx - value T_chx in
  Rabs (value approach - D / (1 + n / 2)) <= growth 18 * Rabs D + / 2 ^ 900.
