(** * Specification over f64: properties of the ideal gases *)
From Coq Require Import ZArith NArith List Reals.
From Flocq Require Import Core BinarySingleNaN.
From Verif Require Import Num ModelTypes B64 SpecF64 SpecRound SpecRange.
Local Open Scope R_scope.

(** gas constants, in J/(kg K) *)
Definition const_of (g : GasName) : R := match g with Helium => 2077.23 | Hydrogen => 4124.2 end.
(** coefficients of the heat capacity at constant pressure as a polynomial of the temperature *)
Definition cp_coef (g : GasName) (i : nat) : R :=
  match g, i with
  | Helium, 0%nat => 5193.17
  | Helium, _ => 0
  | Hydrogen, 0%nat => 12471.4839
  | Hydrogen, 1%nat => 13.3194432
  | Hydrogen, 2%nat => - 0.0347782806
  | Hydrogen, 3%nat => 0.0000431784838
  | Hydrogen, 4%nat => - 0.0000000242883335
  | Hydrogen, 5%nat => 0.00000000000514289838
  | _, _ => 0
  end.
(** ... and of the mean heat capacity that goes with the enthalpy *)
Definition mean_coef (g : GasName) (i : nat) : R := cp_coef g i / INR (i + 1).
Definition power_sum (f : nat -> R) (T : R) : R :=
  f 0%nat + f 1%nat * T + f 2%nat * T^2 + f 3%nat * T^3 + f 4%nat * T^4 + f 5%nat * T^5.
(** the same with all terms counted positively *)
Definition power_size (f : nat -> R) (T : R) : R := power_sum (fun i => Rabs (f i)) (Rabs T).

(** [got] is [exact] but for [n] roundings of terms of magnitude [size], and for underflow *)
Definition nearly (n : nat) (got : b64) (exact size : R) : Prop :=
  Rabs (value got - exact) <= growth n * size + / 2 ^ 900.

(** what each property should be *)
Definition accurate_properties (g : GasName) (fl : Fluid b64) (T P : b64) : Prop :=
  let t := value T in let p := value P in let c := const_of g in
  let h := (t - 250) * power_sum (mean_coef g) t in
  let h_size := Rabs (t - 250) * power_size (mean_coef g) t in
  nearly 5 (fl_dens fl T P) (p / (c * t)) (Rabs p / (c * t)) /\
  nearly 14 (fl_enth fl T P) h h_size /\
  nearly 15 (fl_inte fl T P) (h - c * (t - 250)) (h_size + c * Rabs (t - 250)) /\
  nearly 11 (fl_cp fl T P) (power_sum (cp_coef g) t) (power_size (cp_coef g) t) /\
  nearly 5 (fl_dd_dP_T fl T P) (1 / (c * t)) (1 / (c * t)) /\
  nearly 6 (fl_dd_dT_P fl T P) (- (p / (c * t ^ 2))) (Rabs p / (c * t ^ 2)) /\
  value (fl_du_dP_T fl T P) = 0 /\
  nearly 12 (fl_du_dT_P fl T P) (power_sum (cp_coef g) t - c) (power_size (cp_coef g) t + c).
