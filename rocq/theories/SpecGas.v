(** * Specification in exact arithmetic: gas properties and engine conditions *)
From Coq Require Import ZArith NArith List Reals.
From Verif Require Import Num ModelTypes ModelWs ModelHx ModelStateEq ModelEngine RNum.
Local Open Scope R_scope.

(** [l] is the derivative of [f] at [x] *)
Definition has_deriv (f : R -> R) (x l : R) : Prop := derivable_pt_lim f x l.

(** helium's data: gas constant, reference temperature, heat capacity *)
Definition R_he : R := 2077.23.
Definition T_ref : R := 250.
Definition cp_he : R := 5193.17.

(** An engine run in which the state equations have to be solved: positive
    pressure and volumes, and temperatures that are positive and warm enough for
    the enthalpy of the gas (zero at [T_ref]) to carry energy in, i.e.
    cp T > R T_ref (T > 100 K) *)
Definition warm (T : R) : Prop := R_he * T_ref < cp_he * T.
Definition helium_conditions (r : @Run R) (t : R) (c : Conditions R) : Prop :=
  0 < cd_P c /\ warm (cd_T_c c) /\ warm (cd_T_e c) /\
  warm (te_chx (ru_temp r)) /\ warm (te_hhx (ru_temp r)) /\ 0 < rt_avg (te_regen (ru_temp r)) /\
  0 < v_value (fst (ru_ws_vol_fn r t)) /\ 0 < v_value (snd (ru_ws_vol_fn r t)) /\
  0 <= ru_vol_chx r /\ 0 <= ru_vol_regen r /\ 0 <= ru_vol_hhx r.
