(** * Specification in exact arithmetic: heat exchangers *)
From Coq Require Import ZArith NArith List Reals.
From Verif Require Import Num ModelTypes ModelHx ModelEngine RNum.
Local Open Scope R_scope.

(** heat capacity rate *)
Definition capacity (x : HeatExchanger R) : R := hx_cp x * hx_m_dot x.

(** effectiveness of an exchanger whose other side has constant temperature *)
Definition effectiveness (UA C : R) : R := 1 - exp (- (UA / C)).

(** temperature differences at the two ends of a regenerator *)
Definition cold_difference (T : RegenTemp R) (T_chx : R) : R := rt_cold T - T_chx.
Definition hot_difference (T : RegenTemp R) (T_hhx : R) : R := T_hhx - rt_hot T.

(** mean gas temperatures at the two ends *)
Definition cold_end (T : RegenTemp R) (T_chx : R) : R := T_chx + cold_difference T T_chx / 2.
Definition hot_end (T : RegenTemp R) (T_hhx : R) : R := T_hhx - hot_difference T T_hhx / 2.

(** the same exchanger with another conductance *)
Definition with_UA (f : FixedConductance R) (UA : R) : FixedConductance R :=
  mkFC (fc_R_hyd f) (fc_volume f) UA (fc_parasitics f).
