(** * Specification in exact arithmetic: heat of the regenerator over a cycle *)
From Coq Require Import ZArith NArith List Reals.
From Verif Require Import Num ModelTypes ModelWs ModelHx ModelStateEq ModelEngine RNum SpecGas SpecTraj SpecSpaces SpecBounds.
Import ListNotations.
Local Open Scope R_scope.

(** all parts of a solution of the state equations *)
Definition parts : list (Solution R -> R) :=
  [so_dP_dt; so_dTc_dt; so_dTe_dt; so_m_dot_ck; so_m_dot_kr; so_m_dot_rl; so_m_dot_le;
   so_Q_dot_k; so_Q_dot_r; so_Q_dot_l].
(** at time [t] the state equations have the solution [S t], and all its parts are continuous *)
Definition solves_continuously (D : Decomp R) (r : Run R) (c : R -> Conditions R) (S : R -> Solution R) (t : R) : Prop :=
  (exists hint, solve D (Run_calculate_inputs r t (c t)) hint = Ok (S t)) /\
  (forall hint s, solve D (Run_calculate_inputs r t (c t)) hint = Ok s -> s = S t) /\
  forall f, In f parts -> continuity_pt (fun u => f (S u)) t.

(** [heat] adds up the heat given to the regenerator, [gas_kr] and [gas_rl] the gas that passes its
    cold and its hot end, in both directions *)
Definition meters (D : Decomp R) (r : Run R) (c : R -> Conditions R) (heat gas_kr gas_rl : R -> R) (t : R) : Prop :=
  exists hint s, solve D (Run_calculate_inputs r t (c t)) hint = Ok s /\ follows c s t /\
    has_deriv heat t (so_Q_dot_r s) /\
    has_deriv gas_kr t (Rabs (so_m_dot_kr s)) /\ has_deriv gas_rl t (Rabs (so_m_dot_rl s)).

(** how much enthalpy gas gains from the cold exchanger to the cold end of the regenerator, and from its
    hot end to the hot exchanger *)
Definition step_cold (r : Run R) (P : R) : R :=
  fl_enth (ru_fluid r) (rt_cold (te_regen (ru_temp r))) P - fl_enth (ru_fluid r) (te_chx (ru_temp r)) P.
Definition step_hot (r : Run R) (P : R) : R :=
  fl_enth (ru_fluid r) (te_hhx (ru_temp r)) P - fl_enth (ru_fluid r) (rt_hot (te_regen (ru_temp r))) P.

(** from time [a] to [b] the expansion space keeps its volume and the compression space does not; neither loses heat *)
Definition rigid_expansion (r : Run R) (a b : R) : Prop :=
  heat_lost_comp r = 0 /\ heat_lost_exp r = 0 /\ (forall t, a <= t <= b -> v_deriv (snd (ru_ws_vol_fn r t)) = 0) /\
  exists t, a < t < b /\ v_deriv (fst (ru_ws_vol_fn r t)) <> 0.
