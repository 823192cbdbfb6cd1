(** * Specification in exact arithmetic: heat, work and entropy of a helium engine over a cycle *)
From Coq Require Import ZArith NArith List Reals.
From Verif Require Import Num ModelTypes ModelWs ModelHx ModelStateEq ModelEngine RNum SpecGas SpecTraj SpecSpaces SpecBounds.
Local Open Scope R_scope.

(** what is added up along a trajectory: heat taken up in the hot exchanger, given off in the cold one and kept
    by the regenerator; gas that passes the ends of the regenerator, in both directions; work of the gas on the
    two pistons; entropy made by mixing; and what flow work measured from [T_ref] adds to the entropy *)
Record Book : Type := mkBook {
  bk_taken : R -> R; bk_given : R -> R; bk_kept : R -> R; bk_gas_kr : R -> R; bk_gas_rl : R -> R;
  bk_work_c : R -> R; bk_work_e : R -> R; bk_mixing : R -> R; bk_excess : R -> R }.

(** entropy made when helium at temperature [T_in] is brought to temperature [T] by heat at [T] *)
Definition made (T_in T : R) : R := cp_he * (T_in / T - 1 - ln (T_in / T)).
(** by a stream [m] that goes forward from [T_from] to [T_to], or backward *)
Definition made_by (m T_from T_to : R) : R := Rmax m 0 * made T_from T_to + Rmax (- m) 0 * made T_to T_from.

Definition books (D : Decomp R) (r : Run R) (c : R -> Conditions R) (k : Book) (t : R) : Prop :=
  exists hint s, solve D (Run_calculate_inputs r t (c t)) hint = Ok s /\ follows c s t /\
    has_deriv (bk_taken k) t (so_Q_dot_l s) /\ has_deriv (bk_given k) t (so_Q_dot_k s) /\
    has_deriv (bk_kept k) t (so_Q_dot_r s) /\
    has_deriv (bk_gas_kr k) t (Rabs (so_m_dot_kr s)) /\ has_deriv (bk_gas_rl k) t (Rabs (so_m_dot_rl s)) /\
    has_deriv (bk_work_c k) t (cd_P (c t) * v_deriv (fst (ru_ws_vol_fn r t))) /\
    has_deriv (bk_work_e k) t (cd_P (c t) * v_deriv (snd (ru_ws_vol_fn r t))) /\
    has_deriv (bk_mixing k) t
      (made_by (so_m_dot_ck s) (cd_T_c (c t)) (te_chx (ru_temp r)) + made_by (so_m_dot_le s) (te_hhx (ru_temp r)) (cd_T_e (c t))) /\
    has_deriv (bk_excess k) t (R_he * T_ref * (so_m_dot_le s / cd_T_e (c t) - so_m_dot_ck s / cd_T_c (c t))).

(** what was added up from time [a] to time [b] *)
Definition total (f : R -> R) (a b : R) : R := f b - f a.
