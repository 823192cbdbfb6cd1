(** * Specification in exact arithmetic: gas that is pushed from one end of the engine to the other *)
From Coq Require Import Reals.
From Verif Require Import Num ModelTypes ModelWs ModelStateEq ModelEngine RNum.
Local Open Scope R_scope.

(** gas expands when heated, and is under pressure *)
Definition expands_when_heated (i : Inputs R) : Prop :=
  0 < in_pres i /\ wi_dd_dT_P (in_comp i) <= 0 /\ wi_dd_dT_P (in_exp i) <= 0.
(** a working space that shrinks and does not lose heat; one that does not shrink and does not gain heat *)
Definition squeezed (w : WorkingSpaceIn R) : Prop := wi_dV_dt w < 0 /\ wi_Q_dot w <= 0.
Definition relaxed (w : WorkingSpaceIn R) : Prop := 0 <= wi_dV_dt w /\ 0 <= wi_Q_dot w.
(** all gas moves towards the expansion space; towards the compression space *)
Definition to_expansion (s : Solution R) : Prop :=
  0 < so_m_dot_ck s /\ 0 < so_m_dot_kr s /\ 0 < so_m_dot_rl s /\ 0 < so_m_dot_le s.
Definition to_compression (s : Solution R) : Prop :=
  so_m_dot_ck s < 0 /\ so_m_dot_kr s < 0 /\ so_m_dot_rl s < 0 /\ so_m_dot_le s < 0.
(** at time [t] the volume of one space shrinks while that of the other does not *)
Definition pushes_at (r : Run R) (t : R) : Prop :=
  let '(vc, ve) := ru_ws_vol_fn r t in
  v_deriv vc < 0 /\ 0 <= v_deriv ve \/ v_deriv ve < 0 /\ 0 <= v_deriv vc.
