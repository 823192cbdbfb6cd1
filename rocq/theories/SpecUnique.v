(** * Specification in exact arithmetic: determined and repeating trajectories *)
From Coq Require Import ZArith NArith List Reals.
From Verif Require Import Num ModelTypes ModelWs ModelHx ModelStateEq ModelEngine RNum SpecR SpecGas
  SpecKin SpecTraj.
Local Open Scope R_scope.

(** the reported rates of change of the volumes are continuous at time [t] *)
Definition continuous_rates (vol : R -> Volume R * Volume R) (t : R) : Prop :=
  continuity_pt (fun u => v_deriv (fst (vol u))) t /\ continuity_pt (fun u => v_deriv (snd (vol u))) t.
(** the working spaces repeat their motion after [tau] *)
Definition repeats (vol : R -> Volume R * Volume R) (tau : R) : Prop := forall t, vol (t + tau) = vol t.
(** an exact trajectory through physical states *)
Definition physical_trajectory (D : Decomp R) (r : Run R) (c : R -> Conditions R) (t : R) : Prop :=
  on_trajectory D r c t /\ physical (Run_calculate_inputs r t (c t)) /\
  continuous_rates (ru_ws_vol_fn r) t.
(** one of the two drives, turning *)
Definition driven (ws : WorkingSpaces R) : Prop :=
  (exists d, ws = SinusoidalDrive_ws d /\ 0 < sd_frequency d) \/
  (exists d, ws = RhombicDrive_ws d /\ 0 < rd_frequency d /\ turns d /\ rg_D_p (rd_geometry d) <> 0).
