(** * Specification in exact arithmetic: an accurate integrator *)
From Coq Require Import ZArith NArith List Reals.
From Verif Require Import Num ModelTypes ModelStateEq ModelEngine RNum SpecGas SpecSeries SpecQuad SpecUnique SpecDepend SpecBounds SpecSearch.
Import ListNotations.
Local Open Scope R_scope.

(** temperature of gas in the volume [V] that had temperature [T] in the volume [V'] *)
Definition level (V V' T : R) : R := adiabat V' T / Rpower V (R_he / cv_he).
(** pressure [P0], and temperatures between those of gas that filled the smallest volume and the
    largest one; the volumes of the working spaces are within [cl], [ch] and [el], [eh] *)
Definition within_levels (r : Run R) (P0 cl ch el eh : R) (c : Conditions R) : Prop :=
  let Tk := te_chx (ru_temp r) in
  let Tl := te_hhx (ru_temp r) in
  cd_P c = P0 /\
  level (V_comp r 0) cl (Rmin T_ref (filling Tk)) <= cd_T_c c <= level (V_comp r 0) ch (Rmax T_ref (filling Tk)) /\
  level (V_exp r 0) el (Rmin T_ref (filling Tl)) <= cd_T_e c <= level (V_exp r 0) eh (Rmax T_ref (filling Tl)).
(** from all conditions in [region], the integrator covers a revolution between [n] points in steps of
    at most [h] and is never farther than [e] from the exact trajectory *)
Definition accurate (E : Env R) (D : Decomp R) (r : Run R) (region : Conditions R -> Prop) (tol : OdeTolerance R) (n : N)
    (h e : R) : Prop :=
  forall ic, region ic -> exists pts, try_from E D (Run_Cycle r) ic n tol = Ret (Ok pts) /\ starts_at pts ic /\
    grid_to (map (@pt_time R) pts) (ru_period r) /\ steps_within h (map (@pt_time R) pts) /\
    forall c, c 0 = ic -> (forall t, 0 <= t <= ru_period r -> physical_trajectory D r c t) ->
      Forall (fun p => gap (pt_conditions p) (c (pt_time p)) <= e) pts.
