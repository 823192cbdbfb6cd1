(** * Specification in exact arithmetic: an integrator with small steps and small errors *)
From Coq Require Import ZArith NArith List Reals.
From Verif Require Import Num ModelTypes ModelStateEq ModelEngine RNum SpecGas SpecSeries SpecQuad SpecSample SpecGlobal.
Import ListNotations.
Local Open Scope R_scope.

(** each point is followed by one within [e] per second of where its own exact trajectory leads *)
Fixpoint accurate_points (e : R) (D : Decomp R) (r : Run R) (pts : list (Point R)) : Prop :=
  match pts with
  | p :: ((p' :: _) as rest) =>
      leads_to D r (pt_time p) (pt_time p') (pt_conditions p) (pt_conditions p') (e * (pt_time p' - pt_time p)) /\
      accurate_points e D r rest
  | _ => True
  end.
(** between [n] points from conditions in [region], the integrator covers the revolution in steps of at
    most [h], with errors of at most [e] per second *)
Definition resolves (E : Env R) (D : Decomp R) (r : Run R) (region : Conditions R -> Prop) (tol : OdeTolerance R) (n : N)
    (h e : R) : Prop :=
  forall ic pts, region ic -> try_from E D (Run_Cycle r) ic n tol = Ret (Ok pts) ->
    grid_to (map (@pt_time R) pts) (ru_period r) /\ steps_within h (map (@pt_time R) pts) /\ accurate_points e D r pts.
