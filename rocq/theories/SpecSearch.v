(** * Specification in exact arithmetic: an integrator that can be relied on *)
From Coq Require Import ZArith NArith List Reals.
From Verif Require Import Num ModelTypes ModelWs ModelHx ModelStateEq ModelEngine RNum Spec SpecR SpecUnique SpecContract.
Import ListNotations.
Local Open Scope R_scope.

Definition starts_at (pts : list (Point R)) (c : Conditions R) : Prop :=
  exists p rest, pts = p :: rest /\ pt_conditions p = c.
Definition ends_at (pts : list (Point R)) (c : Conditions R) : Prop :=
  exists rest p, pts = rest ++ [p] /\ pt_conditions p = c.
(** the engine gets from [c0] to [c1] in one revolution, and its gas is never colder than [T_low] *)
Definition revolution (D : Decomp R) (r : Run R) (T_low : R) (c0 c1 : Conditions R) : Prop :=
  exists c, c 0 = c0 /\ c (ru_period r) = c1 /\ kept_warm T_low c 0 (ru_period r) /\
    forall t, 0 <= t <= ru_period r -> physical_trajectory D r c t.
(** an integration from [ic] over one revolution whose final temperatures [fin] have an error of at
    most [e], measured in 1/T *)
Definition tracks (D : Decomp R) (r : Run R) (T_low e : R) (ic fin : Conditions R) (pts : list (Point R)) : Prop :=
  starts_at pts ic /\ ends_at pts fin /\ T_low <= cd_T_c fin /\ T_low <= cd_T_e fin /\
  exists c1, revolution D r T_low ic c1 /\ spread fin c1 <= e.
(** from all conditions in [region] the integrator succeeds.  Its integrations between two points have
    an error of at most [e] and lead back to [region].  Those between [n] points start at the given
    conditions and all of their points are physical *)
Definition reliable (E : Env R) (D : Decomp R) (r : Run R) (T_low e P0 : R) (region : Conditions R -> Prop)
    (tol : OdeTolerance R) (n : N) : Prop :=
  forall ic, region ic ->
    (exists pts fin, try_from E D (Run_Cycle r) ic 2 tol = Ret (Ok pts) /\ tracks D r T_low e ic fin pts /\
       region (mkCond P0 (cd_T_c fin) (cd_T_e fin))) /\
    exists pts, try_from E D (Run_Cycle r) ic n tol = Ret (Ok pts) /\ starts_at pts ic /\
       Forall (fun p => physical (Run_calculate_inputs r (pt_time p) (pt_conditions p))) pts.

(** the temperatures at the start of a cycle that passes the test with tolerance [tol] differ by at most
    this much from those of the steady cycle *)
Definition test_error (T_low q e : R) (tol : ConvergenceTolerance R) : R :=
  (e + 2 * (Rmin (ct_rel tol) (ct_abs tol / T_low) / T_low)) / (1 - q).
(** change of the temperatures over a revolution, after [n] revolutions from a start at a distance of
    [d] *)
Definition change_after (q e d : R) (n : nat) : R := (1 + q) * (q ^ n * d + e / (1 - q)) + e.
(** temperatures up to [T_hi] that change this little pass the test *)
Definition passes_test (tol : ConvergenceTolerance R) (T_hi ds : R) : Prop :=
  T_hi * ds < ct_rel tol /\ T_hi * T_hi * ds < ct_abs tol.
(** the result begins with temperatures that differ by at most [x] from those of [c] *)
Definition found_near (c : Conditions R) (P0 x : R) (vs : list (SeValues R)) : Prop :=
  exists v rest, vs = v :: rest /\ cd_P (sv_conditions v) = P0 /\ spread (sv_conditions v) c <= x.
(** the values are those of an integration between [n] points from conditions in [region] *)
Definition sampled_from (E : Env R) (D : Decomp R) (r : Run R) (region : Conditions R -> Prop)
    (tol : OdeTolerance R) (n : N) (vs : list (SeValues R)) : Prop :=
  exists ic pts, region ic /\ try_from E D (Run_Cycle r) ic n tol = Ret (Ok pts) /\ values_of_points D (Run_Cycle r) pts vs.
