(** * Specification in exact arithmetic: samples that are accurate step by step *)
From Coq Require Import ZArith NArith List Reals.
From Verif Require Import Num ModelTypes ModelWs ModelHx ModelStateEq ModelEngine RNum SpecTraj SpecUnique SpecDepend SpecSample.
Import ListNotations.
Local Open Scope R_scope.

(** an exact trajectory leads from state [x] at time [t] to within [e] of state [y] at time [t'] *)
Definition leads_to (D : Decomp R) (r : Run R) (t t' : R) (x y : Conditions R) (e : R) : Prop :=
  exists z, z t = x /\ (forall u, t <= u <= t' -> on_trajectory D r z u) /\ gap y (z t') <= e.
(** each sample is followed by one within [e] per second of where its own exact trajectory leads *)
Fixpoint accurate_steps (e : R) (D : Decomp R) (r : Run R) (vs : list (SeValues R)) : Prop :=
  match vs with
  | v :: ((w :: _) as vs') =>
      leads_to D r (sv_time v) (sv_time w) (sv_conditions v) (sv_conditions w) (e * (sv_time w - sv_time v)) /\
      accurate_steps e D r vs'
  | _ => True
  end.
Definition starts_near (e : R) (c : R -> Conditions R) (vs : list (SeValues R)) : Prop :=
  match vs with v :: _ => gap (sv_conditions v) (c (sv_time v)) <= e | [] => True end.
(** every sample carries a solution of its own state equations *)
Definition all_solved (D : Decomp R) (r : Run R) (vs : list (SeValues R)) : Prop :=
  Forall (fun v => solved_at D r (sv_time v) (sv_conditions v) (sv_solution v)) vs.
