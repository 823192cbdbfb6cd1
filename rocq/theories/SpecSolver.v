(** * Specification in exact arithmetic: what a solver of differential equations promises

    Nothing here refers to engines: the right-hand side [f] is any function. *)
From Coq Require Import ZArith NArith List Reals.
From Verif Require Import Num ModelTypes ModelStateEq RNum SpecR SpecGas.
Import ListNotations.
Local Open Scope R_scope.

Definition size3 (y : vec3 R) : R := let '(a, b, c) := y in Rabs a + Rabs b + Rabs c.
Definition apart (y z : vec3 R) : R :=
  let '(a, b, c) := y in let '(a', b', c') := z in Rabs (a - a') + Rabs (b - b') + Rabs (c - c').
Definition part1 (y : vec3 R) : R := fst (fst y).
Definition part2 (y : vec3 R) : R := snd (fst y).
Definition part3 (y : vec3 R) : R := snd y.
(** [z] solves [z' = f t z] from [a] to [b] *)
Definition solution_of (f : R -> vec3 R -> vec3 R) (z : R -> vec3 R) (a b : R) : Prop :=
  forall t, a <= t <= b -> has_deriv (fun u => part1 (z u)) t (part1 (f t (z t))) /\
    has_deriv (fun u => part2 (z u)) t (part2 (f t (z t))) /\ has_deriv (fun u => part3 (z u)) t (part3 (f t (z t))).
(** within [rho] of the solution *)
Definition tube (z : R -> vec3 R) (a b rho : R) (t : R) (y : vec3 R) : Prop := a <= t <= b /\ apart y (z t) <= rho.
(** near the solution, [f] is at most [B] and changes at most at the rate [L] *)
Definition regular (f : R -> vec3 R -> vec3 R) (z : R -> vec3 R) (a b rho L B : R) : Prop :=
  forall t y t' y', tube z a b rho t y -> tube z a b rho t' y' ->
    size3 (f t y) <= B /\ apart (f t y) (f t' y') <= L * (Rabs (t - t') + apart y y').
(** the solver only asks where [asked] holds, gets the answers of [f] and ends with these points *)
Inductive served (asked : R -> vec3 R -> Prop) (f : R -> vec3 R -> vec3 R) : ode_prog R -> list R -> list (vec3 R) -> Prop :=
| served_done xs ys : served asked f (ODone xs ys) xs ys
| served_ask t y k xs ys : asked t y -> served asked f (k (f t y)) xs ys -> served asked f (OAsk t y k) xs ys.
(** the times [x], [x + dx], ..., [x + m dx] *)
Definition output_times (x dx : R) (m : nat) : list R := map (fun i => x + INR i * dx) (seq 0 (S m)).
(** with these tolerances the solver follows every solution over times up to [H]: it stays within [rho]
    of the solution and returns, at all times [x + i dx] up to the end, points within [e] of it; the
    first one is the start *)
Definition solver_within (E : Env R) (rtol atol H rho L B e : R) : Prop :=
  forall (a : OdeArgs R) (f : R -> vec3 R -> vec3 R) (z : R -> vec3 R),
  let x := oa_x a in let b := oa_x_end a in let dx := oa_dx a in
  oa_rtol a = rtol -> oa_atol a = atol -> x < b -> b - x <= H -> 0 < dx ->
  z x = oa_y a -> solution_of f z x b -> regular f z x b rho L B ->
  exists m ys, INR m * dx <= b - x < INR (S m) * dx /\
    served (tube z x b rho) f (env_ode E a) (output_times x dx m) (oa_y a :: ys) /\
    Forall2 (fun t y => apart y (z t) <= e) (output_times x dx m) (oa_y a :: ys).
