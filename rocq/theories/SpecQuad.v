(** * Specification in exact arithmetic: accuracy of integration over samples *)
From Coq Require Import ZArith NArith List Reals.
From Verif Require Import Num ModelTypes ModelEngine RNum SpecGas SpecSeries.
Import ListNotations.
Local Open Scope R_scope.

(** sum of [w] over the steps of a time grid *)
Fixpoint over_steps (w : R -> R) (x : list R) : R :=
  match x with
  | a :: ((b :: _) as x') => w (b - a) + over_steps w x'
  | _ => 0
  end.
(** no step is longer than [h] *)
Fixpoint steps_within (h : R) (x : list R) : Prop :=
  match x with
  | a :: ((b :: _) as x') => b - a <= h /\ steps_within h x'
  | _ => True
  end.

Definition between (a b : R) (P : R -> Prop) : Prop := forall u, a <= u <= b -> P u.

(** [F] is an antiderivative of [f] from [a] to [b] *)
Definition antiderivative (F f : R -> R) (a b : R) : Prop := between a b (fun u => has_deriv F u (f u)).
(** [f] changes at most [K] times as fast as its argument *)
Definition changes_within (K : R) (f : R -> R) (a b : R) : Prop :=
  forall u v, a <= u -> u <= v -> v <= b -> Rabs (f v - f u) <= K * (v - u).
(** [f] is twice differentiable with second derivative bounded by [M] *)
Definition bends_within (M : R) (f : R -> R) (a b : R) : Prop :=
  exists f' f'' : R -> R,
    between a b (fun u => has_deriv f u (f' u)) /\ between a b (fun u => has_deriv f' u (f'' u)) /\
    between a b (fun u => Rabs (f'' u) <= M).
