(** * Specification over f64: a solver that places its output points by adding up steps

    The dense output of a solver is reported at the start and then one step [dx] further
    each time, the sum rounded, up to the end of the integration. *)
From Coq Require Import ZArith NArith List Reals Bool.
From Flocq Require Import Core BinarySingleNaN.
From Verif Require Import Num B64 ModelTypes ModelStateEq SpecF64.
Import ListNotations.
Local Open Scope R_scope.

(** [x], [x + dx], [(x + dx) + dx], ... *)
Fixpoint added (x dx : b64) (k : nat) : b64 :=
  match k with O => x | S j => Bplus mode_NE (added x dx j) dx end.
(** [xs] are the added times up to where the solver stops; it stops at the end it was given, up to the
    rounding of its last step *)
Definition placed (a : OdeArgs b64) (xs : list b64) : Prop :=
  exists stop m, Rabs (value stop - value (oa_x_end a)) <= Rabs (value (oa_x_end a)) / 2 ^ 52 /\
    xs = map (added (oa_x a) (oa_dx a)) (seq 0 m) /\
    (forall k, (k < m)%nat -> value (added (oa_x a) (oa_dx a) k) <= value stop) /\
    value stop < value (added (oa_x a) (oa_dx a) m).
(** whatever the answers to its questions are, the program ends with points of which [P] holds, or fails *)
Fixpoint every_end {F} (P : list F -> list (vec3 F) -> Prop) (p : ode_prog F) : Prop :=
  match p with
  | OAsk _ _ k => forall dy, every_end P (k dy)
  | ODone xs ys => P xs ys
  | OErr => True
  end.
Definition adds_times (E : Env b64) : Prop :=
  forall a, every_end (fun xs ys => placed a xs /\ length ys = length xs) (env_ode E a).
