(** * Specification in exact arithmetic: time series and averages *)
From Coq Require Import ZArith NArith List Reals.
From Verif Require Import Num ModelTypes ModelEngine RNum.
Import ListNotations.
Local Open Scope R_scope.

(** area of the trapezoids under a polygon line *)
Fixpoint trapezoid (pts : list (R * R)) : R :=
  match pts with
  | (x0, y0) :: (((x1, y1) :: _) as pts') => (y0 + y1) / 2 * (x1 - x0) + trapezoid pts'
  | _ => 0
  end.

(** consecutive samples are in order *)
Fixpoint nondecreasing (l : list R) : Prop :=
  match l with
  | a :: ((b :: _) as l') => a <= b /\ nondecreasing l'
  | _ => True
  end.

(** a time grid that starts at zero and ends at [t] *)
Definition grid_to (time : list R) (t : R) : Prop :=
  nondecreasing time /\ (exists rest, time = 0 :: rest) /\ (exists pre, time = pre ++ [t]) /\ 0 < t.

Definition greatest (m : R) (l : list R) : Prop := In m l /\ forall x, In x l -> x <= m.
Definition least (m : R) (l : list R) : Prop := In m l /\ forall x, In x l -> m <= x.

(** trapezoidal average over [0, t] *)
Definition average (time y : list R) (t : R) : R := trapezoid (combine time y) / t.

(** half the magnitude of the sum of the flows at two interfaces *)
Definition interface_mean (l r : list R) : list R := map (fun '(a, b) => Rabs (a + b) / 2) (combine l r).

(** the same values with all flows reversed *)
Definition reversed (v : Values R) : Values R :=
  let neg := map Ropp in
  mkValues (vs_time v) (vs_P v) (vs_T_c v) (vs_T_e v)
    (neg (vs_m_dot_ck v)) (neg (vs_m_dot_kr v)) (neg (vs_m_dot_rl v)) (neg (vs_m_dot_le v))
    (vs_Q_dot_k v) (vs_Q_dot_r v) (vs_Q_dot_l v).
