(** * Sets of values that close in on one value *)
From Coq Require Import Reals Lra.
From Verif Require Import RSampleReport.
Local Open Scope R_scope.

(** sets of values that agree better and better close in on one value *)
Lemma closing_in (S : R -> R -> Prop) d c : 0 < d -> 0 <= c -> (forall a, 0 < a <= d -> exists v, S a v) ->
  (forall a a' v, a <= a' -> S a v -> S a' v) ->
  (forall a a' v v', 0 < a <= d -> 0 < a' <= d -> S a v -> S a' v' -> Rabs (v - v') <= c * (a + a')) ->
  exists l, forall a v, 0 < a <= d -> S a v -> Rabs (v - l) <= c * a.
Proof.
  intros D0 C0 HE HM HA. set (X := fun x => exists a, 0 < a <= d /\ forall v, S a v -> x <= v).
  assert (small : forall e, 0 < e -> exists a, 0 < a <= d /\ c * a <= e).
  { intros e He. exists (Rmin d (e / (c + 1))). assert (0 < e / (c + 1)) by (apply Rdiv_lt_0_compat; lra).
    split; [split; [apply Rmin_pos; lra|apply Rmin_l]|]. apply Rle_trans with ((c + 1) * (e / (c + 1))); [|right; field; lra].
    apply Rmult_le_compat; try lra; [left; apply Rmin_pos; lra|apply Rmin_r]. }
  assert (UB : forall a v, 0 < a <= d -> S a v -> forall x, X x -> x <= v + c * a).
  { intros a v Ha Hv x (a' & Ha' & Hx). apply le_epsilon. intros e He. destruct (small e He) as (a2 & Ha2 & Hs).
    pose proof (Rmin_l a' a2) as M1. pose proof (Rmin_r a' a2) as M2. assert (M0 : 0 < Rmin a' a2) by (apply Rmin_pos; lra). set (a3 := Rmin a' a2) in *.
    destruct (HE a3 ltac:(lra)) as (v3 & Hv3). specialize (Hx v3 (HM a3 a' v3 M1 Hv3)).
    pose proof (HA a a3 v v3 Ha ltac:(lra) Hv Hv3) as Y. apply abs_le_iff in Y. assert (c * a3 <= c * a2) by (apply Rmult_le_compat_l; lra). lra. }
  assert (LB : forall a v, 0 < a <= d -> S a v -> forall e, 0 < e -> X (v - c * a - e)).
  { intros a v Ha Hv e He. destruct (small e He) as (a2 & Ha2 & Hs). exists a2. split; [exact Ha2|]. intros v' Hv'.
    pose proof (HA a a2 v v' Ha Ha2 Hv Hv') as Y. apply abs_le_iff in Y. lra. }
  destruct (HE d ltac:(lra)) as (v0 & Hv0).
  destruct (completeness X) as (l & L1 & L2).
  - exists (v0 + c * d). intros x Hx. apply (UB d v0 ltac:(lra) Hv0 x Hx).
  - exists (v0 - c * d - 1). apply LB; [lra|exact Hv0|lra].
  - exists l. intros a v Ha Hv. apply abs_le_iff. split.
    + assert (l <= v + c * a); [|lra]. apply L2. intros x Hx. exact (UB a v Ha Hv x Hx).
    + assert (v - c * a <= l); [|lra]. apply le_epsilon. intros e He. pose proof (L1 _ (LB a v Ha Hv e He)). lra.
Qed.
