(** * Temperatures that follow from approaches *)
From Coq Require Import ZArith NArith List Reals Lra Lia.
From Verif Require Import Num ModelTypes ModelStateEq ModelEngine RNum Spec SpecR SpecMeans RFluid RSampleReport RFlowBound RTame.
Import ListNotations.
Local Open Scope R_scope.

(** how far apart the temperatures of two states are *)
Definition tdist (T T' : Temperatures R) : R :=
  Rabs (te_chx T - te_chx T') + Rabs (te_hhx T - te_hhx T') + Rabs (rt_cold (te_regen T) - rt_cold (te_regen T')) +
  Rabs (rt_avg (te_regen T) - rt_avg (te_regen T')) + Rabs (rt_hot (te_regen T) - rt_hot (te_regen T')).
Lemma tdist_nonneg T T' : 0 <= tdist T T'.
Proof.
  unfold tdist. pose proof (Rabs_pos (te_chx T - te_chx T')). pose proof (Rabs_pos (te_hhx T - te_hhx T')).
  pose proof (Rabs_pos (rt_cold (te_regen T) - rt_cold (te_regen T'))). pose proof (Rabs_pos (rt_avg (te_regen T) - rt_avg (te_regen T'))).
  pose proof (Rabs_pos (rt_hot (te_regen T) - rt_hot (te_regen T'))). lra.
Qed.
Lemma tdist_parts T T' : Rabs (te_chx T - te_chx T') <= tdist T T' /\ Rabs (te_hhx T - te_hhx T') <= tdist T T' /\
  Rabs (rt_cold (te_regen T) - rt_cold (te_regen T')) <= tdist T T' /\ Rabs (rt_avg (te_regen T) - rt_avg (te_regen T')) <= tdist T T' /\
  Rabs (rt_hot (te_regen T) - rt_hot (te_regen T')) <= tdist T T'.
Proof.
  unfold tdist. pose proof (Rabs_pos (te_chx T - te_chx T')). pose proof (Rabs_pos (te_hhx T - te_hhx T')).
  pose proof (Rabs_pos (rt_cold (te_regen T) - rt_cold (te_regen T'))). pose proof (Rabs_pos (rt_avg (te_regen T) - rt_avg (te_regen T'))).
  pose proof (Rabs_pos (rt_hot (te_regen T) - rt_hot (te_regen T'))). lra.
Qed.
Lemma tdist_sym T T' : tdist T T' = tdist T' T.
Proof. unfold tdist. rewrite (Rabs_minus_sym (te_chx T)), (Rabs_minus_sym (te_hhx T)), (Rabs_minus_sym (rt_cold _)), (Rabs_minus_sym (rt_avg _)), (Rabs_minus_sym (rt_hot _)). reflexivity. Qed.

(** ** Approaches and temperatures *)
Lemma ln_between x y : 0 < x -> 0 < y -> ln x - ln y <= (x - y) / y.
Proof.
  intros X Y. assert (Q : 0 < x / y) by (apply Rdiv_lt_0_compat; assumption).
  replace (ln x - ln y) with (ln (x / y)) by (unfold Rdiv; rewrite ln_mult, ln_Rinv; [ring|assumption|assumption|apply Rinv_0_lt_compat; assumption]).
  replace ((x - y) / y) with (x / y - 1) by (field; lra).
  destruct (Req_dec (ln (x / y)) 0) as [E|N].
  - rewrite E. assert (x / y = 1) by (apply ln_inv; [assumption|lra|rewrite ln_1; exact E]). lra.
  - pose proof (exp_ineq1 _ N) as E. rewrite exp_ln in E by exact Q. lra.
Qed.
Lemma ln_near m x y : 0 < m -> m <= x -> m <= y -> Rabs (ln x - ln y) <= / m * Rabs (x - y).
Proof.
  intros M X Y. assert (W : forall a b, m <= a -> m <= b -> ln a - ln b <= / m * Rabs (a - b)).
  { intros a b A B. apply Rle_trans with (1 := ln_between a b ltac:(lra) ltac:(lra)). rewrite Rmult_comm. unfold Rdiv.
    apply Rle_trans with (Rabs (a - b) * / b).
    - apply Rmult_le_compat_r; [left; apply Rinv_0_lt_compat; lra|apply Rle_abs].
    - apply Rmult_le_compat_l; [apply Rabs_pos|apply Rinv_le_contravar; lra]. }
  apply abs_le_iff. pose proof (W x y X Y). pose proof (W y x Y X) as H'. rewrite (Rabs_minus_sym y x) in H'. lra.
Qed.
Lemma follow_apart sink source : 0 < sink < source -> exists K A, 0 <= K /\ 0 < A /\ A = Rmin (sink / 4) ((source - sink) / 8) /\ forall a_k a_r a_l b_k b_r b_l T T' w,
  Rabs a_k <= A -> Rabs a_r <= A -> Rabs a_l <= A -> Rabs b_k <= A -> Rabs b_r <= A -> Rabs b_l <= A ->
  temperatures_follow sink source a_k a_r a_l 0 T -> temperatures_follow sink source b_k b_r b_l 0 T' ->
  Rabs (a_k - b_k) <= w -> Rabs (a_r - b_r) <= w -> Rabs (a_l - b_l) <= w -> tdist T T' <= K * w.
Proof.
  intros (S0 & S1). set (A := Rmin (sink / 4) ((source - sink) / 8)). assert (A0 : 0 < A) by (apply Rmin_pos; lra).
  pose proof (Rmin_l (sink / 4) ((source - sink) / 8)) as A1. pose proof (Rmin_r (sink / 4) ((source - sink) / 8)) as A2. fold A in A1, A2.
  set (m := sink / 2). set (M := 2 * source). set (g := (source - sink) / 2). set (l0 := g / M).
  assert (M0 : 0 < m) by (unfold m; lra). assert (MM : 0 < M) by (unfold M; lra). assert (G0 : 0 < g) by (unfold g; lra).
  assert (L0 : 0 < l0) by (apply Rdiv_lt_0_compat; assumption).
  set (K := M * (3 * / m * (/ l0 * / l0)) + 3 * / l0).
  assert (I1 : 0 < / m) by (apply Rinv_0_lt_compat; exact M0). assert (I2 : 0 < / l0) by (apply Rinv_0_lt_compat; exact L0).
  assert (K0 : 0 <= K).
  { unfold K. assert (0 <= / l0 * / l0) by (apply Rmult_le_pos; lra). assert (0 <= 3 * / m * (/ l0 * / l0)) by (apply Rmult_le_pos; lra).
    assert (0 <= M * (3 * / m * (/ l0 * / l0))) by (apply Rmult_le_pos; lra). lra. }
  exists (6 + K), A. split; [lra|]. split; [exact A0|]. split; [reflexivity|].
  intros a_k a_r a_l b_k b_r b_l T T' w Ha1 Ha2 Ha3 Hb1 Hb2 Hb3 (_ & _ & F1 & F2 & F3 & F4 & F5) (_ & _ & G1 & G2 & G3 & G4 & G5) W1 W2 W3.
  assert (IM : n_le n0 (0 : R) = true) by (rewrite R_n0; cbn [n_le R_ops]; destruct (Rle_dec 0 0); [reflexivity|lra]).
  rewrite IM in F3, F4, F5, G3, G4, G5. rewrite R_nhalf in F5, G5. change (@n_add R R_ops) with Rplus in *. change (@n_sub R R_ops) with Rminus in *.
  change (@n_mul R R_ops) with Rmult in *. change (@n_div R R_ops) with Rdiv in *. change (@n_ln R R_ops) with ln in *.
  rewrite Rplus_0_r in F4, F5, G4, G5. rewrite F1, F2 in *. rewrite G1, G2 in *. clear IM.
  assert (W0 : 0 <= w) by (apply Rle_trans with (2 := W1), Rabs_pos).
  apply abs_le_iff in Ha1, Ha2, Ha3, Hb1, Hb2, Hb3. apply abs_le_iff in W1, W2, W3.
  assert (AV : forall u v z, - A <= u <= A -> - A <= v <= A -> - A <= z <= A ->
    let X := source - z - / 2 * v in let Y := sink + u + / 2 * v in
    m <= Y /\ m <= X /\ g <= X - Y <= M /\ l0 <= ln X - ln Y <= / m * M /\ (source - z - / 2 * v - (sink + u) - / 2 * v) / ln (X / Y) = (X - Y) * / (ln X - ln Y)).
  { intros u v z Hu Hv Hz X Y. assert (Y1 : m <= Y) by (unfold m, Y; lra). assert (XY : g <= X - Y <= M) by (unfold g, M, X, Y; lra). assert (X1 : m <= X) by lra.
    assert (XM : X <= M) by (unfold X, M; lra).
    split; [exact Y1|]. split; [exact X1|]. split; [exact XY|]. split; [split|].
    - pose proof (ln_between Y X ltac:(lra) ltac:(lra)) as B. assert (C : (X - Y) / X <= ln X - ln Y).
      { replace ((X - Y) / X) with (- ((Y - X) / X)) by (field; lra). lra. }
      apply Rle_trans with (2 := C). unfold l0, Rdiv. apply Rmult_le_compat; [lra|left; apply Rinv_0_lt_compat; lra|lra|apply Rinv_le_contravar; lra].
    - apply Rle_trans with (1 := ln_between X Y ltac:(lra) ltac:(lra)). unfold Rdiv. rewrite Rmult_comm.
      apply Rmult_le_compat; [left; apply Rinv_0_lt_compat; lra|lra|apply Rinv_le_contravar; lra|lra].
    - unfold Rdiv. rewrite ln_mult, ln_Rinv by (try apply Rinv_0_lt_compat; lra). f_equal. unfold X, Y. ring. }
  destruct (AV a_k a_r a_l Ha1 Ha2 Ha3) as (P1 & P2 & P3 & P4 & P5). destruct (AV b_k b_r b_l Hb1 Hb2 Hb3) as (Q1 & Q2 & Q3 & Q4 & Q5). clear AV. cbv zeta in *.
  rewrite P5 in F5. rewrite Q5 in G5. clear P5 Q5.
  set (X := source - a_l - / 2 * a_r) in *. set (Y := sink + a_k + / 2 * a_r) in *. set (X' := source - b_l - / 2 * b_r) in *. set (Y' := sink + b_k + / 2 * b_r) in *.
  assert (DX : Rabs (X - X') <= 3 / 2 * w) by (apply abs_le_iff; unfold X, X'; lra). assert (DY : Rabs (Y - Y') <= 3 / 2 * w) by (apply abs_le_iff; unfold Y, Y'; lra).
  assert (LX : Rabs (ln X - ln X') <= / m * (3 / 2 * w)) by (apply Rle_trans with (1 := ln_near m X X' M0 P2 Q2); apply Rmult_le_compat_l; lra).
  assert (LY : Rabs (ln Y - ln Y') <= / m * (3 / 2 * w)) by (apply Rle_trans with (1 := ln_near m Y Y' M0 P1 Q1); apply Rmult_le_compat_l; lra).
  assert (TN : tame M 3 w (X - Y) (X' - Y')).
  { split; [apply abs_le_iff; lra|]. split; [apply abs_le_iff; lra|]. apply abs_le_iff in DX, DY. apply abs_le_iff. lra. }
  assert (TL : tame (/ m * M) (3 * / m) w (ln X - ln Y) (ln X' - ln Y')).
  { split; [apply abs_le_iff; lra|]. split; [apply abs_le_iff; lra|]. apply abs_le_iff in LX, LY. apply abs_le_iff. lra. }
  pose proof (tame_mul _ _ _ _ _ _ _ _ _ TN (tame_inv l0 _ _ _ _ _ L0 (proj1 P4) (proj1 Q4) TL)) as (_ & _ & TA). fold K in TA. rewrite <- F5, <- G5 in TA.
  unfold tdist. rewrite F1, F2, F3, F4, G1, G2, G3, G4.
  assert (B1 : Rabs (sink + a_k - (sink + b_k)) <= w) by (apply abs_le_iff; lra).
  assert (B2 : Rabs (source - a_l - (source - b_l)) <= w) by (apply abs_le_iff; lra).
  assert (B3 : Rabs (sink + a_k + a_r - (sink + b_k + b_r)) <= 2 * w) by (apply abs_le_iff; lra).
  assert (B4 : Rabs (source - a_l - a_r - (source - b_l - b_r)) <= 2 * w) by (apply abs_le_iff; lra).
  lra.
Qed.
