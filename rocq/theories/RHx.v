(** * Heat exchangers and the regenerator temperature over the reals *)
From Coq Require Import ZArith NArith List Reals Lra Lia.
From Verif Require Import Num ModelTypes ModelHx ModelEngine RNum SpecHx.
Local Open Scope R_scope.

(** ** C23 *)
Lemma regen_differences imb Tk Th A :
  let T := regen_temp imb Tk Th A in
  Rmin (cold_difference T Tk) (hot_difference T Th) = A /\
  hot_difference T Th - cold_difference T Tk = imb /\
  (0 <= imb -> rt_cold T = Tk + A /\ rt_hot T = Th - (A + imb)) /\
  (imb < 0 -> rt_cold T = Tk + (A - imb) /\ rt_hot T = Th - A).
Proof.
  cbn zeta. unfold regen_temp, cold_difference, hot_difference. cbn [rt_cold rt_hot].
  rewrite R_n0. destruct (n_le 0 imb) eqn:E.
  - apply R_le_iff in E. cbn [n_add n_sub R_ops].
    split; [rewrite Rmin_left by lra; ring|]. split; [ring|]. split; intros; [split; ring|lra].
  - assert (imb < 0). { apply Rnot_le_lt. intros H. apply R_le_iff in H. congruence. }
    cbn [n_add n_sub R_ops].
    split; [rewrite Rmin_right by lra; ring|]. split; [ring|]. split; intros; [lra|split; ring].
Qed.

(** ** C24 *)
Lemma exp_lt_opp y : 0 < y -> exp (- y) < exp y.
Proof. intros H. apply exp_increasing. lra. Qed.
Lemma cosh_gt_1 c : 0 < c -> 1 < cosh c.
Proof.
  intros H. unfold cosh.
  assert (E1 : exp c = exp (c / 2) * exp (c / 2)) by (rewrite <- exp_plus; f_equal; field).
  assert (E2 : exp (- c) = exp (- (c / 2)) * exp (- (c / 2))) by (rewrite <- exp_plus; f_equal; field).
  assert (E3 : exp (c / 2) * exp (- (c / 2)) = 1) by (rewrite <- exp_plus, Rplus_opp_r; apply exp_0).
  assert (H' : exp (- (c / 2)) < exp (c / 2)) by (apply exp_lt_opp; lra).
  rewrite E1, E2. set (u := exp (c / 2)) in *. set (w := exp (- (c / 2))) in *.
  assert (0 < (u - w) * (u - w)) by (apply Rmult_lt_0_compat; lra). lra.
Qed.
Lemma cosh_increasing c x : 0 < c -> c < x -> cosh c < cosh x.
Proof.
  intros Hc Hx. unfold cosh.
  assert (E : exp x + exp (- x) - (exp c + exp (- c)) =
    (exp ((x + c) / 2) - exp (- ((x + c) / 2))) * (exp ((x - c) / 2) - exp (- ((x - c) / 2)))).
  { rewrite Rmult_minus_distr_l, !Rmult_minus_distr_r, <- !exp_plus.
    replace ((x + c) / 2 + (x - c) / 2) with x by field.
    replace (- ((x + c) / 2) + (x - c) / 2) with (- c) by field.
    replace ((x + c) / 2 + - ((x - c) / 2)) with c by field.
    replace (- ((x + c) / 2) + - ((x - c) / 2)) with (- x) by field. ring. }
  pose proof (exp_lt_opp ((x + c) / 2)). pose proof (exp_lt_opp ((x - c) / 2)).
  assert (0 < (exp ((x + c) / 2) - exp (- ((x + c) / 2))) * (exp ((x - c) / 2) - exp (- ((x - c) / 2))))
    by (apply Rmult_lt_0_compat; lra). lra.
Qed.
Lemma sinh_bounds x : 0 < x -> x < sinh x < x * cosh x.
Proof.
  intros Hx. destruct (MVT_cor2 sinh cosh 0 x Hx (fun c _ => derivable_pt_lim_sinh c)) as (c & E & Hc & Hc').
  rewrite sinh_0, !Rminus_0_r in E. rewrite E.
  pose proof (cosh_gt_1 c Hc). pose proof (cosh_increasing c x Hc Hc').
  split; [|rewrite (Rmult_comm x); now apply Rmult_lt_compat_r].
  rewrite <- (Rmult_1_l x) at 1. now apply Rmult_lt_compat_r.
Qed.

Lemma log_mean_ordered a b : 0 < a -> a < b ->
  sqrt (a * b) < (b - a) / ln (b / a) < (a + b) / 2.
Proof.
  intros Ha Hab.
  assert (Hb : 0 < b) by lra.
  assert (Hl : 0 < ln (b / a)).
  { rewrite <- ln_1. apply ln_increasing; [lra|]. apply Rmult_lt_reg_r with a; [exact Ha|].
    unfold Rdiv. rewrite Rmult_assoc, Rinv_l by lra. lra. }
  set (x := ln (b / a) / 2). assert (Hx : 0 < x) by (unfold x; lra).
  assert (Eb : b = a * (exp x * exp x)).
  { rewrite <- exp_plus. unfold x. replace (ln (b / a) / 2 + ln (b / a) / 2) with (ln (b / a)) by field.
    rewrite exp_ln; [field; lra|]. apply Rdiv_lt_0_compat; lra. }
  assert (Ex : exp x * exp (- x) = 1) by (rewrite <- exp_plus, Rplus_opp_r; apply exp_0).
  assert (Hp : 0 < exp x) by apply exp_pos. assert (Hm : 0 < exp (- x)) by apply exp_pos.
  destruct (sinh_bounds x Hx) as [H1 H2].
  replace (ln (b / a)) with (2 * x) by (unfold x; field).
  assert (ES : sqrt (a * b) = a * exp x).
  { rewrite Eb. replace (a * (a * (exp x * exp x))) with ((a * exp x) * (a * exp x)) by ring.
    apply sqrt_square. apply Rmult_le_pos; lra. }
  assert (EL : (b - a) / (2 * x) = a * exp x * (sinh x / x)).
  { unfold sinh. transitivity (a * exp x * (exp x - exp (- x)) / (2 * x)); [|field; lra].
    f_equal. rewrite Eb. transitivity (a * (exp x * exp x) - a * (exp x * exp (- x))); [rewrite Ex; ring|ring]. }
  assert (EA : (a + b) / 2 = a * exp x * cosh x).
  { unfold cosh. rewrite Eb. transitivity ((a * (exp x * exp x) + a * (exp x * exp (- x))) / 2); [rewrite Ex; field|field]. }
  rewrite ES, EL, EA. assert (Hpos : 0 < a * exp x) by (apply Rmult_lt_0_compat; assumption).
  split.
  - rewrite <- (Rmult_1_r (a * exp x)) at 1. apply Rmult_lt_compat_l; [exact Hpos|].
    apply Rmult_lt_reg_r with x; [exact Hx|]. unfold Rdiv. rewrite Rmult_assoc, Rinv_l by lra. lra.
  - apply Rmult_lt_compat_l; [exact Hpos|].
    apply Rmult_lt_reg_r with x; [exact Hx|]. unfold Rdiv. rewrite Rmult_assoc, Rinv_l by lra. lra.
Qed.
Lemma log_mean a b : 0 < a -> 0 < b -> a <> b ->
  sqrt (a * b) < (b - a) / ln (b / a) < (a + b) / 2.
Proof.
  intros Ha Hb Hab. destruct (Rlt_or_le a b) as [H|H]; [now apply log_mean_ordered|].
  assert (H' : b < a) by lra. pose proof (log_mean_ordered b a Hb H') as E.
  assert (Hl : 0 < ln (a / b)).
  { rewrite <- ln_1. apply ln_increasing; [lra|]. apply Rmult_lt_reg_r with b; [exact Hb|].
    unfold Rdiv. rewrite Rmult_assoc, Rinv_l by lra. lra. }
  replace (b / a) with (/ (a / b)) by (field; lra). rewrite ln_Rinv by (apply Rdiv_lt_0_compat; lra).
  replace ((b - a) / - ln (a / b)) with ((a - b) / ln (a / b)) by (field; lra).
  rewrite (Rmult_comm a b), (Rplus_comm a b). exact E.
Qed.
Lemma means_between a b : 0 < a -> 0 < b -> a <> b ->
  Rmin a b < sqrt (a * b) /\ (a + b) / 2 < Rmax a b.
Proof.
  intros Ha Hb Hab.
  assert (L : forall x y, 0 < x -> x < y -> x < sqrt (x * y)).
  { intros x y Hx Hy. rewrite <- (sqrt_square x) at 1 by lra. apply sqrt_lt_1_alt. split.
    - apply Rmult_le_pos; lra.
    - apply Rmult_lt_compat_l; lra. }
  destruct (Rlt_or_le a b) as [H|H].
  - rewrite Rmin_left, Rmax_right by lra. split; [now apply L|lra].
  - rewrite Rmin_right, Rmax_left by lra. split; [|lra]. rewrite Rmult_comm. apply L; lra.
Qed.

Lemma regen_avg_eq imb Tk Th A :
  let T := regen_temp imb Tk Th A in
  rt_avg T = (hot_end T Th - cold_end T Tk) / ln (hot_end T Th / cold_end T Tk).
Proof.
  cbn zeta. unfold hot_end, cold_end, hot_difference, cold_difference, regen_temp.
  cbn [rt_avg rt_cold rt_hot]. rewrite R_nhalf. set (ha := if n_le n0 imb then n_add A imb else A).
  set (ca := if n_le n0 imb then A else n_sub A imb). cbn [n_add n_sub n_mul n_div n_ln R_ops].
  replace (Th - (Th - (Th - ha)) / 2) with (Th - / 2 * ha) by field.
  replace (Tk + (Tk + ca - Tk) / 2) with (Tk + / 2 * ca) by field.
  f_equal. ring.
Qed.
Lemma regen_log_mean imb Tk Th A :
  let T := regen_temp imb Tk Th A in
  let a := cold_end T Tk in let b := hot_end T Th in
  0 < a -> 0 < b -> a <> b ->
  rt_avg T = (b - a) / ln (b / a) /\
  Rmin a b < sqrt (a * b) < rt_avg T /\ rt_avg T < (a + b) / 2 < Rmax a b.
Proof.
  cbn zeta. intros Ha Hb Hab. rewrite regen_avg_eq. split; [reflexivity|].
  destruct (log_mean _ _ Ha Hb Hab). destruct (means_between _ _ Ha Hb Hab). lra.
Qed.

(** ** C32 *)
Lemma exp_gt N : 0 < N -> N < exp N - 1.
Proof. intros H. pose proof (exp_ineq1 N). lra. Qed.

Section FixedConductance.
  Variable f : FixedConductance R.
  Variable x : HeatExchanger R.
  Hypothesis HC : 0 < capacity x.
  Let A (UA : R) := hx_Q_dot x / capacity x / (exp (UA / capacity x) - 1).

  Lemma approach_closed UA T : 0 < UA -> chx_fc_approach (with_UA f UA) (mkChxState x T) = A UA.
  Proof.
    intros HU. unfold chx_fc_approach, A. cbn [chs_hxr with_UA fc_UA]. rewrite R_n1.
    cbn [n_mul n_div n_sub n_exp n_opp R_ops]. fold (capacity x).
    assert (HN : 0 < UA / capacity x) by now apply Rdiv_lt_0_compat.
    pose proof (exp_gt _ HN). rewrite exp_Ropp. set (E := exp (UA / capacity x)) in *.
    field. repeat split; lra.
  Qed.
  Lemma same_function UA T T' :
    hhx_fc_approach (with_UA f UA) (mkHhxState x T') = chx_fc_approach (with_UA f UA) (mkChxState x T).
  Proof. reflexivity. Qed.
  Lemma ntu_relation UA : 0 < UA ->
    hx_Q_dot x = effectiveness UA (capacity x) * capacity x * (A UA + hx_Q_dot x / capacity x).
  Proof.
    intros HU. unfold A, effectiveness. assert (HN : 0 < UA / capacity x) by now apply Rdiv_lt_0_compat.
    pose proof (exp_gt _ HN). rewrite exp_Ropp. set (E := exp (UA / capacity x)) in *.
    field. repeat split; lra.
  Qed.
  Lemma approach_sign UA : 0 < UA ->
    (0 < hx_Q_dot x -> 0 < A UA) /\ (hx_Q_dot x = 0 -> A UA = 0) /\ (hx_Q_dot x < 0 -> A UA < 0).
  Proof.
    intros HU. assert (HN : 0 < UA / capacity x) by now apply Rdiv_lt_0_compat.
    pose proof (exp_gt _ HN). unfold A. assert (HE : 0 < exp (UA / capacity x) - 1) by lra.
    assert (HI : 0 < / capacity x * / (exp (UA / capacity x) - 1))
      by (apply Rmult_lt_0_compat; now apply Rinv_0_lt_compat).
    unfold Rdiv in *. rewrite Rmult_assoc. split; [|split].
    - intros HQ. now apply Rmult_lt_0_compat.
    - intros ->. ring.
    - intros HQ. rewrite <- (Rmult_0_l (/ capacity x * / (exp (UA * / capacity x) - 1))).
      now apply Rmult_lt_compat_r.
  Qed.
  Lemma approach_decreasing U1 U2 : 0 < hx_Q_dot x -> 0 < U1 -> U1 < U2 -> A U2 < A U1.
  Proof.
    intros HQ H1 H2. unfold A.
    assert (N1 : 0 < U1 / capacity x) by now apply Rdiv_lt_0_compat.
    assert (N2 : U1 / capacity x < U2 / capacity x)
      by (apply Rmult_lt_compat_r; [now apply Rinv_0_lt_compat|exact H2]).
    pose proof (exp_gt _ N1). pose proof (exp_increasing _ _ N2).
    apply Rmult_lt_compat_l; [now apply Rdiv_lt_0_compat|].
    apply Rinv_lt_contravar; [apply Rmult_lt_0_compat; lra|lra].
  Qed.
  Lemma approach_bound UA : 0 < UA -> Rabs (A UA) <= Rabs (hx_Q_dot x) / UA.
  Proof.
    intros HU. unfold A. assert (N1 : 0 < UA / capacity x) by now apply Rdiv_lt_0_compat.
    pose proof (exp_gt _ N1). unfold Rdiv at 1 2. rewrite !Rabs_mult, Rmult_assoc.
    apply Rmult_le_compat_l; [apply Rabs_pos|].
    rewrite !Rabs_pos_eq by (left; apply Rinv_0_lt_compat; lra).
    rewrite <- Rinv_mult. apply Rinv_le_contravar; [exact HU|].
    apply Rmult_le_reg_r with (/ capacity x); [now apply Rinv_0_lt_compat|].
    replace (capacity x * (exp (UA / capacity x) - 1) * / capacity x) with (exp (UA / capacity x) - 1)
      by (field; lra).
    unfold Rdiv in *. lra.
  Qed.
  Lemma approach_vanishes eps : 0 < eps ->
    exists U0, 0 < U0 /\ forall UA, U0 < UA -> Rabs (A UA) < eps.
  Proof.
    intros He. exists (Rabs (hx_Q_dot x) / eps + 1).
    assert (H0 : 0 <= Rabs (hx_Q_dot x) / eps)
      by (apply Rmult_le_pos; [apply Rabs_pos|left; now apply Rinv_0_lt_compat]).
    split; [lra|]. intros UA HU. apply Rle_lt_trans with (1 := approach_bound UA ltac:(lra)).
    apply Rmult_lt_reg_r with UA; [lra|]. unfold Rdiv. rewrite Rmult_assoc, Rinv_l by lra.
    assert (Rabs (hx_Q_dot x) / eps * eps < UA * eps) by (apply Rmult_lt_compat_r; lra).
    replace (Rabs (hx_Q_dot x) / eps * eps) with (Rabs (hx_Q_dot x)) in H by (field; lra). lra.
  Qed.

  (** ** C33 *)
  Variable Tk Th : R.
  Let B (UA : R) := (Th - Tk) / (1 + UA / (2 * capacity x)).
  Lemma regen_closed UA : 0 < UA -> regen_fc_approach (with_UA f UA) (mkRegenState x Tk Th) = B UA.
  Proof.
    intros HU. unfold regen_fc_approach, B. cbn [res_hxr res_temp_hhx res_temp_chx with_UA fc_UA].
    rewrite R_n1, R_n2. cbn [n_mul n_div n_sub n_add R_ops]. fold (capacity x).
    field. repeat split; lra.
  Qed.
  Lemma regen_between UA : 0 < UA -> Tk < Th -> 0 < B UA < Th - Tk.
  Proof.
    intros HU HT. unfold B. assert (H : 0 < UA / (2 * capacity x)) by (apply Rdiv_lt_0_compat; lra).
    split; [apply Rdiv_lt_0_compat; lra|].
    apply Rmult_lt_reg_r with (1 + UA / (2 * capacity x)); [lra|].
    unfold Rdiv at 1. rewrite Rmult_assoc, Rinv_l, Rmult_1_r by lra.
    rewrite <- (Rmult_1_r (Th - Tk)) at 1. apply Rmult_lt_compat_l; lra.
  Qed.
  Lemma regen_decreasing U1 U2 : Tk < Th -> 0 < U1 -> U1 < U2 -> B U2 < B U1.
  Proof.
    intros HT H1 H2. unfold B.
    assert (N1 : 0 < U1 / (2 * capacity x)) by (apply Rdiv_lt_0_compat; lra).
    assert (N2 : U1 / (2 * capacity x) < U2 / (2 * capacity x))
      by (apply Rmult_lt_compat_r; [apply Rinv_0_lt_compat; lra|exact H2]).
    apply Rmult_lt_compat_l; [lra|]. apply Rinv_lt_contravar; [apply Rmult_lt_0_compat; lra|lra].
  Qed.
End FixedConductance.

Lemma chx_ntu f x T UA : 0 < capacity x -> 0 < UA ->
  let A := chx_fc_approach (with_UA f UA) (mkChxState x T) in
  let Q := hx_Q_dot x in let C := capacity x in
  Q = effectiveness UA C * C * (A + Q / C) /\ A = Q / C / (exp (UA / C) - 1) /\
  (0 < Q -> 0 < A) /\ (Q = 0 -> A = 0) /\ (Q < 0 -> A < 0) /\ Rabs A <= Rabs Q / UA.
Proof.
  intros HC HU. cbn zeta. rewrite approach_closed by assumption.
  destruct (approach_sign x HC UA HU) as (S1 & S2 & S3).
  split; [exact (ntu_relation x HC UA HU)|]. split; [reflexivity|].
  split; [exact S1|]. split; [exact S2|]. split; [exact S3|]. exact (approach_bound x HC UA HU).
Qed.
Lemma chx_decreasing f x T U1 U2 : 0 < capacity x -> 0 < hx_Q_dot x -> 0 < U1 -> U1 < U2 ->
  chx_fc_approach (with_UA f U2) (mkChxState x T) < chx_fc_approach (with_UA f U1) (mkChxState x T).
Proof.
  intros HC HQ H1 H2. rewrite !approach_closed by lra. exact (approach_decreasing x HC U1 U2 HQ H1 H2).
Qed.
Lemma chx_vanishes f x T eps : 0 < capacity x -> 0 < eps ->
  exists U0, 0 < U0 /\ forall UA, U0 < UA -> Rabs (chx_fc_approach (with_UA f UA) (mkChxState x T)) < eps.
Proof.
  intros HC He. destruct (approach_vanishes x HC eps He) as (U0 & H0 & H). exists U0. split; [exact H0|].
  intros UA HU. rewrite approach_closed by lra. exact (H UA HU).
Qed.
Lemma regen_fc f x Tk Th UA : 0 < capacity x -> 0 < UA ->
  let A := regen_fc_approach (with_UA f UA) (mkRegenState x Tk Th) in
  A = (Th - Tk) / (1 + UA / (2 * capacity x)) /\ (Tk < Th -> 0 < A < Th - Tk).
Proof.
  intros HC HU. cbn zeta. rewrite regen_closed by assumption. split; [reflexivity|].
  exact (regen_between x HC Tk Th UA HU).
Qed.
Lemma regen_fc_decreasing f x Tk Th U1 U2 : 0 < capacity x -> Tk < Th -> 0 < U1 -> U1 < U2 ->
  regen_fc_approach (with_UA f U2) (mkRegenState x Tk Th) < regen_fc_approach (with_UA f U1) (mkRegenState x Tk Th).
Proof.
  intros HC HT H1 H2. rewrite !regen_closed by lra. exact (regen_decreasing x HC Tk Th U1 U2 HT H1 H2).
Qed.
