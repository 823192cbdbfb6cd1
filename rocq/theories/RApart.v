(** * Approaches and temperatures of the exchangers vary in proportion with what they are computed from *)
From Coq Require Import ZArith NArith List Reals Lra Lia.
From Verif Require Import Num ModelTypes ModelStateEq ModelEngine RNum Spec SpecR SpecKin SpecSeries SpecQuad SpecBounds
  SpecMeans SpecEffective RFluid RSeries RQuad RSampleReport RFlowBound RMeans RFollow REffective RTame RVaryRun.
Import ListNotations.
Local Open Scope R_scope.

(** ** Averages over the same instants *)
Lemma trapezoid_apart w : forall (ts : list R), nondecreasing ts -> forall f g, Forall2 (fun a b => Rabs (a - b) <= w) f g -> length f = length ts ->
  forall t0 tl, ts = t0 :: tl -> Rabs (trapezoid (combine ts f) - trapezoid (combine ts g)) <= w * (last tl t0 - t0).
Proof.
  induction ts as [|t0 [|t1 ts] IH]; intros HN f g HF HL u ul E; [discriminate E| |].
  - injection E as <- <-. destruct f as [|a [|a' f]]; try discriminate HL. inversion HF as [|? b ? g' _ HF']; subst. inversion HF'; subst.
    cbn. rewrite !Rminus_diag_eq, Rabs_R0 by reflexivity. lra.
  - injection E as <- <-. destruct HN as (N1 & N2). destruct f as [|a0 [|a1 f]]; try discriminate HL.
    inversion HF as [|? b0 ? g' H0 HF']; subst. inversion HF' as [|? b1 ? g'' H1 HF'']; subst.
    specialize (IH N2 (a1 :: f) (b1 :: g'') HF' ltac:(cbn in HL |- *; lia) t1 ts eq_refl).
    change (trapezoid (combine (t0 :: t1 :: ts) (a0 :: a1 :: f))) with ((a0 + a1) / 2 * (t1 - t0) + trapezoid (combine (t1 :: ts) (a1 :: f))).
    change (trapezoid (combine (t0 :: t1 :: ts) (b0 :: b1 :: g''))) with ((b0 + b1) / 2 * (t1 - t0) + trapezoid (combine (t1 :: ts) (b1 :: g''))).
    set (X := trapezoid (combine (t1 :: ts) (a1 :: f))) in *. set (Y := trapezoid (combine (t1 :: ts) (b1 :: g''))) in *.
    assert (LL : last (t1 :: ts) t0 = last ts t1).
    { clear. revert t0 t1. induction ts as [|t ts IH]; intros t0 t1; [reflexivity|]. change (last (t :: ts) t0 = last (t :: ts) t1). rewrite !IH. reflexivity. }
    rewrite LL. replace ((a0 + a1) / 2 * (t1 - t0) + X - ((b0 + b1) / 2 * (t1 - t0) + Y)) with (((a0 - b0) + (a1 - b1)) / 2 * (t1 - t0) + (X - Y)) by field.
    replace (w * (last ts t1 - t0)) with (w * (t1 - t0) + w * (last ts t1 - t1)) by ring. apply abs_le_add; [|exact IH].
    rewrite Rabs_mult, (Rabs_pos_eq (t1 - t0)) by lra. apply Rmult_le_compat_r; [lra|]. apply abs_le_iff in H0, H1. apply abs_le_iff. lra.
Qed.
Lemma last_app_one (l : list R) x d : last (l ++ [x]) d = x.
Proof. induction l as [|a l IH]; [reflexivity|]. cbn [app]. destruct (l ++ [x]) eqn:E; [destruct l; discriminate E|]. exact IH. Qed.
Lemma means_apart ts tau w f g : grid_to ts tau -> Forall2 (fun a b => Rabs (a - b) <= w) f g -> length f = length ts ->
  Rabs (integrate ts f / tau - integrate ts g / tau) <= w.
Proof.
  intros (HN & (rest & E1) & (pre & E2) & T0) HF HL. rewrite !integrate_trapezoid.
  pose proof (trapezoid_apart w ts HN f g HF HL 0 rest E1) as H.
  assert (LT : last rest 0 = tau).
  { destruct rest as [|r rest].
    - destruct pre as [|p [|? ?]]; subst ts; [injection E2 as E2; cbn; lra|discriminate E2|discriminate E2].
    - transitivity (last ts 0); [rewrite E1; reflexivity|]. rewrite E2. apply last_app_one. }
  rewrite LT, Rminus_0_r in H.
  replace (trapezoid (combine ts f) / tau - trapezoid (combine ts g) / tau) with ((trapezoid (combine ts f) - trapezoid (combine ts g)) * / tau) by (unfold Rdiv; ring).
  rewrite Rabs_mult, (Rabs_pos_eq (/ tau)) by (left; apply Rinv_0_lt_compat; exact T0).
  apply (Rmult_le_reg_r tau); [exact T0|]. rewrite Rmult_assoc, Rinv_l, Rmult_1_r by lra. exact H.
Qed.

(** ** Effectiveness *)
Lemma exp_square v : 0 <= v -> 1 + v + v * v / 4 <= exp v.
Proof.
  intros H. replace v with (v / 2 + v / 2) at 4 by field. rewrite exp_plus. destruct (Req_dec v 0) as [->|N]; [replace (0 / 2) with 0 by field; rewrite exp_0; lra|].
  pose proof (exp_ineq1 (v / 2) ltac:(lra)) as E.
  replace (1 + v + v * v / 4) with ((1 + v / 2) * (1 + v / 2)) by field. apply Rmult_le_compat; lra.
Qed.
(** the bound of the derivative of [1 / (s (exp (1 / s) - 1))] *)
Lemma slope_bound y : 0 < y -> 0 <= (1 + exp y * y - exp y) * (y * y) / ((exp y - 1) * (exp y - 1)) <= 16.
Proof.
  intros Y. set (v := y / 2). set (F := exp v). assert (V : 0 < v) by (unfold v; lra).
  assert (EF : exp y = F * F) by (unfold F; rewrite <- exp_plus; f_equal; unfold v; field).
  pose proof (exp_square v ltac:(lra)) as EV. fold F in EV. pose proof (exp_ineq1 y ltac:(lra)) as EY.
  assert (VV : 0 < v * v) by (apply Rmult_lt_0_compat; lra).
  assert (E1 : 0 < exp y - 1) by lra. assert (DD : 0 < (exp y - 1) * (exp y - 1)) by (apply Rmult_lt_0_compat; lra).
  assert (YY : 0 < y * y) by (apply Rmult_lt_0_compat; lra).
  assert (N0 : 0 <= 1 + exp y * y - exp y).
  { destruct (Rle_lt_dec 1 y) as [H|H].
    - assert (exp y * 1 <= exp y * y) by (apply Rmult_le_compat_l; lra). lra.
    - pose proof (exp_ineq1 (- y) ltac:(lra)) as EN. rewrite exp_Ropp in EN.
      assert (exp y * (1 + - y) <= exp y * / exp y) by (apply Rmult_le_compat_l; lra). rewrite Rinv_r in H0 by lra. lra. }
  split; [apply Rle_mult_inv_pos; [apply Rmult_le_pos; lra|exact DD]|].
  apply (Rmult_le_reg_r ((exp y - 1) * (exp y - 1))); [exact DD|]. unfold Rdiv. rewrite Rmult_assoc, Rinv_l, Rmult_1_r by lra.
  apply Rle_trans with (exp y * y * (y * y)); [apply Rmult_le_compat_r; lra|].
  assert (A1 : v * (v * v) / 2 <= (F - 1) * (F - 1)).
  { apply Rle_trans with ((v + v * v / 4) * (v + v * v / 4)); [|apply Rmult_le_compat; lra].
    replace ((v + v * v / 4) * (v + v * v / 4)) with (v * v + v * (v * v) / 2 + (v * v) * (v * v) / 16) by field.
    assert (0 < v * v * (v * v)) by (apply Rmult_lt_0_compat; lra). lra. }
  assert (A2 : F * F <= (F + 1) * (F + 1)) by (apply Rmult_le_compat; lra).
  assert (A3 : v * (v * v) / 2 * (F * F) <= (F - 1) * (F - 1) * ((F + 1) * (F + 1))).
  { apply Rmult_le_compat; try assumption; [assert (0 < v * (v * v)) by (apply Rmult_lt_0_compat; lra); lra|apply Rmult_le_pos; lra]. }
  rewrite EF. replace (F * F * y * (y * y)) with (16 * (v * (v * v) / 2 * (F * F))) by (unfold v; field).
  replace (16 * ((F * F - 1) * (F * F - 1))) with (16 * ((F - 1) * (F - 1) * ((F + 1) * (F + 1)))) by ring. lra.
Qed.
Lemma per_heat_is C u : 0 < C -> 0 < u -> per_heat C u = / u * (1 / (C / u * (exp (1 / (C / u)) - 1))).
Proof.
  intros HC Hu. unfold per_heat. set (x := u / C). assert (X : 0 < x) by (apply Rdiv_lt_0_compat; assumption).
  pose proof (exp_ineq1 x ltac:(lra)) as E. replace (1 / (C / u)) with x by (unfold x; field; lra).
  rewrite exp_Ropp. replace C with (u / x) at 1 by (unfold x; field; lra). replace (C / u) with (/ x) by (unfold x; field; lra). field. lra.
Qed.
Lemma deriv_heat s : 0 < s -> derivable_pt_lim (fun s => 1 / (s * (exp (1 / s) - 1))) s
  ((1 + exp (/ s) * / s - exp (/ s)) * (/ s * / s) / ((exp (/ s) - 1) * (exp (/ s) - 1))).
Proof.
  intros S. set (y := / s). assert (Y : 0 < y) by (apply Rinv_0_lt_compat; exact S). pose proof (exp_ineq1 y ltac:(lra)) as E.
  assert (D1 : derivable_pt_lim (fun s => 1 / s) s ((0 * s - 1 * 1) / (s * s))).
  { apply (deriv_div (fun _ => 1) (fun s => s)); [apply derivable_pt_lim_const|apply derivable_pt_lim_id|lra]. }
  assert (D2 : derivable_pt_lim (fun s => exp (1 / s)) s (exp y * ((0 * s - 1 * 1) / (s * s)))).
  { replace y with (1 / s) by (unfold y; field; lra). apply (deriv_comp (fun s => 1 / s) exp); [exact D1|apply derivable_pt_lim_exp]. }
  assert (D3 : derivable_pt_lim (fun s => s * (exp (1 / s) - 1)) s (1 * (exp (1 / s) - 1) + s * (exp y * ((0 * s - 1 * 1) / (s * s)) - 0))).
  { apply (deriv_mult (fun s => s) (fun s => exp (1 / s) - 1)); [apply derivable_pt_lim_id|].
    apply (derivable_pt_lim_minus (fun s => exp (1 / s)) (fun _ => 1)); [exact D2|apply derivable_pt_lim_const]. }
  assert (ES : 1 / s = y) by (unfold y; field; lra).
  assert (NZ : s * (exp (1 / s) - 1) <> 0) by (rewrite ES; apply Rgt_not_eq, Rmult_lt_0_compat; lra).
  pose proof (deriv_div (fun _ => 1) (fun s => s * (exp (1 / s) - 1)) s _ _ (derivable_pt_lim_const 1 s) D3 NZ) as D4. cbv beta in D4. rewrite ES in D4.
  replace ((1 + exp y * y - exp y) * (y * y) / ((exp y - 1) * (exp y - 1))) with
    ((0 * (s * (exp y - 1)) - (1 * (exp y - 1) + s * (exp y * ((0 * s - 1 * 1) / (s * s)) - 0)) * 1) / (s * (exp y - 1) * (s * (exp y - 1)))).
  - exact D4.
  - replace s with (/ y) by (unfold y; field; lra). field. lra.
Qed.
Lemma per_heat_near u c c' : 0 < u -> 0 < c -> 0 < c' -> Rabs (per_heat c u - per_heat c' u) <= 16 * / u * / u * Rabs (c - c').
Proof.
  intros U. assert (IU : 0 < / u) by (apply Rinv_0_lt_compat; exact U).
  assert (HH : forall c c', 0 < c -> 0 < c' -> c < c' -> Rabs (per_heat c u - per_heat c' u) <= 16 * / u * / u * Rabs (c - c')).
  { clear c c'. intros c c' C C' H. rewrite !per_heat_is by assumption. set (f := fun s => 1 / (s * (exp (1 / s) - 1))).
    assert (S : 0 < c / u) by (apply Rdiv_lt_0_compat; assumption). assert (LT : c / u < c' / u) by (apply Rmult_lt_compat_r; assumption).
    destruct (mvt f _ (c / u) (c' / u) LT (fun s Hs => deriv_heat s ltac:(lra))) as (x & E & Hx).
    change (Rabs (/ u * f (c / u) - / u * f (c' / u)) <= 16 * / u * / u * Rabs (c - c')).
    replace (/ u * f (c / u) - / u * f (c' / u)) with (/ u * - (f (c' / u) - f (c / u))) by ring. rewrite E.
    set (sl := (1 + exp (/ x) * / x - exp (/ x)) * (/ x * / x) / ((exp (/ x) - 1) * (exp (/ x) - 1))) in *.
    assert (SB : 0 <= sl <= 16) by (apply slope_bound; apply Rinv_0_lt_compat; lra).
    replace (/ u * - (sl * (c' / u - c / u))) with (sl * / u * / u * (c - c')) by (unfold Rdiv; ring).
    rewrite Rabs_mult. apply Rmult_le_compat_r; [apply Rabs_pos|]. rewrite Rabs_pos_eq by (apply Rmult_le_pos; [apply Rmult_le_pos|]; lra).
    apply Rmult_le_compat_r; [lra|]. apply Rmult_le_compat_r; lra. }
  intros C C'. destruct (Rtotal_order c c') as [H|[->|H]].
  - apply HH; assumption.
  - rewrite !Rminus_diag_eq, Rabs_R0 by reflexivity. lra.
  - rewrite Rabs_minus_sym, (Rabs_minus_sym c). apply HH; assumption.
Qed.
Lemma per_span_near u c c' : 0 < u -> 0 < c -> 0 < c' -> Rabs (per_span c u - per_span c' u) <= 2 * / u * Rabs (c - c').
Proof.
  intros U C C'. unfold per_span. assert (IU : 0 < / u) by (apply Rinv_0_lt_compat; exact U).
  replace (1 - u / c / 2 / (1 + u / c / 2) - (1 - u / c' / 2 / (1 + u / c' / 2))) with (2 * u * / (2 * c + u) * / (2 * c' + u) * (c - c')) by (field; lra).
  assert (I1 : 0 < / (2 * c + u) <= / u) by (split; [apply Rinv_0_lt_compat|apply Rinv_le_contravar]; lra).
  assert (I2 : 0 < / (2 * c' + u) <= / u) by (split; [apply Rinv_0_lt_compat|apply Rinv_le_contravar]; lra).
  rewrite Rabs_mult. apply Rmult_le_compat_r; [apply Rabs_pos|]. rewrite Rabs_pos_eq by (apply Rmult_le_pos; [apply Rmult_le_pos|]; lra).
  apply Rle_trans with (2 * u * / u * / u); [|right; field; lra]. apply Rmult_le_compat; try lra; [apply Rmult_le_pos; lra|].
  apply Rmult_le_compat_l; lra.
Qed.
