(** * A concrete case for the temperatures of the regenerator in f64 *)
From Coq Require Import ZArith NArith List Reals Bool Lra Lia.
From Flocq Require Import Core BinarySingleNaN.
From Verif Require Import Num ModelTypes ModelWs ModelHx ModelStateEq ModelEngine B64 Spec SpecF64 SpecRound SpecBalance
  SpecRange SpecProps SpecAngle SpecLogMean F64Base F64Err F64Balance F64Norm F64Range F64Props F64PropsCase F64Angle F64AngleCase F64LogMean.
Import ListNotations.
Local Open Scope R_scope.
Local Open Scope bool_scope.

Lemma exp_1_above : 2.65 <= exp 1.
Proof.
  assert (D : forall x m, 0 <= m -> m <= exp x -> m * m <= exp (2 * x)).
  { intros x m M H. replace (2 * x) with (x + x) by ring. rewrite exp_plus. apply Rmult_le_compat; lra. }
  pose proof (exp_ineq1_le (/ 32)) as E0. pose proof (D (/ 32) 1.03125 ltac:(lra) ltac:(lra)) as E1. pose proof (D (2 * / 32) 1.0634 ltac:(lra) ltac:(lra)) as E2.
  pose proof (D (2 * (2 * / 32)) 1.1308 ltac:(lra) ltac:(lra)) as E3. pose proof (D (2 * (2 * (2 * / 32))) 1.2787 ltac:(lra) ltac:(lra)) as E4. pose proof (D (2 * (2 * (2 * (2 * / 32)))) 1.635 ltac:(lra) ltac:(lra)) as E5.
  replace (2 * (2 * (2 * (2 * (2 * / 32))))) with 1 in E5 by lra. lra.
Qed.
Lemma ln_above (x : R) : 0 < x -> 1 - / x <= ln x.
Proof. intros X. pose proof (exp_ineq1_le (- ln x)) as E. rewrite exp_Ropp, exp_ln in E by exact X. lra. Qed.

(** logarithms rounded down to multiples of 2^-52 *)
Definition floored_log : Libm := mkLibm (fun x => x) (fun x => floored (ln (value x))) (fun x => x) (fun x => x).
Lemma floored_log_accurate : ln_accurate floored_log (/ 2 ^ 52) 2.65.
Proof.
  intros x _ B. cbn [lm_ln floored_log].
  assert (L : -1 <= ln (value x) <= 1).
  { split.
    - pose proof (ln_above (value x) ltac:(lra)). assert (/ value x <= / / 2) by (apply Rinv_le_contravar; lra). rewrite Rinv_inv in *. lra.
    - rewrite <- (ln_exp 1). pose proof exp_1_above. destruct (Rle_lt_or_eq_dec (value x) (exp 1) ltac:(lra)) as [K|K]; [left; apply ln_increasing; lra|rewrite K; lra]. }
  destruct (floored_near _ L) as (F & _ & K). exact (conj F K).
Qed.
Section Case.
  Variable nan_top : bool.
  Local Instance gops : NumOps b64 := b64_ops floored_log nan_top.
  Definition lm_im : b64 := n_lit 2 0.
  Definition lm_cold : b64 := n_lit 300 0.
  Definition lm_hot : b64 := n_lit 800 0.
  Definition lm_app : b64 := n_lit 10 0.
  Definition lm_check : bool :=
    upto_check 18 lm_im && upto_check 18 lm_cold && upto_check 18 lm_hot && upto_check 18 lm_app &&
    (lit_check 0 lm_im 2 1 && lit_check 0 lm_cold 300 1 && lit_check 0 lm_hot 800 1 && lit_check 0 lm_app 10 1).
  Lemma lm_checked : lm_check = true.
  Proof. vm_cast_no_check (eq_refl true). Qed.
  Lemma lit_exact (x : b64) (a : R) : Rabs (value x - a) <= growth 0 * Rabs a + 0 * tiny -> value x = a.
  Proof. unfold growth. cbn [pow]. intros H. rewrite Rmult_0_l, Rplus_0_r in H. replace ((1 - 1) * Rabs a) with 0 in H by ring. apply Rabs_le_inv in H. lra. Qed.
  Theorem log_mean_case : ln_accurate floored_log (/ 2 ^ 52) 2.65 /\ resolved_regen (/ 2 ^ 52) 2.65 lm_im lm_cold lm_hot lm_app /\
    Rabs (value (rt_avg (regen_temp lm_im lm_cold lm_hot lm_app)) - (794 - 305) / ln (794 / 305)) <= 0.0000000002.
  Proof.
    pose proof lm_checked as H. unfold lm_check in H. rewrite !andb_true_iff in H. destruct H as ((((U1 & U2) & U3) & U4) & (((L1 & L2) & L3) & L4)).
    apply upto_checked in U1, U2, U3, U4. apply lit_sound in L1, L2, L3, L4.
    destruct L1 as (L1 & _). destruct L2 as (L2 & _). destruct L3 as (L3 & _). destruct L4 as (L4 & _).
    apply lit_exact in L1, L2, L3, L4.
    assert (V1 : value lm_im = 2) by lra. assert (V2 : value lm_cold = 300) by lra. assert (V3 : value lm_hot = 800) by lra. assert (V4 : value lm_app = 10) by lra.
    assert (EL : cold_mid (value lm_im) (value lm_cold) (value lm_app) = 305).
    { unfold cold_mid, cold_end. rewrite V1, V2, V4, Rmax_left by lra. lra. }
    assert (EH : hot_mid (value lm_im) (value lm_hot) (value lm_app) = 794).
    { unfold hot_mid, hot_end. rewrite V1, V3, V4, Rmax_right by lra. lra. }
    assert (ES : Rabs (value lm_hot) + Rabs (value lm_cold) + Rabs (value lm_app) + Rabs (value lm_im) = 1112).
    { rewrite V1, V2, V3, V4, !Rabs_pos_eq by lra. lra. }
    pose proof (ln_above (794 / 305) ltac:(lra)) as LL. replace (/ (794 / 305)) with (305 / 794) in LL by lra.
    pose proof (growth_16 4 ltac:(lia)) as G4. pose proof (growth_nonneg 4) as P4. pose proof (growth_16 6 ltac:(lia)) as G6. pose proof (growth_nonneg 6) as P6. pose proof u_small as us. pose proof u_pos as up.
    assert (E : 0 < / 2 ^ 52 <= 0.0000000000000003) by (replace (/ 2 ^ 52) with (1 / 4503599627370496) by (cbn; lra); lra).
    assert (D : 0 <= log_error (/ 2 ^ 52) 1112 305 <= 0.00000000000004).
    { unfold log_error. unfold unit_roundoff in *. lra. }
    assert (R : resolved_regen (/ 2 ^ 52) 2.65 lm_im lm_cold lm_hot lm_app).
    { unfold resolved_regen. cbv zeta. rewrite EL, EH, ES. split; [repeat apply Forall_cons; try apply Forall_nil; assumption|]. split; [lra|]. split; lra. }
    split; [exact floored_log_accurate|]. split; [exact R|].
    destruct (log_mean_f64 floored_log nan_top _ _ _ _ _ _ floored_log_accurate R) as (_ & _ & K). cbv zeta in K. rewrite EL, EH, ES in K.
    eapply Rle_trans; [exact K|]. set (L := ln (794 / 305)) in *. set (d := log_error (/ 2 ^ 52) 1112 305) in *.
    assert (IL : 0 < / L <= 1.63) by (split; [apply Rinv_0_lt_compat; lra|]; replace 1.63 with (/ (1 / 1.63)) by lra; apply Rinv_le_contravar; lra).
    assert (FA : / 2 ^ 900 <= 0.00000000000000000000001).
    { apply Rle_trans with (/ 2 ^ 80); [apply Rinv_le_contravar; [apply pow_lt; lra|apply Rle_pow; [lra|lia]]|].
      apply (Rmult_le_reg_l (2 ^ 80)); [cbn; lra|]. rewrite Rinv_r by (cbn; lra). cbn. lra. }
    unfold Rdiv in *.
    assert (M1 : growth 6 * (2 * 1112 * / L) <= (17 * 0.00000000000000012) * (2 * 1112 * 1.63)) by (apply Rmult_le_compat; lra).
    assert (M2 : 2 * ((794 - 305) * / L) * d <= 2 * (489 * 1.63) * 0.00000000000004) by (apply Rmult_le_compat; lra).
    assert (M20 : 0 <= 2 * ((794 - 305) * / L) * d) by (apply Rmult_le_pos; lra).
    assert (M3 : 2 * ((794 - 305) * / L) * d * / L <= 2 * (489 * 1.63) * 0.00000000000004 * 1.63) by (apply Rmult_le_compat; lra). lra.
  Qed.
End Case.
