(** * In f64 the temperatures of the regenerator are right up to rounding *)
From Coq Require Import ZArith NArith List Reals Bool Lra Lia.
From Flocq Require Import Core BinarySingleNaN.
From Verif Require Import Num ModelTypes ModelWs ModelHx ModelStateEq ModelEngine B64 Spec SpecF64 SpecRound SpecBalance
  SpecRange SpecProps SpecAngle SpecLogMean F64Base F64Err F64Balance F64Norm F64Range F64Props F64PropsCase F64Angle F64AngleCase F64Order F64Link.
Import ListNotations.
Local Open Scope R_scope.
Local Open Scope bool_scope.
Local Opaque Bplus Bminus Bmult Bdiv Bopp Bsqrt.

Lemma ln_below (x y : R) : 0 < x -> 0 < y -> ln y - ln x <= (y - x) / x.
Proof.
  intros X Y. pose proof (exp_ineq1_le (ln y - ln x)) as E. unfold Rminus at 2 in E. rewrite exp_plus, exp_Ropp, !exp_ln in E by assumption.
  replace ((y - x) / x) with (y * / x - 1) by (field; lra). lra.
Qed.
Lemma ln_near (x y m : R) : 0 < m -> m <= x -> m <= y -> Rabs (ln x - ln y) <= Rabs (x - y) / m.
Proof.
  intros M X Y. assert (K : forall p q, m <= p -> m <= q -> ln p - ln q <= Rabs (p - q) / m).
  { intros p q P Q. eapply Rle_trans; [apply ln_below; lra|]. unfold Rdiv. pose proof (Rle_abs (p - q)). pose proof (Rabs_pos (p - q)).
    assert (0 < / q) by (apply Rinv_0_lt_compat; lra). apply Rle_trans with (Rabs (p - q) * / q); [apply Rmult_le_compat_r; lra|].
    apply Rmult_le_compat_l; [lra|]. apply Rinv_le_contravar; lra. }
  pose proof (K x y X Y) as K1. pose proof (K y x Y X) as K2. rewrite (Rabs_minus_sym y x) in K2. apply Rabs_le. lra.
Qed.
Lemma half_is (lm : Libm) (nan_top : bool) : value (@nhalf b64 (b64_ops lm nan_top)) = / 2.
Proof. exact F64Err.half_value. Qed.

Section Regen.
  Variables (lm : Libm) (nan_top : bool).
  Local Instance lmops : NumOps b64 := b64_ops lm nan_top.
  Variables (eps top : R) (im tc th ap : b64).
  Hypothesis HL : ln_accurate lm eps top.
  Hypothesis HO : resolved_regen eps top im tc th ap.
  Let i := value im.
  Let a := value ap.
  Let c := value tc.
  Let h := value th.
  Let s := Rabs h + Rabs c + Rabs a + Rabs i.
  Let lo := cold_mid i c a.
  Let hi := hot_mid i h a.
  Let d := log_error eps s lo.
  Let L := ln (hi / lo).
  Let ca := if n_le n0 im then ap else n_sub ap im.
  Let ha := if n_le n0 im then n_add ap im else ap.
  Let B := n_add tc (n_mul nhalf ca).
  Let A := n_sub th (n_mul nhalf ha).
  Let N := n_sub (n_sub A tc) (n_mul nhalf ca).
  Let Q := n_div A B.
  Let l := n_ln Q.

  Lemma parts : upto 18 im /\ upto 18 tc /\ upto 18 th /\ upto 18 ap.
  Proof.
    destruct HO as (U & _). pose proof (Forall_inv U) as U1. apply Forall_inv_tail in U. pose proof (Forall_inv U) as U2. apply Forall_inv_tail in U.
    pose proof (Forall_inv U) as U3. apply Forall_inv_tail in U. pose proof (Forall_inv U) as U4. auto.
  Qed.
  Lemma facts : 1 <= lo /\ lo <= hi /\ 1.001 * hi <= top * lo /\ 2 * d <= L.
  Proof. destruct HO as (_ & (H1 & H2) & H3 & H4). auto. Qed.
  Lemma ends : upto 19 ca /\ upto 19 ha /\ tracks ca (cold_end i a) (Rabs a + Rabs i) 1 0 /\ tracks ha (hot_end i a) (Rabs a + Rabs i) 1 0.
  Proof.
    destruct parts as (U1 & _ & _ & U4). assert (W : forall x, upto 18 x -> upto 19 x) by (intros x H; exact (upto_weaken 18 19 x H ltac:(lia))).
    pose proof (Rabs_pos i) as Pi. pose proof (Rabs_pos a) as Pa.
    assert (S : tracks ap a (Rabs a + Rabs i) 1 0).
    { split; [replace (Rabs (value ap - a)) with 0 by (unfold a; rewrite Rminus_diag_eq by reflexivity; rewrite Rabs_R0; reflexivity); pose proof (growth_nonneg 1); assert (0 <= growth 1 * (Rabs a + Rabs i)) by (apply Rmult_le_pos; lra); lra|].
      split; lra. }
    unfold ca, ha. assert (E : n_le n0 im = Rle_bool 0 i) by exact (le_zero lm nan_top im (upto_finite _ _ U1)). rewrite E. unfold cold_end, hot_end. case Rle_bool_spec; intros P.
    - assert (UA : upto 19 (n_add ap im)) by (eapply upto_weaken; [eapply u_add; [exact U4|exact U1|zside]|zside]).
      split; [exact (W _ U4)|]. split; [exact UA|]. rewrite (Rmax_left 0 (- i)), (Rmax_right 0 i) by lra. split.
      + rewrite Rplus_0_r. exact S.
      + eapply conv; [exact (tracks_add _ _ _ _ _ _ _ _ 0 (upto_finite _ _ UA) (fun _ => tracks_exact ap) (fun _ => tracks_exact im))|reflexivity|reflexivity|lra].
    - assert (UA : upto 19 (n_sub ap im)) by (eapply upto_weaken; [eapply u_sub; [exact U4|exact U1|zside]|zside]).
      split; [exact UA|]. split; [exact (W _ U4)|]. rewrite (Rmax_right 0 (- i)), (Rmax_left 0 i) by lra. split.
      + eapply conv; [exact (tracks_sub _ _ _ _ _ _ _ _ 0 (upto_finite _ _ UA) (fun _ => tracks_exact ap) (fun _ => tracks_exact im))|unfold a, i; ring|reflexivity|lra].
      + rewrite Rplus_0_r. exact S.
  Qed.
  Lemma exact_k (x : b64) (k : nat) : tracks x (value x) (Rabs (value x)) k 0.
  Proof. apply (tracks_weaken _ _ _ 0 0); [apply tracks_exact|lia|lra]. Qed.
  Lemma half_ends : upto 20 (n_mul nhalf ca) /\ upto 20 (n_mul nhalf ha) /\
    tracks (n_mul nhalf ca) (cold_end i a / 2) ((Rabs a + Rabs i) / 2) 2 1 /\ tracks (n_mul nhalf ha) (hot_end i a / 2) ((Rabs a + Rabs i) / 2) 2 1.
  Proof.
    destruct ends as (U1 & U2 & T1 & T2). pose proof (half_upto lm nan_top) as UH.
    assert (V1 : upto 20 (n_mul nhalf ca)) by (eapply upto_weaken; [eapply u_mul; [exact UH|exact U1|zside]|zside]).
    assert (V2 : upto 20 (n_mul nhalf ha)) by (eapply upto_weaken; [eapply u_mul; [exact UH|exact U2|zside]|zside]).
    assert (HV : value nhalf = / 2) by exact (half_is lm nan_top).
    assert (W : forall x r, upto 20 (n_mul nhalf x) -> tracks x r (Rabs a + Rabs i) 1 0 -> tracks (n_mul nhalf x) (r / 2) ((Rabs a + Rabs i) / 2) 2 1).
    { intros x r V T. eapply conv; [exact (tracks_mul_l _ _ _ _ _ _ (upto_finite _ _ V) (fun _ => T))| | |].
      - change (value nhalf * r = r / 2). rewrite HV. lra.
      - change (Rabs (value nhalf) * (Rabs a + Rabs i) = (Rabs a + Rabs i) / 2). rewrite HV, Rabs_pos_eq by lra. lra.
      - ring. }
    auto.
  Qed.
  Lemma mids : upto 21 A /\ upto 21 B /\ upto 23 N /\ tracks A hi (Rabs h + (Rabs a + Rabs i) / 2) 3 2 /\ tracks B lo (Rabs c + (Rabs a + Rabs i) / 2) 3 2 /\ tracks N (hi - lo) s 5 10.
  Proof.
    destruct parts as (_ & Uc & Uh & _). destruct half_ends as (V1 & V2 & T1 & T2).
    assert (UA : upto 21 A) by (eapply upto_weaken; [eapply u_sub; [exact Uh|exact V2|zside]|zside]).
    assert (UB : upto 21 B) by (eapply upto_weaken; [eapply u_add; [exact Uc|exact V1|zside]|zside]).
    assert (UD : upto 22 (n_sub A tc)) by (eapply upto_weaken; [eapply u_sub; [exact UA|exact Uc|zside]|zside]).
    assert (UN : upto 23 N) by (eapply upto_weaken; [eapply u_sub; [exact UD|exact V1|zside]|zside]).
    assert (KA : tracks A hi (Rabs h + (Rabs a + Rabs i) / 2) 3 2).
    { eapply conv; [exact (tracks_sub _ _ _ _ _ _ _ _ 2 (upto_finite _ _ UA) (fun _ => exact_k th 2) (fun _ => T2))|reflexivity|reflexivity|lra]. }
    assert (KB : tracks B lo (Rabs c + (Rabs a + Rabs i) / 2) 3 2).
    { eapply conv; [exact (tracks_add _ _ _ _ _ _ _ _ 2 (upto_finite _ _ UB) (fun _ => exact_k tc 2) (fun _ => T1))|reflexivity|reflexivity|lra]. }
    split; [exact UA|]. split; [exact UB|]. split; [exact UN|]. split; [exact KA|]. split; [exact KB|].
    eapply conv; [refine (tracks_sub _ _ _ _ _ _ _ _ 4 (upto_finite _ _ UN) (fun F => tracks_sub _ _ _ _ _ _ _ _ 3 F (fun _ => KA) (fun _ => exact_k tc 3)) (fun _ => tracks_weaken _ _ _ _ _ 4 1 T1 _ _))| | |].
    - lia.
    - lra.
    - unfold hi, lo, hot_mid, cold_mid. fold c. ring.
    - unfold s. fold c. lra.
    - ring.
  Qed.
  Lemma small : tiny <= / 1000000000000000000 /\ 1 <= s <= 1048576 /\ growth 4 * s <= 0.00001 /\ growth 3 * s + 2 * tiny <= growth 4 * s.
  Proof.
    assert (T : tiny <= / 2 ^ 60) by (unfold tiny; apply Rinv_le_contravar; [apply pow_lt; lra|apply Rle_pow; [lra|lia]]).
    assert (T1 : / 2 ^ 60 <= / 1000000000000000000) by (apply Rinv_le_contravar; [lra|cbn; lra]).
    assert (TU : 2 * tiny <= u).
    { unfold tiny, unit_roundoff. replace 1075%nat with (1 + (53 + 1021))%nat by reflexivity. rewrite pow_add, pow_1, Rinv_mult.
      replace (2 * (/ 2 * / 2 ^ (53 + 1021))) with (/ 2 ^ (53 + 1021)) by lra. apply Rinv_le_contravar; [apply pow_lt; lra|apply Rle_pow; [lra|lia]]. }
    destruct parts as ((_ & B1) & (_ & B2) & (_ & B3) & (_ & B4)). change (bpow radix2 18) with 262144 in B1, B2, B3, B4. fold i in B1. fold c in B2. fold h in B3. fold a in B4.
    destruct facts as (F1 & _). destruct mids as (_ & _ & _ & _ & (_ & KB & _) & _). pose proof (Rabs_pos h). pose proof (Rabs_pos c). pose proof (Rabs_pos a). pose proof (Rabs_pos i).
    pose proof (Rle_abs lo). assert (S : 1 <= s <= 1048576) by (unfold s; lra). pose proof (growth_16 4 ltac:(lia)) as G4. pose proof (growth_nonneg 4). pose proof (growth_nonneg 3). pose proof u_small. pose proof u_pos.
    split; [lra|]. split; [exact S|]. split.
    - assert (growth 4 * s <= (17 * 0.00000000000000012) * 1048576) by (apply Rmult_le_compat; lra). lra.
    - rewrite (growth_S 3). assert (0 <= u * growth 3) by (apply Rmult_le_pos; lra). assert (G : growth 3 + u <= growth 3 + u * (1 + growth 3)) by lra.
      assert (u * 1 <= u * s) by (apply Rmult_le_compat_l; lra).
      assert ((growth 3 + u) * s <= (growth 3 + u * (1 + growth 3)) * s) by (apply Rmult_le_compat_r; lra).
      lra.
  Qed.
  Lemma mid_values : Rabs (value A - hi) <= growth 4 * s /\ Rabs (value B - lo) <= growth 4 * s /\ 0.9 <= value B /\ 0.9 * value B <= value A.
  Proof.
    destruct small as (_ & S & G & G3). destruct facts as (F1 & F2 & _). destruct mids as (_ & _ & _ & (KA & _) & (KB & _) & _). pose proof (growth_nonneg 3).
    pose proof (Rabs_pos h). pose proof (Rabs_pos c). pose proof (Rabs_pos a). pose proof (Rabs_pos i).
    assert (W : forall m, m <= s -> growth 3 * m <= growth 3 * s) by (intros m M; apply Rmult_le_compat_l; lra).
    pose proof (W (Rabs h + (Rabs a + Rabs i) / 2) ltac:(unfold s; lra)). pose proof (W (Rabs c + (Rabs a + Rabs i) / 2) ltac:(unfold s; lra)).
    assert (VA : Rabs (value A - hi) <= growth 4 * s) by lra. assert (VB : Rabs (value B - lo) <= growth 4 * s) by lra.
    split; [exact VA|]. split; [exact VB|]. apply Rabs_le_inv in VA, VB. lra.
  Qed.
  Lemma ratio : finite Q /\ / 2 <= value Q <= top /\ Rabs (ln (value Q) - L) <= 2 * u + 4 * growth 4 * s / lo.
  Proof.
    destruct small as (T & S & G & G3). destruct facts as (F1 & F2 & F3 & _). destruct mids as (UA & UB & _). destruct mid_values as (VA & VB & B0 & AB).
    pose proof u_small as us. pose proof u_pos as up. pose proof tiny_pos as tp.
    assert (FB : from (-1) B) by (unfold from; change (bpow radix2 (-1)) with (/ 2); rewrite Rabs_pos_eq; lra).
    assert (UQ : upto 22 Q) by (eapply upto_weaken; [eapply u_div; [exact UA|exact FB|zside]|zside]).
    assert (NB : B2R B <> 0) by (change (value B <> 0); lra).
    destruct (div_finite _ _ (upto_finite _ _ UQ) NB) as (_ & V). destruct (rounded_ex (B2R A / B2R B)) as (e & n & He & Hn & E). rewrite E in V.
    change (value Q = value A / value B * (1 + e) + n) in V. set (q := value A / value B) in *.
    assert (VB' := VB). assert (VA' := VA). apply Rabs_le_inv in VA', VB'. apply Rabs_le_inv in He, Hn.
    assert (q0 : 0.9 <= q) by (unfold q; apply (Rmult_le_reg_r (value B)); [lra|]; unfold Rdiv; rewrite Rmult_assoc, Rinv_l, Rmult_1_r by lra; lra).
    assert (qe : Rabs (q * e) <= q * u) by (rewrite Rabs_mult, (Rabs_pos_eq q) by lra; apply Rmult_le_compat_l; [lra|apply Rabs_le; lra]).
    apply Rabs_le_inv in qe. assert (qu : q * u <= q * 0.00000000000000012) by (apply Rmult_le_compat_l; lra).
    assert (VQ : Rabs (value Q - q) <= q * u + tiny) by (apply Rabs_le; lra).
    assert (TL : 1.001 <= top).
    { apply Rnot_lt_le. intros X. assert (top * lo < 1.001 * lo) by (apply Rmult_lt_compat_r; lra). lra. }
    assert (qt : q * 1.0005 <= top).
    { unfold q. apply (Rmult_le_reg_r (value B)); [lra|]. replace (value A / value B * 1.0005 * value B) with (value A * 1.0005) by (field; lra).
      assert (X1 : value A <= hi + 0.00001) by lra. assert (X2 : top * (lo - 0.00001) <= top * value B) by (apply Rmult_le_compat_l; lra).
      assert (X3 : top <= top * lo) by (rewrite <- (Rmult_1_r top) at 1; apply Rmult_le_compat_l; lra). lra. }
    split; [exact (upto_finite _ _ UQ)|]. split; [lra|].
    assert (D1 : Rabs (ln (value Q) - ln q) <= 2 * u).
    { eapply Rle_trans; [apply (ln_near (value Q) q (0.9 * q)); lra|].
      apply (Rmult_le_reg_r (0.9 * q)); [lra|]. unfold Rdiv. rewrite Rmult_assoc, Rinv_l, Rmult_1_r by lra.
      assert (T3 : 2 * tiny <= u).
      { unfold tiny, unit_roundoff. replace 1075%nat with (1 + (53 + 1021))%nat by reflexivity. rewrite pow_add, pow_1, Rinv_mult.
        replace (2 * (/ 2 * / 2 ^ (53 + 1021))) with (/ 2 ^ (53 + 1021)) by lra. apply Rinv_le_contravar; [apply pow_lt; lra|apply Rle_pow; [lra|lia]]. }
      assert (u * 0.9 <= u * q) by (apply Rmult_le_compat_l; lra). lra. }
    assert (D2 : forall x y, lo <= y -> Rabs (x - y) <= growth 4 * s -> Rabs (ln x - ln y) <= 2 * (growth 4 * s) / lo).
    { intros x y Y X. pose proof X as X'. apply Rabs_le_inv in X'. eapply Rle_trans; [apply (ln_near x y (lo / 2)); lra|].
      replace (2 * (growth 4 * s) / lo) with (growth 4 * s / (lo / 2)) by (field; lra). unfold Rdiv. apply Rmult_le_compat_r; [left; apply Rinv_0_lt_compat; lra|exact X]. }
    pose proof (D2 _ _ F2 VA) as DA. pose proof (D2 _ _ (Rle_refl lo) VB) as DB.
    assert (E1 : ln q = ln (value A) - ln (value B)) by (unfold q, Rdiv; rewrite ln_mult by (try apply Rinv_0_lt_compat; lra); rewrite ln_Rinv by lra; ring).
    assert (E2 : L = ln hi - ln lo) by (unfold L, Rdiv; rewrite ln_mult by (try apply Rinv_0_lt_compat; lra); rewrite ln_Rinv by lra; ring).
    apply Rabs_le_inv in D1, DA, DB. replace (4 * growth 4 * s / lo) with (2 * (growth 4 * s) / lo + 2 * (growth 4 * s) / lo) by (field; lra).
    apply Rabs_le. lra.
  Qed.
  Lemma log_near : finite l /\ Rabs (value l - L) <= d.
  Proof.
    destruct ratio as (F & B0 & K). destruct (HL Q F B0) as (Fl & Kl). split; [exact Fl|]. change (lm_ln lm Q) with l in Kl.
    unfold d, log_error. replace (value l - L) with ((value l - ln (value Q)) + (ln (value Q) - L)) by ring.
    eapply Rle_trans; [apply Rabs_triang|]. unfold unit_roundoff in *. lra.
  Qed.
  Theorem log_mean_f64 : near_log_mean eps im tc th ap (regen_temp im tc th ap).
  Proof.
    unfold near_log_mean. cbv zeta. fold i a c h. fold s lo hi. fold L d.
    destruct parts as (_ & Uc & Uh & _). destruct ends as (Uca & Uha & T1 & T2). destruct small as (T & S & G & _). destruct facts as (F1 & F2 & _ & F4).
    pose proof (Rabs_pos h) as Ph. pose proof (Rabs_pos c) as Pc. pose proof (Rabs_pos a) as Pa. pose proof (Rabs_pos i) as Pi. pose proof (growth_nonneg 2) as G2.
    split; [|split].
    - change (rt_cold (regen_temp im tc th ap)) with (n_add tc ca).
      assert (U : upto 20 (n_add tc ca)) by (eapply upto_weaken; [eapply u_add; [exact Uc|exact Uca|zside]|zside]).
      destruct (tracks_add _ _ _ _ _ _ _ _ 1 (upto_finite _ _ U) (fun _ => exact_k tc 1) (fun _ => T1)) as (K & _).
      change (Rabs (value (n_add tc ca) - (c + cold_end i a)) <= growth 2 * (Rabs c + (Rabs a + Rabs i)) + 2 * (0 + 0) * tiny) in K.
      assert (growth 2 * (Rabs c + (Rabs a + Rabs i)) <= growth 2 * s) by (apply Rmult_le_compat_l; unfold s; lra). lra.
    - change (rt_hot (regen_temp im tc th ap)) with (n_sub th ha).
      assert (U : upto 20 (n_sub th ha)) by (eapply upto_weaken; [eapply u_sub; [exact Uh|exact Uha|zside]|zside]).
      destruct (tracks_sub _ _ _ _ _ _ _ _ 1 (upto_finite _ _ U) (fun _ => exact_k th 1) (fun _ => T2)) as (K & _).
      change (Rabs (value (n_sub th ha) - (h - hot_end i a)) <= growth 2 * (Rabs h + (Rabs a + Rabs i)) + 2 * (0 + 0) * tiny) in K.
      assert (growth 2 * (Rabs h + (Rabs a + Rabs i)) <= growth 2 * s) by (apply Rmult_le_compat_l; unfold s; lra). lra.
    - change (rt_avg (regen_temp im tc th ap)) with (n_div N l). destruct mids as (_ & _ & UN & _ & _ & KN). destruct log_near as (Fl & Kl). pose proof u_pos as up.
      assert (EP : 0 <= eps).
      { destruct ratio as (FQ & BQ & _). destruct (HL Q FQ BQ) as (_ & E). eapply Rle_trans; [apply Rabs_pos|exact E]. }
      assert (D : 2 * u <= d).
      { unfold d, log_error. assert (0 <= 4 * growth 4 * s / lo). { unfold Rdiv. pose proof (growth_nonneg 4). assert (0 < / lo) by (apply Rinv_0_lt_compat; lra). apply Rmult_le_pos; [apply Rmult_le_pos; lra|lra]. }
        unfold unit_roundoff in *. lra. }
      assert (LP : 0 < L) by lra. assert (l2 : L / 2 <= value l) by (apply Rabs_le_inv in Kl; lra).
      assert (FL : from (-52) l).
      { unfold from. rewrite Rabs_pos_eq by lra. apply Rle_trans with (2 * u); [|lra]. unfold unit_roundoff.
        replace (bpow radix2 (-52)) with (/ 2 ^ 52); [|replace (-52)%Z with (- Z.of_nat 52)%Z by reflexivity; rewrite bpow_neg; reflexivity].
        rewrite <- (tech_pow_Rmult 2 52), Rinv_mult. lra. }
      assert (UR : upto 75 (n_div N l)) by (eapply upto_weaken; [eapply u_div; [exact UN|exact FL|zside]|zside]).
      assert (NL : value l <> 0) by lra.
      destruct (tracks_div _ _ _ _ _ _ (upto_finite _ _ UR) NL (fun _ => KN)) as (K & _).
      change (value (Bdiv mode_NE N l)) with (value (n_div N l)) in K. rewrite (Rabs_pos_eq (value l)) in K by lra.
      assert (IL : 0 < / value l <= 2 / L).
      { split; [apply Rinv_0_lt_compat; lra|]. replace (2 / L) with (/ (L / 2)) by (field; lra). apply Rinv_le_contravar; lra. }
      assert (I2 : / value l <= 2 ^ 52).
      { replace (2 ^ 52) with (/ / 2 ^ 52) by (rewrite Rinv_inv; reflexivity). apply Rinv_le_contravar; [apply Rinv_0_lt_compat, pow_lt; lra|].
        apply Rle_trans with (2 * u); [|lra]. unfold unit_roundoff. rewrite <- (tech_pow_Rmult 2 52), Rinv_mult. lra. }
      assert (TT : (2 * 10 / value l + 1) * tiny <= / 2 ^ 900).
      { apply tiny_900. unfold Rdiv. split; [lra|]. apply Rle_trans with (2 ^ 60); [|apply pow_mono; lia].
        replace (2 ^ 60) with (256 * 2 ^ 52) by (cbn; lra). pose proof (pow_R1_Rle 2 52 ltac:(lra)). lra. }
      assert (M1 : growth 6 * (s / value l) <= growth 6 * (2 * s / L)).
      { apply Rmult_le_compat_l; [apply growth_nonneg|]. unfold Rdiv in *. replace (2 * s * / L) with (s * (2 * / L)) by ring. apply Rmult_le_compat_l; lra. }
      assert (M2 : Rabs ((hi - lo) / value l - (hi - lo) / L) <= 2 * ((hi - lo) / L) * d / L).
      { replace ((hi - lo) / value l - (hi - lo) / L) with ((hi - lo) / L * ((L - value l) * / value l)) by (field; lra).
        assert (P : 0 <= (hi - lo) / L) by (unfold Rdiv; apply Rmult_le_pos; [lra|left; apply Rinv_0_lt_compat; lra]).
        rewrite Rabs_mult, (Rabs_pos_eq ((hi - lo) / L)), Rabs_mult, Rabs_minus_sym, (Rabs_pos_eq (/ value l)) by lra.
        replace (2 * ((hi - lo) / L) * d / L) with ((hi - lo) / L * (d * (2 / L))) by (field; lra).
        apply Rmult_le_compat_l; [exact P|]. apply Rmult_le_compat; [apply Rabs_pos|lra|exact Kl|lra]. }
      replace (value (n_div N l) - (hi - lo) / L) with ((value (n_div N l) - (hi - lo) / value l) + ((hi - lo) / value l - (hi - lo) / L)) by ring.
      eapply Rle_trans; [apply Rabs_triang|]. lra.
  Qed.
End Regen.
