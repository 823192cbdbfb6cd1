(** * A concrete case for the accuracy of the sinusoidal drive *)
From Coq Require Import ZArith NArith List Reals Bool Lra Lia.
From Flocq Require Import Core BinarySingleNaN.
From Verif Require Import Num ModelTypes ModelWs ModelHx ModelStateEq ModelEngine B64 Spec SpecF64 SpecRound SpecBalance
  SpecRange SpecProps SpecAngle F64Base F64Err F64Balance F64Norm F64Range F64Props F64PropsCase F64Pi F64Angle.
Import ListNotations.
Local Open Scope R_scope.
Local Open Scope bool_scope.

Lemma far_900' : / 2 ^ 900 <= 0.000000000000001.
Proof.
  apply Rle_trans with (/ 2 ^ 60).
  - apply Rinv_le_contravar; [apply pow_lt; lra|apply Rle_pow; [lra|lia]].
  - apply (Rmult_le_reg_l (2 ^ 60)); [cbn; lra|]. rewrite Rinv_r by (cbn; lra). cbn. lra.
Qed.
(** during the first turn, for leads of up to a turn *)
Theorem first_turn (eps f t phi : R) : Rabs (f * t) <= 1 -> Rabs phi <= 360 -> trig_error eps f t phi <= eps + 0.00000000000004.
Proof.
  intros A B. unfold trig_error. pose proof (growth_16 4 ltac:(lia)) as G. pose proof (growth_nonneg 4). pose proof u_small. pose proof far_900'. pose proof pi_bounds as P.
  pose proof (Rabs_pos (f * t)). pose proof (Rabs_pos phi).
  assert (M1 : 2 * PI * Rabs (f * t) <= 6.3 * 1) by (apply Rmult_le_compat; lra).
  assert (M2 : Rabs phi * PI <= 360 * 3.15) by (apply Rmult_le_compat; lra).
  assert (M3 : 0 <= Rabs phi * PI) by (apply Rmult_le_pos; lra). assert (M4 : 0 <= 2 * PI * Rabs (f * t)) by (apply Rmult_le_pos; lra).
  assert (growth 4 * (2 * PI * Rabs (f * t) + Rabs phi * PI / 180) <= (17 * 0.00000000000000012) * 12.6) by (apply Rmult_le_compat; lra).
  lra.
Qed.

(** sine and cosine rounded down to multiples of 2^-52 *)
Definition floored (r : R) : b64 := b64_norm (Zfloor (r * 4503599627370496)) (-52).
Definition floored_libm : Libm :=
  mkLibm (fun x => x) (fun x => x) (fun x => floored (cos (value x))) (fun x => floored (sin (value x))).
Lemma floored_value (r : R) : -1 <= r <= 1 ->
  finite (floored r) /\ value (floored r) = IZR (Zfloor (r * 4503599627370496)) / 4503599627370496.
Proof.
  intros H. unfold floored, b64_norm, value, finite. set (m := Zfloor (r * 4503599627370496)).
  assert (B : (-4503599627370496 <= m <= 4503599627370496)%Z).
  { split.
    - apply Zfloor_lub. lra.
    - apply le_IZR. apply Rle_trans with (r * 4503599627370496); [apply Zfloor_lb|lra]. }
  pose proof (binary_normalize_correct 53 1024 eq_refl eq_refl mode_NE m (-52) false) as K. cbv zeta in K.
  assert (V : F2R (Float radix2 m (-52)) = IZR m / 4503599627370496) by (unfold F2R; cbn; lra).
  assert (A : Rabs (IZR m / 4503599627370496) <= 1).
  { destruct B as (B1 & B2). apply IZR_le in B1, B2. apply Rabs_le. lra. }
  assert (G : generic_format radix2 (SpecFloat.fexp 53 1024) (F2R (Float radix2 m (-52)))).
  { apply generic_format_F2R. intros NZ. unfold cexp. rewrite V. unfold SpecFloat.fexp, SpecFloat.emin.
    assert (mag radix2 (IZR m / 4503599627370496) <= 1)%Z.
    { apply mag_le_bpow.
      - apply IZR_neq in NZ. unfold Rdiv. apply Rmult_integral_contrapositive_currified; [exact NZ|lra].
      - change (bpow radix2 1) with 2. lra. }
    lia. }
  rewrite (round_generic radix2 _ (round_mode mode_NE) _ G), V in K. rewrite Rlt_bool_true in K.
  - destruct K as (K1 & K2 & _). split; [exact K2|exact K1].
  - apply Rle_lt_trans with 1; [exact A|]. change 1 with (bpow radix2 0). apply bpow_lt. lia.
Qed.
Lemma floored_near (r : R) : -1 <= r <= 1 ->
  finite (floored r) /\ -1 <= value (floored r) <= 1 /\ Rabs (value (floored r) - r) <= / 2 ^ 52.
Proof.
  intros H. destruct (floored_value r H) as (F & V). rewrite V. set (m := Zfloor (r * 4503599627370496)).
  assert (B : (-4503599627370496 <= m)%Z) by (apply Zfloor_lub; lra). apply IZR_le in B.
  pose proof (Zfloor_lb (r * 4503599627370496)) as L. pose proof (Zfloor_ub (r * 4503599627370496)) as U. fold m in L, U.
  split; [exact F|]. split; [lra|]. replace (/ 2 ^ 52) with (1 / 4503599627370496) by (cbn; lra). apply Rabs_le. lra.
Qed.
Lemma floored_trig : cosine_bounded floored_libm /\ sine_bounded floored_libm /\ trig_accurate floored_libm (/ 2 ^ 52).
Proof.
  split; [|split].
  - intros x _. destruct (floored_near (cos (value x)) (COS_bound _)) as (A & B & _). exact (conj A B).
  - intros x _. destruct (floored_near (sin (value x)) (SIN_bound _)) as (A & B & _). exact (conj A B).
  - intros x _. split; [apply (floored_near (sin (value x)) (SIN_bound _))|apply (floored_near (cos (value x)) (COS_bound _))].
Qed.

(** the default drive a quarter turn after the start, 0.00375 s *)
Section Case.
  Variable nan_top : bool.
  Local Instance ops : NumOps b64 := b64_ops floored_libm nan_top.
  Definition default_drive : SinusoidalDrive b64 := SinusoidalDrive_from SinConfig_default.
  Definition quarter : b64 := n_lit 375 (-5).
  Definition default_check : bool :=
    upto_check 20 (sd_frequency default_drive) && upto_check 20 (sd_phase_angle default_drive) &&
    upto_check 7 (sg_clearance_volume (sd_comp_geometry default_drive)) && upto_check 7 (sg_swept_volume (sd_comp_geometry default_drive)) &&
    upto_check 7 (sg_clearance_volume (sd_exp_geometry default_drive)) && upto_check 7 (sg_swept_volume (sd_exp_geometry default_drive)) &&
    upto_check 40 quarter && lit_check 1 (sd_frequency default_drive) 666667 10000 && lit_check 0 (sd_phase_angle default_drive) 90 1 &&
    lit_check 1 quarter 375 100000.
  Lemma default_checked : default_check = true.
  Proof. vm_cast_no_check (eq_refl true). Qed.
  Lemma default_values : ordinary_drive default_drive /\ upto 40 quarter /\
    Rabs (value (sd_frequency default_drive) * value quarter) <= 1 /\ Rabs (value (sd_phase_angle default_drive)) <= 360.
  Proof.
    pose proof default_checked as H. unfold default_check in H. rewrite !andb_true_iff in H.
    destruct H as (((((((((H1 & H2) & H3) & H4) & H5) & H6) & H7) & H8) & H9) & H10).
    split; [|split; [apply upto_checked, H7|]].
    - split; [apply upto_checked, H1|]. split; [apply upto_checked, H2|].
      repeat apply Forall_cons; try apply Forall_nil; split; apply upto_checked; assumption.
    - apply lit_sound in H8, H9, H10. destruct H8 as (A & _). destruct H9 as (B & _). destruct H10 as (C & _).
      pose proof (growth_16 1 ltac:(lia)). pose proof (growth_16 0 ltac:(lia)). pose proof u_small. pose proof (growth_nonneg 1). pose proof (growth_nonneg 0).
      rewrite (Rabs_pos_eq (666667 / 10000)) in A by lra. rewrite (Rabs_pos_eq (375 / 100000)) in C by lra. rewrite (Rabs_pos_eq (90 / 1)) in B by lra.
      apply Rabs_le_inv in A, B, C. split.
      + rewrite Rabs_mult. apply Rle_trans with (68 * 0.004); [|lra].
        apply Rmult_le_compat; try apply Rabs_pos; apply Rabs_le; lra.
      + apply Rabs_le. lra.
  Qed.
  Theorem default_case : cosine_bounded floored_libm /\ sine_bounded floored_libm /\ trig_accurate floored_libm (/ 2 ^ 52) /\
    ordinary_drive default_drive /\ upto 40 quarter /\
    let v := sin_volumes default_drive quarter in let c := value (sg_clearance_volume (sd_exp_geometry default_drive)) in
    let s := value (sg_swept_volume (sd_exp_geometry default_drive)) in
    let a := crank_angle (value (sd_frequency default_drive)) (value quarter) (value (sd_phase_angle default_drive)) in
    Rabs (value (v_value (snd v)) - (c + s / 2 * (1 + cos a))) <= 0.0000000000001 * (Rabs c + Rabs s) + / 2 ^ 900.
  Proof.
    destruct floored_trig as (HC & HS & HA). destruct default_values as (D & Q & F & P).
    split; [exact HC|]. split; [exact HS|]. split; [exact HA|]. split; [exact D|]. split; [exact Q|]. cbv zeta.
    destruct (drive_harmonic floored_libm nan_top _ _ _ HC HS HA D Q) as (_ & V & _). cbv zeta in V.
    pose proof (first_turn (/ 2 ^ 52) _ _ _ F P) as T. eapply Rle_trans; [exact V|].
    assert (E : / 2 ^ 52 <= 0.0000000000000003) by (replace (/ 2 ^ 52) with (1 / 4503599627370496) by (cbn; lra); lra).
    pose proof (growth_16 4 ltac:(lia)) as G. pose proof u_small.
    set (s := Rabs (value (sg_swept_volume _))) in *. set (c := Rabs (value (sg_clearance_volume _))) in *.
    assert (Ps : 0 <= s) by apply Rabs_pos. assert (Pc : 0 <= c) by apply Rabs_pos.
    assert (M1 : s / 2 * trig_error (/ 2 ^ 52) (value (sd_frequency default_drive)) (value quarter) (value (sd_phase_angle default_drive)) <=
      s / 2 * 0.00000000000005) by (apply Rmult_le_compat_l; lra).
    assert (M2 : growth 4 * (c + s) <= (17 * 0.00000000000000012) * (c + s)) by (apply Rmult_le_compat_r; lra).
    lra.
  Qed.
End Case.
