(** * Both drives push gas from one end of the engine to the other *)
From Coq Require Import ZArith NArith List Reals Lra Lia.
From Verif Require Import Num ModelTypes ModelWs ModelEngine RNum SpecGas SpecKin SpecPush RFluid RKin RBounds.
Local Open Scope R_scope.

Lemma turn_time f th : 0 < f -> 0 < th < 2 * PI -> 0 < th / (2 * PI * f) < 1 / f /\ 2 * PI * f * (th / (2 * PI * f)) = th.
Proof.
  intros F (A & B). pose proof PI_RGT_0 as P. assert (W : 0 < 2 * PI * f) by (apply Rmult_lt_0_compat; lra).
  split; [|field; lra]. split; [apply Rdiv_lt_0_compat; assumption|].
  replace (1 / f) with (2 * PI / (2 * PI * f)) by (field; lra). unfold Rdiv. apply Rmult_lt_compat_r; [apply Rinv_0_lt_compat; exact W|exact B].
Qed.
(** an angle at which a sine is positive and the sine [phi] later is zero *)
Lemma angle_between phi : sin phi <> 0 -> exists th, 0 < th < 2 * PI /\ 0 < sin th /\ sin (th + phi) = 0.
Proof.
  intros H. pose proof PI_RGT_0 as P. pose proof (sin2_cos2 phi) as S. unfold Rsqr in S.
  assert (K : forall k, k * k = 1 -> k * sin phi = Rabs (sin phi) ->
    exists th, 0 < th < 2 * PI /\ 0 < sin th /\ sin (th + phi) = 0).
  { intros k K1 K2. pose proof (Rabs_pos_lt _ H) as A.
    assert (B : -1 <= - (k * cos phi) <= 1).
    { assert ((k * cos phi) * (k * cos phi) <= 1).
      { replace (k * cos phi * (k * cos phi)) with (k * k * (cos phi * cos phi)) by ring. rewrite K1. pose proof (Rle_0_sqr (sin phi)) as Q. unfold Rsqr in Q. lra. }
      split; nra. }
    exists (acos (- (k * cos phi))). pose proof (acos_bound (- (k * cos phi))) as (U & V).
    pose proof (sin_acos _ B) as SA. pose proof (cos_acos _ B) as CA.
    assert (SE : sin (acos (- (k * cos phi))) = Rabs (sin phi)).
    { rewrite SA. replace (1 - (- (k * cos phi))²) with (Rabs (sin phi))²; [apply sqrt_Rsqr; lra|].
      rewrite <- Rsqr_abs. unfold Rsqr. replace (- (k * cos phi) * - (k * cos phi)) with (k * k * (cos phi * cos phi)) by ring. rewrite K1. lra. }
    split; [split; [|lra]|split].
    - destruct U as [U|U]; [exact U|]. rewrite <- U, sin_0 in SE. lra.
    - rewrite SE. exact A.
    - rewrite sin_plus, SE, CA, <- K2. ring. }
  destruct (Rlt_le_dec 0 (sin phi)) as [C|C].
  - apply (K 1); [ring|]. rewrite Rabs_right; lra.
  - apply (K (-1)); [ring|]. rewrite Rabs_left1; lra.
Qed.
Lemma sin_pushes (d : SinusoidalDrive R) (r : Run R) : ru_ws_vol_fn r = sin_volumes d -> 0 < sd_frequency d ->
  0 < sg_swept_volume (sd_comp_geometry d) -> sin (sd_phase_angle d * PI / 180) <> 0 ->
  exists t, 0 < t < 1 / sd_frequency d /\ pushes_at r t.
Proof.
  intros E F V H. destruct (angle_between _ H) as (th & B & S1 & S2). destruct (turn_time _ th F B) as (T1 & T2).
  exists (th / (2 * PI * sd_frequency d)). split; [exact T1|]. pose proof PI_RGT_0 as P.
  pose proof (sin_comp_deriv d (th / (2 * PI * sd_frequency d))) as D1. pose proof (sin_exp_deriv d (th / (2 * PI * sd_frequency d))) as D2.
  rewrite T2 in D1, D2. rewrite S2 in D2. unfold pushes_at. rewrite E. destruct (sin_volumes d _) as [vc ve]. cbn [fst snd] in *.
  left. rewrite D1, D2. split; [|lra].
  assert (0 < sg_swept_volume (sd_comp_geometry d) * sin th * (2 * PI * sd_frequency d)).
  { apply Rmult_lt_0_compat; [apply Rmult_lt_0_compat; assumption|apply Rmult_lt_0_compat; lra]. }
  lra.
Qed.
Lemma rh_pushes (d : RhombicDrive R) (r : Run R) : ru_ws_vol_fn r = rh_volumes d -> 0 < rd_frequency d -> turns d ->
  0 < rg_eccentricity (rd_geometry d) -> 0 < rg_r_crank (rd_geometry d) -> rg_D_p (rd_geometry d) <> 0 ->
  exists t, 0 < t < 1 / rd_frequency d /\ pushes_at r t.
Proof.
  intros E F (_ & _ & HL) He Hr HD. pose proof PI_RGT_0 as P. destruct (turn_time _ (PI / 2) F ltac:(lra)) as (T1 & T2).
  exists (PI / 2 / (2 * PI * rd_frequency d)). split; [exact T1|].
  pose proof (rh_comp_deriv d (PI / 2 / (2 * PI * rd_frequency d))) as D1. pose proof (rh_exp_deriv d (PI / 2 / (2 * PI * rd_frequency d))) as D2.
  rewrite T2, cos_PI2, sin_PI2 in D1, D2. unfold pushes_at. rewrite E. destruct (rh_volumes d _) as [vc ve]. cbn [fst snd] in *.
  set (g := rd_geometry d) in *. set (e := rg_eccentricity g) in *. set (k := rg_r_crank g) in *. set (L := rg_L_conn g) in *.
  assert (DP : 0 < rg_D_p g * rg_D_p g) by (apply Rsqr_pos_lt in HD; exact HD).
  assert (DD : 0 <= rg_D_d g * rg_D_d g) by (apply Rle_0_sqr).
  set (dp := rg_D_p g * rg_D_p g) in *. set (dd := rg_D_d g * rg_D_d g) in *.
  assert (AP : 0 < PI * dp / 4) by (assert (0 < PI * dp) by (apply Rmult_lt_0_compat; lra); lra).
  assert (AD : 0 <= PI * dd / 4) by (assert (0 <= PI * dd) by (apply Rmult_le_pos; lra); lra).
  set (ap := PI * dp / 4) in *. set (ad := PI * dd / 4) in *.
  assert (B : 0 < sqrt (L * L - (e + k * 0) * (e + k * 0))).
  { apply sqrt_lt_R0. rewrite Rmult_0_r, Rplus_0_r. assert (e * e < L * L) by (apply Rmult_gt_0_lt_compat; lra). lra. }
  set (b := sqrt _) in *.
  assert (X : 0 < ap * k * e / b) by (apply Rdiv_lt_0_compat; [apply Rmult_lt_0_compat; [apply Rmult_lt_0_compat|]; assumption|exact B]).
  assert (Y : 0 <= ad * k * e / b).
  { unfold Rdiv. apply Rmult_le_pos; [|apply Rlt_le, Rinv_0_lt_compat; exact B]. apply Rmult_le_pos; [apply Rmult_le_pos|]; lra. }
  assert (W : 0 < 2 * PI * rd_frequency d) by (apply Rmult_lt_0_compat; lra).
  left. split.
  - rewrite D1. apply Rminus_lt. match goal with |- ?l - 0 < 0 => replace (l - 0) with (- (2 * (ap * k * e / b) * (2 * PI * rd_frequency d))) by (field; lra) end.
    assert (0 < 2 * (ap * k * e / b) * (2 * PI * rd_frequency d)) by (apply Rmult_lt_0_compat; lra). lra.
  - rewrite D2. match goal with |- 0 <= ?l => replace l with (ad * k * e / b * (2 * PI * rd_frequency d)) by (field; lra) end.
    apply Rmult_le_pos; lra.
Qed.

(** ** Drives that meet these conditions *)
Lemma drives_case : (0 < sd_frequency gl_drive /\ 0 < sg_swept_volume (sd_comp_geometry gl_drive) /\ sin (sd_phase_angle gl_drive * PI / 180) <> 0) /\
  (0 < rd_frequency rh_long_crank /\ turns rh_long_crank /\ 0 < rg_eccentricity (rd_geometry rh_long_crank) /\
    0 < rg_r_crank (rd_geometry rh_long_crank) /\ rg_D_p (rd_geometry rh_long_crank) <> 0).
Proof.
  split.
  - split; [cbn; lra|]. split; [cbn; lra|]. replace (sd_phase_angle gl_drive * PI / 180) with (PI / 2); [rewrite sin_PI2; lra|].
    cbn. field.
  - split; [cbn; lra|]. split; [exact rh_long_turns|]. cbn. lra.
Qed.
