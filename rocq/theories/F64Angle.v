(** * In f64 the sinusoidal drive follows the exact harmonic motion up to rounding *)
From Coq Require Import ZArith NArith List Reals Bool Lra Lia.
From Flocq Require Import Core BinarySingleNaN.
From Verif Require Import Num ModelTypes ModelWs ModelHx ModelStateEq ModelEngine B64 Spec SpecF64 SpecRound SpecBalance
  SpecRange SpecProps SpecAngle F64Base F64Err F64Balance F64Norm F64Range F64Props F64Pi.
Import ListNotations.
Local Open Scope R_scope.
Local Open Scope bool_scope.

Lemma cos_near (a b : R) : Rabs (cos a - cos b) <= Rabs (a - b).
Proof.
  destruct (Req_dec a b) as [->|N]; [rewrite !Rminus_eq_0; lra|].
  destruct (MVT_abs cos (fun x => - sin x) b a) as (x & E & _); [intros; apply derivable_pt_lim_cos|].
  rewrite E, Rabs_Ropp. pose proof (SIN_bound x). assert (Rabs (sin x) <= 1) by (apply Rabs_le; lra).
  pose proof (Rabs_pos (a - b)). assert (Rabs (sin x) * Rabs (a - b) <= 1 * Rabs (a - b)) by (apply Rmult_le_compat_r; lra). lra.
Qed.
Lemma sin_near (a b : R) : Rabs (sin a - sin b) <= Rabs (a - b).
Proof.
  destruct (Req_dec a b) as [->|N]; [rewrite !Rminus_eq_0; lra|].
  destruct (MVT_abs sin cos b a) as (x & E & _); [intros; apply derivable_pt_lim_sin|].
  rewrite E. pose proof (COS_bound x). assert (Rabs (cos x) <= 1) by (apply Rabs_le; lra).
  pose proof (Rabs_pos (a - b)). assert (Rabs (cos x) * Rabs (a - b) <= 1 * Rabs (a - b)) by (apply Rmult_le_compat_r; lra). lra.
Qed.

(** ** Products of two computed numbers *)
Lemma tiny_1 : tiny <= 1.
Proof.
  unfold tiny. rewrite <- Rinv_1. apply Rinv_le_contravar; [lra|]. apply pow_R1_Rle. lra.
Qed.
Lemma product_error2 (v w r m t r' m' t' : R) (k k' : nat) : Rabs (v - r) <= growth k * m + t * tiny -> Rabs r <= m ->
  Rabs (w - r') <= growth k' * m' + t' * tiny -> Rabs r' <= m' -> 0 <= t -> 0 <= t' ->
  Rabs (v * w - r * r') <= growth (k + k') * (m * m') + (t * (m' * (1 + u) ^ k') + t' * (m * (1 + u) ^ k) + t * t') * tiny.
Proof.
  intros H Hr H' Hr' T T'.
  replace (v * w - r * r') with ((v - r) * (w - r') + (v - r) * r' + r * (w - r')) by ring.
  eapply Rle_trans; [apply Rabs_triang|]. eapply Rle_trans; [apply Rplus_le_compat_r, Rabs_triang|]. rewrite !Rabs_mult.
  assert (A1 : Rabs (v - r) * Rabs (w - r') <= (growth k * m + t * tiny) * (growth k' * m' + t' * tiny)) by (apply Rmult_le_compat; auto using Rabs_pos).
  assert (A2 : Rabs (v - r) * Rabs r' <= (growth k * m + t * tiny) * m') by (apply Rmult_le_compat; auto using Rabs_pos).
  assert (A3 : Rabs r * Rabs (w - r') <= m * (growth k' * m' + t' * tiny)) by (apply Rmult_le_compat; auto using Rabs_pos).
  eapply Rle_trans; [apply Rplus_le_compat; [apply Rplus_le_compat|]; eassumption|].
  pose proof tiny_pos. pose proof tiny_1.
  assert (Q : t * t' * (tiny * tiny) <= t * t' * tiny).
  { apply Rmult_le_compat_l; [apply Rmult_le_pos; assumption|]. assert (tiny * tiny <= tiny * 1) by (apply Rmult_le_compat_l; lra). lra. }
  apply Rle_trans with (growth (k + k') * (m * m') + (t * (m' * (1 + u) ^ k') + t' * (m * (1 + u) ^ k)) * tiny + t * t' * (tiny * tiny)).
  - apply Req_le. unfold growth. rewrite pow_add. ring.
  - lra.
Qed.
Lemma tracks_mulg (x y : b64) r m k t r' m' k' t' : finite (Bmult mode_NE x y) -> (finite x -> tracks x r m k t) -> (finite y -> tracks y r' m' k' t') ->
  tracks (Bmult mode_NE x y) (r * r') (m * m') (S (k + k')) (2 * (t * (m' * (1 + u) ^ k') + t' * (m * (1 + u) ^ k) + t * t') + 1).
Proof.
  intros F Hx Hy. destruct (mult_finite _ _ F) as (Fx & Fy & V). pose proof (tracks_m _ _ _ _ _ (Hx Fx)) as M. pose proof (tracks_m _ _ _ _ _ (Hy Fy)) as M'.
  destruct (Hx Fx) as (H & Hr & Ht). destruct (Hy Fy) as (H' & Hr' & Ht').
  destruct (rounded_ex (B2R x * B2R y)) as (e & h & He & Hh & E). rewrite E in V.
  pose proof tiny_pos as T. pose proof (one_u_pow k') as G'. pose proof (one_u_pow k) as G.
  assert (W : 0 <= t * (m' * (1 + u) ^ k') + t' * (m * (1 + u) ^ k) + t * t').
  { assert (0 <= t * (m' * (1 + u) ^ k')) by (apply Rmult_le_pos; [exact Ht|apply Rmult_le_pos; lra]).
    assert (0 <= t' * (m * (1 + u) ^ k)) by (apply Rmult_le_pos; [exact Ht'|apply Rmult_le_pos; lra]).
    assert (0 <= t * t') by (apply Rmult_le_pos; assumption). lra. }
  pose proof (product_error2 _ _ _ _ _ _ _ _ _ _ H Hr H' Hr' Ht Ht') as K. unfold value in K.
  split; [|split].
  - change (value (Bmult mode_NE x y)) with (B2R (Bmult mode_NE x y)). rewrite V.
    unshelve epose proof (step _ _ _ e _ _ K _ W He) as S; [rewrite Rabs_mult; apply Rmult_le_compat; auto using Rabs_pos|].
    replace (B2R x * B2R y * (1 + e) + h - r * r') with ((B2R x * B2R y * (1 + e) - r * r') + h) by ring.
    eapply Rle_trans; [apply Rabs_triang|]. lra.
  - rewrite Rabs_mult. apply Rmult_le_compat; auto using Rabs_pos.
  - lra.
Qed.

Local Opaque Bplus Bminus Bmult Bdiv Bopp.

Section Drive.
  Variables (lm : Libm) (nan_top : bool).
  Local Instance ops : NumOps b64 := b64_ops lm nan_top.
  Variable eps : R.
  Hypothesis HC : cosine_bounded lm.
  Hypothesis HS : sine_bounded lm.
  Hypothesis HA : trig_accurate lm eps.

  Lemma two_pi_value : value (n_mul (n_lit 2 0) n_pi) = 2 * value b64_pi.
  Proof.
    assert (E : B2SF (Bmult mode_NE (b64_lit 2 0) b64_pi) = SpecFloat.S754_finite false 7074237752028440 (-50)) by (vm_compute; reflexivity).
    rewrite pi_value. change (B2R (Bmult mode_NE (b64_lit 2 0) b64_pi) = 2 * (IZR 7074237752028440 / IZR (2 ^ 51))).
    rewrite <- SF2R_B2SF, E. unfold SF2R, F2R. cbn. lra.
  Qed.
  Lemma track_two_pi : tracks (n_mul (n_lit 2 0) n_pi) (2 * PI) (2 * PI) 1 0.
  Proof.
    pose proof pi_bounds. destruct track_pi as (P & _). split; [|split; [rewrite Rabs_pos_eq; lra|lra]].
    rewrite two_pi_value. replace (2 * value b64_pi - 2 * PI) with (2 * (value b64_pi - PI)) by ring.
    rewrite Rabs_mult, (Rabs_pos_eq 2) by lra. lra.
  Qed.
  Lemma lit_180 : value (n_lit 180 0) = 180.
  Proof.
    assert (E : B2SF (b64_lit 180 0) = SpecFloat.S754_finite false 6333186975989760 (-45)) by (vm_compute; reflexivity).
    change (B2R (b64_lit 180 0) = 180). rewrite <- SF2R_B2SF, E. unfold SF2R, F2R. cbn. lra.
  Qed.
  Lemma half_value : value nhalf = / 2.
  Proof.
    assert (E : B2SF (nhalf (F := b64)) = SpecFloat.S754_finite false 4503599627370496 (-53)) by (vm_compute; reflexivity).
    unfold value. rewrite <- SF2R_B2SF, E. unfold SF2R, F2R. cbn. lra.
  Qed.
  Lemma one_value : value n1 = 1.
  Proof. exact (value_1 lm nan_top). Qed.

  Variables (f t phi : b64).
  Hypothesis UF : upto 20 f.
  Hypothesis UT : upto 40 t.
  Hypothesis UP : upto 20 phi.
  Let omega := n_mul (n_mul (n_lit 2 0) n_pi) f.
  Let theta := n_mul omega t.
  Let phase := n_div (n_mul phi n_pi) (n_lit 180 0).

  Lemma omega_upto : upto 25 omega.
  Proof. eapply upto_weaken; [eapply u_mul; [apply (upto_checked 5); vm_cast_no_check (eq_refl true)|exact UF|zside]|zside]. Qed.
  Lemma theta_upto : upto 65 theta.
  Proof. eapply upto_weaken; [eapply u_mul; [exact omega_upto|exact UT|zside]|zside]. Qed.
  Lemma phipi_upto : upto 22 (n_mul phi n_pi).
  Proof. eapply upto_weaken; [eapply u_mul; [exact UP|apply (upto_checked 2); vm_cast_no_check (eq_refl true)|zside]|zside]. Qed.
  Lemma phase_upto : upto 30 phase.
  Proof. eapply upto_weaken; [eapply u_div; [exact phipi_upto|apply (from_checked 7); vm_cast_no_check (eq_refl true)|zside]|zside]. Qed.
  Lemma sum_finite : finite (n_add theta phase).
  Proof. eapply upto_finite, u_add; [exact theta_upto|exact phase_upto|zside]. Qed.

  Lemma track_omega : tracks omega (2 * PI * value f) (2 * PI * Rabs (value f)) 2 1.
  Proof.
    eapply conv; [exact (tracks_mul _ _ _ _ _ _ (upto_finite _ _ omega_upto) (fun _ => track_two_pi))|reflexivity|reflexivity|ring].
  Qed.
  Lemma t_bound : Rabs (value t) <= 2 ^ 40.
  Proof. destruct UT as (_ & B). change (bpow radix2 40) with (IZR (2 ^ 40)) in B. change (2 ^ 40)%Z with 1099511627776%Z in B. cbn. lra. Qed.
  Lemma track_theta : tracks theta (2 * PI * value f * value t) (2 * PI * Rabs (value f * value t)) 3 (2 ^ 42).
  Proof.
    eapply tracks_weaken; [|apply le_n|].
    - eapply conv; [exact (tracks_mul _ _ _ _ _ _ (upto_finite _ _ theta_upto) (fun _ => track_omega))|reflexivity|rewrite Rabs_mult; ring|reflexivity].
    - pose proof t_bound. pose proof one_40. replace (2 ^ 42) with (4 * 2 ^ 40) by ring. lra.
  Qed.
  Lemma track_phase : tracks phase (value phi * PI / 180) (Rabs (value phi) * PI / 180) 3 2.
  Proof.
    assert (N : value (n_lit 180 0) <> 0) by (rewrite lit_180; lra).
    eapply tracks_weaken; [|apply le_n|].
    - eapply conv; [exact (tracks_div _ _ _ _ _ _ (upto_finite _ _ phase_upto) N
        (fun F => tracks_mul_l _ _ _ _ _ _ F (fun _ => track_pi)))| | |reflexivity].
      + rewrite lit_180. reflexivity.
      + rewrite lit_180, (Rabs_pos_eq 180) by lra. reflexivity.
    - rewrite lit_180, (Rabs_pos_eq 180) by lra. lra.
  Qed.
  Definition turns : R := 2 * PI * Rabs (value f * value t) + Rabs (value phi) * PI / 180.
  Lemma track_sum : tracks (n_add theta phase) (crank_angle (value f) (value t) (value phi)) turns 4 (2 ^ 44).
  Proof.
    eapply tracks_weaken; [exact (tracks_add _ _ _ _ _ _ _ _ _ sum_finite (fun _ => track_theta) (fun _ => track_phase))|apply le_n|].
    pose proof one_40. replace (2 ^ 44) with (16 * 2 ^ 40) by ring. replace (2 ^ 42) with (4 * 2 ^ 40) by ring. lra.
  Qed.
  Lemma angle_sum : Rabs (value (n_add theta phase) - crank_angle (value f) (value t) (value phi)) <= growth 4 * turns + / 2 ^ 900.
  Proof. exact (of_track 4 _ _ _ _ (pow_mono 44 100 ltac:(lia)) track_sum). Qed.
  Lemma angle_comp : Rabs (value theta - crank_angle (value f) (value t) 0) <= growth 4 * (2 * PI * Rabs (value f * value t)) + / 2 ^ 900.
  Proof.
    unfold crank_angle. replace (2 * PI * value f * value t + 0 * PI / 180) with (2 * PI * value f * value t) by lra.
    apply (of_track 4 _ _ _ (2 ^ 42)); [apply pow_mono; lia|].
    exact (tracks_weaken _ _ _ 3 _ 4 _ track_theta (le_S 3 3 (le_n 3)) (Rle_refl _)).
  Qed.

  Section Space.
    Variables (x clear swept : b64) (a da : R).
    Hypothesis FX : finite x.
    Hypothesis UC : upto 7 clear.
    Hypothesis US : upto 7 swept.
    Hypothesis DA : Rabs (value x - a) <= da.

    Lemma cos_error : Rabs (value (n_cos x) - cos a) <= eps + da.
    Proof.
      destruct (HA x FX) as (_ & E). pose proof (cos_near (value x) a).
      replace (value (n_cos x) - cos a) with ((value (lm_cos lm x) - cos (value x)) + (cos (value x) - cos a)) by (cbn; ring).
      eapply Rle_trans; [apply Rabs_triang|]. lra.
    Qed.
    Lemma sin_error : Rabs (value (n_sin x) - sin a) <= eps + da.
    Proof.
      destruct (HA x FX) as (E & _). pose proof (sin_near (value x) a).
      replace (value (n_sin x) - sin a) with ((value (lm_sin lm x) - sin (value x)) + (sin (value x) - sin a)) by (cbn; ring).
      eapply Rle_trans; [apply Rabs_triang|]. lra.
    Qed.
    Lemma cos_unit : Rabs (value (n_cos x)) <= 1.
    Proof. destruct (HC x FX) as (_ & B). apply Rabs_le. exact B. Qed.
    Lemma sin_unit : Rabs (value (n_sin x)) <= 1.
    Proof. destruct (HS x FX) as (_ & B). apply Rabs_le. exact B. Qed.
    Let V := n_add clear (n_mul (n_mul nhalf swept) (n_add n1 (n_cos x))).
    Let W := n_mul (n_mul (n_mul (n_opp nhalf) swept) (n_sin x)) omega.
    Lemma V_finite : finite V.
    Proof.
      destruct (HC x FX) as (FC & BC). pose proof (unit_upto _ FC BC) as UK.
      assert (P2 : upto 2 (n_add n1 (n_cos x))).
      { eapply upto_weaken; [eapply u_add; [exact (one_upto lm nan_top)|exact UK|zside]|zside]. }
      eapply upto_finite, u_add; [exact UC|eapply u_mul; [eapply u_mul; [exact (half_upto lm nan_top)|exact US|zside]|exact P2|zside]|zside].
    Qed.
    Lemma W_finite : finite W.
    Proof.
      destruct (HS x FX) as (FC & BC). pose proof (unit_upto _ FC BC) as UK.
      assert (M : upto 0 (n_opp nhalf)) by (apply u_opp; exact (half_upto lm nan_top)).
      eapply upto_finite, u_mul; [eapply u_mul; [eapply u_mul; [exact M|exact US|zside]|exact UK|zside]|exact omega_upto|zside].
    Qed.
    Lemma swept_bound : Rabs (value swept) <= 128.
    Proof. destruct US as (_ & B). change (bpow radix2 7) with 128 in B. exact B. Qed.
    Lemma f_bound : Rabs (value f) <= 1048576.
    Proof. destruct UF as (_ & B). change (bpow radix2 20) with 1048576 in B. exact B. Qed.

    Lemma track_V : tracks V (value clear + / 2 * value swept * (1 + value (n_cos x)))
      (Rabs (value clear) + / 2 * Rabs (value swept) * (1 + Rabs (value (n_cos x)))) 4 (2 ^ 40).
    Proof.
      assert (Q : finite (n_mul nhalf swept) -> tracks (n_mul nhalf swept) (/ 2 * value swept) (/ 2 * Rabs (value swept)) 1 1).
      { intros F. eapply conv; [exact (tracks_mul _ _ _ _ _ _ F (fun _ => tracks_exact nhalf))| | |ring].
        - rewrite half_value. reflexivity.
        - rewrite half_value, (Rabs_pos_eq (/ 2)) by lra. reflexivity. }
      assert (K : finite (n_add n1 (n_cos x)) -> tracks (n_add n1 (n_cos x)) (1 + value (n_cos x)) (1 + Rabs (value (n_cos x))) 1 0).
      { intros F. eapply conv; [exact (tracks_add _ _ _ _ _ _ _ _ _ F (fun _ => tracks_exact n1) (fun _ => tracks_exact (n_cos x)))| | |ring].
        - rewrite one_value. reflexivity.
        - rewrite one_value, Rabs_R1. reflexivity. }
      eapply tracks_weaken.
      - apply tracks_add; [exact V_finite|intros _|intros F].
        + exact (tracks_weaken _ _ _ 0 _ 3 0 (tracks_exact clear) (Nat.le_0_l 3) (Rle_refl 0)).
        + exact (tracks_mul2 _ _ _ _ _ _ _ _ _ F Q K).
      - apply le_n.
      - pose proof u_le_1. pose proof u_pos. pose proof cos_unit. pose proof (Rabs_pos (value (n_cos x))).
        assert ((1 + Rabs (value (n_cos x))) * (1 + u) ^ 1 <= 2 * 2) by (apply Rmult_le_compat; cbn [pow]; lra).
        replace (2 ^ 40) with 1099511627776 by (cbn; lra). lra.
    Qed.
    Lemma track_W : tracks W (- / 2 * value swept * value (n_sin x) * (2 * PI * value f))
      (/ 2 * Rabs (value swept) * Rabs (value (n_sin x)) * (2 * PI * Rabs (value f))) 5 (2 ^ 40).
    Proof.
      assert (Q : finite (n_mul (n_opp nhalf) swept) -> tracks (n_mul (n_opp nhalf) swept) (- / 2 * value swept) (/ 2 * Rabs (value swept)) 1 1).
      { intros F. eapply conv; [exact (tracks_mul _ _ _ _ _ _ F (fun _ => tracks_opp _ _ _ _ _ (tracks_exact nhalf)))| | |ring].
        - rewrite half_value. reflexivity.
        - rewrite half_value, (Rabs_pos_eq (/ 2)) by lra. reflexivity. }
      eapply tracks_weaken.
      - apply tracks_mulg; [exact W_finite|intros F; exact (tracks_mul _ _ _ _ _ _ F Q)|intros _; exact track_omega].
      - apply le_n.
      - pose proof u_le_1. pose proof u_pos. pose proof sin_unit. pose proof (Rabs_pos (value (n_sin x))).
        pose proof swept_bound. pose proof f_bound. pose proof pi_bounds. pose proof (Rabs_pos (value f)). pose proof (Rabs_pos (value swept)).
        set (S := Rabs (value (n_sin x))) in *. set (w := Rabs (value swept)) in *. set (h := Rabs (value f)) in *.
        assert (G : 0 <= (1 + u) ^ 2 <= 4) by (cbn [pow]; nra).
        assert (A1 : 2 * PI * h <= 8 * 1048576) by (apply Rmult_le_compat; lra).
        assert (A0 : 0 <= 2 * PI * h) by (apply Rmult_le_pos; lra).
        assert (A2 : 2 * PI * h * (1 + u) ^ 2 <= 8 * 1048576 * 4) by (apply Rmult_le_compat; lra).
        assert (A20 : 0 <= 2 * PI * h * (1 + u) ^ 2) by (apply Rmult_le_pos; lra).
        assert (A3 : / 2 * w * S <= / 2 * 128 * 1) by (apply Rmult_le_compat; lra).
        assert (A30 : 0 <= / 2 * w * S) by (apply Rmult_le_pos; lra).
        assert (A4 : / 2 * w * S * (1 + u) ^ 2 <= / 2 * 128 * 1 * 4) by (apply Rmult_le_compat; lra).
        assert (A5 : (2 * 1 * S + 1) * (2 * PI * h * (1 + u) ^ 2) <= 3 * (8 * 1048576 * 4)) by (apply Rmult_le_compat; lra).
        replace (2 ^ 40) with 1099511627776 by (cbn; lra). lra.
    Qed.

    Lemma V_near : Rabs (value V - (value clear + value swept / 2 * (1 + cos a))) <=
      growth 4 * (Rabs (value clear) + Rabs (value swept)) + Rabs (value swept) / 2 * (eps + da) + / 2 ^ 900.
    Proof.
      pose proof (of_track 4 _ _ _ _ (pow_mono 40 100 ltac:(lia)) track_V) as N. unfold nearly in N.
      pose proof cos_error as E. pose proof cos_unit. pose proof (Rabs_pos (value swept)). pose proof (growth_nonneg 4).
      replace (value V - (value clear + value swept / 2 * (1 + cos a))) with
        ((value V - (value clear + / 2 * value swept * (1 + value (n_cos x)))) + (/ 2 * value swept) * (value (n_cos x) - cos a)) by lra.
      eapply Rle_trans; [apply Rabs_triang|]. rewrite Rabs_mult, (Rabs_mult (/ 2)), (Rabs_pos_eq (/ 2)) by lra.
      assert (B1 : / 2 * Rabs (value swept) * Rabs (value (n_cos x) - cos a) <= / 2 * Rabs (value swept) * (eps + da)) by (apply Rmult_le_compat_l; lra).
      assert (B2 : / 2 * Rabs (value swept) * (1 + Rabs (value (n_cos x))) <= / 2 * Rabs (value swept) * 2) by (apply Rmult_le_compat_l; lra).
      assert (B3 : growth 4 * (Rabs (value clear) + / 2 * Rabs (value swept) * (1 + Rabs (value (n_cos x)))) <=
                   growth 4 * (Rabs (value clear) + Rabs (value swept))) by (apply Rmult_le_compat_l; lra).
      lra.
    Qed.
    Lemma W_near : Rabs (value W - - (value swept * PI * value f * sin a)) <=
      growth 5 * (Rabs (value swept) * PI * Rabs (value f)) + Rabs (value swept) * PI * Rabs (value f) * (eps + da) + / 2 ^ 900.
    Proof.
      pose proof (of_track 5 _ _ _ _ (pow_mono 40 100 ltac:(lia)) track_W) as N. unfold nearly in N.
      pose proof sin_error as E. pose proof sin_unit. pose proof (Rabs_pos (value swept)) as P1. pose proof (Rabs_pos (value f)) as P2. pose proof (growth_nonneg 5). pose proof pi_bounds as PB.
      assert (P : 0 <= Rabs (value swept) * PI * Rabs (value f)) by (apply Rmult_le_pos; [apply Rmult_le_pos|]; lra).
      replace (value W - - (value swept * PI * value f * sin a)) with
        ((value W - - / 2 * value swept * value (n_sin x) * (2 * PI * value f)) - (value swept * PI * value f) * (value (n_sin x) - sin a)) by field.
      eapply Rle_trans; [apply Rabs_triang|]. rewrite Rabs_Ropp, Rabs_mult, !(Rabs_mult _ (value f)), (Rabs_mult _ PI), (Rabs_pos_eq PI) by lra.
      assert (B1 : Rabs (value swept) * PI * Rabs (value f) * Rabs (value (n_sin x) - sin a) <= Rabs (value swept) * PI * Rabs (value f) * (eps + da)) by (apply Rmult_le_compat_l; lra).
      assert (B2 : Rabs (value swept) * PI * Rabs (value f) * Rabs (value (n_sin x)) <= Rabs (value swept) * PI * Rabs (value f) * 1) by (apply Rmult_le_compat_l; lra).
      assert (B3 : growth 5 * (/ 2 * Rabs (value swept) * Rabs (value (n_sin x)) * (2 * PI * Rabs (value f))) <=
                   growth 5 * (Rabs (value swept) * PI * Rabs (value f))) by (apply Rmult_le_compat_l; lra).
      lra.
    Qed.
  End Space.
End Drive.

Theorem drive_harmonic (lm : Libm) (nan_top : bool) (eps : R) (d : SinusoidalDrive b64) (t : b64) :
  cosine_bounded lm -> sine_bounded lm -> trig_accurate lm eps -> ordinary_drive d -> upto 40 t ->
  let v := sin_volumes (ops := b64_ops lm nan_top) d t in
  harmonic eps (value (sd_frequency d)) (value t) 0 (sd_comp_geometry d) (fst v) /\
  harmonic eps (value (sd_frequency d)) (value t) (value (sd_phase_angle d)) (sd_exp_geometry d) (snd v).
Proof.
  intros HC HS HA (UF & UA & G) UT v.
  inversion_clear G as [|? ? (Gc & Gs) G1]. inversion_clear G1 as [|? ? (Ec & Es) _].
  assert (E0 : 2 * PI * Rabs (value (sd_frequency d) * value t) + Rabs 0 * PI / 180 = 2 * PI * Rabs (value (sd_frequency d) * value t))
    by (rewrite Rabs_R0; lra).
  pose proof (angle_comp lm nan_top (sd_frequency d) t UF UT) as A0.
  pose proof (angle_sum lm nan_top (sd_frequency d) t (sd_phase_angle d) UF UT UA) as A1.
  pose proof (upto_finite _ _ (theta_upto lm nan_top (sd_frequency d) t UF UT)) as F0.
  pose proof (sum_finite lm nan_top (sd_frequency d) t (sd_phase_angle d) UF UT UA) as F1.
  assert (T0 : trig_error eps (value (sd_frequency d)) (value t) 0 =
    eps + (growth 4 * (2 * PI * Rabs (value (sd_frequency d) * value t)) + / 2 ^ 900)) by (unfold trig_error; rewrite E0; ring).
  assert (T1 : trig_error eps (value (sd_frequency d)) (value t) (value (sd_phase_angle d)) =
    eps + (growth 4 * turns (sd_frequency d) t (sd_phase_angle d) + / 2 ^ 900)) by (unfold trig_error, turns; ring).
  unfold harmonic. cbv zeta. rewrite T0, T1.
  split; split.
  - exact (V_near lm nan_top eps HC HA _ _ _ _ _ F0 Gc Gs A0).
  - exact (W_near lm nan_top eps HS HA _ UF _ _ _ _ F0 Gs A0).
  - exact (V_near lm nan_top eps HC HA _ _ _ _ _ F1 Ec Es A1).
  - exact (W_near lm nan_top eps HS HA _ UF _ _ _ _ F1 Es A1).
Qed.
