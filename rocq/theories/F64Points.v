(** * Output points placed by adding up steps: how many there are *)
From Coq Require Import ZArith NArith List Reals Bool Lra Lia.
From Flocq Require Import Core BinarySingleNaN.
From Verif Require Import Num ModelTypes ModelWs ModelHx ModelStateEq ModelEngine ModelApi Spec SpecLoop SpecApi
  PolySolve PolyLoop PolyRun B64 SpecF64 SpecRound SpecPoints F64Base F64Err F64Range F64More F64Examples.
Import ListNotations.
Local Open Scope R_scope.

Lemma u_small : u * 2 ^ 43 <= / 1000.
Proof. unfold unit_roundoff. lra. Qed.
Lemma u_val : u = / 9007199254740992.
Proof. unfold unit_roundoff. f_equal. lra. Qed.
Lemma tiny_small : tiny <= u * / 2 ^ 100.
Proof.
  unfold unit_roundoff, tiny. rewrite <- Rinv_mult, <- pow_add. apply Rinv_le_contravar; [apply pow_lt; lra|].
  apply Rle_pow; [lra|lia].
Qed.
Lemma guard_exact : value (b64_lit 1 (-14)) = 6338253001141147 * / 2 ^ 99 /\ finite (b64_lit 1 (-14)).
Proof.
  assert (E : B2SF (b64_lit 1 (-14)) = SpecFloat.S754_finite false 6338253001141147 (-99)).
  { vm_compute. reflexivity. }
  split.
  - unfold value. rewrite <- SF2R_B2SF, E. unfold SF2R, F2R. cbn [Fnum Fexp cond_Zopp].
    change (-99)%Z with (- Z.of_nat 99)%Z. rewrite bpow_neg. reflexivity.
  - unfold finite. rewrite <- is_finite_SF_B2SF, E. reflexivity.
Qed.
Lemma guard_units : 90.07 * u <= value (b64_lit 1 (-14)) <= 90.08 * u.
Proof. rewrite (proj1 guard_exact). unfold unit_roundoff. lra. Qed.

Lemma big_bpow : 2 ^ 60 = bpow radix2 60.
Proof. rewrite bpow_powerRZ. change 60%Z with (Z.of_nat 60). rewrite <- pow_powerRZ. reflexivity. Qed.

(** ** The error of an added time *)
Lemma added_error (z dx : b64) (k : nat) : finite z -> value z = 0 -> finite dx -> 0 < value dx <= 2 ^ 10 -> INR k <= 2 ^ 43 ->
  finite (added z dx k) /\
  Rabs (value (added z dx k) - INR k * value dx) <= 1.001 * u * value dx * (INR k * (INR k + 1)) / 2.
Proof.
  intros Fz Vz Fd Hd. pose proof u_pos as U. pose proof u_small as US. unfold value in *.
  induction k as [|k IH]; intros Hk.
  - cbn [added INR]. split; [exact Fz|]. rewrite Vz. replace (0 - 0 * B2R dx) with 0 by ring. rewrite Rabs_R0. lra.
  - rewrite S_INR in *. destruct IH as (F & E); [lra|]. cbn [added].
    set (s := B2R (added z dx k)) in *. set (d := B2R dx) in *. set (x := INR k) in *.
    assert (X : 0 <= x) by apply pos_INR.
    assert (A0 : 0 < u * d) by (apply Rmult_lt_0_compat; lra).
    assert (UX : u * x <= / 1000).
    { apply Rle_trans with (u * 2 ^ 43); [|exact US]. apply Rmult_le_compat_l; lra. }
    set (B := 1.001 * u * d * (x * (x + 1)) / 2) in *.
    assert (B0 : 0 <= B).
    { unfold B. assert (0 <= u * d * (x * (x + 1))) by (repeat apply Rmult_le_pos; lra). lra. }
    assert (Bx : B <= 0.001 * ((x + 1) * d)).
    { replace B with (1.001 / 2 * (u * x) * ((x + 1) * d)) by (unfold B; lra).
      apply Rmult_le_compat_r; [apply Rmult_le_pos; lra|]. lra. }
    apply Rabs_le_inv in E.
    assert (XD : x * d + d = (x + 1) * d) by ring.
    assert (Sd : 0 <= s + d <= (x + 1) * d + B) by lra.
    assert (XD' : (x + 1) * d <= 2 ^ 43 * 2 ^ 10) by (apply Rmult_le_compat; lra).
    destruct (plus_cases (added z dx k) dx F Fd) as [(_ & F' & V)|(O & _)].
    + split; [exact F'|]. rewrite V. destruct (rounded_plus_ex (added z dx k) dx) as (e & He & ->).
      fold s d. apply Rabs_le_inv in He. set (e' := (s + d) * e).
      assert (H1 : - (u * ((x + 1) * d + B)) <= e' <= u * ((x + 1) * d + B)).
      { unfold e'. assert (K : (s + d) * u <= ((x + 1) * d + B) * u) by (apply Rmult_le_compat_r; lra).
        assert (K1 : (s + d) * e <= (s + d) * u) by (apply Rmult_le_compat_l; lra).
        assert (K2 : (s + d) * - u <= (s + d) * e) by (apply Rmult_le_compat_l; lra). lra. }
      replace (s + d) with (s + d) in H1 by ring.
      assert (E1 : (s + d) * (1 + e) - (x + 1) * d = (s - x * d) + e') by (unfold e'; ring).
      rewrite E1. apply Rabs_le.
      assert (G : B + u * ((x + 1) * d + B) <= 1.001 * u * d * ((x + 1) * (x + 1 + 1)) / 2).
      { replace (1.001 * u * d * ((x + 1) * (x + 1 + 1)) / 2) with (B + 1.001 * (u * ((x + 1) * d))) by (unfold B; lra).
        assert (u * B <= u * (0.001 * ((x + 1) * d))) by (apply Rmult_le_compat_l; lra). lra. }
      lra.
    + exfalso. revert O. apply (no_overflow _ 60); [|lia|lia]. fold s d. rewrite <- big_bpow, Rabs_right by lra. lra.
Qed.

(** ** The number of steps *)
Lemma norm_nat (M : nat) : (Z.of_nat M < 2 ^ 32)%Z -> finite (b64_norm (Z.of_nat M) 0) /\ value (b64_norm (Z.of_nat M) 0) = INR M.
Proof.
  intros HM. unfold b64_norm, value, finite.
  pose proof (binary_normalize_correct 53 1024 eq_refl eq_refl mode_NE (Z.of_nat M) 0 false) as K.
  cbv zeta in K.
  assert (V : F2R (Float radix2 (Z.of_nat M) 0) = INR M).
  { unfold F2R. cbn [Fnum Fexp bpow]. rewrite Rmult_1_r. symmetry. apply INR_IZR_INZ. }
  rewrite V in K.
  assert (G : generic_format radix2 (SpecFloat.fexp 53 1024) (INR M)).
  { rewrite <- V. apply generic_format_F2R. intros NZ. unfold cexp. rewrite V. rewrite INR_IZR_INZ.
    unfold SpecFloat.fexp, SpecFloat.emin.
    assert (mag radix2 (IZR (Z.of_nat M)) <= 32)%Z.
    { apply mag_le_bpow; [apply IZR_neq; lia|]. rewrite Rabs_right by (apply Rle_ge, IZR_le; lia).
      change (bpow radix2 32) with (IZR (2 ^ 32)). apply IZR_lt. exact HM. }
    lia. }
  rewrite (round_generic radix2 _ (round_mode mode_NE) _ G) in K.
  rewrite Rlt_bool_true in K.
  - destruct K as (K1 & K2 & _). split; [exact K2|exact K1].
  - rewrite Rabs_right by (apply Rle_ge, pos_INR). apply Rlt_trans with (bpow radix2 32).
    + rewrite INR_IZR_INZ. change (bpow radix2 32) with (IZR (2 ^ 32)). apply IZR_lt. exact HM.
    + apply bpow_lt. lia.
Qed.

Section Count.
  Variables (z p : b64) (M : nat).
  Hypothesis Fz : finite z.
  Hypothesis Vz : value z = 0.
  Hypothesis Fp : finite p.
  Hypothesis M1 : (1 <= M)%nat.
  Hypothesis HM : (Z.of_nat M < 2 ^ 32)%Z.
  Hypothesis Hlo : 3 / 10 ^ 14 * INR M <= value p.
  Hypothesis Hhi : (INR M + 10) * value p <= 179.
  Let dx := Bdiv mode_NE p (b64_norm (Z.of_nat M) 0).
  Let q := value p / INR M.

  Lemma M_ge : 1 <= INR M.
  Proof. apply (le_INR 1). exact M1. Qed.
  Lemma M_le : INR M <= 2 ^ 32.
  Proof. rewrite INR_IZR_INZ. apply Rle_trans with (IZR (2 ^ 32)); [apply IZR_le; lia|]. cbn. lra. Qed.
  Lemma q_p : INR M * q = value p.
  Proof. unfold q. field. pose proof M_ge. lra. Qed.
  Lemma q_lo : 3 / 10 ^ 14 <= q.
  Proof. pose proof M_ge. apply Rmult_le_reg_l with (INR M); [lra|]. rewrite q_p. lra. Qed.
  Lemma p_hi : 0 < value p <= 17.
  Proof.
    pose proof M_ge. pose proof q_lo. assert (P : 0 < value p).
    { rewrite <- q_p. apply Rmult_lt_0_compat; lra. }
    split; [exact P|]. assert (11 * value p <= (INR M + 10) * value p) by (apply Rmult_le_compat_r; lra). lra.
  Qed.
  Lemma q_hi : q <= value p.
  Proof.
    pose proof M_ge. pose proof q_lo. rewrite <- q_p. rewrite <- (Rmult_1_l q) at 1. apply Rmult_le_compat_r; lra.
  Qed.

  Lemma step_near : finite dx /\ Rabs (value dx - q) <= 1.001 * u * q.
  Proof.
    destruct (norm_nat M HM) as (Fn & Vn). pose proof q_lo. pose proof q_hi. pose proof p_hi. unfold dx, value in *.
    pose proof M_ge.
    destruct (div_cases p (b64_norm (Z.of_nat M) 0) Fp) as [(_ & F & V)|(O & _)]; [rewrite Vn; lra| |].
    - split; [exact F|]. rewrite V, Vn. fold q. destruct (rounded_ex q) as (e & h & He & Hh & ->).
      apply Rabs_le_inv in He, Hh. pose proof tiny_small. pose proof u_pos.
      assert (T : tiny <= 0.001 * (u * q)).
      { apply Rle_trans with (u * / 2 ^ 100); [lra|]. replace (0.001 * (u * q)) with (u * (0.001 * q)) by ring.
        apply Rmult_le_compat_l; [lra|]. apply Rle_trans with (0.001 * (3 / 10 ^ 14)); lra. }
      assert (q * e <= q * u) by (apply Rmult_le_compat_l; lra).
      assert (q * - u <= q * e) by (apply Rmult_le_compat_l; lra).
      apply Rabs_le. lra.
    - exfalso. revert O. apply (no_overflow _ 60); [|lia|lia]. rewrite Vn. fold q. rewrite <- big_bpow, Rabs_right by lra. lra.
  Qed.

  Lemma step_range : (1 - 1.001 * u) * q <= value dx <= (1 + 1.001 * u) * q.
  Proof. destruct step_near as (_ & H). apply Rabs_le_inv in H. lra. Qed.
  Lemma step_ok : 0 < value dx <= 2 ^ 10.
  Proof.
    pose proof step_range. pose proof q_lo. pose proof q_hi. pose proof p_hi. pose proof u_pos. pose proof u_small.
    assert (u <= / 1000) by (unfold unit_roundoff; lra).
    assert (0 < (1 - 1.001 * u) * q) by (apply Rmult_lt_0_compat; lra).
    assert ((1 + 1.001 * u) * q <= 2 * q) by (apply Rmult_le_compat_r; lra). lra.
  Qed.

  (** every added time up to the last requested one *)
  Lemma upto_last k : (k <= M)%nat -> Rabs (value (added z dx k) - INR k * q) <= u * value p * (0.502 * INR M + 1.504).
  Proof.
    intros Hk. pose proof M_le. pose proof M_ge. assert (Hk' : INR k <= INR M) by (apply le_INR; exact Hk).
    destruct (added_error z dx k Fz Vz (proj1 step_near) step_ok) as (_ & E); [lra|].
    pose proof step_range as SR. pose proof q_lo. pose proof u_pos. pose proof (pos_INR k).
    assert (U6 : u <= / 10 ^ 6) by (unfold unit_roundoff; lra).
    set (d := value dx) in *. set (x := INR k) in *. set (m := INR M) in *.
    assert (UQ : 0 < u * q) by (apply Rmult_lt_0_compat; lra).
    assert (D : d <= 1.0001 * q).
    { apply Rle_trans with ((1 + 1.001 * u) * q); [lra|]. apply Rmult_le_compat_r; lra. }
    assert (D0 : 0 <= d) by (pose proof step_ok; unfold d; lra).
    assert (XM : x * (x + 1) <= m * (m + 1)) by (apply Rmult_le_compat; lra).
    assert (X0 : 0 <= x * (x + 1)) by (apply Rmult_le_pos; lra).
    assert (E2 : 1.001 * u * d * (x * (x + 1)) / 2 <= 0.502 * (u * q) * (m * (m + 1))).
    { assert (u * d <= 1.0001 * (u * q)) by (assert (u * d <= u * (1.0001 * q)) by (apply Rmult_le_compat_l; lra); lra).
      assert (u * d * (x * (x + 1)) <= 1.0001 * (u * q) * (m * (m + 1))).
      { apply Rmult_le_compat; try lra. apply Rmult_le_pos; lra. }
      assert (0 <= u * q * (m * (m + 1))) by (apply Rmult_le_pos; [lra|apply Rmult_le_pos; lra]). lra. }
    assert (E3 : Rabs (x * d - x * q) <= 1.001 * (u * q) * m).
    { replace (x * d - x * q) with (x * (d - q)) by ring. rewrite Rabs_mult, Rabs_right by lra.
      apply Rle_trans with (m * (1.001 * u * q)); [|lra]. apply Rmult_le_compat; [lra|apply Rabs_pos|lra|].
      apply Rabs_le. lra. }
    replace (value (added z dx k) - x * q) with ((value (added z dx k) - x * d) + (x * d - x * q)) by ring.
    eapply Rle_trans; [apply Rabs_triang|].
    assert (QP : m * q = value p) by apply q_p.
    replace (u * value p * (0.502 * m + 1.504)) with (0.502 * (u * q) * (m * (m + 1)) + 1.002 * (u * q) * m)
      by (rewrite <- QP; lra).
    assert (0 <= u * q * m) by (apply Rmult_le_pos; lra). lra.
  Qed.

  (** the end of the integration *)
  Let x_end := Bplus mode_NE p (b64_lit 1 (-14)).
  Variable stop : b64.
  Hypothesis Hstop : Rabs (value stop - value x_end) <= Rabs (value x_end) / 2 ^ 52.

  Lemma stop_range : value p + (90.06 - 3.01 * value p) * u <= value stop <= value p + (90.1 + 3.01 * value p) * u.
  Proof.
    destruct guard_exact as (_ & Fg). pose proof guard_units as G. pose proof p_hi as P. pose proof u_pos as U.
    assert (U6 : u <= / 10 ^ 6) by (unfold unit_roundoff; lra).
    assert (U2 : / 2 ^ 52 = 2 * u) by (unfold unit_roundoff; lra).
    unfold value in *. set (g := B2R (b64_lit 1 (-14))) in *.
    assert (V : exists e, Rabs e <= u /\ B2R x_end = (B2R p + g) * (1 + e)).
    { unfold x_end. destruct (plus_cases p (b64_lit 1 (-14)) Fp Fg) as [(_ & _ & V)|(O & _)].
      - rewrite V. apply rounded_plus_ex.
      - exfalso. revert O. apply (no_overflow _ 60); [|lia|lia]. fold g. rewrite <- big_bpow, Rabs_right by lra. lra. }
    destruct V as (e & He & V). rewrite (Rabs_right (B2R x_end)) in Hstop.
    2:{ rewrite V. apply Rabs_le_inv in He. apply Rle_ge, Rmult_le_pos; lra. }
    unfold Rdiv in Hstop. rewrite U2, V in Hstop. apply Rabs_le_inv in He, Hstop.
    set (a := B2R p + g) in *. set (t := B2R p) in *.
    assert (A : t + 90.07 * u <= a <= t + 90.08 * u) by (unfold a; lra).
    assert (K1 : a * e <= a * u) by (apply Rmult_le_compat_l; lra).
    assert (K2 : a * - u <= a * e) by (apply Rmult_le_compat_l; lra).
    assert (K3 : a * u <= (t + 0.001) * u) by (apply Rmult_le_compat_r; lra).
    assert (K4 : a * (1 + e) * u <= (1.0001 * (t + 0.0005)) * u).
    { apply Rmult_le_compat_r; [lra|]. apply Rle_trans with (a * 1.0001); [apply Rmult_le_compat_l; lra|].
      assert (a <= t + 0.0005) by lra. lra. }
    assert (TU : 0 <= t * u) by (apply Rmult_le_pos; lra).
    lra.
  Qed.

  Lemma all_before k : (k <= M)%nat -> value (added z dx k) <= value stop.
  Proof.
    intros Hk. pose proof (upto_last k Hk) as E. pose proof stop_range as S. pose proof u_pos. pose proof p_hi as P.
    pose proof M_ge. pose proof q_lo. apply Rabs_le_inv in E.
    assert (INR k * q <= value p).
    { rewrite <- q_p. apply Rmult_le_compat_r; [lra|]. apply le_INR. exact Hk. }
    assert (K : value p * (0.502 * INR M + 4.52) <= 90.06).
    { apply Rle_trans with (0.502 * ((INR M + 10) * value p)); lra. }
    assert (u * (value p * (0.502 * INR M + 4.52)) <= u * 90.06) by (apply Rmult_le_compat_l; lra).
    assert (0 <= u * value p) by (apply Rmult_le_pos; lra). lra.
  Qed.

  Lemma next_beyond : value stop < value (added z dx (S M)).
  Proof.
    pose proof stop_range as HS. pose proof u_pos. pose proof p_hi as P. pose proof M_ge. pose proof M_le. pose proof q_lo as Q.
    pose proof step_range as SR. pose proof q_hi.
    assert (U6 : u <= / 10 ^ 6) by (unfold unit_roundoff; lra).
    destruct (added_error z dx (S M) Fz Vz (proj1 step_near) step_ok) as (_ & E); [rewrite S_INR; lra|].
    rewrite S_INR in E. apply Rabs_le_inv in E. set (d := value dx) in *. set (m := INR M) in *.
    assert (QP : m * q = value p) by apply q_p. set (t := value p) in *.
    assert (D : d <= 1.0001 * q).
    { apply Rle_trans with ((1 + 1.001 * u) * q); [lra|]. apply Rmult_le_compat_r; lra. }
    assert (UQ : 0 < u * q) by (apply Rmult_lt_0_compat; lra).
    assert (MM : (m + 1) * (m + 1 + 1) <= m * (m + 5)).
    { assert (m * 1 <= m * m) by (apply Rmult_le_compat_l; lra). lra. }
    assert (E2 : 1.001 * u * d * ((m + 1) * (m + 1 + 1)) / 2 <= 0.502 * (u * (t * (m + 5)))).
    { assert (u * d <= 1.0001 * (u * q)) by (assert (u * d <= u * (1.0001 * q)) by (apply Rmult_le_compat_l; lra); lra).
      assert (0 <= d) by (pose proof step_ok; unfold d; lra).
      assert (u * d * ((m + 1) * (m + 1 + 1)) <= 1.0001 * (u * q) * (m * (m + 5))).
      { apply Rmult_le_compat; try lra; [apply Rmult_le_pos; lra|apply Rmult_le_pos; lra]. }
      assert (0 <= u * q * (m * (m + 5))) by (apply Rmult_le_pos; [lra|apply Rmult_le_pos; lra]).
      replace (u * (t * (m + 5))) with (u * q * (m * (m + 5))) by (rewrite <- QP; ring). lra. }
    assert (L : (m + 1) * ((1 - 1.001 * u) * q) <= (m + 1) * d) by (apply Rmult_le_compat_l; lra).
    assert (L2 : (m + 1) * ((1 - 1.001 * u) * q) = t + q - 1.001 * (u * (t + q))) by (rewrite <- QP; ring).
    assert (UT : u * (t + q) <= u * (2 * t)) by (apply Rmult_le_compat_l; lra).
    assert (K : t * (0.502 * m + 7.6) <= 132).
    { assert (t * (0.502 * m + 7.6) <= t * (0.737 * (m + 10))) by (apply Rmult_le_compat_l; lra). lra. }
    assert (UK : u * (t * (0.502 * m + 7.6)) <= u * 132) by (apply Rmult_le_compat_l; lra).
    assert (0 <= u * t) by (apply Rmult_le_pos; lra).
    assert (QU : 240 * u <= q) by (apply Rle_trans with (3 / 10 ^ 14); [unfold unit_roundoff; lra|exact Q]).
    lra.
  Qed.
End Count.

Lemma placed_count (z p : b64) (M : nat) (y : vec3 b64) rt at_ xs :
  finite z -> value z = 0 -> finite p -> (1 <= M)%nat -> (Z.of_nat M < 2 ^ 32)%Z ->
  3 / 10 ^ 14 * INR M <= value p -> (INR M + 10) * value p <= 179 ->
  let dx := Bdiv mode_NE p (b64_norm (Z.of_nat M) 0) in
  placed (mkOdeArgs z (Bplus mode_NE p (b64_lit 1 (-14))) dx y rt at_) xs -> xs = map (added z dx) (seq 0 (S M)).
Proof.
  intros Fz Vz Fp M1 HM Hlo Hhi dx (stop & m & Hs & -> & Hb & Ha). cbn [oa_x oa_x_end oa_dx] in *.
  assert (m = S M) as ->; [|reflexivity].
  destruct (Nat.lt_trichotomy m (S M)) as [L|[L|L]]; [|exact L|]; exfalso.
  - pose proof (all_before z p M Fz Vz Fp M1 HM Hlo Hhi stop Hs m ltac:(lia)) as K. fold dx in K. lra.
  - pose proof (next_beyond z p M Fz Vz Fp M1 HM Hlo Hhi stop Hs) as K. fold dx in K. specialize (Hb (S M) L). lra.
Qed.

Lemma answered_end {F} {ops : NumOps F} (D : Decomp F) (c : Cycle F) (P : list F -> list (vec3 F) -> Prop) pr out :
  answered D c pr out -> every_end P pr -> P (fst out) (snd out).
Proof. induction 1 as [xs ys|t y k dy out Hd Ha IH]; intros H; [exact H|]. apply IH. exact (H dy). Qed.

Lemma nth_Forall2 {A B} (P : A -> B -> Prop) l l' : Forall2 P l l' -> forall k b, nth_error l' k = Some b ->
  exists a, nth_error l k = Some a /\ P a b.
Proof.
  induction 1 as [|a b l l' H HF IH]; intros [|k] y Hy; cbn in *; try discriminate; [|eauto].
  injection Hy as <-. eauto.
Qed.

Section Run.
  Variables (lm : Libm) (nt : bool).
  Local Instance ops_points : NumOps b64 := b64_ops lm nt.

  Lemma zero_ok : finite (n0 : b64) /\ value (n0 : b64) = 0.
  Proof. split; reflexivity. Qed.

  Lemma integrates_count (E : Env b64) (D : Decomp b64) c ic (N : N) tol pts : adds_times E ->
    let p := cy_period c in
    (1 <= N < 2 ^ 32)%N -> finite p -> 3 / 10 ^ 14 * INR (N.to_nat N) <= value p ->
    (INR (N.to_nat N) + 10) * value p <= 179 ->
    integrates E D c ic N tol pts ->
    map pt_time pts = map (added n0 (n_div p (n_of_u32 N))) (seq 0 (S (N.to_nat N))).
  Proof.
    intros HE p HN Fp Hlo Hhi (xs & ys & Ha & Hp). specialize (HE (mkOdeArgs n0 (n_add p (n_lit 1 (-14))) (n_div p (n_of_u32 N))
      (cd_P ic, cd_T_c ic, cd_T_e ic) (ot_rel tol) (ot_abs tol))).
    apply (answered_end D c _ _ _ Ha) in HE. cbn [fst snd] in HE. destruct HE as (Pl & HL).
    set (M := N.to_nat N) in *. assert (EN : N = N.of_nat M) by (unfold M; rewrite N2Nat.id; reflexivity).
    assert (X : xs = map (added n0 (n_div p (n_of_u32 N))) (seq 0 (S M))).
    { assert (EZ : Z.of_N N = Z.of_nat M) by (rewrite EN, nat_N_Z; reflexivity).
      change (n_div p (n_of_u32 N)) with (Bdiv mode_NE p (b64_norm (Z.of_N N) 0)) in *. rewrite EZ in *.
      refine (placed_count n0 p M _ _ _ xs (proj1 zero_ok) (proj2 zero_ok) Fp _ _ Hlo Hhi Pl); [unfold M; lia|].
      rewrite <- EZ. lia. }
    rewrite <- X. destruct Hp as (HLp & Hn). rewrite HL, Nat.min_id in HLp.
    clear - HLp Hn. revert pts ys HLp Hn. induction xs as [|x xs IH]; intros [|q pts] ys HLp Hn; try discriminate HLp; [reflexivity|].
    destruct (Hn 0%nat q eq_refl) as (x' & y & Hx & Hy & ->). injection Hx as <-. destruct ys as [|y' ys]; [discriminate Hy|].
    cbn [map]. f_equal. apply (IH pts ys); [injection HLp as ->; reflexivity|].
    intros j r Hr. exact (Hn (S j) r Hr).
  Qed.

  Lemma over_1 (x : R) : x / 1 = x.
  Proof. field. Qed.
  Lemma rounded_self (x : b64) : rounded (B2R x) = B2R x.
  Proof. apply round_generic; [typeclasses eauto|]. exact (generic_format_B2R 53 1024 x). Qed.
  (** the integration that is tested for convergence ends exactly after one period *)
  Lemma two_points (E : Env b64) (D : Decomp b64) c ic tol pts : adds_times E ->
    finite (cy_period c) -> 3 / 10 ^ 14 <= value (cy_period c) <= 16 ->
    integrates E D c ic 1 tol pts ->
    exists first last, pts = [first; last] /\ pt_time first = n0 /\ finite (pt_time last) /\ value (pt_time last) = value (cy_period c).
  Proof.
    intros HE Fp Hp HI. pose proof (integrates_count E D c ic 1 tol pts HE) as K. cbv zeta in K.
    change (INR (N.to_nat 1)) with 1 in K. specialize (K ltac:(lia) Fp ltac:(lra) ltac:(lra) HI).
    change (S (N.to_nat 1)) with 2%nat in K. cbn [seq map] in K.
    destruct pts as [|p1 [|p2 [|p3 pts]]]; try discriminate K. cbn [map] in K.
    assert (K1 := f_equal (hd n0) K). assert (K2 := f_equal (fun l => hd n0 (tl l)) K). cbn [hd tl] in K1, K2.
    exists p1, p2. split; [reflexivity|]. split; [exact K1|]. rewrite K2.
    set (p := cy_period c) in *. unfold value in *.
    destruct (norm_nat 1 eq_refl) as (F1 & V1). unfold value in V1. change (INR 1) with 1 in V1.
    change (added n0 (n_div p (n_of_u32 1)) 1) with (Bplus mode_NE n0 (Bdiv mode_NE p (b64_norm (Z.of_nat 1) 0))).
    assert (NO : ~ overflows (B2R p)).
    { intros O. pose proof (finite_bound p Fp). unfold overflows in O. lra. }
    destruct (div_cases p (b64_norm (Z.of_nat 1) 0) Fp) as [(_ & F & V)|(O & _)]; [rewrite V1; lra| |].
    - rewrite V1, over_1, rounded_self in V. generalize dependent (Bdiv mode_NE p (b64_norm (Z.of_nat 1) 0)). intros b F V.
      destruct (plus_cases n0 b (proj1 zero_ok) F) as [(_ & F' & V')|(O & _)].
      + split; [exact F'|]. etransitivity; [exact V'|]. rewrite V. pose proof (proj2 zero_ok) as Z0. unfold value in Z0. rewrite Z0, Rplus_0_l. apply rounded_self.
      + exfalso. rewrite V in O. pose proof (proj2 zero_ok) as Z0. unfold value in Z0. rewrite Z0, Rplus_0_l, rounded_self in O. exact (NO O).
    - exfalso. rewrite V1, over_1, rounded_self in O. exact (NO O).
  Qed.

  Lemma ten_14 (p : R) (m : R) : 0 <= p -> (m + 10) * p <= 179 -> u * p * (0.502 * m + 1.504) <= / 10 ^ 14.
  Proof.
    intros P H. assert (K : p * (0.502 * m + 1.504) <= 90) by (assert (0.502 * ((m + 10) * p) <= 0.502 * 179) by lra; lra).
    pose proof u_pos. assert (u * (p * (0.502 * m + 1.504)) <= u * 90) by (apply Rmult_le_compat_l; lra).
    assert (u * 90 <= / 10 ^ 14) by (unfold unit_roundoff; lra). lra.
  Qed.

  Lemma run_points (E : Env b64) (D : Decomp b64) comps fl inputs settings (e : Engine b64) (freq : b64) :
    adds_times E -> Engine_run E D comps fl inputs settings = Ret (Ok e) ->
    ws_frequency (co_ws comps) (mkWsState (s_pres (en_state e))) = Ret freq ->
    let n := rs_resolution settings in let p := n_div n1 freq in
    (2 <= n < 2 ^ 32)%N -> finite p -> 3 / 10 ^ 14 * (INR (N.to_nat n) - 1) <= value p ->
    (INR (N.to_nat n) + 9) * value p <= 179 ->
    length (vs_time (en_values e)) = N.to_nat n /\ nth_error (vs_time (en_values e)) 0 = Some n0 /\
    forall k t, nth_error (vs_time (en_values e)) k = Some t ->
      finite t /\ Rabs (value t - INR k * (value p / (INR (N.to_nat n) - 1))) <= / 10 ^ 14.
  Proof.
    intros HE HR Hf n p Hn Fp Hlo Hhi.
    assert (HC : en_components e = comps).
    { apply Engine_run_Ok in HR as (s0 & j & k1 & k2 & vs & _ & _ & _ & _ & _ & _ & HC). exact HC. }
    apply run_steady in HR as (c & ic & pts2 & N & pts & vs & Hc & _ & _ & _ & HN & HI & HV & HS).
    rewrite HC in Hc. destruct Hc as (vols & freq' & par & Vk & Vr & Vl & _ & Hf' & _ & _ & _ & _ & Hper & _).
    rewrite Hf in Hf'. injection Hf' as <-. fold p in Hper.
    fold n in HN. destruct HN as [(_ & HN)|(HN & _)]; [|lia].
    set (M := N.to_nat N). assert (HM : INR (N.to_nat n) = INR M + 1).
    { unfold M. rewrite HN. replace (N.to_nat n) with (S (N.to_nat (n - 1))) by lia. apply S_INR. }
    rewrite HM in *.
    assert (Hlo' : 3 / 10 ^ 14 * INR M <= value p) by lra. assert (Hhi' : (INR M + 10) * value p <= 179) by lra.
    pose proof (integrates_count E D c ic N (rs_ode_tol settings) pts HE) as K. cbv zeta in K. rewrite Hper in K.
    specialize (K ltac:(lia) Fp Hlo' Hhi' HI). fold M in K.
    assert (T : vs_time (en_values e) = map pt_time pts).
    { destruct HS as (HS & _). clear - HV HS. revert HS. generalize (vs_time (en_values e)).
      induction HV as [|q v pts vs (Hq & _) HV IH]; intros l HS; inversion HS; subst; [reflexivity|].
      cbn [map]. rewrite Hq. f_equal. apply IH. assumption. }
    rewrite T, K. rewrite map_length, seq_length. split; [unfold M; lia|]. split; [reflexivity|].
    intros k t Hk. rewrite nth_error_map in Hk. destruct (nth_error (seq 0 (S M)) k) as [j|] eqn:Hj; [|discriminate Hk].
    assert (L : (k < S M)%nat) by (rewrite <- (seq_length (S M) 0); apply nth_error_Some; rewrite Hj; discriminate).
    assert (j = k) as ->.
    { rewrite (nth_error_nth' _ 0%nat) in Hj by (rewrite seq_length; exact L). rewrite seq_nth in Hj by exact L. injection Hj as <-. lia. }
    injection Hk as <-. replace (INR M + 1 - 1) with (INR M) by ring.
    assert (EZ : Z.of_N N = Z.of_nat M) by (unfold M; rewrite N_nat_Z; reflexivity).
    change (n_div p (n_of_u32 N)) with (Bdiv mode_NE p (b64_norm (Z.of_N N) 0)). rewrite EZ.
    destruct zero_ok as (Fz & Vz). assert (M1 : (1 <= M)%nat) by (unfold M; lia). assert (HM32 : (Z.of_nat M < 2 ^ 32)%Z) by (rewrite <- EZ; lia).
    pose proof (M_le M M1 HM32) as ML. assert (INR k <= INR M) by (apply le_INR; lia).
    split.
    - apply added_error; [exact Fz|exact Vz|exact (proj1 (step_near p M Fp M1 HM32 Hlo' Hhi'))|exact (step_ok p M Fp M1 HM32 Hlo' Hhi')|lra].
    - eapply Rle_trans; [exact (upto_last n0 p M Fz Vz Fp M1 HM32 Hlo' Hhi' k ltac:(lia))|].
      apply ten_14; [|exact Hhi']. pose proof (p_hi p M M1 Hlo' Hhi'). lra.
  Qed.
End Run.
