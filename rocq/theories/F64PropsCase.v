(** * A concrete case for the accuracy of the properties: hydrogen at 300 K and 1 MPa *)
From Coq Require Import ZArith NArith List Reals Bool Lra Lia.
From Flocq Require Import Core BinarySingleNaN.
From Verif Require Import Num ModelTypes B64 SpecF64 SpecRound SpecRange SpecProps F64Base F64Err F64Balance F64Norm F64Range F64Props.
Local Open Scope R_scope.

Definition warm : b64 := b64_lit 300 0.
Definition ten_bar : b64 := b64_lit 1000000 0.
Lemma warm_value : value warm = 300 /\ finite warm.
Proof.
  assert (E : B2SF warm = SpecFloat.S754_finite false 5277655813324800 (-44)) by (vm_compute; reflexivity).
  split; [|unfold finite; rewrite <- is_finite_SF_B2SF, E; reflexivity].
  unfold value. rewrite <- SF2R_B2SF, E. unfold SF2R, F2R. cbn. lra.
Qed.
Lemma ten_bar_value : value ten_bar = 1000000 /\ finite ten_bar.
Proof.
  assert (E : B2SF ten_bar = SpecFloat.S754_finite false 8589934592000000 (-33)) by (vm_compute; reflexivity).
  split; [|unfold finite; rewrite <- is_finite_SF_B2SF, E; reflexivity].
  unfold value. rewrite <- SF2R_B2SF, E. unfold SF2R, F2R. cbn. lra.
Qed.
Lemma warm_ordinary : ordinary_temp warm.
Proof. destruct warm_value as (V & F). split; [exact F|rewrite V; lra]. Qed.
Lemma ten_bar_ordinary : ordinary_pres ten_bar.
Proof.
  destruct ten_bar_value as (V & F). split; [exact F|]. rewrite V, Rabs_pos_eq by lra.
  change (bpow radix2 40) with (IZR (2 ^ 40)). change (2 ^ 40)%Z with 1099511627776%Z. lra.
Qed.

Lemma growth_16 (k : nat) : (k <= 16)%nat -> growth k <= 17 * u.
Proof.
  intros K. apply Rle_trans with (growth 16); [apply growth_le, K|]. unfold growth.
  assert (B : 0 < u <= / 1000000).
  { split; [exact u_pos|]. unfold unit_roundoff. apply Rinv_le_contravar; cbn; lra. }
  set (v := u) in *. clearbody v. assert (S : v * v <= v / 1000000) by nra.
  assert (P2 : 0 <= (1 + v) ^ 2 <= 1 + 2.00001 * v) by (split; [apply pow_le; lra|nra]).
  assert (P4 : 0 <= (1 + v) ^ 4 <= 1 + 4.001 * v).
  { split; [apply pow_le; lra|]. replace ((1 + v) ^ 4) with ((1 + v) ^ 2 * (1 + v) ^ 2) by ring.
    apply Rle_trans with ((1 + 2.00001 * v) * (1 + 2.00001 * v)); [apply Rmult_le_compat; lra|nra]. }
  assert (P8 : 0 <= (1 + v) ^ 8 <= 1 + 8.01 * v).
  { split; [apply pow_le; lra|]. replace ((1 + v) ^ 8) with ((1 + v) ^ 4 * (1 + v) ^ 4) by ring.
    apply Rle_trans with ((1 + 4.001 * v) * (1 + 4.001 * v)); [apply Rmult_le_compat; lra|nra]. }
  replace ((1 + v) ^ 16) with ((1 + v) ^ 8 * (1 + v) ^ 8) by ring.
  assert ((1 + v) ^ 8 * (1 + v) ^ 8 <= (1 + 8.01 * v) * (1 + 8.01 * v)) by (apply Rmult_le_compat; lra). nra.
Qed.
Lemma u_small : u <= 0.00000000000000012.
Proof. unfold unit_roundoff. apply (Rmult_le_reg_l (2 ^ 53)); [cbn; lra|]. rewrite Rinv_r by (cbn; lra). cbn. lra. Qed.
Lemma far_900 : / 2 ^ 900 <= 0.00000000001.
Proof.
  apply Rle_trans with (/ 2 ^ 40).
  - apply Rinv_le_contravar; [apply pow_lt; lra|apply Rle_pow; [lra|lia]].
  - apply (Rmult_le_reg_l (2 ^ 40)); [cbn; lra|]. rewrite Rinv_r by (cbn; lra). cbn. lra.
Qed.
Lemma near_bound (n : nat) (x : b64) (r m B e : R) : (n <= 16)%nat -> nearly n x r m -> 0 <= m <= B ->
  17 * 0.00000000000000012 * B + 0.00000000001 <= e -> Rabs (value x - r) <= e.
Proof.
  intros N H M L. unfold nearly in H. pose proof (growth_16 n N) as G. pose proof u_small. pose proof far_900. pose proof (growth_nonneg n).
  assert (growth n * m <= (17 * 0.00000000000000012) * B) by (apply Rmult_le_compat; lra). lra.
Qed.

Theorem warm_hydrogen (lm : Libm) (nt : bool) : let fl := IdealGas_Fluid (ops := b64_ops lm nt) (IdealGas_new (ops := b64_ops lm nt) Hydrogen) in
  ordinary_temp warm /\ ordinary_pres ten_bar /\
  Rabs (value (fl_cp fl warm ten_bar) - 14318.8524103134) <= 0.0000000001 /\
  Rabs (value (fl_enth fl warm ten_bar) - 684012.125061195) <= 0.00000001.
Proof.
  intros fl. split; [exact warm_ordinary|]. split; [exact ten_bar_ordinary|].
  destruct (accuracy lm nt Hydrogen warm ten_bar warm_ordinary ten_bar_ordinary) as (_ & H & _ & C & _).
  destruct warm_value as (V & _). rewrite V in H, C.
  assert (N2 : Rabs (- 0.0347782806) = 0.0347782806) by (rewrite Rabs_left; lra).
  assert (N4 : Rabs (- 0.0000000242883335) = 0.0000000242883335) by (rewrite Rabs_left; lra).
  assert (Q : Rabs 300 = 300) by (apply Rabs_pos_eq; lra).
  assert (D : Rabs (300 - 250) = 50) by (rewrite Rabs_pos_eq; lra).
  split.
  - replace 14318.8524103134 with (power_sum (cp_coef Hydrogen) 300) by (unfold power_sum, cp_coef; lra).
    refine (near_bound 11 _ _ _ 20973 _ _ C _ _); [lia| |lra].
    unfold power_size, power_sum, cp_coef. rewrite Q, N2, N4, !Rabs_pos_eq by lra. lra.
  - replace 684012.125061195 with ((300 - 250) * power_sum (mean_coef Hydrogen) 300)
      by (unfold power_sum, mean_coef, cp_coef; cbn; lra).
    refine (near_bound 14 _ _ _ 792282 _ _ H _ _); [lia| |lra].
    rewrite D. unfold power_size, power_sum, mean_coef, cp_coef. rewrite Q. unfold Rdiv. rewrite !Rabs_mult, N2, N4.
    rewrite !Rabs_pos_eq by (cbn; lra). cbn. lra.
Qed.
