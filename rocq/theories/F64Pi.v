(** * The f64 constant for pi *)
From Coq Require Import ZArith List Reals Machin Bool Lra Lia.
From Flocq Require Import Core BinarySingleNaN.
From Verif Require Import Num B64 SpecF64 SpecRound F64Base F64Err F64Balance.
Local Open Scope R_scope.

Lemma pi_bounds : 3.14159265358979315 <= PI <= 3.14159265358979333.
Proof.
  pose proof (PI_2_3_7_ineq 9) as (L & U).
  change (S (2 * 9)) with 19%nat in L. change (2 * 9)%nat with 18%nat in U.
  unfold tg_alt, PI_2_3_7_tg, Ratan_seq in L, U. cbn [sum_f_R0 Nat.mul Nat.add] in L, U.
  repeat rewrite INR_IZR_INZ in L. repeat rewrite INR_IZR_INZ in U. cbn [Z.of_nat Pos.of_succ_nat Pos.succ] in L, U.
  cbn [pow] in L, U. split; lra.
Qed.
Lemma pi_value : value b64_pi = IZR 7074237752028440 / IZR (2 ^ 51).
Proof.
  assert (E : B2SF b64_pi = SpecFloat.S754_finite false 7074237752028440 (-51)) by (vm_compute; reflexivity).
  unfold value. rewrite <- SF2R_B2SF, E. unfold SF2R, F2R. cbn. lra.
Qed.
Lemma pi_error : Rabs (value b64_pi - PI) <= u * PI.
Proof.
  rewrite pi_value. pose proof pi_bounds as B. change (2 ^ 51)%Z with 2251799813685248%Z.
  assert (U : 0.00000000000000011 <= u).
  { unfold unit_roundoff. apply (Rmult_le_reg_l (2 ^ 53)); [cbn; lra|]. rewrite Rinv_r by (cbn; lra). cbn. lra. }
  assert (0.00000000000000011 * 3 <= u * PI) by (apply Rmult_le_compat; lra).
  apply Rabs_le. lra.
Qed.
Lemma track_pi : tracks b64_pi PI PI 1 0.
Proof.
  pose proof pi_bounds. split; [|split; [rewrite Rabs_pos_eq; lra|lra]]. replace (growth 1) with u by (unfold growth; ring).
  pose proof pi_error. lra.
Qed.
