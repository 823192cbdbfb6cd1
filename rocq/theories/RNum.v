(** * Exact arithmetic: the model over the real numbers *)
From Coq Require Import ZArith NArith Reals.
From Verif Require Import Num.
Local Open Scope R_scope.

(** a decimal literal as the rational number it denotes *)
Definition R_lit (m e : Z) : R :=
  match e with
  | Z0 => IZR m
  | Zpos p => IZR (m * Z.pow_pos 10 p)
  | Zneg p => IZR m / IZR (Z.pow_pos 10 p)
  end.

(** Real numbers are finite: [n_is_inf] is constantly false and [n_inf] has no
    meaning (it is given a dummy value; no theorem about the reals speaks about
    infinite resistances).  [sqrt] is 0 on negative numbers, [ln] is 0 on
    non-positive numbers and division by zero is an unspecified number in
    Coq's reals; the theorems carry the guards under which these do not occur. *)
#[global] Instance R_ops : NumOps R := {|
  n_lit := R_lit;
  n_of_u32 := fun n => IZR (Z.of_N n);
  n_add := Rplus; n_sub := Rminus; n_mul := Rmult; n_div := Rdiv; n_opp := Ropp;
  n_abs := Rabs; n_sqrt := R_sqrt.sqrt; n_exp := exp; n_ln := ln; n_cos := cos; n_sin := sin;
  n_pi := PI;
  n_inf := 0; n_is_inf := fun _ => false;
  n_lt := fun x y => if Rlt_dec x y then true else false;
  n_le := fun x y => if Rle_dec x y then true else false;
  n_total_le := fun x y => if Rle_dec x y then true else false |}.

Lemma R_n0 : (n0 : R) = 0. Proof. reflexivity. Qed.
Lemma R_n1 : (n1 : R) = 1. Proof. reflexivity. Qed.
Lemma R_n2 : (n2 : R) = 2. Proof. reflexivity. Qed.
Lemma R_nhalf : (nhalf : R) = / 2.
Proof.
  change (5 / 10 = / 2). unfold Rdiv. replace 10 with (5 * 2) by ring.
  rewrite Rinv_mult, <- Rmult_assoc, Rinv_r by (apply not_0_IZR; discriminate). ring.
Qed.
Lemma R_lt_iff (x y : R) : n_lt x y = true <-> x < y.
Proof. cbn. destruct (Rlt_dec x y); split; congruence || tauto. Qed.
Lemma R_le_iff (x y : R) : n_le x y = true <-> x <= y.
Proof. cbn. destruct (Rle_dec x y); split; congruence || tauto. Qed.
