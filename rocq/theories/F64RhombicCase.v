(** * Rhombic drives over f64: the default one, and one with too short a rod *)
From Coq Require Import ZArith NArith List Reals Bool Lra Lia.
From Flocq Require Import Core BinarySingleNaN.
From Verif Require Import Num ModelTypes ModelWs ModelHx ModelStateEq ModelEngine ModelApi B64 SpecF64 SpecRound SpecCrank
  F64Base F64Conv F64Err Fixture Demo F64Case F64Order F64Rhombic.
Import ListNotations.
Local Open Scope R_scope.
Local Open Scope bool_scope.

Definition turn_libm : Libm :=
  mkLibm (lm_exp demo_libm) (lm_ln demo_libm) (fun x => kept (lm_cos demo_libm x)) (fun x => kept (lm_sin demo_libm x)).
Lemma kept_one (c : b64) : finite (kept c) /\ -1 <= value (kept c) <= 1.
Proof.
  unfold kept. destruct lit_1 as (E1 & F1). destruct lit_m1 as (Em & Fm).
  destruct (is_finite c && Bleb (b64_lit (-1) 0) c && Bleb c (b64_lit 1 0)) eqn:K.
  - apply andb_true_iff in K as (K & U). apply andb_true_iff in K as (F & L).
    apply Bleb_iff in L as (_ & _ & L). apply Bleb_iff in U as (_ & _ & U).
    rewrite (val_finite c F) in L, U. rewrite (val_finite _ Fm) in L. rewrite (val_finite _ F1) in U.
    unfold value. rewrite Em in L. rewrite E1 in U. split; [exact F|split; assumption].
  - unfold value. rewrite E1. split; [exact F1|lra].
Qed.
Definition turn_drive : RhombicDrive b64 := RhombicDrive_from (ops:=b64_ops turn_libm true) (RhConfig_default (ops:=b64_ops turn_libm true)).
Definition one_ms : b64 := b64_lit 1 (-3).
Definition crank_ok (d : RhombicDrive b64) : bool :=
  let e := rg_eccentricity (rd_geometry d) in let r := rg_r_crank (rd_geometry d) in let l := rg_L_conn (rd_geometry d) in
  let m := Bminus mode_NE l r in
  is_finite e && is_finite r && is_finite l && is_finite (Bmult mode_NE l l) && nonneg r && Bleb r e && is_finite m && Bltb e m.
Lemma ltb_val (x y : b64) : finite x -> finite y -> Bltb x y = true -> B2R x < B2R y.
Proof. intros Fx Fy H. rewrite Bltb_correct in H by assumption. revert H. case Rlt_bool_spec; [auto|discriminate]. Qed.
Lemma leb_val (x y : b64) : finite x -> finite y -> Bleb x y = true -> B2R x <= B2R y.
Proof. intros Fx Fy H. rewrite Bleb_correct in H by assumption. revert H. case Rle_bool_spec; [auto|discriminate]. Qed.
Lemma ltb_pos (x : b64) : finite x -> Bltb (B754_zero false) x = true -> 0 < B2R x.
Proof. intros F H. apply (ltb_val (B754_zero false) x eq_refl F) in H. exact H. Qed.
Lemma crank_sound (d : RhombicDrive b64) : crank_ok d = true -> crank_fits turn_libm true d.
Proof.
  unfold crank_ok, crank_fits. cbn zeta.
  set (e := rg_eccentricity (rd_geometry d)). set (r := rg_r_crank (rd_geometry d)). set (l := rg_L_conn (rd_geometry d)).
  intros H. rewrite !andb_true_iff in H. destruct H as (((((((Fe & Fr) & Fl) & FL) & N) & RE) & Fm) & EM).
  split; [exact Fe|]. split; [exact Fr|]. split; [exact Fl|]. split; [exact FL|].
  destruct (nonneg_sound _ N) as (_ & P). split; [exact P|]. split; [exact (leb_val _ _ Fr Fe RE)|].
  unfold value in *. pose proof (leb_val _ _ Fr Fe RE) as RE'.
  destruct (minus_finite _ _ Fm) as (_ & _ & V). apply (ltb_val _ _ Fe Fm) in EM. rewrite V in EM.
  destruct (Rle_or_lt (B2R e + B2R r) (B2R l)) as [L|L]; [exact L|exfalso].
  assert (rounded (B2R l - B2R r) <= B2R e) by (apply rounded_le_float; lra). lra.
Qed.
Lemma positive_finite (x : b64) : is_finite x && Bltb (B754_zero false) x = true -> 0 < value x.
Proof. intros H. apply andb_true_iff in H as (F & H). exact (ltb_pos x F H). Qed.
Lemma crank_case :
  cosine_bounded turn_libm /\ sine_bounded turn_libm /\
  finite (n_mul (turn_rate turn_libm true turn_drive) one_ms (NumOps:=b64_ops turn_libm true)) /\
  crank_fits turn_libm true turn_drive /\
  finite (comp_greatest turn_libm true turn_drive) /\ finite (exp_least turn_libm true turn_drive) /\ finite (exp_greatest turn_libm true turn_drive) /\
  0 < value (outwards turn_libm true turn_drive).
Proof.
  split; [intros x _; apply kept_one|]. split; [intros x _; apply kept_one|].
  split; [vm_cast_no_check (eq_refl true)|]. split; [apply crank_sound; vm_cast_no_check (eq_refl true)|].
  split; [vm_cast_no_check (eq_refl true)|]. split; [vm_cast_no_check (eq_refl true)|]. split; [vm_cast_no_check (eq_refl true)|].
  apply positive_finite. vm_cast_no_check (eq_refl true).
Qed.
Lemma rates_case :
  let ops := b64_ops turn_libm true in
  0 < value (n_mul (n_lit 2 0) (disc turn_libm true (rg_D_p (rd_geometry turn_drive)))) /\
  finite (n_mul (comp_slope turn_libm true turn_drive) (n_abs (turn_rate turn_libm true turn_drive))) /\
  finite (n_mul (exp_slope turn_libm true turn_drive) (n_abs (turn_rate turn_libm true turn_drive))).
Proof.
  cbn zeta. split; [apply positive_finite; vm_cast_no_check (eq_refl true)|].
  split; vm_cast_no_check (eq_refl true).
Qed.
(** the default drive with a rod of 30 mm: 20.65 mm + 13.97 mm is longer *)
Definition short_drive : RhombicDrive b64 :=
  let g := rd_geometry turn_drive in
  {| rd_geometry := {| rg_eccentricity := rg_eccentricity g; rg_r_crank := rg_r_crank g;
                       rg_D_p := rg_D_p g; rg_D_d := rg_D_d g; rg_L_conn := b64_lit 3 (-2) |};
     rd_frequency := rd_frequency turn_drive; rd_parasitics := rd_parasitics turn_drive;
     rd_R_comp := rd_R_comp turn_drive; rd_R_exp := rd_R_exp turn_drive;
     rd_V_clearance_c := rd_V_clearance_c turn_drive; rd_V_clearance_e := rd_V_clearance_e turn_drive |}.
Lemma below_zero (x : b64) : is_finite x && Bltb x (B754_zero false) = true -> value x < 0.
Proof. intros H. apply andb_true_iff in H as (F & H). apply (ltb_val x (B754_zero false) F eq_refl) in H. exact H. Qed.
Lemma short_case :
  let ops := b64_ops turn_libm true in
  let l := rg_L_conn (rd_geometry short_drive) in
  let x := n_add (rg_eccentricity (rd_geometry short_drive))
             (n_mul (rg_r_crank (rd_geometry short_drive)) (n_cos (n_mul (turn_rate turn_libm true short_drive) (b64_lit 0 0)))) in
  value (n_sub (n_mul l l) (n_mul x x)) < 0.
Proof. cbn zeta. apply below_zero. vm_cast_no_check (eq_refl true). Qed.
