(** * The volumes of a rhombic drive survive rounding *)
From Coq Require Import ZArith NArith List Reals Bool Lra Lia.
From Flocq Require Import Core BinarySingleNaN.
From Verif Require Import Num ModelTypes ModelWs ModelHx ModelStateEq ModelEngine ModelApi B64 SpecF64 SpecRound SpecCrank
  F64Base F64Conv F64Err Fixture Demo F64Case F64Order.
Import ListNotations.
Local Open Scope R_scope.

(** ** Operations between bounds *)
Lemma bound_of (x lo hi : b64) (s : R) : finite lo -> finite hi -> B2R lo <= rounded s <= B2R hi -> ~ overflows (rounded s).
Proof.
  intros Fl Fh (A & B) O. unfold overflows in O.
  pose proof (finite_bound lo Fl) as L. pose proof (finite_bound hi Fh) as H.
  apply Rabs_def2 in L as (_ & L). apply Rabs_def2 in H as (H & _).
  assert (K : Rabs (rounded s) < bpow radix2 1024) by (apply Rabs_def1; lra). lra.
Qed.
Lemma plus_in (x y lo hi : b64) : finite x -> finite y -> finite lo -> finite hi ->
  B2R lo <= rounded (B2R x + B2R y) <= B2R hi ->
  finite (Bplus mode_NE x y) /\ B2R (Bplus mode_NE x y) = rounded (B2R x + B2R y).
Proof.
  intros Fx Fy Fl Fh H. destruct (plus_cases x y Fx Fy) as [(_ & F & V)|(O & _)]; [split; assumption|].
  elim (bound_of x lo hi _ Fl Fh H O).
Qed.
Lemma minus_in (x y lo hi : b64) : finite x -> finite y -> finite lo -> finite hi ->
  B2R lo <= rounded (B2R x - B2R y) <= B2R hi ->
  finite (Bminus mode_NE x y) /\ B2R (Bminus mode_NE x y) = rounded (B2R x - B2R y).
Proof.
  intros Fx Fy Fl Fh H. destruct (minus_cases x y Fx Fy) as [(_ & F & V)|(O & _)]; [split; assumption|].
  elim (bound_of x lo hi _ Fl Fh H O).
Qed.
Lemma mult_in (x y lo hi : b64) : finite x -> finite y -> finite lo -> finite hi ->
  B2R lo <= rounded (B2R x * B2R y) <= B2R hi ->
  finite (Bmult mode_NE x y) /\ B2R (Bmult mode_NE x y) = rounded (B2R x * B2R y).
Proof.
  intros Fx Fy Fl Fh H. destruct (mult_cases x y Fx Fy) as [(_ & F & V)|(O & _)]; [split; assumption|].
  elim (bound_of x lo hi _ Fl Fh H O).
Qed.
Lemma div_in (x y lo hi : b64) : finite x -> B2R y <> 0 -> finite lo -> finite hi ->
  B2R lo <= rounded (B2R x / B2R y) <= B2R hi ->
  finite (Bdiv mode_NE x y) /\ B2R (Bdiv mode_NE x y) = rounded (B2R x / B2R y).
Proof.
  intros Fx Fy Fl Fh H. destruct (div_cases x y Fx Fy) as [(_ & F & V)|(O & _)]; [split; assumption|].
  elim (bound_of x lo hi _ Fl Fh H O).
Qed.
Lemma zero_float : B2R (B754_zero false : b64) = 0 /\ finite (B754_zero false).
Proof. split; reflexivity. Qed.
Lemma opp_float (x : b64) : finite x -> finite (Bopp x) /\ B2R (Bopp x) = - B2R x.
Proof. intros F. split; [unfold finite; rewrite is_finite_Bopp; exact F|apply B2R_Bopp]. Qed.
Lemma plus_between (x y lx hx ly hy : b64) : finite x -> finite y ->
  finite (Bplus mode_NE lx ly) -> finite (Bplus mode_NE hx hy) ->
  B2R lx <= B2R x <= B2R hx -> B2R ly <= B2R y <= B2R hy ->
  finite (Bplus mode_NE x y) /\ B2R (Bplus mode_NE lx ly) <= B2R (Bplus mode_NE x y) <= B2R (Bplus mode_NE hx hy).
Proof.
  intros Fx Fy Fl Fh (A & B) (C & D). pose proof (plus_finite _ _ Fl) as (_ & _ & Vl). pose proof (plus_finite _ _ Fh) as (_ & _ & Vh).
  assert (K : B2R (Bplus mode_NE lx ly) <= rounded (B2R x + B2R y) <= B2R (Bplus mode_NE hx hy)).
  { rewrite Vl, Vh. split; apply rounded_le; lra. }
  destruct (plus_in x y _ _ Fx Fy Fl Fh K) as (F & V). split; [exact F|]. rewrite V. exact K.
Qed.
Lemma minus_between (x y lx hx ly hy : b64) : finite x -> finite y ->
  finite (Bminus mode_NE lx hy) -> finite (Bminus mode_NE hx ly) ->
  B2R lx <= B2R x <= B2R hx -> B2R ly <= B2R y <= B2R hy ->
  finite (Bminus mode_NE x y) /\ B2R (Bminus mode_NE lx hy) <= B2R (Bminus mode_NE x y) <= B2R (Bminus mode_NE hx ly).
Proof.
  intros Fx Fy Fl Fh (A & B) (C & D). pose proof (minus_finite _ _ Fl) as (_ & _ & Vl). pose proof (minus_finite _ _ Fh) as (_ & _ & Vh).
  assert (K : B2R (Bminus mode_NE lx hy) <= rounded (B2R x - B2R y) <= B2R (Bminus mode_NE hx ly)).
  { rewrite Vl, Vh. split; apply rounded_le; lra. }
  destruct (minus_in x y _ _ Fx Fy Fl Fh K) as (F & V). split; [exact F|]. rewrite V. exact K.
Qed.
Lemma scale_between (a x lx hx : b64) : finite x -> 0 <= B2R a ->
  finite (Bmult mode_NE a lx) -> finite (Bmult mode_NE a hx) ->
  B2R lx <= B2R x <= B2R hx ->
  finite (Bmult mode_NE a x) /\ B2R (Bmult mode_NE a lx) <= B2R (Bmult mode_NE a x) <= B2R (Bmult mode_NE a hx).
Proof.
  intros Fx P Fl Fh (A & B). pose proof (mult_finite _ _ Fl) as (Fa & _ & Vl). pose proof (mult_finite _ _ Fh) as (_ & _ & Vh).
  assert (K : B2R (Bmult mode_NE a lx) <= rounded (B2R a * B2R x) <= B2R (Bmult mode_NE a hx)).
  { rewrite Vl, Vh. split; apply rounded_le; apply Rmult_le_compat_l; assumption. }
  destruct (mult_in a x _ _ Fa Fx Fl Fh K) as (F & V). split; [exact F|]. rewrite V. exact K.
Qed.
Lemma square_up (x y : b64) : finite x -> finite (Bmult mode_NE y y) -> 0 <= B2R x <= B2R y ->
  finite (Bmult mode_NE x x) /\ 0 <= B2R (Bmult mode_NE x x) <= B2R (Bmult mode_NE y y).
Proof.
  intros Fx Fy (A & B). pose proof (mult_finite _ _ Fy) as (_ & _ & Vy). destruct zero_float as (Z & FZ).
  assert (K : B2R (B754_zero false : b64) <= rounded (B2R x * B2R x) <= B2R (Bmult mode_NE y y)).
  { rewrite Vy. split; [apply rounded_ge; rewrite Z; apply Rmult_le_pos; assumption|].
    apply rounded_le. apply Rmult_le_compat; assumption. }
  destruct (mult_in x x _ _ Fx Fx FZ Fy K) as (F & V). split; [exact F|]. rewrite V. exact K.
Qed.
Lemma sqrt_up (x : b64) : finite x -> 0 <= B2R x ->
  finite (Bsqrt mode_NE x) /\ B2R (Bsqrt mode_NE x) = rounded (sqrt (B2R x)).
Proof.
  intros F P. destruct (Bsqrt_correct 53 1024 _ _ mode_NE x) as (V & K & _). split; [|exact V].
  unfold finite. rewrite K. destruct x as [s|s| |[|] m ex Hx]; try reflexivity; try discriminate F.
  exfalso. revert P. cbn [B2R]. assert (N : F2R (Float radix2 (cond_Zopp true (Z.pos m)) ex) < 0) by (apply F2R_lt_0; reflexivity). lra.
Qed.
Lemma sqrt_order (x y : b64) : finite x -> finite y -> 0 <= B2R x <= B2R y ->
  finite (Bsqrt mode_NE x) /\ finite (Bsqrt mode_NE y) /\ 0 <= B2R (Bsqrt mode_NE x) <= B2R (Bsqrt mode_NE y).
Proof.
  intros Fx Fy (A & B). destruct (sqrt_up x Fx A) as (F1 & V1). destruct (sqrt_up y Fy ltac:(lra)) as (F2 & V2).
  split; [exact F1|]. split; [exact F2|]. rewrite V1, V2. split.
  - rewrite <- rounded_0. apply rounded_le, sqrt_pos.
  - apply rounded_le, sqrt_le_1_alt, B.
Qed.
Lemma swing (a c : b64) : finite a -> 0 <= B2R a -> finite c -> -1 <= B2R c <= 1 ->
  finite (Bmult mode_NE a c) /\ - B2R a <= B2R (Bmult mode_NE a c) <= B2R a.
Proof.
  intros Fa P Fc (A & B). destruct (opp_float a Fa) as (Fo & Vo).
  assert (K : B2R (Bopp a) <= rounded (B2R a * B2R c) <= B2R a).
  { split; [apply rounded_ge|apply rounded_le_float]; rewrite ?Vo.
    - assert (B2R a * -1 <= B2R a * B2R c) by (apply Rmult_le_compat_l; lra). lra.
    - assert (B2R a * B2R c <= B2R a * 1) by (apply Rmult_le_compat_l; lra). lra. }
  destruct (mult_in a c _ _ Fa Fc Fo Fa K) as (F & V). split; [exact F|]. rewrite V, <- Vo. exact K.
Qed.

(** ** Magnitudes *)
Lemma mult_mag (x y X Y : b64) : finite x -> finite y -> finite (Bmult mode_NE X Y) ->
  Rabs (B2R x) <= B2R X -> Rabs (B2R y) <= B2R Y ->
  finite (Bmult mode_NE x y) /\ Rabs (B2R (Bmult mode_NE x y)) <= B2R (Bmult mode_NE X Y).
Proof.
  intros Fx Fy FX A B. pose proof (mult_finite _ _ FX) as (_ & _ & VX). destruct (opp_float _ FX) as (Fo & Vo).
  assert (K : Rabs (rounded (B2R x * B2R y)) <= B2R (Bmult mode_NE X Y)).
  { rewrite VX, <- rounded_abs. apply rounded_le. rewrite Rabs_mult. apply Rmult_le_compat; try apply Rabs_pos; assumption. }
  assert (K' : B2R (Bopp (Bmult mode_NE X Y)) <= rounded (B2R x * B2R y) <= B2R (Bmult mode_NE X Y)).
  { rewrite Vo. revert K. unfold Rabs. destruct (Rcase_abs _); intros; lra. }
  destruct (mult_in x y _ _ Fx Fy Fo FX K') as (F & V). split; [exact F|]. rewrite V. exact K.
Qed.
Lemma div_mag (x y X Y : b64) : finite x -> 0 < B2R Y <= B2R y -> finite (Bdiv mode_NE X Y) ->
  Rabs (B2R x) <= B2R X ->
  finite (Bdiv mode_NE x y) /\ Rabs (B2R (Bdiv mode_NE x y)) <= B2R (Bdiv mode_NE X Y).
Proof.
  intros Fx (P & Q) FX A. pose proof (div_finite _ _ FX ltac:(lra)) as (_ & VX). destruct (opp_float _ FX) as (Fo & Vo).
  assert (K : Rabs (rounded (B2R x / B2R y)) <= B2R (Bdiv mode_NE X Y)).
  { rewrite VX, <- rounded_abs. apply rounded_le. unfold Rdiv. rewrite Rabs_mult, Rabs_inv.
    rewrite (Rabs_right (B2R y)) by lra. apply Rmult_le_compat; [apply Rabs_pos| |exact A|].
    - left. apply Rinv_0_lt_compat. lra.
    - apply Rinv_le_contravar; lra. }
  assert (K' : B2R (Bopp (Bdiv mode_NE X Y)) <= rounded (B2R x / B2R y) <= B2R (Bdiv mode_NE X Y)).
  { rewrite Vo. revert K. unfold Rabs. destruct (Rcase_abs _); intros; lra. }
  destruct (div_in x y _ _ Fx ltac:(lra) Fo FX K') as (F & V). split; [exact F|]. rewrite V. exact K.
Qed.
Lemma minus_mag (x y X Y : b64) : finite x -> finite y -> finite (Bplus mode_NE X Y) ->
  Rabs (B2R x) <= B2R X -> Rabs (B2R y) <= B2R Y ->
  finite (Bminus mode_NE x y) /\ Rabs (B2R (Bminus mode_NE x y)) <= B2R (Bplus mode_NE X Y).
Proof.
  intros Fx Fy FX A B. pose proof (plus_finite _ _ FX) as (_ & _ & VX). destruct (opp_float _ FX) as (Fo & Vo).
  assert (K : Rabs (rounded (B2R x - B2R y)) <= B2R (Bplus mode_NE X Y)).
  { rewrite VX, <- rounded_abs. apply rounded_le. revert A B. unfold Rabs. repeat destruct (Rcase_abs _); intros; lra. }
  assert (K' : B2R (Bopp (Bplus mode_NE X Y)) <= rounded (B2R x - B2R y) <= B2R (Bplus mode_NE X Y)).
  { rewrite Vo. revert K. unfold Rabs. destruct (Rcase_abs _); intros; lra. }
  destruct (minus_in x y _ _ Fx Fy Fo FX K') as (F & V). split; [exact F|]. rewrite V. exact K.
Qed.
Lemma mag_1 (c : b64) : -1 <= B2R c <= 1 -> Rabs (B2R c) <= 1.
Proof. intros. unfold Rabs. destruct (Rcase_abs _); lra. Qed.
Lemma swing_mag (x c X : b64) : finite x -> finite X -> Rabs (B2R x) <= B2R X -> finite c -> -1 <= B2R c <= 1 ->
  finite (Bmult mode_NE x c) /\ Rabs (B2R (Bmult mode_NE x c)) <= B2R X.
Proof.
  intros Fx FX A Fc B. destruct (opp_float _ FX) as (Fo & Vo). apply mag_1 in B.
  assert (K : Rabs (rounded (B2R x * B2R c)) <= B2R X).
  { rewrite <- rounded_abs. apply rounded_le_float. rewrite Rabs_mult.
    assert (Rabs (B2R x) * Rabs (B2R c) <= B2R X * 1); [|lra].
    apply Rmult_le_compat; try apply Rabs_pos; assumption. }
  assert (K' : B2R (Bopp X) <= rounded (B2R x * B2R c) <= B2R X).
  { rewrite Vo. revert K. unfold Rabs. destruct (Rcase_abs _); intros; lra. }
  destruct (mult_in x c _ _ Fx Fc Fo FX K') as (F & V). split; [exact F|]. rewrite V. exact K.
Qed.

Lemma lit_4 : B2R (b64_lit 4 0) = 4 /\ finite (b64_lit 4 0).
Proof.
  assert (E : B2SF (b64_lit 4 0) = SpecFloat.S754_finite false 4503599627370496 (-50)) by (vm_compute; reflexivity).
  split; [rewrite <- SF2R_B2SF, E; unfold SF2R, F2R; cbn; lra|]. unfold finite. rewrite <- is_finite_SF_B2SF, E. reflexivity.
Qed.
Lemma pi_float : 0 <= B2R b64_pi.
Proof.
  assert (E : B2SF b64_pi = SpecFloat.S754_finite false 7074237752028440 (-51)) by (vm_compute; reflexivity).
  rewrite <- SF2R_B2SF, E. unfold SF2R. apply F2R_ge_0. cbn. lia.
Qed.
Lemma rounded_pos (x : R) : 0 <= x -> 0 <= rounded x.
Proof. intros. rewrite <- rounded_0. apply rounded_le. assumption. Qed.

Section Crank.
  Context (lm : Libm) (nt : bool).
  #[local] Instance cops : NumOps b64 := b64_ops lm nt.

  Lemma disc_pos (D : b64) : finite (disc lm nt D) -> 0 <= B2R (disc lm nt D).
  Proof.
    unfold disc. cbn [n_mul n_div n_pi n_lit kops b64_ops]. intros F. destruct lit_4 as (E4 & F4).
    destruct (div_finite _ _ F ltac:(rewrite E4; lra)) as (F1 & V). rewrite V.
    destruct (mult_finite _ _ F1) as (_ & F2 & V1). destruct (mult_finite _ _ F2) as (_ & _ & V2).
    apply rounded_pos. rewrite E4. apply Rmult_le_pos; [|lra]. rewrite V1. apply rounded_pos.
    apply Rmult_le_pos; [exact pi_float|]. rewrite V2. apply rounded_pos. apply Rle_0_sqr.
  Qed.
  Lemma twice_disc_pos (D : b64) : finite (Bmult mode_NE (b64_lit 2 0) (disc lm nt D)) ->
    0 <= B2R (Bmult mode_NE (b64_lit 2 0) (disc lm nt D)).
  Proof.
    intros F. destruct (mult_finite _ _ F) as (_ & F1 & V). rewrite V. apply rounded_pos. destruct lit_2 as (E2 & _).
    rewrite E2. pose proof (disc_pos D F1). lra.
  Qed.

  Context (d : RhombicDrive b64) (c s : b64).
  Let e := rg_eccentricity (rd_geometry d).
  Let r := rg_r_crank (rd_geometry d).
  Let l := rg_L_conn (rd_geometry d).
  Hypothesis HC : finite c /\ -1 <= B2R c <= 1.
  Hypothesis HS : finite s /\ -1 <= B2R s <= 1.
  Hypothesis Fits : crank_fits lm nt d.
  Let arm := Bplus mode_NE e (Bmult mode_NE r c).
  Let b := height lm nt l arm.

  Lemma arm_between : finite arm /\ finite (Bminus mode_NE e r) /\ finite (Bplus mode_NE e r) /\
    0 <= B2R (Bminus mode_NE e r) <= B2R arm /\ B2R arm <= B2R (Bplus mode_NE e r) <= B2R l.
  Proof.
    destruct Fits as (Fe & Fr & Fl & FL & R0 & RE & ER). fold e in Fe, RE, ER. fold r in Fr, R0, RE, ER. fold l in Fl, ER.
    unfold value in *. destruct HC as (Fc & Bc). destruct zero_float as (Z & FZ).
    destruct (swing r c Fr R0 Fc Bc) as (Frc & Brc).
    assert (K1 : B2R (B754_zero false : b64) <= rounded (B2R e - B2R r) <= B2R e).
    { split; [apply rounded_ge; rewrite Z; lra|apply rounded_le_float; lra]. }
    destruct (minus_in e r _ _ Fe Fr FZ Fe K1) as (F1 & V1).
    assert (K2 : B2R (B754_zero false : b64) <= rounded (B2R e + B2R r) <= B2R l).
    { split; [apply rounded_ge; rewrite Z; lra|apply rounded_le_float; lra]. }
    destruct (plus_in e r _ _ Fe Fr FZ Fl K2) as (F2 & V2).
    assert (K3 : B2R (Bminus mode_NE e r) <= rounded (B2R e + B2R (Bmult mode_NE r c)) <= B2R (Bplus mode_NE e r)).
    { rewrite V1, V2. split; apply rounded_le; lra. }
    destruct (plus_in e _ _ _ Fe Frc F1 F2 K3) as (F3 & V3). fold arm in F3, V3. rewrite <- V3 in K3.
    split; [exact F3|]. split; [exact F1|]. split; [exact F2|]. rewrite Z in K1, K2. rewrite <- V1 in K1. rewrite <- V2 in K2. lra.
  Qed.
  Lemma squares : finite (Bmult mode_NE l l) /\ 0 <= B2R (Bmult mode_NE l l).
  Proof.
    destruct Fits as (Fe & Fr & Fl & FL & R0 & RE & ER). split; [exact FL|].
    destruct (mult_finite _ _ FL) as (_ & _ & V). fold l in V. change (B2R (Bmult mode_NE l l) = rounded (B2R l * B2R l)) in V.
    rewrite V. apply rounded_pos, Rle_0_sqr.
  Qed.
  (** a longer reach leaves less height *)
  Lemma height_order (x y : b64) : finite x -> finite y -> 0 <= B2R x <= B2R y -> B2R y <= B2R l ->
    finite (height lm nt l x) /\ finite (height lm nt l y) /\
    0 <= B2R (height lm nt l y) <= B2R (height lm nt l x).
  Proof.
    intros Fx Fy A B. destruct squares as (FL & PL). destruct zero_float as (Z & FZ).
    destruct (square_up y l Fy FL ltac:(lra)) as (F1 & B1). destruct (square_up x y Fx F1 A) as (F2 & B2).
    unfold height. cbn [n_mul n_sub n_sqrt kops b64_ops].
    assert (K1 : B2R (B754_zero false : b64) <= rounded (B2R (Bmult mode_NE l l) - B2R (Bmult mode_NE y y)) <= B2R (Bmult mode_NE l l)).
    { split; [apply rounded_ge; rewrite Z; lra|apply rounded_le_float; lra]. }
    destruct (minus_in _ _ _ _ FL F1 FZ FL K1) as (F3 & V3).
    assert (K2 : B2R (B754_zero false : b64) <= rounded (B2R (Bmult mode_NE l l) - B2R (Bmult mode_NE x x)) <= B2R (Bmult mode_NE l l)).
    { split; [apply rounded_ge; rewrite Z; lra|apply rounded_le_float; lra]. }
    destruct (minus_in _ _ _ _ FL F2 FZ FL K2) as (F4 & V4).
    destruct (sqrt_order _ _ F3 F4) as (G1 & G2 & G3).
    { rewrite V3, V4. split; [rewrite <- Z; apply K1|apply rounded_le; lra]. }
    split; [exact G2|]. split; [exact G1|]. exact G3.
  Qed.
  Lemma height_between : finite b /\ finite (inwards lm nt d) /\ finite (outwards lm nt d) /\
    0 <= B2R (outwards lm nt d) <= B2R b /\ B2R b <= B2R (inwards lm nt d).
  Proof.
    destruct arm_between as (F & F1 & F2 & (A & B) & (C & D)).
    destruct (height_order (Bminus mode_NE e r) arm F1 F ltac:(lra) ltac:(lra)) as (G1 & G2 & G3).
    destruct (height_order arm (Bplus mode_NE e r) F F2 ltac:(lra) ltac:(lra)) as (_ & G5 & G6).
    fold b in G2, G3, G6.
    change (inwards lm nt d) with (height lm nt l (Bminus mode_NE e r)).
    change (outwards lm nt d) with (height lm nt l (Bplus mode_NE e r)).
    repeat (split; [assumption|]). lra.
  Qed.
  Lemma comp_between : finite (comp_greatest lm nt d) ->
    let V := Bplus mode_NE (rd_V_clearance_c d)
      (Bmult mode_NE (Bmult mode_NE (b64_lit 2 0) (disc lm nt (rg_D_p (rd_geometry d)))) (Bminus mode_NE (inwards lm nt d) b)) in
    finite V /\ B2R (rd_V_clearance_c d) <= B2R V <= B2R (comp_greatest lm nt d).
  Proof.
    unfold comp_greatest. cbn [n_add n_mul n_sub n_lit kops b64_ops]. intros F.
    destruct height_between as (Fb & Fi & Fo & A & B). destruct zero_float as (Z & FZ).
    destruct (plus_finite _ _ F) as (Fv & Fm & V1). destruct (mult_finite _ _ Fm) as (Fa & Fs & V2).
    destruct (minus_finite _ _ Fs) as (_ & _ & V3). pose proof (twice_disc_pos _ Fa) as Pa.
    set (a := Bmult mode_NE (b64_lit 2 0) (disc lm nt (rg_D_p (rd_geometry d)))) in *.
    assert (K1 : B2R (B754_zero false : b64) <= rounded (B2R (inwards lm nt d) - B2R b) <= B2R (Bminus mode_NE (inwards lm nt d) (outwards lm nt d))).
    { split; [apply rounded_ge; rewrite Z; lra|rewrite V3; apply rounded_le; lra]. }
    destruct (minus_in _ _ _ _ Fi Fb FZ Fs K1) as (G1 & W1). rewrite <- W1 in K1.
    assert (K2 : B2R (B754_zero false : b64) <= rounded (B2R a * B2R (Bminus mode_NE (inwards lm nt d) b))
                 <= B2R (Bmult mode_NE a (Bminus mode_NE (inwards lm nt d) (outwards lm nt d)))).
    { rewrite Z in *. split; [apply rounded_pos, Rmult_le_pos; lra|rewrite V2; apply rounded_le, Rmult_le_compat_l; lra]. }
    destruct (mult_in _ _ _ _ Fa G1 FZ Fm K2) as (G2 & W2). rewrite <- W2 in K2. rewrite Z in K2.
    assert (K3 : B2R (rd_V_clearance_c d) <= rounded (B2R (rd_V_clearance_c d) + B2R (Bmult mode_NE a (Bminus mode_NE (inwards lm nt d) b)))
                 <= B2R (Bplus mode_NE (rd_V_clearance_c d) (Bmult mode_NE a (Bminus mode_NE (inwards lm nt d) (outwards lm nt d))))).
    { split; [apply rounded_ge; lra|rewrite V1; apply rounded_le; lra]. }
    destruct (plus_in _ _ _ _ Fv G2 Fv F K3) as (G3 & W3). cbn zeta. split; [exact G3|]. rewrite W3. exact K3.
  Qed.
  Lemma exp_between : finite (exp_least lm nt d) -> finite (exp_greatest lm nt d) ->
    let V := Bplus mode_NE (rd_V_clearance_e d) (Bmult mode_NE (disc lm nt (rg_D_d (rd_geometry d)))
      (Bminus mode_NE (Bminus mode_NE b (offset lm nt d)) (Bmult mode_NE r s))) in
    finite V /\ B2R (exp_least lm nt d) <= B2R V <= B2R (exp_greatest lm nt d).
  Proof.
    unfold exp_least, exp_greatest. cbn [n_add n_mul n_sub n_lit kops b64_ops]. fold r. intros F G.
    destruct height_between as (Fb & Fi & Fo & A & B).
    destruct Fits as (_ & Fr & _ & _ & R0 & _). fold r in Fr, R0. destruct HS as (Fs & Bs).
    destruct (swing r s Fr R0 Fs Bs) as (Frs & Brs).
    destruct (plus_finite _ _ F) as (Fv & Fm & V1). destruct (mult_finite _ _ Fm) as (Fa & Fd & V2).
    destruct (minus_finite _ _ Fd) as (Fd' & _ & V3). destruct (minus_finite _ _ Fd') as (_ & Fof & V4).
    destruct (plus_finite _ _ G) as (_ & Gm & U1). destruct (mult_finite _ _ Gm) as (_ & Gd & U2).
    destruct (plus_finite _ _ Gd) as (Gd' & _ & U3). destruct (minus_finite _ _ Gd') as (_ & _ & U4).
    pose proof (disc_pos _ Fa) as Pa. set (a := disc lm nt (rg_D_d (rd_geometry d))) in *.
    set (o := offset lm nt d) in *.
    destruct (minus_between b o _ _ o o Fb Fof Fd' Gd' (conj (proj2 A) B) ltac:(lra)) as (H1 & H2).
    assert (K : B2R (Bminus mode_NE (Bminus mode_NE (outwards lm nt d) o) r)
                <= rounded (B2R (Bminus mode_NE b o) - B2R (Bmult mode_NE r s))
                <= B2R (Bplus mode_NE (Bminus mode_NE (inwards lm nt d) o) r)).
    { rewrite V3, U3. split; apply rounded_le; lra. }
    destruct (minus_in _ _ _ _ H1 Frs Fd Gd K) as (H3 & W3). rewrite <- W3 in K.
    destruct (scale_between a _ _ _ H3 Pa Fm Gm K) as (H4 & W4).
    exact (plus_between _ _ _ _ _ _ Fv H4 F G (conj (Rle_refl _) (Rle_refl _)) W4).
  Qed.

  (** ** Derivatives *)
  Let a2 := Bmult mode_NE (b64_lit 2 0) (disc lm nt (rg_D_p (rd_geometry d))).
  Lemma comp_rate (m2 : b64) : finite m2 -> Rabs (B2R m2) = 2 ->
    0 < B2R (outwards lm nt d) -> finite (comp_slope lm nt d) ->
    let D := Bdiv mode_NE (Bmult mode_NE (Bmult mode_NE (Bmult mode_NE (Bmult mode_NE m2 (disc lm nt (rg_D_p (rd_geometry d)))) r) s) arm) b in
    finite D /\ Rabs (B2R D) <= B2R (comp_slope lm nt d).
  Proof.
    intros F2 E2 P. unfold comp_slope. cbn [n_add n_mul n_sub n_div n_lit kops b64_ops]. fold r e. intros F.
    destruct height_between as (Fb & Fi & Fo & A & B). destruct arm_between as (Fm & _ & Fer & A1 & A2).
    destruct (div_finite _ _ F ltac:(lra)) as (F3 & _). destruct (mult_finite _ _ F3) as (F4 & _ & _).
    destruct (mult_finite _ _ F4) as (F5 & Fr & V4). destruct (mult_finite _ _ F5) as (_ & Fa & V5).
    pose proof (disc_pos _ Fa) as Pa. set (a := disc lm nt (rg_D_p (rd_geometry d))) in *.
    destruct lit_2 as (L2 & _). destruct HS as (Fs & Bs).
    destruct Fits as (_ & _ & _ & _ & R0 & _). fold r in R0. unfold value in R0.
    destruct (mult_mag m2 a (b64_lit 2 0) a F2 Fa F5) as (G1 & H1).
    { rewrite E2, L2. lra. } { rewrite Rabs_right; lra. }
    destruct (mult_mag _ r _ r G1 Fr F4 H1) as (G2 & H2). { rewrite Rabs_right; lra. }
    destruct (swing_mag _ s _ G2 F4 H2 Fs Bs) as (G3 & H3).
    destruct (mult_mag _ arm _ _ G3 Fm F3 H3) as (G4 & H4). { rewrite Rabs_right; [|lra]. apply A2. }
    exact (div_mag _ b _ _ G4 (conj P (proj2 A)) F H4).
  Qed.
  Lemma exp_rate (D : b64) : finite D -> Rabs (B2R D) <= B2R (comp_slope lm nt d) ->
    0 < B2R a2 -> finite (exp_slope lm nt d) ->
    let a := disc lm nt (rg_D_d (rd_geometry d)) in
    let D' := Bminus mode_NE (Bopp (Bdiv mode_NE (Bmult mode_NE D a) a2)) (Bmult mode_NE (Bmult mode_NE a r) c) in
    finite D' /\ Rabs (B2R D') <= B2R (exp_slope lm nt d).
  Proof.
    intros FD HD P. unfold exp_slope. cbn [n_add n_mul n_sub n_div n_lit kops b64_ops]. fold r a2. intros F.
    set (a := disc lm nt (rg_D_d (rd_geometry d))) in *.
    destruct (plus_finite _ _ F) as (F1 & F2 & _). destruct (div_finite _ _ F1 ltac:(lra)) as (F3 & _).
    destruct (mult_finite _ _ F3) as (_ & Fa & _). destruct (mult_finite _ _ F2) as (_ & Fr & V2).
    pose proof (disc_pos _ Fa) as Pa. fold a in Pa.
    destruct Fits as (_ & _ & _ & _ & R0 & _). fold r in R0. unfold value in R0. destruct HC as (Fc & Bc).
    destruct (mult_mag D a _ a FD Fa F3 HD) as (G1 & H1). { rewrite Rabs_right; lra. }
    destruct (div_mag _ a2 _ a2 G1 (conj P (Rle_refl _)) F1 H1) as (G2 & H2).
    destruct (opp_float _ G2) as (G3 & W3).
    destruct (swing_mag _ c _ F2 F2 ltac:(rewrite Rabs_right; [lra|rewrite V2; apply Rle_ge, rounded_pos, Rmult_le_pos; assumption]) Fc Bc) as (G4 & H4).
    apply (minus_mag _ _ _ _ G3 G4 F); [|exact H4]. rewrite W3, Rabs_Ropp. exact H2.
  Qed.
  Lemma per_second (D X w : b64) : finite D -> Rabs (B2R D) <= B2R X -> finite w -> finite (Bmult mode_NE X (Babs w)) ->
    finite (Bmult mode_NE D w) /\ Rabs (B2R (Bmult mode_NE D w)) <= B2R (Bmult mode_NE X (Babs w)).
  Proof. intros FD H Fw F. apply mult_mag; try assumption. rewrite B2R_Babs. lra. Qed.
End Crank.

(** ** The drive *)
Local Opaque Bplus Bminus Bmult Bdiv Bsqrt Bopp Babs b64_lit b64_pi.
Section Drive.
  Context (lm : Libm) (nt : bool) (d : RhombicDrive b64) (time : b64).
  #[local] Instance dops : NumOps b64 := b64_ops lm nt.
  Hypothesis HC : cosine_bounded lm.
  Hypothesis HS : sine_bounded lm.
  Hypothesis Ft : finite (n_mul (turn_rate lm nt d) time).
  Hypothesis Fits : crank_fits lm nt d.
  Let V := rh_volumes d time.

  Theorem rh_bounds_f64 : finite (comp_greatest lm nt d) -> finite (exp_least lm nt d) -> finite (exp_greatest lm nt d) ->
    (finite (v_value (fst V)) /\ value (rd_V_clearance_c d) <= value (v_value (fst V)) <= value (comp_greatest lm nt d)) /\
    (finite (v_value (snd V)) /\ value (exp_least lm nt d) <= value (v_value (snd V)) <= value (exp_greatest lm nt d)).
  Proof.
    intros F1 F2 F3. split.
    - exact (comp_between lm nt d _ (HC _ Ft) Fits F1).
    - exact (exp_between lm nt d _ _ (HC _ Ft) (HS _ Ft) Fits F2 F3).
  Qed.
  Theorem rh_rates_f64 : 0 < value (outwards lm nt d) -> 0 < value (n_mul (n_lit 2 0) (disc lm nt (rg_D_p (rd_geometry d)))) ->
    finite (n_mul (comp_slope lm nt d) (n_abs (turn_rate lm nt d))) ->
    finite (n_mul (exp_slope lm nt d) (n_abs (turn_rate lm nt d))) ->
    (finite (v_deriv (fst V)) /\
     Rabs (value (v_deriv (fst V))) <= value (n_mul (comp_slope lm nt d) (n_abs (turn_rate lm nt d)))) /\
    (finite (v_deriv (snd V)) /\
     Rabs (value (v_deriv (snd V))) <= value (n_mul (exp_slope lm nt d) (n_abs (turn_rate lm nt d)))).
  Proof.
    intros P1 P2 F1 F2. destruct (mult_finite _ _ F1) as (F3 & _). destruct (mult_finite _ _ F2) as (F4 & _).
    destruct (mult_finite _ _ Ft) as (Fw & _ & _). destruct lit_2 as (E2 & L2). destruct (opp_float _ L2) as (FO & VO).
    destruct (comp_rate lm nt d _ _ (HC _ Ft) (HS _ Ft) Fits (Bopp (b64_lit 2 0)) FO
      ltac:(rewrite VO, E2, Rabs_Ropp, Rabs_right; lra) P1 F3) as (G1 & H1).
    destruct (exp_rate lm nt d _ (HC _ Ft) Fits _ G1 H1 P2 F4) as (G2 & H2).
    split.
    - exact (per_second _ _ _ G1 H1 Fw F1).
    - exact (per_second _ _ _ G2 H2 Fw F2).
  Qed.
End Drive.

(** ** A rod too short *)
Lemma minus_nan_left (y : b64) : Bminus mode_NE B754_nan y = B754_nan.
Proof. reflexivity. Qed.
Lemma minus_nan_right (x : b64) : Bminus mode_NE x B754_nan = B754_nan.
Proof. destruct x; reflexivity. Qed.
Lemma plus_nan_right (x : b64) : Bplus mode_NE x B754_nan = B754_nan.
Proof. destruct x; reflexivity. Qed.
Lemma mult_nan_left (x : b64) : Bmult mode_NE B754_nan x = B754_nan.
Proof. reflexivity. Qed.
Lemma mult_nan_right (x : b64) : Bmult mode_NE x B754_nan = B754_nan.
Proof. destruct x; reflexivity. Qed.
Lemma div_nan_right (x : b64) : Bdiv mode_NE x B754_nan = B754_nan.
Proof. destruct x; reflexivity. Qed.
Lemma div_nan_left (x : b64) : Bdiv mode_NE B754_nan x = B754_nan.
Proof. reflexivity. Qed.
Lemma opp_nan : Bopp (B754_nan : b64) = B754_nan. Proof. reflexivity. Qed.
Lemma sqrt_negative (x : b64) : B2R x < 0 -> Bsqrt mode_NE x = B754_nan.
Proof.
  intros H. destruct x as [s|s| |[|] m ex Hx]; try (cbn [B2R] in H; lra); try reflexivity.
  exfalso. revert H. cbn [B2R]. assert (N : 0 < F2R (Float radix2 (cond_Zopp false (Z.pos m)) ex)) by (apply F2R_gt_0; reflexivity). lra.
Qed.
Section Short.
  Context (lm : Libm) (nt : bool) (d : RhombicDrive b64) (time : b64).
  #[local] Instance sops : NumOps b64 := b64_ops lm nt.
  Theorem rh_short :
    let l := rg_L_conn (rd_geometry d) in
    let x := n_add (rg_eccentricity (rd_geometry d))
               (n_mul (rg_r_crank (rd_geometry d)) (n_cos (n_mul (turn_rate lm nt d) time))) in
    value (n_sub (n_mul l l) (n_mul x x)) < 0 ->
    let V := rh_volumes d time in
    v_value (fst V) = B754_nan /\ v_deriv (fst V) = B754_nan /\ v_value (snd V) = B754_nan /\ v_deriv (snd V) = B754_nan.
  Proof.
    intros l x H V. subst V. pose proof (sqrt_negative _ H) as N. unfold rh_volumes, powi2.
    change (n_mul (n_mul n2 n_pi) (rd_frequency d)) with (turn_rate lm nt d).
    change (n_sqrt (n_sub (n_mul (rg_L_conn (rd_geometry d)) (rg_L_conn (rd_geometry d)))
      (n_mul (n_add (rg_eccentricity (rd_geometry d)) (n_mul (rg_r_crank (rd_geometry d)) (n_cos (n_mul (turn_rate lm nt d) time))))
             (n_add (rg_eccentricity (rd_geometry d)) (n_mul (rg_r_crank (rd_geometry d)) (n_cos (n_mul (turn_rate lm nt d) time)))))))
      with (Bsqrt mode_NE (n_sub (n_mul l l) (n_mul x x))).
    rewrite N. cbn [fst snd v_value v_deriv n_add n_sub n_mul n_div n_opp sops b64_ops].
    repeat first [rewrite div_nan_right | rewrite div_nan_left | rewrite minus_nan_left | rewrite minus_nan_right
      | rewrite mult_nan_left | rewrite mult_nan_right | rewrite plus_nan_right | rewrite opp_nan].
    repeat split; reflexivity.
  Qed.
End Short.
