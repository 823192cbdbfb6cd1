(** * Facts about f64 comparisons and operations *)
From Coq Require Import ZArith NArith List Reals Bool Lra Lia.
From Flocq Require Import Core BinarySingleNaN.
From Verif Require Import Num B64 SpecF64.
Local Open Scope R_scope.
Local Open Scope bool_scope.

Notation fexp64 := (SpecFloat.fexp 53 1024).
#[export] Instance fexp64_valid : Valid_exp fexp64 := fexp_correct 53 1024 eq_refl.

(** infinities as the first overflowing magnitude: an order embedding *)
Definition val (x : b64) : R :=
  match x with
  | B754_infinity true => - bpow radix2 1024
  | B754_infinity false => bpow radix2 1024
  | _ => B2R x
  end.

Lemma finite_bound (x : b64) : finite x -> Rabs (B2R x) < bpow radix2 1024.
Proof. intros _. exact (abs_B2R_lt_emax 53 1024 x). Qed.

Lemma finite_bounds (x : b64) : finite x -> - bpow radix2 1024 < B2R x < bpow radix2 1024.
Proof. intros H. pose proof (Rabs_def2 _ _ (finite_bound x H)) as [A B]. split; assumption. Qed.

Lemma bpow_pos_1024 : 0 < bpow radix2 1024.
Proof. apply bpow_gt_0. Qed.

Lemma Bltb_val (x y : b64) : is_nan x = false -> is_nan y = false ->
  Bltb x y = Rlt_bool (val x) (val y).
Proof.
  intros Nx Ny. symmetry.
  destruct x as [sx|[|]| |sx mx ex Hx] eqn:Ex; try discriminate Nx;
  destruct y as [sy|[|]| |sy my ey Hy] eqn:Ey; try discriminate Ny;
  try (match goal with |- _ = Bltb ?a ?b => rewrite (Bltb_correct 53 1024 a b eq_refl eq_refl) end;
       reflexivity);
  pose proof bpow_pos_1024;
  try (pose proof (finite_bounds x) as Bx; rewrite Ex in Bx; specialize (Bx eq_refl));
  try (pose proof (finite_bounds y) as By; rewrite Ey in By; specialize (By eq_refl));
  cbn [val] in *;
  match goal with |- _ = ?r => let v := eval cbn in r in change r with v end;
  first [ apply Rlt_bool_true; lra | apply Rlt_bool_false; lra ].
Qed.

Lemma Bleb_val (x y : b64) : is_nan x = false -> is_nan y = false ->
  Bleb x y = Rle_bool (val x) (val y).
Proof.
  intros Nx Ny. symmetry.
  destruct x as [sx|[|]| |sx mx ex Hx] eqn:Ex; try discriminate Nx;
  destruct y as [sy|[|]| |sy my ey Hy] eqn:Ey; try discriminate Ny;
  try (match goal with |- _ = Bleb ?a ?b => rewrite (Bleb_correct 53 1024 a b eq_refl eq_refl) end;
       reflexivity);
  pose proof bpow_pos_1024;
  try (pose proof (finite_bounds x) as Bx; rewrite Ex in Bx; specialize (Bx eq_refl));
  try (pose proof (finite_bounds y) as By; rewrite Ey in By; specialize (By eq_refl));
  cbn [val] in *;
  match goal with |- _ = ?r => let v := eval cbn in r in change r with v end;
  first [ apply Rle_bool_true; lra | apply Rle_bool_false; lra ].
Qed.

Lemma Bltb_nan (x y : b64) : Bltb x y = true -> is_nan x = false /\ is_nan y = false.
Proof.
  destruct x as [sx|[|]| |sx mx ex Hx], y as [sy|[|]| |sy my ey Hy]; intros H;
    try discriminate H; split; reflexivity.
Qed.
Lemma Bleb_nan (x y : b64) : Bleb x y = true -> is_nan x = false /\ is_nan y = false.
Proof.
  destruct x as [sx|[|]| |sx mx ex Hx], y as [sy|[|]| |sy my ey Hy]; intros H;
    try discriminate H; split; reflexivity.
Qed.

Lemma Bltb_iff (x y : b64) : Bltb x y = true <->
  is_nan x = false /\ is_nan y = false /\ val x < val y.
Proof.
  split.
  - intros H. destruct (Bltb_nan x y H) as [Nx Ny]. rewrite (Bltb_val x y Nx Ny) in H.
    split; [assumption|split; [assumption|]]. destruct (Rlt_bool_spec (val x) (val y)); [assumption|discriminate].
  - intros (Nx & Ny & H). rewrite (Bltb_val x y Nx Ny). apply Rlt_bool_true, H.
Qed.
Lemma Bleb_iff (x y : b64) : Bleb x y = true <->
  is_nan x = false /\ is_nan y = false /\ val x <= val y.
Proof.
  split.
  - intros H. destruct (Bleb_nan x y H) as [Nx Ny]. rewrite (Bleb_val x y Nx Ny) in H.
    split; [assumption|split; [assumption|]]. destruct (Rle_bool_spec (val x) (val y)); [assumption|discriminate].
  - intros (Nx & Ny & H). rewrite (Bleb_val x y Nx Ny). apply Rle_bool_true, H.
Qed.

Lemma Bltb_Bleb_trans (x y z : b64) : Bltb x y = true -> Bleb y z = true -> Bltb x z = true.
Proof.
  rewrite !Bltb_iff, Bleb_iff. intros (Nx & Ny & H) (_ & Nz & H').
  split; [assumption|split; [assumption|lra]].
Qed.

Lemma val_finite (x : b64) : finite x -> val x = B2R x.
Proof. destruct x as [sx|[|]| |sx mx ex Hx]; intros H; try discriminate H; reflexivity. Qed.

Lemma finite_not_nan (x : b64) : finite x -> is_nan x = false.
Proof. destruct x as [sx|[|]| |sx mx ex Hx]; intros H; try discriminate H; reflexivity. Qed.

(** a comparison with a threshold *)
Lemma Bltb_below (x t : b64) : finite x -> (Bltb x t = true <-> below (B2R x) t).
Proof.
  intros Fx. rewrite Bltb_iff, (val_finite x Fx).
  pose proof (finite_bounds x Fx) as B.
  pose proof (finite_not_nan x Fx).
  destruct t as [s|[|]| |s m e Ht]; cbn [below is_nan val]; (split; [intros (_ & N & L)|intros L]);
    try discriminate N; try lra; try tauto; repeat split; try assumption; try reflexivity; lra.
Qed.

Lemma Babs_inf_not_lt (s : bool) (t : b64) : Bltb (Babs (B754_infinity s)) t = false.
Proof. destruct t as [st|[|]| |st m e Ht]; reflexivity. Qed.

Lemma B2R_Babs64 (x : b64) : B2R (Babs x) = Rabs (B2R x).
Proof. exact (B2R_Babs 53 1024 x). Qed.
Lemma finite_Babs (x : b64) : finite (Babs x) <-> finite x.
Proof. unfold finite. rewrite (is_finite_Babs 53 1024 x). reflexivity. Qed.

Lemma Babs_lt_finite (x t : b64) : Bltb (Babs x) t = true -> finite x.
Proof.
  destruct x as [s|s| |s m e H]; intros L; try reflexivity.
  - rewrite Babs_inf_not_lt in L. discriminate.
  - destruct t as [st|[|]| |st m e Ht]; discriminate L.
Qed.

(** an infinite result has the encoding of an overflow *)
Lemma overflow_infinite (x : b64) (s : bool) :
  B2SF x = binary_overflow 53 1024 mode_NE s -> x = B754_infinity s.
Proof.
  intros H. destruct x as [sx|sx| |sx mx ex Hx]; cbn in H; try discriminate H.
  injection H as ->. reflexivity.
Qed.

(** ** Subtraction, division, addition of finite values *)
Lemma minus_cases (x y : b64) : finite x -> finite y ->
  (~ overflows (rounded (B2R x - B2R y)) /\ finite (Bminus mode_NE x y)
   /\ B2R (Bminus mode_NE x y) = rounded (B2R x - B2R y)) \/
  (overflows (rounded (B2R x - B2R y)) /\ exists s, Bminus mode_NE x y = B754_infinity s).
Proof.
  intros Fx Fy. pose proof (Bminus_correct 53 1024 _ _ mode_NE x y Fx Fy) as H.
  change (round radix2 fexp64 (round_mode mode_NE) (B2R x - B2R y)) with (rounded (B2R x - B2R y)) in H.
  unfold overflows.
  destruct (Rlt_bool_spec (Rabs (rounded (B2R x - B2R y))) (bpow radix2 1024)) as [L|L].
  - destruct H as (V & Fi & _). left. split; [lra|split; assumption].
  - destruct H as (V & _). right. split; [assumption|]. exists (Bsign x).
    apply overflow_infinite, V.
Qed.

Lemma plus_cases (x y : b64) : finite x -> finite y ->
  (~ overflows (rounded (B2R x + B2R y)) /\ finite (Bplus mode_NE x y)
   /\ B2R (Bplus mode_NE x y) = rounded (B2R x + B2R y)) \/
  (overflows (rounded (B2R x + B2R y)) /\ exists s, Bplus mode_NE x y = B754_infinity s).
Proof.
  intros Fx Fy. pose proof (Bplus_correct 53 1024 _ _ mode_NE x y Fx Fy) as H.
  change (round radix2 fexp64 (round_mode mode_NE) (B2R x + B2R y)) with (rounded (B2R x + B2R y)) in H.
  unfold overflows.
  destruct (Rlt_bool_spec (Rabs (rounded (B2R x + B2R y))) (bpow radix2 1024)) as [L|L].
  - destruct H as (V & Fi & _). left. split; [lra|split; assumption].
  - destruct H as (V & _). right. split; [assumption|]. exists (Bsign x).
    apply overflow_infinite, V.
Qed.

Lemma div_cases (x y : b64) : finite x -> B2R y <> 0 ->
  (~ overflows (rounded (B2R x / B2R y)) /\ finite (Bdiv mode_NE x y)
   /\ B2R (Bdiv mode_NE x y) = rounded (B2R x / B2R y)) \/
  (overflows (rounded (B2R x / B2R y)) /\ exists s, Bdiv mode_NE x y = B754_infinity s).
Proof.
  intros Fx Zy. pose proof (Bdiv_correct 53 1024 _ _ mode_NE x y Zy) as H.
  change (round radix2 fexp64 (round_mode mode_NE) (B2R x / B2R y)) with (rounded (B2R x / B2R y)) in H.
  unfold overflows.
  destruct (Rlt_bool_spec (Rabs (rounded (B2R x / B2R y))) (bpow radix2 1024)) as [L|L].
  - destruct H as (V & Fi & _). left. split; [lra|split; [|assumption]].
    unfold finite in *. rewrite Fi. assumption.
  - right. split; [assumption|]. exists (xorb (Bsign x) (Bsign y)). apply overflow_infinite, H.
Qed.

Lemma mult_cases (x y : b64) : finite x -> finite y ->
  (~ overflows (rounded (B2R x * B2R y)) /\ finite (Bmult mode_NE x y)
   /\ B2R (Bmult mode_NE x y) = rounded (B2R x * B2R y)) \/
  (overflows (rounded (B2R x * B2R y)) /\ exists s, Bmult mode_NE x y = B754_infinity s).
Proof.
  intros Fx Fy. pose proof (Bmult_correct 53 1024 _ _ mode_NE x y) as H.
  change (round radix2 fexp64 (round_mode mode_NE) (B2R x * B2R y)) with (rounded (B2R x * B2R y)) in H.
  unfold overflows.
  destruct (Rlt_bool_spec (Rabs (rounded (B2R x * B2R y))) (bpow radix2 1024)) as [L|L].
  - destruct H as (V & Fi & _). left. split; [lra|split; [|assumption]].
    unfold finite in *. rewrite Fi, Fx, Fy. reflexivity.
  - right. split; [assumption|]. exists (xorb (Bsign x) (Bsign y)). apply overflow_infinite, H.
Qed.

(** ** Rounding *)
Lemma rounded_le (x y : R) : x <= y -> rounded x <= rounded y.
Proof. intros H. apply round_le; [typeclasses eauto| apply valid_rnd_round_mode with (m := mode_NE)|exact H]. Qed.
Lemma rounded_id (x : b64) : rounded (B2R x) = B2R x.
Proof.
  apply round_generic; [apply valid_rnd_round_mode with (m := mode_NE)|].
  apply generic_format_B2R.
Qed.
Lemma rounded_0 : rounded 0 = 0.
Proof. apply round_0. apply valid_rnd_round_mode with (m := mode_NE). Qed.
Lemma rounded_opp (x : R) : rounded (- x) = - rounded x.
Proof. apply round_NE_opp. Qed.
Lemma rounded_abs (x : R) : rounded (Rabs x) = Rabs (rounded x).
Proof. apply round_NE_abs. typeclasses eauto. Qed.

(** a rounded value below a float is below it before rounding *)
Lemma rounded_below (x : R) (t : b64) : below (Rabs (rounded x)) t -> below (Rabs x) t.
Proof.
  assert (K : forall t : b64, Rabs (rounded x) < B2R t -> Rabs x < B2R t).
  { intros u H. destruct (Rlt_or_le (Rabs x) (B2R u)) as [L|L]; [exact L|].
    apply rounded_le in L. rewrite rounded_id, rounded_abs in L. lra. }
  destruct t as [s|[|]| |s m e Ht]; cbn [below]; intros H; try exact H.
  - exact (K (B754_zero s) H).
  - exact (K (B754_finite s m e Ht) H).
Qed.

(** Conversely, from a float upwards *)
Lemma rounded_ge (x : R) (t : b64) : B2R t <= x -> B2R t <= rounded x.
Proof. intros H. rewrite <- (rounded_id t). apply rounded_le, H. Qed.
Lemma rounded_le_float (x : R) (t : b64) : x <= B2R t -> rounded x <= B2R t.
Proof. intros H. rewrite <- (rounded_id t). apply rounded_le, H. Qed.
