(** * In f64 the properties of the ideal gases are right up to rounding *)
From Coq Require Import ZArith NArith List Reals Bool Lra Lia.
From Flocq Require Import Core BinarySingleNaN.
From Verif Require Import Num ModelTypes ModelWs ModelHx ModelStateEq ModelEngine B64 Spec SpecF64 SpecRound SpecBalance
  SpecRange SpecProps F64Base F64Err F64Balance F64Norm F64Range.
Import ListNotations.
Local Open Scope R_scope.
Local Open Scope bool_scope.

(** ** Literals *)
Definition lit_check (n : nat) (x : b64) (m q : Z) : bool :=
  match x with
  | B754_zero _ => (m =? 0)%Z
  | B754_finite s mx ex _ =>
      (ex <=? 0)%Z && (0 <? q)%Z &&
      (Z.abs ((if s then - Zpos mx else Zpos mx) * q - m * 2 ^ (- ex)) * 2 ^ 53 <=? Z.of_nat n * (Z.abs m * 2 ^ (- ex)))%Z
  | _ => false
  end.
Lemma growth_lin (n : nat) : INR n * u <= growth n.
Proof.
  induction n as [|n IH]; [unfold growth; cbn; lra|]. rewrite S_INR, growth_S.
  pose proof (growth_nonneg n). pose proof u_pos.
  assert (0 <= growth n * u) by (apply Rmult_le_pos; lra). lra.
Qed.
Lemma lit_sound (n : nat) (x : b64) (m q : Z) : lit_check n x m q = true ->
  tracks x (IZR m / IZR q) (Rabs (IZR m / IZR q)) n 0.
Proof.
  destruct x as [s|s| |s mx ex H]; cbn [lit_check]; intros C; try discriminate C;
    (split; [|split; [apply Rle_refl|apply Rle_refl]]).
  - apply Z.eqb_eq in C. subst m. unfold value. cbn [B2R]. unfold Rdiv. rewrite Rmult_0_l, Rminus_0_r, Rabs_R0, Rmult_0_r, Rmult_0_l. lra.
  - apply andb_prop in C. destruct C as (C & C3). apply andb_prop in C. destruct C as (C1 & C2).
    apply Z.leb_le in C1, C3. apply Z.ltb_lt in C2. apply IZR_lt in C2.
    apply IZR_le in C3. rewrite !mult_IZR, !abs_IZR, minus_IZR, !mult_IZR in C3.
    rewrite <- INR_IZR_INZ in C3.
    rewrite (IZR_Zpower radix2) in C3 by lia. change (IZR (2 ^ 53)) with (IZR (radix2 ^ 53)) in C3.
    rewrite (IZR_Zpower radix2) in C3 by lia.
    unfold value. cbn [B2R]. unfold F2R. cbn [Fnum Fexp].
    replace (IZR (cond_Zopp s (Zpos mx))) with (IZR (if s then - Zpos mx else Zpos mx)) by (destruct s; reflexivity).
    set (M := IZR (if s then _ else _)) in *.
    assert (B : bpow radix2 ex * bpow radix2 (- ex) = 1) by (rewrite <- bpow_plus, Z.add_opp_diag_r; reflexivity).
    set (b := bpow radix2 ex) in *. set (w := bpow radix2 (- ex)) in *. assert (Pw : 0 < w) by apply bpow_gt_0.
    assert (U : bpow radix2 53 * u = 1).
    { unfold unit_roundoff. replace (bpow radix2 53) with (2 ^ 53) by (rewrite <- (IZR_Zpower radix2) by lia; cbn; lra).
      apply Rinv_r. apply pow_nonzero. lra. }
    set (v := bpow radix2 53) in *. assert (Pv : 0 < v) by apply bpow_gt_0.
    pose proof (growth_lin n) as G. rewrite Rmult_0_l, Rplus_0_r.
    eapply Rle_trans; [|apply Rmult_le_compat_r; [apply Rabs_pos|exact G]].
    replace (M * b - IZR m / IZR q) with ((M * IZR q - IZR m * w) * (b / IZR q)).
    2: { replace (IZR m / IZR q) with (IZR m * (b * w) / IZR q) by (rewrite B; field; lra). field. lra. }
    rewrite Rabs_mult.
    assert (Pb : 0 < b) by apply bpow_gt_0. assert (Q : 0 < b / IZR q) by (apply Rdiv_lt_0_compat; assumption).
    rewrite (Rabs_pos_eq (b / IZR q)) by lra. unfold Rdiv at 2. rewrite Rabs_mult, (Rabs_pos_eq (/ IZR q)) by (left; apply Rinv_0_lt_compat, C2).
    apply (Rmult_le_reg_l v); [exact Pv|].
    replace (v * (Rabs (M * IZR q - IZR m * w) * (b / IZR q))) with (Rabs (M * IZR q - IZR m * w) * v * (b / IZR q)) by ring.
    replace (v * (INR n * u * (Rabs (IZR m) * / IZR q))) with (v * u * (INR n * (Rabs (IZR m) * (b * w) * / IZR q))) by (rewrite B; ring).
    rewrite U. replace (1 * (INR n * (Rabs (IZR m) * (b * w) * / IZR q))) with (INR n * (Rabs (IZR m) * w) * (b / IZR q)) by (unfold Rdiv; ring).
    apply Rmult_le_compat_r; lra.
Qed.

(** ** Products and quotients of computed numbers *)
Lemma product_error (v w r m t r' m' : R) (k k' : nat) : Rabs (v - r) <= growth k * m + t * tiny -> Rabs r <= m ->
  Rabs (w - r') <= growth k' * m' + 0 * tiny -> Rabs r' <= m' ->
  Rabs (v * w - r * r') <= growth (k + k') * (m * m') + t * (m' * (1 + u) ^ k') * tiny.
Proof.
  intros H Hr H' Hr'. rewrite Rmult_0_l, Rplus_0_r in H'.
  replace (v * w - r * r') with ((v - r) * (w - r') + (v - r) * r' + r * (w - r')) by ring.
  eapply Rle_trans; [apply Rabs_triang|]. eapply Rle_trans; [apply Rplus_le_compat_r, Rabs_triang|]. rewrite !Rabs_mult.
  assert (A1 : Rabs (v - r) * Rabs (w - r') <= (growth k * m + t * tiny) * (growth k' * m')) by (apply Rmult_le_compat; auto using Rabs_pos).
  assert (A2 : Rabs (v - r) * Rabs r' <= (growth k * m + t * tiny) * m') by (apply Rmult_le_compat; auto using Rabs_pos).
  assert (A3 : Rabs r * Rabs (w - r') <= m * (growth k' * m')) by (apply Rmult_le_compat; auto using Rabs_pos).
  eapply Rle_trans; [apply Rplus_le_compat; [apply Rplus_le_compat|]; eassumption|]. apply Req_le.
  unfold growth. rewrite pow_add. ring.
Qed.
Lemma tracks_mul2 (x y : b64) r m k t r' m' k' : finite (Bmult mode_NE x y) -> (finite x -> tracks x r m k t) -> (finite y -> tracks y r' m' k' 0) ->
  tracks (Bmult mode_NE x y) (r * r') (m * m') (S (k + k')) (2 * (t * (m' * (1 + u) ^ k')) + 1).
Proof.
  intros F Hx Hy. destruct (mult_finite _ _ F) as (Fx & Fy & V). pose proof (tracks_m _ _ _ _ _ (Hx Fx)) as M. pose proof (tracks_m _ _ _ _ _ (Hy Fy)) as M'.
  destruct (Hx Fx) as (H & Hr & Ht). destruct (Hy Fy) as (H' & Hr' & _).
  destruct (rounded_ex (B2R x * B2R y)) as (e & h & He & Hh & E). rewrite E in V.
  pose proof tiny_pos as T. pose proof (one_u_pow k') as G'. pose proof (growth_nonneg k) as Gk. pose proof (growth_nonneg k') as Gk'.
  assert (W : 0 <= t * (m' * (1 + u) ^ k')) by (apply Rmult_le_pos; [exact Ht|apply Rmult_le_pos; lra]).
  assert (K : Rabs (B2R x * B2R y - r * r') <= growth (k + k') * (m * m') + t * (m' * (1 + u) ^ k') * tiny).
  { exact (product_error _ _ _ _ _ _ _ _ _ H Hr H' Hr'). }
  split; [|split].
  - change (value (Bmult mode_NE x y)) with (B2R (Bmult mode_NE x y)). rewrite V.
    unshelve epose proof (step _ _ _ e _ _ K _ W He) as S; [rewrite Rabs_mult; apply Rmult_le_compat; auto using Rabs_pos|].
    replace (B2R x * B2R y * (1 + e) + h - r * r') with ((B2R x * B2R y * (1 + e) - r * r') + h) by ring.
    eapply Rle_trans; [apply Rabs_triang|]. lra.
  - rewrite Rabs_mult. apply Rmult_le_compat; auto using Rabs_pos.
  - lra.
Qed.
Lemma tracks_mul2_l (x y : b64) r m k t r' m' k' : finite (Bmult mode_NE y x) -> (finite x -> tracks x r m k t) -> (finite y -> tracks y r' m' k' 0) ->
  tracks (Bmult mode_NE y x) (r' * r) (m' * m) (S (k + k')) (2 * (t * (m' * (1 + u) ^ k')) + 1).
Proof.
  intros F Hx Hy. destruct (mult_finite _ _ F) as (Fy & Fx & V). pose proof (tracks_m _ _ _ _ _ (Hx Fx)) as M. pose proof (tracks_m _ _ _ _ _ (Hy Fy)) as M'.
  destruct (Hx Fx) as (H & Hr & Ht). destruct (Hy Fy) as (H' & Hr' & _).
  rewrite (Rmult_comm (B2R y)) in V. rewrite (Rmult_comm r'), (Rmult_comm m' m).
  destruct (rounded_ex (B2R x * B2R y)) as (e & h & He & Hh & E). rewrite E in V.
  pose proof tiny_pos as T. pose proof (one_u_pow k') as G'. pose proof (growth_nonneg k) as Gk. pose proof (growth_nonneg k') as Gk'.
  assert (W : 0 <= t * (m' * (1 + u) ^ k')) by (apply Rmult_le_pos; [exact Ht|apply Rmult_le_pos; lra]).
  assert (K : Rabs (B2R x * B2R y - r * r') <= growth (k + k') * (m * m') + t * (m' * (1 + u) ^ k') * tiny).
  { exact (product_error _ _ _ _ _ _ _ _ _ H Hr H' Hr'). }
  split; [|split].
  - change (value (Bmult mode_NE y x)) with (B2R (Bmult mode_NE y x)). rewrite V.
    unshelve epose proof (step _ _ _ e _ _ K _ W He) as S; [rewrite Rabs_mult; apply Rmult_le_compat; auto using Rabs_pos|].
    replace (B2R x * B2R y * (1 + e) + h - r * r') with ((B2R x * B2R y * (1 + e) - r * r') + h) by ring.
    eapply Rle_trans; [apply Rabs_triang|]. lra.
  - rewrite Rabs_mult. apply Rmult_le_compat; auto using Rabs_pos.
  - lra.
Qed.

(** the difference of two floats is rounded once *)
Lemma tracks_diff (x y : b64) : finite (Bminus mode_NE x y) ->
  tracks (Bminus mode_NE x y) (value x - value y) (Rabs (value x - value y)) 1 0.
Proof.
  intros F. destruct (minus_finite _ _ F) as (Fx & Fy & V).
  destruct (rounded_plus_ex x (Bopp y)) as (e & He & E). rewrite B2R_Bopp in E.
  replace (B2R x + - B2R y) with (B2R x - B2R y) in E by ring. rewrite E in V.
  split; [|split; apply Rle_refl].
  change (value (Bminus mode_NE x y)) with (B2R (Bminus mode_NE x y)). rewrite V. unfold value.
  replace ((B2R x - B2R y) * (1 + e) - (B2R x - B2R y)) with ((B2R x - B2R y) * e) by ring.
  rewrite Rabs_mult. replace (growth 1) with u by (unfold growth; ring). pose proof (Rabs_pos (B2R x - B2R y)).
  assert (Rabs (B2R x - B2R y) * Rabs e <= Rabs (B2R x - B2R y) * u) by (apply Rmult_le_compat_l; lra). lra.
Qed.

(** ** Division by a computed number *)
Lemma small_growth (k : nat) : (k <= 8)%nat -> growth k <= / 2 ^ 40.
Proof.
  intros K. apply Rle_trans with (growth 8); [apply growth_le, K|]. unfold growth, unit_roundoff.
  assert (E : / 2 ^ 40 = 8192 * / 2 ^ 53) by (field; split; apply pow_nonzero; lra || lra).
  rewrite E. assert (B : 0 < / 2 ^ 53 <= / 8) .
  { split; [apply Rinv_0_lt_compat, pow_lt; lra|]. apply Rinv_le_contravar; [lra|]. cbn. lra. }
  set (v := / 2 ^ 53) in *. clearbody v.
  assert (v * v <= v) by nra. assert (Q : (1 + v) ^ 2 <= 1 + 3 * v) by nra.
  assert (Q4 : (1 + v) ^ 4 <= 1 + 15 * v) by (replace ((1 + v) ^ 4) with ((1 + v) ^ 2 * (1 + v) ^ 2) by ring; assert (0 <= (1 + v) ^ 2) by (apply pow_le; lra); nra).
  replace ((1 + v) ^ 8) with ((1 + v) ^ 4 * (1 + v) ^ 4) by ring. assert (0 <= (1 + v) ^ 4) by (apply pow_le; lra). nra.
Qed.
Lemma inverse_error (y r g : R) : 0 < r -> Rabs (y - r) <= g * r -> 0 <= g <= / 2 -> 0 < y /\ Rabs (/ y - / r) <= (g + 2 * (g * g)) * / r.
Proof.
  intros P H G. assert (B : - (g * r) <= y - r <= g * r) by (apply Rabs_le_inv, H).
  assert (Py : (1 - g) * r <= y) by lra. assert (0 < (1 - g) * r) by (apply Rmult_lt_0_compat; lra). assert (Q : 0 < y) by lra.
  split; [exact Q|].
  replace (/ y - / r) with (- (y - r) * (/ y * / r)) by (field; lra).
  rewrite Rabs_mult, Rabs_Ropp. pose proof (Rinv_0_lt_compat _ P) as Ir. pose proof (Rinv_0_lt_compat _ Q) as Iy.
  rewrite (Rabs_pos_eq (/ y * / r)) by (apply Rmult_le_pos; lra).
  rewrite <- Rmult_assoc. apply Rmult_le_compat_r; [lra|].
  apply (Rmult_le_reg_r y); [exact Q|]. rewrite Rmult_assoc, Rinv_l, Rmult_1_r by lra.
  eapply Rle_trans; [exact H|]. apply Rle_trans with ((g + 2 * (g * g)) * ((1 - g) * r)).
  - replace ((g + 2 * (g * g)) * ((1 - g) * r)) with (g * r + (g * g) * (1 - 2 * g) * r) by ring.
    assert (0 <= g * g * (1 - 2 * g) * r) by (repeat apply Rmult_le_pos; lra). lra.
  - apply Rmult_le_compat_l; [|exact Py]. assert (0 <= g * g) by (apply Rmult_le_pos; lra). lra.
Qed.
Lemma tiny_u (t : R) : 0 <= t <= 2 ^ 40 -> t * tiny <= u.
Proof.
  intros H. pose proof tiny_pos as T. apply Rle_trans with (2 ^ 40 * tiny); [apply Rmult_le_compat_r; lra|].
  unfold tiny, unit_roundoff. replace 1075%nat with (40 + (53 + 982))%nat by reflexivity. rewrite !pow_add.
  assert (A : 1 <= 2 ^ 982) by (apply pow_R1_Rle; lra). assert (B : 0 < 2 ^ 40) by (apply pow_lt; lra).
  assert (C : 0 < 2 ^ 53) by (apply pow_lt; lra).
  rewrite !Rinv_mult. rewrite <- Rmult_assoc, Rinv_r, Rmult_1_l by lra.
  pose proof (Rinv_0_lt_compat _ C). assert (/ 2 ^ 982 <= 1) by (rewrite <- Rinv_1; apply Rinv_le_contravar; lra).
  assert (/ 2 ^ 53 * / 2 ^ 982 <= / 2 ^ 53 * 1) by (apply Rmult_le_compat_l; lra). lra.
Qed.
Lemma tracks_quot (x y : b64) (r : R) (k : nat) (t : R) : finite (Bdiv mode_NE x y) -> 1 <= r -> (k <= 7)%nat -> t <= 2 ^ 40 ->
  tracks y r r k t -> tracks (Bdiv mode_NE x y) (value x / r) (Rabs (value x) / r) (S (S (S k))) 1.
Proof.
  intros F Hr Hk Ht (H & _ & H0).
  assert (G : growth k * r + t * tiny <= growth (S k) * r).
  { rewrite growth_S. pose proof (tiny_u t (conj H0 Ht)). pose proof u_pos. pose proof (growth_nonneg k).
    assert (0 <= growth k * u) by (apply Rmult_le_pos; lra). nra. }
  assert (S8 : growth (S k) <= / 2 ^ 40) by (apply small_growth; lia).
  pose proof (growth_nonneg (S k)) as G0.
  assert (Half : / 2 ^ 40 <= / 2) by (apply Rinv_le_contravar; [lra|cbn; lra]).
  destruct (inverse_error (value y) r (growth (S k)) ltac:(lra) ltac:(lra) ltac:(lra)) as (Py & I).
  assert (Sq : 2 * (growth (S k) * growth (S k)) <= u).
  { apply Rle_trans with (2 * (/ 2 ^ 40 * / 2 ^ 40)).
    - apply Rmult_le_compat_l; [lra|]. apply Rmult_le_compat; lra.
    - unfold unit_roundoff. rewrite <- Rinv_mult. replace 2 with (/ / 2) at 1 by lra. rewrite <- Rinv_mult.
      apply Rinv_le_contravar; [apply pow_lt; lra|cbn; lra]. }
  destruct (div_finite _ _ F (Rgt_not_eq _ _ Py)) as (Fx & V).
  destruct (rounded_ex (B2R x / B2R y)) as (e & h & He & Hh & E). rewrite E in V.
  assert (Ir : 0 < / r) by (apply Rinv_0_lt_compat; lra).
  assert (R' : Rabs (value x / r) <= Rabs (value x) / r).
  { unfold Rdiv. rewrite Rabs_mult, (Rabs_pos_eq (/ r)) by lra. lra. }
  split; [|split; [exact R'|lra]].
  change (value (Bdiv mode_NE x y)) with (B2R (Bdiv mode_NE x y)). rewrite V.
  assert (K : Rabs (value x / value y - value x / r) <= growth (S (S k)) * (Rabs (value x) / r) + 0 * tiny).
  { replace (value x / value y - value x / r) with (value x * (/ value y - / r)) by (unfold Rdiv; ring).
    rewrite Rabs_mult. rewrite (growth_S (S k)). unfold Rdiv. pose proof (Rabs_pos (value x)) as Ax.
    assert (I2 : Rabs (/ value y - / r) <= (growth (S k) * (1 + u) + u) * / r).
    { eapply Rle_trans; [exact I|]. apply Rmult_le_compat_r; [lra|]. pose proof u_pos.
      assert (0 <= growth (S k) * u) by (apply Rmult_le_pos; lra). lra. }
    assert (Rabs (value x) * Rabs (/ value y - / r) <= Rabs (value x) * ((growth (S k) * (1 + u) + u) * / r)) by (apply Rmult_le_compat_l; assumption).
    lra. }
  pose proof (step _ _ _ e _ _ K R' (Rle_refl 0) He) as S. unfold value in *.
  replace (B2R x / B2R y * (1 + e) + h - B2R x / r) with ((B2R x / B2R y * (1 + e) - B2R x / r) + h) by ring.
  eapply Rle_trans; [apply Rabs_triang|]. pose proof tiny_pos. lra.
Qed.

(** ** Polynomials *)
Lemma slack_step (t tc x B : R) : 0 <= t <= B -> 1 <= B -> tc <= 1 -> 0 <= x <= 16384 -> 2 * (2 * t * x + 1 + tc) <= 2 ^ 17 * B.
Proof.
  intros Ht HB Hc Hx. assert (t * x <= B * 16384) by (apply Rmult_le_compat; lra). replace (2 ^ 17) with 131072 by (cbn; lra). lra.
Qed.
Lemma tracks_level (x y c : b64) r m k t rc mc B : finite (Bplus mode_NE (Bmult mode_NE x y) c) -> Rabs (value y) <= 16384 ->
  t <= B -> 1 <= B ->
  (finite x -> tracks x r m k t) -> (finite c -> tracks c rc mc (S k) 1) ->
  tracks (Bplus mode_NE (Bmult mode_NE x y) c) (r * value y + rc) (m * Rabs (value y) + mc) (S (S k)) (2 ^ 17 * B).
Proof.
  intros F Y TB B1 Hx Hc. destruct (plus_finite _ _ F) as (F1 & Fc & _). destruct (mult_finite _ _ F1) as (Fx & _).
  assert (T0 : 0 <= t) by apply (Hx Fx).
  eapply tracks_weaken; [apply tracks_add; [exact F|intros _; apply (tracks_mul _ _ _ _ _ _ F1 Hx)|exact Hc]|apply le_n|].
  pose proof (Rabs_pos (value y)). apply slack_step; lra.
Qed.

Local Opaque Bplus Bminus Bmult Bdiv Bopp.
Section Poly.
  Variables (lm : Libm) (nan_top : bool).
  Local Instance ops : NumOps b64 := b64_ops lm nan_top.

  Lemma tracks_poly (a : arr6 b64) (x : b64) (f m : nat -> R) (k : nat) : finite (poly a x) -> Rabs (value x) <= 16384 ->
    tracks (a6_0 a) (f 0%nat) (m 0%nat) k 1 -> tracks (a6_1 a) (f 1%nat) (m 1%nat) k 1 -> tracks (a6_2 a) (f 2%nat) (m 2%nat) k 1 ->
    tracks (a6_3 a) (f 3%nat) (m 3%nat) k 1 -> tracks (a6_4 a) (f 4%nat) (m 4%nat) k 1 -> tracks (a6_5 a) (f 5%nat) (m 5%nat) k 1 ->
    tracks (poly a x) (power_sum f (value x)) (power_sum m (Rabs (value x))) (10 + k) (2 ^ 85).
  Proof.
    intros F X H0 H1 H2 H3 H4 H5.
    assert (W : forall y r m' j, (k <= j)%nat -> tracks y r m' k 1 -> (finite y -> tracks y r m' j 1)).
    { intros y r m' j J H _. exact (tracks_weaken _ _ _ _ _ _ _ H J (Rle_refl 1)). }
    assert (P : forall n, 1 <= 2 ^ n) by (intros n; apply pow_R1_Rle; lra).
    assert (E : 2 ^ 85 = 2 ^ 17 * (2 ^ 17 * (2 ^ 17 * (2 ^ 17 * (2 ^ 17 * 1))))) by ring.
    assert (B : forall b, 1 <= b -> 1 <= 2 ^ 17 * b) by (intros b Hb; pose proof (P 17%nat); assert (1 * 1 <= 2 ^ 17 * b) by (apply Rmult_le_compat; lra); lra).
    rewrite E.
    replace (power_sum f (value x)) with (((((f 5%nat * value x + f 4%nat) * value x + f 3%nat) * value x + f 2%nat) * value x + f 1%nat) * value x + f 0%nat)
      by (unfold power_sum; ring).
    replace (power_sum m (Rabs (value x))) with (((((m 5%nat * Rabs (value x) + m 4%nat) * Rabs (value x) + m 3%nat) * Rabs (value x) + m 2%nat) * Rabs (value x) + m 1%nat) * Rabs (value x) + m 0%nat)
      by (unfold power_sum; ring).
    change (10 + k)%nat with (S (S (8 + k))).
    eapply tracks_level; [exact F|exact X|apply Rle_refl|repeat apply B; lra|intros F1|apply W; [lia|exact H0]].
    change (8 + k)%nat with (S (S (6 + k))).
    eapply tracks_level; [exact F1|exact X|apply Rle_refl|repeat apply B; lra|intros F2|apply W; [lia|exact H1]].
    change (6 + k)%nat with (S (S (4 + k))).
    eapply tracks_level; [exact F2|exact X|apply Rle_refl|repeat apply B; lra|intros F3|apply W; [lia|exact H2]].
    change (4 + k)%nat with (S (S (2 + k))).
    eapply tracks_level; [exact F3|exact X|apply Rle_refl|repeat apply B; lra|intros F4|apply W; [lia|exact H3]].
    change (2 + k)%nat with (S (S k)).
    eapply tracks_level; [exact F4|exact X|apply Rle_refl|lra|intros _; exact H5|apply W; [lia|exact H4]].
  Qed.

  (** ** The tables *)
  Lemma table (n : nat) (x : b64) (m q : Z) (r : R) : lit_check n x m q = true -> r = IZR m / IZR q -> tracks x r (Rabs r) n 0.
  Proof. intros H ->. exact (lit_sound n x m q H). Qed.
  Lemma table_R (g : GasName) : tracks (ig_gas_constant (IdealGas_new g)) (const_of g) (const_of g) 1 0.
  Proof.
    replace (const_of g) with (Rabs (const_of g)) at 2 by (apply Rabs_pos_eq; destruct g; cbn [const_of]; lra).
    destruct g; [apply table with 207723%Z 100%Z|apply table with 41242%Z 10%Z];
      [vm_cast_no_check (eq_refl true)|cbn [const_of]; lra|vm_cast_no_check (eq_refl true)|cbn [const_of]; lra].
  Qed.
  Lemma table_ref (g : GasName) : value (ig_ref_temp (IdealGas_new g)) = 250.
  Proof. destruct g; exact (proj1 lit_250). Qed.
  Ltac entry m q := eapply tracks_weaken; [apply (table _ _ m q); [vm_cast_no_check (eq_refl true)|cbn [mean_coef cp_coef]; unfold mean_coef, cp_coef; cbn; lra]|apply le_n|lra].
  Lemma table_cp (g : GasName) : let a := ig_cp_coefs (IdealGas_new g) in
    let ok x i := tracks x (cp_coef g i) (Rabs (cp_coef g i)) 1 1 in
    ok (a6_0 a) 0%nat /\ ok (a6_1 a) 1%nat /\ ok (a6_2 a) 2%nat /\ ok (a6_3 a) 3%nat /\ ok (a6_4 a) 4%nat /\ ok (a6_5 a) 5%nat.
  Proof.
    cbv zeta. destruct g.
    - split; [entry 519317%Z 100%Z|]. do 4 (split; [entry 0%Z 1%Z|]). entry 0%Z 1%Z.
    - split; [entry 124714839%Z 10000%Z|]. split; [entry 133194432%Z 10000000%Z|]. split; [entry (-347782806)%Z 10000000000%Z|].
      split; [entry 431784838%Z 10000000000000%Z|]. split; [entry (-242883335)%Z 10000000000000000%Z|]. entry 514289838%Z 100000000000000000000%Z.
  Qed.
  Lemma table_mean (g : GasName) : let a := ig_enth_coefs (IdealGas_new g) in
    let ok x i := tracks x (mean_coef g i) (Rabs (mean_coef g i)) 2 0 in
    ok (a6_0 a) 0%nat /\ ok (a6_1 a) 1%nat /\ ok (a6_2 a) 2%nat /\ ok (a6_3 a) 3%nat /\ ok (a6_4 a) 4%nat /\ ok (a6_5 a) 5%nat.
  Proof.
    cbv zeta. destruct g.
    - split; [entry 519317%Z 100%Z|]. do 4 (split; [entry 0%Z 1%Z|]). entry 0%Z 1%Z.
    - split; [entry 124714839%Z 10000%Z|]. split; [entry 133194432%Z 20000000%Z|]. split; [entry (-347782806)%Z 30000000000%Z|].
      split; [entry 431784838%Z 40000000000000%Z|]. split; [entry (-242883335)%Z 50000000000000000%Z|]. entry 514289838%Z 600000000000000000000%Z.
  Qed.

  (** ** The properties *)
  Lemma tiny_900 (t : R) : 0 <= t <= 2 ^ 100 -> t * tiny <= / 2 ^ 900.
  Proof.
    intros H. pose proof tiny_pos as T. apply Rle_trans with (2 ^ 100 * tiny); [apply Rmult_le_compat_r; lra|].
    unfold tiny. replace 1075%nat with (100 + (900 + 75))%nat by reflexivity. rewrite !pow_add.
    assert (A : 1 <= 2 ^ 75) by (apply pow_R1_Rle; lra). assert (B : 0 < 2 ^ 100) by (apply pow_lt; lra).
    assert (C : 0 < 2 ^ 900) by (apply pow_lt; lra).
    rewrite !Rinv_mult. rewrite <- Rmult_assoc, Rinv_r, Rmult_1_l by lra.
    pose proof (Rinv_0_lt_compat _ C). assert (/ 2 ^ 75 <= 1) by (rewrite <- Rinv_1; apply Rinv_le_contravar; lra).
    assert (/ 2 ^ 900 * / 2 ^ 75 <= / 2 ^ 900 * 1) by (apply Rmult_le_compat_l; lra). lra.
  Qed.
  Lemma of_track (n : nat) (x : b64) (r m t : R) : t <= 2 ^ 100 -> tracks x r m n t -> nearly n x r m.
  Proof. intros L (H & _ & T). pose proof (tiny_900 t (conj T L)). unfold nearly. lra. Qed.

  Variables (g : GasName) (T P : b64).
  Hypothesis HT : ordinary_temp T.
  Hypothesis HP : ordinary_pres P.
  Let c := const_of g.
  Let G := IdealGas_new g.
  Let t := value T.

  Lemma c_big : 2000 <= c <= 5000.
  Proof. unfold c. destruct g; cbn [const_of]; lra. Qed.
  Lemma t_range : 1 <= t <= 16384.
  Proof. exact (proj2 HT). Qed.
  Lemma t_abs : Rabs (value T) <= 16384.
  Proof. pose proof t_range as K. unfold t in K. rewrite Rabs_pos_eq; lra. Qed.
  Lemma finiteness : finite_properties (IdealGas_Fluid G) T P.
  Proof. exact (properties_finite lm nan_top g T P HT HP). Qed.

  (** R T and R T^2 *)
  Lemma track_RT : finite (n_mul (ig_gas_constant G) T) -> tracks (n_mul (ig_gas_constant G) T) (c * t) (c * t) 2 1.
  Proof.
    intros F. pose proof c_big. pose proof t_range as K.
    eapply conv; [apply (tracks_mul _ _ _ _ _ _ F (fun _ => table_R g))|reflexivity| |].
    - fold c t. rewrite Rabs_pos_eq by lra. reflexivity.
    - ring.
  Qed.
  Lemma track_RTT : finite (n_mul (ig_gas_constant G) (n_mul T T)) ->
    tracks (n_mul (ig_gas_constant G) (n_mul T T)) (c * t ^ 2) (c * t ^ 2) 3 (2 ^ 40).
  Proof.
    intros F. pose proof c_big. pose proof t_range as K.
    assert (Q : finite (n_mul T T) -> tracks (n_mul T T) (t ^ 2) (t ^ 2) 1 1).
    { intros F2. eapply conv; [apply (tracks_mul _ _ _ _ _ _ F2 (fun _ => tracks_exact T))| | |].
      - fold t. ring.
      - fold t. rewrite Rabs_pos_eq by lra. ring.
      - ring. }
    eapply tracks_weaken; [exact (tracks_mul2_l _ _ _ _ _ _ _ _ _ F Q (fun _ => table_R g))|apply le_n|].
    fold c. assert (U : u <= 1) by exact u_le_1. pose proof u_pos.
    assert (c * (1 + u) ^ 1 <= 5000 * 2) by (apply Rmult_le_compat; cbn [pow]; lra).
    replace (2 ^ 40) with 1099511627776 by (cbn; lra). lra.
  Qed.
  Lemma ct_1 : 1 <= c * t /\ 1 <= c * t ^ 2.
  Proof.
    pose proof c_big. pose proof t_range as K. assert (A : 1 <= c * t) by (assert (1 * 1 <= c * t) by (apply Rmult_le_compat; lra); lra).
    split; [exact A|]. replace (c * t ^ 2) with (c * t * t) by ring. assert (1 * 1 <= c * t * t) by (apply Rmult_le_compat; lra). lra.
  Qed.
  Lemma fin_RT : finite (n_mul (ig_gas_constant G) T).
  Proof.
    destruct (ordinary_temp_upto T HT) as (UT & _). destruct (gas_constants lm nan_top g) as (UG & _).
    eapply upto_finite, u_mul; [exact UG|exact UT|zside].
  Qed.
  Lemma fin_RTT : finite (n_mul (ig_gas_constant G) (n_mul T T)).
  Proof.
    destruct (ordinary_temp_upto T HT) as (UT & _). destruct (gas_constants lm nan_top g) as (UG & _).
    eapply upto_finite, u_mul; [exact UG|eapply u_mul; [exact UT|exact UT|zside]|zside].
  Qed.
  Lemma val_1 : value n1 = 1.
  Proof. exact (value_1 lm nan_top). Qed.
  Lemma val_0 : value n0 = 0.
  Proof. exact (value_0 lm nan_top). Qed.
  Lemma pow_100 : 1 <= 2 ^ 100.
  Proof. apply pow_R1_Rle. lra. Qed.
  Lemma one_40 : 1 <= 2 ^ 40.
  Proof. apply pow_R1_Rle. lra. Qed.

  Lemma dens_near : nearly 5 (ig_dens G T P) (value P / (c * t)) (Rabs (value P) / (c * t)).
  Proof.
    assert (F : finite (ig_dens G T P)) by exact (Forall_inv finiteness).
    apply of_track with 1; [exact pow_100|]. unfold ig_dens in *.
    pose proof fin_RT as F1.
    exact (tracks_quot _ _ _ 2 1 F (proj1 ct_1) ltac:(lia) one_40 (track_RT F1)).
  Qed.
  Lemma dd_dP_near : nearly 5 (ig_dd_dP_T G T P) (1 / (c * t)) (1 / (c * t)).
  Proof.
    assert (F : finite (ig_dd_dP_T G T P)) by exact (upto_finite _ _ (upto_dd_dP lm nan_top g T P HT)).
    apply of_track with 1; [exact pow_100|]. unfold ig_dd_dP_T in *.
    eapply conv; [exact (tracks_quot _ _ _ 2 1 F (proj1 ct_1) ltac:(lia) one_40 (track_RT fin_RT))| | |reflexivity];
      rewrite val_1; [reflexivity|rewrite Rabs_R1; reflexivity].
  Qed.
  Lemma dd_dT_near : nearly 6 (ig_dd_dT_P G T P) (- (value P / (c * t ^ 2))) (Rabs (value P) / (c * t ^ 2)).
  Proof.
    assert (F : finite (ig_dd_dT_P G T P)) by exact (upto_finite _ _ (upto_dd_dT lm nan_top g T P HT HP)).
    apply of_track with 1; [exact pow_100|]. unfold ig_dd_dT_P, powi2 in *.
    eapply conv; [exact (tracks_quot _ _ _ 3 (2 ^ 40) F (proj2 ct_1) ltac:(lia) (Rle_refl _) (track_RTT fin_RTT))| | |reflexivity];
      change (value (n_opp P)) with (B2R (Bopp P)); rewrite B2R_Bopp; unfold value; [unfold Rdiv; ring|rewrite Rabs_Ropp; reflexivity].
  Qed.
  Lemma track_cp : tracks (ig_cp G T P) (power_sum (cp_coef g) t) (power_size (cp_coef g) t) 11 (2 ^ 85).
  Proof.
    assert (F : finite (ig_cp G T P)) by exact (upto_finite _ _ (upto_cp lm nan_top g T P HT)).
    destruct (table_cp g) as (A0 & A1 & A2 & A3 & A4 & A5).
    exact (tracks_poly _ T (cp_coef g) (fun i => Rabs (cp_coef g i)) 1 F t_abs A0 A1 A2 A3 A4 A5).
  Qed.
  Lemma track_diff : tracks (n_sub T (ig_ref_temp G)) (t - 250) (Rabs (t - 250)) 1 0.
  Proof.
    assert (F : finite (n_sub T (ig_ref_temp G))).
    { destruct (ordinary_temp_upto T HT) as (UT & _). destruct (gas_constants lm nan_top g) as (_ & _ & UR & _).
      eapply upto_finite, u_sub; [exact UT|exact UR|zside]. }
    pose proof (tracks_diff _ _ F) as D. pose proof (table_ref g) as E. change (value (ig_ref_temp G) = 250) in E. rewrite E in D. exact D.
  Qed.
  Lemma track_coef (x : b64) (r : R) : finite (n_mul x (n_sub T (ig_ref_temp G))) -> tracks x r (Rabs r) 2 0 ->
    tracks (n_mul x (n_sub T (ig_ref_temp G))) (r * (t - 250)) (Rabs r * Rabs (t - 250)) 4 1.
  Proof.
    intros F H. eapply conv; [exact (tracks_mul2 _ _ _ _ _ _ _ _ _ F (fun _ => H) (fun _ => track_diff))|reflexivity|reflexivity|ring].
  Qed.
  Lemma track_enth : tracks (ig_enth G T P) ((t - 250) * power_sum (mean_coef g) t) (Rabs (t - 250) * power_size (mean_coef g) t) 14 (2 ^ 85).
  Proof.
    assert (F : finite (ig_enth G T P)) by exact (upto_finite _ _ (upto_enth lm nan_top g T P HT)).
    destruct (table_mean g) as (A0 & A1 & A2 & A3 & A4 & A5).
    assert (D : upto 15 (n_sub T (ig_ref_temp G))).
    { destruct (ordinary_temp_upto T HT) as (UT & _). destruct (gas_constants lm nan_top g) as (_ & _ & UR & _).
      eapply upto_weaken; [eapply u_sub; [exact UT|exact UR|zside]|zside]. }
    destruct (gas_constants lm nan_top g) as (_ & _ & _ & _ & C0 & C1 & C2 & C3 & C4 & C5).
    assert (K : forall x, upto 20 x -> finite (n_mul x (n_sub T (ig_ref_temp G)))).
    { intros x U. eapply upto_finite, u_mul; [exact U|exact D|zside]. }
    eapply conv; [exact (tracks_poly _ T (fun i => mean_coef g i * (t - 250)) (fun i => Rabs (mean_coef g i) * Rabs (t - 250)) 4 F t_abs
        (track_coef _ _ (K _ C0) A0) (track_coef _ _ (K _ C1) A1) (track_coef _ _ (K _ C2) A2)
        (track_coef _ _ (K _ C3) A3) (track_coef _ _ (K _ C4) A4) (track_coef _ _ (K _ C5) A5))| | |reflexivity];
      [|unfold power_size]; unfold power_sum, t; ring.
  Qed.
  Local Opaque ig_enth ig_cp.
  Lemma pow_mono (a b : nat) : (a <= b)%nat -> 2 ^ a <= 2 ^ b.
  Proof. intros H. apply Rle_pow; [lra|exact H]. Qed.
  Lemma pow_86 : 2 * (2 ^ 85 + 1) <= 2 ^ 100.
  Proof. pose proof (pow_mono 87 100 ltac:(lia)). assert (E : 2 ^ 87 = 4 * 2 ^ 85) by ring. pose proof (pow_mono 0 85 ltac:(lia)) as K. change (2 ^ 0) with 1 in K. lra. Qed.
  Lemma track_inte : tracks (ig_inte G T P) ((t - 250) * power_sum (mean_coef g) t - c * (t - 250))
    (Rabs (t - 250) * power_size (mean_coef g) t + c * Rabs (t - 250)) 15 (2 * (2 ^ 85 + 1)).
  Proof.
    assert (F : finite (ig_inte G T P)) by exact (upto_finite _ _ (upto_inte lm nan_top g T P HT)).
    change (finite (Bminus mode_NE (ig_enth G T P) (Bmult mode_NE (ig_gas_constant G) (n_sub T (ig_ref_temp G))))) in F.
    change (ig_inte G T P) with (Bminus mode_NE (ig_enth G T P) (Bmult mode_NE (ig_gas_constant G) (n_sub T (ig_ref_temp G)))).
    apply tracks_sub; [exact F|intros _; exact track_enth|intros F1].
    eapply tracks_weaken; [exact (tracks_mul2 _ _ _ _ _ _ _ _ _ F1 (fun _ => table_R g) (fun _ => track_diff))|lia|]. lra.
  Qed.
  Lemma track_du : tracks (ig_du_dT_P G T P) (power_sum (cp_coef g) t - c) (power_size (cp_coef g) t + c) 12 (2 * (2 ^ 85 + 1)).
  Proof.
    assert (F : finite (ig_du_dT_P G T P)) by exact (upto_finite _ _ (upto_du_dT lm nan_top g T P HT)).
    change (finite (Bminus mode_NE (ig_cp G T P) (ig_gas_constant G))) in F.
    change (ig_du_dT_P G T P) with (Bminus mode_NE (ig_cp G T P) (ig_gas_constant G)).
    apply tracks_sub; [exact F|intros _; exact track_cp|intros _].
    eapply tracks_weaken; [exact (table_R g)|lia|lra].
  Qed.
  Theorem accuracy : accurate_properties g (IdealGas_Fluid G) T P.
  Proof.
    unfold accurate_properties. cbv zeta. cbn [IdealGas_Fluid fl_dens fl_inte fl_enth fl_cp fl_dd_dP_T fl_dd_dT_P fl_du_dP_T fl_du_dT_P].
    split; [exact dens_near|]. split; [exact (of_track _ _ _ _ _ (pow_mono 85 100 ltac:(lia)) track_enth)|].
    split; [exact (of_track _ _ _ _ _ pow_86 track_inte)|]. split; [exact (of_track _ _ _ _ _ (pow_mono 85 100 ltac:(lia)) track_cp)|].
    split; [exact dd_dP_near|]. split; [exact dd_dT_near|]. split; [exact val_0|]. exact (of_track _ _ _ _ _ pow_86 track_du).
  Qed.
End Poly.
