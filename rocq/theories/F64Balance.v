(** * The balances hold in f64 up to rounding and the accuracy of the linear solver *)
From Coq Require Import ZArith NArith List Reals Bool Lra Lia.
From Flocq Require Import Core BinarySingleNaN.
From Verif Require Import Num ModelTypes ModelWs ModelHx ModelStateEq ModelEngine ModelApi RNum B64 Spec SpecR SpecF64
  SpecSeries SpecRound SpecBalance F64Base F64Err PolySolve.
Import ListNotations.
Local Open Scope R_scope.

(** ** [x] is [r] but for [k] roundings of terms of magnitude [m] and for underflow *)
Definition tracks (x : b64) (r m : R) (k : nat) (t : R) : Prop :=
  Rabs (value x - r) <= growth k * m + t * tiny /\ Rabs r <= m /\ 0 <= t.

Lemma u_le_1 : u <= 1.
Proof.
  unfold unit_roundoff. assert (1 <= 2 ^ 53) by (apply pow_R1_Rle; lra).
  apply Rmult_le_reg_l with (2 ^ 53); [lra|]. rewrite Rinv_r by lra. lra.
Qed.
Lemma tracks_m x r m k t : tracks x r m k t -> 0 <= m.
Proof. intros (_ & H & _). pose proof (Rabs_pos r). lra. Qed.
Lemma tracks_exact (x : b64) : tracks x (value x) (Rabs (value x)) 0 0.
Proof.
  split; [|split; [apply Rle_refl|apply Rle_refl]].
  replace (value x - value x) with 0 by ring. rewrite Rabs_R0. unfold growth. cbn [pow]. lra.
Qed.
Lemma tracks_weaken x r m k t k' t' : tracks x r m k t -> (k <= k')%nat -> t <= t' -> tracks x r m k' t'.
Proof.
  intros H Hk Ht. pose proof (tracks_m _ _ _ _ _ H) as Hm. destruct H as (H & H1 & H2).
  split; [|split; [exact H1|lra]]. eapply Rle_trans; [exact H|].
  pose proof (growth_le k k' Hk). pose proof tiny_pos.
  apply Rplus_le_compat; apply Rmult_le_compat_r; lra.
Qed.
Lemma tracks_opp x r m k t : tracks x r m k t -> tracks (Bopp x) (- r) m k t.
Proof.
  intros (H & H1 & H2). split; [|split; [rewrite Rabs_Ropp; exact H1|exact H2]].
  unfold value in *. rewrite B2R_Bopp. replace (- B2R x - - r) with (- (B2R x - r)) by ring.
  rewrite Rabs_Ropp. exact H.
Qed.

(** one rounding *)
Lemma step (v r m e t : R) (k : nat) : Rabs (v - r) <= growth k * m + t * tiny -> Rabs r <= m -> 0 <= t ->
  Rabs e <= u -> Rabs (v * (1 + e) - r) <= growth (S k) * m + 2 * t * tiny.
Proof.
  intros H Hr Ht He. rewrite growth_S.
  replace (v * (1 + e) - r) with ((v - r) * (1 + e) + r * e) by ring.
  eapply Rle_trans; [apply Rabs_triang|]. rewrite !Rabs_mult.
  assert (K : Rabs (1 + e) <= 1 + u).
  { eapply Rle_trans; [apply Rabs_triang|]. rewrite Rabs_R1. lra. }
  pose proof tiny_pos as T. pose proof u_pos. pose proof u_le_1. pose proof (growth_nonneg k) as G.
  assert (M : Rabs (v - r) * Rabs (1 + e) <= (growth k * m + t * tiny) * (1 + u)).
  { apply Rmult_le_compat; auto using Rabs_pos. }
  assert (M2 : Rabs r * Rabs e <= m * u) by (apply Rmult_le_compat; auto using Rabs_pos).
  assert (P : 0 <= t * tiny) by (apply Rmult_le_pos; lra).
  assert (P2 : t * tiny * u <= t * tiny * 1) by (apply Rmult_le_compat_l; lra).
  lra.
Qed.
Lemma scale (v r y g t : R) : Rabs (v - r) <= g + t * tiny ->
  Rabs (v * y - r * y) <= g * Rabs y + t * Rabs y * tiny.
Proof.
  intros H. replace (v * y - r * y) with ((v - r) * y) by ring. rewrite Rabs_mult.
  replace (g * Rabs y + t * Rabs y * tiny) with ((g + t * tiny) * Rabs y) by ring.
  apply Rmult_le_compat_r; [apply Rabs_pos|exact H].
Qed.

Lemma tracks_mul (x y : b64) r m k t : finite (Bmult mode_NE x y) -> (finite x -> tracks x r m k t) ->
  tracks (Bmult mode_NE x y) (r * value y) (m * Rabs (value y)) (S k) (2 * t * Rabs (value y) + 1).
Proof.
  intros F Hx. destruct (mult_finite _ _ F) as (Fx & _ & V). destruct (Hx Fx) as (H & Hr & Ht).
  destruct (rounded_ex (B2R x * B2R y)) as (e & h & He & Hh & E). rewrite E in V.
  pose proof (Rabs_pos (value y)) as Py. pose proof tiny_pos as T.
  split; [|split].
  - change (value (Bmult mode_NE x y)) with (B2R (Bmult mode_NE x y)). rewrite V.
    apply (scale _ _ (value y)) in H. unfold value in *.
    replace (growth k * m * Rabs (B2R y)) with (growth k * (m * Rabs (B2R y))) in H by ring.
    unshelve epose proof (step _ _ _ e _ _ H _ _ He) as S;
      [rewrite Rabs_mult; apply Rmult_le_compat_r; assumption|apply Rmult_le_pos; assumption|].
    replace (B2R x * B2R y * (1 + e) + h - r * B2R y) with ((B2R x * B2R y * (1 + e) - r * B2R y) + h) by ring.
    eapply Rle_trans; [apply Rabs_triang|]. lra.
  - rewrite Rabs_mult. apply Rmult_le_compat_r; assumption.
  - assert (0 <= 2 * t * Rabs (value y)) by (apply Rmult_le_pos; lra). lra.
Qed.
Lemma tracks_mul_l (x y : b64) r m k t : finite (Bmult mode_NE y x) -> (finite x -> tracks x r m k t) ->
  tracks (Bmult mode_NE y x) (value y * r) (Rabs (value y) * m) (S k) (2 * t * Rabs (value y) + 1).
Proof.
  intros F Hx. destruct (mult_finite _ _ F) as (_ & Fx & V). destruct (Hx Fx) as (H & Hr & Ht).
  destruct (rounded_ex (B2R y * B2R x)) as (e & h & He & Hh & E). rewrite E in V.
  pose proof (Rabs_pos (value y)) as Py. pose proof tiny_pos as T.
  split; [|split].
  - change (value (Bmult mode_NE y x)) with (B2R (Bmult mode_NE y x)). rewrite V.
    apply (scale _ _ (value y)) in H. unfold value in *.
    replace (growth k * m * Rabs (B2R y)) with (growth k * (Rabs (B2R y) * m)) in H by ring.
    unshelve epose proof (step _ _ _ e _ _ H _ _ He) as S;
      [rewrite Rabs_mult, Rmult_comm; apply Rmult_le_compat_l; assumption|apply Rmult_le_pos; assumption|].
    replace (B2R y * B2R x * (1 + e) + h - B2R y * r) with ((B2R x * B2R y * (1 + e) - r * B2R y) + h) by ring.
    eapply Rle_trans; [apply Rabs_triang|]. lra.
  - rewrite Rabs_mult. apply Rmult_le_compat_l; assumption.
  - assert (0 <= 2 * t * Rabs (value y)) by (apply Rmult_le_pos; lra). lra.
Qed.
Lemma tracks_div (x y : b64) r m k t : finite (Bdiv mode_NE x y) -> value y <> 0 -> (finite x -> tracks x r m k t) ->
  tracks (Bdiv mode_NE x y) (r / value y) (m / Rabs (value y)) (S k) (2 * t / Rabs (value y) + 1).
Proof.
  intros F Hy Hx. destruct (div_finite _ _ F Hy) as (Fx & V). destruct (Hx Fx) as (H & Hr & Ht).
  destruct (rounded_ex (B2R x / B2R y)) as (e & h & He & Hh & E). rewrite E in V.
  assert (I : Rabs (/ value y) = / Rabs (value y)) by apply Rabs_inv.
  pose proof (Rabs_pos_lt _ Hy) as Py. pose proof (Rinv_0_lt_compat _ Py) as Pi. pose proof tiny_pos as T.
  unfold Rdiv in *. rewrite <- I in *.
  split; [|split].
  - change (value (Bdiv mode_NE x y)) with (B2R (Bdiv mode_NE x y)). rewrite V.
    apply (scale _ _ (/ value y)) in H. unfold value in *.
    replace (growth k * m * Rabs (/ B2R y)) with (growth k * (m * Rabs (/ B2R y))) in H by ring.
    unshelve epose proof (step _ _ _ e _ _ H _ _ He) as S;
      [rewrite Rabs_mult; apply Rmult_le_compat_r; lra|apply Rmult_le_pos; lra|].
    replace (B2R x * / B2R y * (1 + e) + h - r * / B2R y) with ((B2R x * / B2R y * (1 + e) - r * / B2R y) + h) by ring.
    eapply Rle_trans; [apply Rabs_triang|]. lra.
  - rewrite Rabs_mult. apply Rmult_le_compat_r; lra.
  - assert (0 <= 2 * t * Rabs (/ value y)) by (apply Rmult_le_pos; lra). lra.
Qed.
Lemma sum_step (a b r r' m m' t t' g : R) : Rabs (a - r) <= g * m + t * tiny -> Rabs (b - r') <= g * m' + t' * tiny ->
  Rabs (a + b - (r + r')) <= g * (m + m') + (t + t') * tiny.
Proof.
  intros H H'. replace (a + b - (r + r')) with ((a - r) + (b - r')) by ring.
  eapply Rle_trans; [apply Rabs_triang|]. lra.
Qed.
Lemma tracks_add (x y : b64) r m t r' m' t' k : finite (Bplus mode_NE x y) ->
  (finite x -> tracks x r m k t) -> (finite y -> tracks y r' m' k t') ->
  tracks (Bplus mode_NE x y) (r + r') (m + m') (S k) (2 * (t + t')).
Proof.
  intros F Hx Hy. destruct (plus_finite _ _ F) as (Fx & Fy & V).
  destruct (Hx Fx) as (H & Hr & Ht). destruct (Hy Fy) as (H' & Hr' & Ht').
  destruct (rounded_plus_ex x y) as (e & He & E). rewrite E in V.
  assert (Rabs (r + r') <= m + m') by (eapply Rle_trans; [apply Rabs_triang|lra]).
  split; [|split; [assumption|lra]].
  change (value (Bplus mode_NE x y)) with (B2R (Bplus mode_NE x y)). rewrite V.
  apply step; [exact (sum_step _ _ _ _ _ _ _ _ _ H H')|assumption|lra|exact He].
Qed.
Lemma tracks_sub (x y : b64) r m t r' m' t' k : finite (Bminus mode_NE x y) ->
  (finite x -> tracks x r m k t) -> (finite y -> tracks y r' m' k t') ->
  tracks (Bminus mode_NE x y) (r - r') (m + m') (S k) (2 * (t + t')).
Proof.
  intros F Hx Hy. destruct (minus_finite _ _ F) as (Fx & Fy & V).
  destruct (Hx Fx) as (H & Hr & Ht). destruct (Hy Fy) as (H' & Hr' & Ht').
  destruct (rounded_plus_ex x (Bopp y)) as (e & He & E). rewrite B2R_Bopp in E.
  replace (B2R x + - B2R y) with (B2R x - B2R y) in E by ring. rewrite E in V.
  assert (Rabs (r - r') <= m + m').
  { unfold Rminus. eapply Rle_trans; [apply Rabs_triang|]. rewrite Rabs_Ropp. lra. }
  split; [|split; [assumption|lra]].
  change (value (Bminus mode_NE x y)) with (B2R (Bminus mode_NE x y)). rewrite V.
  apply step; [|assumption|lra|exact He].
  assert (H2 : Rabs (- value y - - r') <= growth k * m' + t' * tiny).
  { replace (- value y - - r') with (- (value y - r')) by ring. rewrite Rabs_Ropp. exact H'. }
  exact (sum_step _ _ _ _ _ _ _ _ _ H H2).
Qed.

(** ** A row of a linear system *)
Lemma dot_abs a x : Rabs (dot a x) <= dot (vec_map Rabs a) (vec_map Rabs x).
Proof.
  unfold dot, vec_map; cbn [v0 v1 v2 v3 v4 v5 v6 v7 v8 v9].
  repeat (eapply Rle_trans; [apply Rabs_triang|]; apply Rplus_le_compat; [|rewrite Rabs_mult; apply Rle_refl]).
  rewrite Rabs_mult. apply Rle_refl.
Qed.
Definition pointwise {A B} (P : A -> B -> Prop) (a : vec10 A) (b : vec10 B) : Prop :=
  P (v0 a) (v0 b) /\ P (v1 a) (v1 b) /\ P (v2 a) (v2 b) /\ P (v3 a) (v3 b) /\ P (v4 a) (v4 b) /\
  P (v5 a) (v5 b) /\ P (v6 a) (v6 b) /\ P (v7 a) (v7 b) /\ P (v8 a) (v8 b) /\ P (v9 a) (v9 b).
Lemma dot_le a b x : pointwise Rle a b -> all10 (Rle 0) x -> dot a x <= dot b x.
Proof.
  intros (A0 & A1 & A2 & A3 & A4 & A5 & A6 & A7 & A8 & A9) (X0 & X1 & X2 & X3 & X4 & X5 & X6 & X7 & X8 & X9).
  unfold dot. repeat apply Rplus_le_compat; apply Rmult_le_compat_r; assumption.
Qed.

(** an entry with what it stands for *)
Record entry := Entry { e_r : R; e_m : R; e_t : R }.
Definition entry_ok (k : nat) (x : b64) (n : entry) : Prop := tracks x (e_r n) (e_m n) k (e_t n).

Lemma row_error (k : nat) (e : R) (a x : vec10 b64) (b : b64) (n : vec10 entry) (nb : entry) :
  0 <= e -> pointwise (entry_ok k) a n -> entry_ok k b nb -> row_holds e a x b ->
  let X := vec_map value x in let Y := vec_map Rabs X in
  Rabs (dot (vec_map e_r n) X - e_r nb) <=
    compound e k * (dot (vec_map e_m n) Y + e_m nb) + (1 + e) * (dot (vec_map e_t n) Y + e_t nb) * tiny.
Proof.
  intros He Ha Hb Hr X Y. pose proof tiny_pos as T. set (g := growth k).
  assert (G : 0 <= g) by apply growth_nonneg.
  assert (Ypos : all10 (Rle 0) Y).
  { unfold Y, vec_map; repeat split; apply Rabs_pos. }
  assert (CG : compound e k = g + e * (1 + g)).
  { unfold compound, g, growth. ring. }
  set (diff := V10 (value (v0 a) - e_r (v0 n)) (value (v1 a) - e_r (v1 n)) (value (v2 a) - e_r (v2 n))
    (value (v3 a) - e_r (v3 n)) (value (v4 a) - e_r (v4 n)) (value (v5 a) - e_r (v5 n)) (value (v6 a) - e_r (v6 n))
    (value (v7 a) - e_r (v7 n)) (value (v8 a) - e_r (v8 n)) (value (v9 a) - e_r (v9 n))).
  set (err := V10 (g * e_m (v0 n) + e_t (v0 n) * tiny) (g * e_m (v1 n) + e_t (v1 n) * tiny)
    (g * e_m (v2 n) + e_t (v2 n) * tiny) (g * e_m (v3 n) + e_t (v3 n) * tiny) (g * e_m (v4 n) + e_t (v4 n) * tiny)
    (g * e_m (v5 n) + e_t (v5 n) * tiny) (g * e_m (v6 n) + e_t (v6 n) * tiny) (g * e_m (v7 n) + e_t (v7 n) * tiny)
    (g * e_m (v8 n) + e_t (v8 n) * tiny) (g * e_m (v9 n) + e_t (v9 n) * tiny)).
  set (big := V10 (e_m (v0 n) + v0 err) (e_m (v1 n) + v1 err) (e_m (v2 n) + v2 err) (e_m (v3 n) + v3 err)
    (e_m (v4 n) + v4 err) (e_m (v5 n) + v5 err) (e_m (v6 n) + v6 err) (e_m (v7 n) + v7 err)
    (e_m (v8 n) + v8 err) (e_m (v9 n) + v9 err)).
  assert (Q1 : forall y q, entry_ok k y q -> Rabs (value y - e_r q) <= g * e_m q + e_t q * tiny) by (intros ? ? (W & _); exact W).
  assert (Q2 : forall y q, entry_ok k y q -> Rabs (value y) <= e_m q + (g * e_m q + e_t q * tiny)).
  { intros y q (W & W2 & _). replace (value y) with (e_r q + (value y - e_r q)) by ring.
    eapply Rle_trans; [apply Rabs_triang|]. apply Rplus_le_compat; assumption. }
  assert (D1 : dot (vec_map Rabs diff) Y <= dot err Y).
  { apply dot_le; [|exact Ypos]. destruct Ha as (A0 & A1 & A2 & A3 & A4 & A5 & A6 & A7 & A8 & A9).
    unfold pointwise; cbn [vec_map diff err v0 v1 v2 v3 v4 v5 v6 v7 v8 v9]; repeat split; apply Q1; assumption. }
  assert (D2 : dot (vec_map (fun y => Rabs (value y)) a) Y <= dot big Y).
  { apply dot_le; [|exact Ypos]. destruct Ha as (A0 & A1 & A2 & A3 & A4 & A5 & A6 & A7 & A8 & A9).
    unfold pointwise; cbn [vec_map big err v0 v1 v2 v3 v4 v5 v6 v7 v8 v9]; repeat split; apply Q2; assumption. }
  assert (E1 : dot err Y = g * dot (vec_map e_m n) Y + dot (vec_map e_t n) Y * tiny).
  { unfold dot; cbn [vec_map err v0 v1 v2 v3 v4 v5 v6 v7 v8 v9]. ring. }
  assert (E2 : dot big Y = dot (vec_map e_m n) Y + dot err Y).
  { unfold dot; cbn [vec_map big v0 v1 v2 v3 v4 v5 v6 v7 v8 v9]. ring. }
  assert (E3 : dot (vec_map e_r n) X - e_r nb =
               (dot (vec_map value a) X - value b) + (value b - e_r nb) - dot diff X).
  { unfold dot; cbn [vec_map diff v0 v1 v2 v3 v4 v5 v6 v7 v8 v9]. ring. }
  pose proof (dot_abs diff X) as D0. change (vec_map Rabs X) with Y in D0.
  pose proof (Q1 _ _ Hb) as B1. pose proof (Q2 _ _ Hb) as B2.
  unfold row_holds in Hr. change (vec_map value x) with X in Hr.
  change (vec_map (fun y => Rabs (value y)) x) with Y in Hr.
  assert (Hr2 : e * (dot (vec_map (fun y => Rabs (value y)) a) Y + Rabs (value b)) <=
                e * (dot big Y + (e_m nb + (g * e_m nb + e_t nb * tiny)))).
  { apply Rmult_le_compat_l; lra. }
  rewrite E3, CG.
  unfold Rminus at 1. eapply Rle_trans; [apply Rabs_triang|]. rewrite Rabs_Ropp.
  pose proof (Rabs_triang (dot (vec_map value a) X - value b) (value b - e_r nb)) as Tr.
  rewrite E2, E1 in *.
  replace ((g + e * (1 + g)) * (dot (vec_map e_m n) Y + e_m nb) +
           (1 + e) * (dot (vec_map e_t n) Y + e_t nb) * tiny) with
    (e * (dot (vec_map e_m n) Y + (g * dot (vec_map e_m n) Y + dot (vec_map e_t n) Y * tiny) +
          (e_m nb + (g * e_m nb + e_t nb * tiny))) + (g * e_m nb + e_t nb * tiny) +
     (g * dot (vec_map e_m n) Y + dot (vec_map e_t n) Y * tiny)) by ring.
  lra.
Qed.

(** ** The coefficients of the state equations *)
Section Flt.
  Context (lm : Libm) (nt : bool).
  #[local] Instance fops : NumOps b64 := b64_ops lm nt.

  Lemma value_0 : value n0 = 0.
  Proof.
    assert (E : B2SF (b64_lit 0 0) = SpecFloat.S754_zero false) by (vm_compute; reflexivity).
    change (B2R (b64_lit 0 0) = 0). rewrite <- SF2R_B2SF, E. reflexivity.
  Qed.
  Lemma value_1 : value n1 = 1.
  Proof.
    assert (E : B2SF (b64_lit 1 0) = SpecFloat.S754_finite false 4503599627370496 (-52)) by (vm_compute; reflexivity).
    change (B2R (b64_lit 1 0) = 1). rewrite <- SF2R_B2SF, E. unfold SF2R, F2R. cbn. lra.
  Qed.

  Definition e_zero := Entry 0 0 0.
  Definition e_one := Entry 1 1 0.
  Definition e_minus := Entry (-1) 1 0.
  Definition e_store (V dd : b64) := Entry (value V * value dd) (Rabs (value V) * Rabs (value dd)) 1.
  Definition e_content (V dens du inte dd hn : b64) :=
    Entry (value V * (value dens * value du + value inte * value dd) / value hn)
      (Rabs (value V) * (Rabs (value dens) * Rabs (value du) + Rabs (value inte) * Rabs (value dd)) / Rabs (value hn))
      ((16 * Rabs (value V) + 2) / Rabs (value hn) + 1).
  Definition e_norm (h hn : b64) := Entry (value h / value hn) (Rabs (value h) / Rabs (value hn)) 1.
  Definition e_neg (n : entry) := Entry (- e_r n) (e_m n) (e_t n).
  Definition e_work (P dens inte dV Q hn : b64) :=
    Entry ((- (value P + value dens * value inte) * value dV - value Q) / value hn)
      (((Rabs (value P) + Rabs (value dens) * Rabs (value inte)) * Rabs (value dV) + Rabs (value Q)) / Rabs (value hn))
      ((16 * Rabs (value dV) + 4) / Rabs (value hn) + 1).

  Lemma weaken_entry k k' x n : entry_ok k x n -> (k <= k')%nat -> entry_ok k' x n.
  Proof. intros H K. exact (tracks_weaken _ _ _ _ _ _ _ H K (Rle_refl _)). Qed.
  Lemma conv x r m k t r' m' t' : tracks x r m k t -> r = r' -> m = m' -> t = t' -> tracks x r' m' k t'.
  Proof. intros H <- <- <-. exact H. Qed.
  Lemma zero_ok k : entry_ok k n0 e_zero.
  Proof.
    apply weaken_entry with 0%nat; [|lia]. unfold entry_ok, e_zero; cbn [e_r e_m e_t].
    eapply conv; [apply tracks_exact|exact value_0|rewrite value_0; apply Rabs_R0|reflexivity].
  Qed.
  Lemma one_ok k : entry_ok k n1 e_one.
  Proof.
    apply weaken_entry with 0%nat; [|lia]. unfold entry_ok, e_one; cbn [e_r e_m e_t].
    eapply conv; [apply tracks_exact|exact value_1|rewrite value_1; apply Rabs_R1|reflexivity].
  Qed.
  Lemma neg_ok k x n : entry_ok k x n -> entry_ok k (n_opp x) (e_neg n).
  Proof. intros H. exact (tracks_opp _ _ _ _ _ H). Qed.
  Lemma minus_ok k : entry_ok k (n_opp n1) e_minus.
  Proof. exact (neg_ok k _ _ (one_ok k)). Qed.
  Lemma store_ok V dd : finite (n_mul V dd) -> entry_ok 1 (n_mul V dd) (e_store V dd).
  Proof.
    intros F. unfold entry_ok, e_store; cbn [e_r e_m e_t].
    eapply conv; [exact (tracks_mul V dd _ _ _ _ F (fun _ => tracks_exact V))|reflexivity|reflexivity|ring].
  Qed.
  Lemma content_ok V dens du inte dd hn : value hn <> 0 ->
    let x := n_div (n_mul V (n_add (n_mul dens du) (n_mul inte dd))) hn in
    finite x -> entry_ok 5 x (e_content V dens du inte dd hn).
  Proof.
    intros Hh x F. apply weaken_entry with 4%nat; [|lia].
    unfold entry_ok, e_content; cbn [e_r e_m e_t].
    eapply conv; [apply tracks_div; [exact F|exact Hh|]| | |].
    - intros F1. apply tracks_mul_l; [exact F1|]. intros F2. apply tracks_add; [exact F2| |].
      + intros F3. apply tracks_mul; [exact F3|]. intros _. apply tracks_exact.
      + intros F3. apply tracks_mul; [exact F3|]. intros _. apply tracks_exact.
    - reflexivity.
    - reflexivity.
    - unfold Rdiv. ring.
  Qed.
  Lemma norm_ok h hn : value hn <> 0 -> finite (n_div h hn) -> entry_ok 1 (n_div h hn) (e_norm h hn).
  Proof.
    intros Hh F. unfold entry_ok, e_norm; cbn [e_r e_m e_t].
    eapply conv; [exact (tracks_div h hn _ _ _ _ F Hh (fun _ => tracks_exact h))|reflexivity|reflexivity|unfold Rdiv; ring].
  Qed.
  Lemma work_ok P dens inte dV Q hn : value hn <> 0 ->
    let x := n_div (n_sub (n_mul (n_opp (n_add P (n_mul dens inte))) dV) Q) hn in
    finite x -> entry_ok 5 x (e_work P dens inte dV Q hn).
  Proof.
    intros Hh x F. unfold entry_ok, e_work; cbn [e_r e_m e_t].
    eapply conv; [apply tracks_div; [exact F|exact Hh|]| | |].
    - intros F1. apply tracks_sub; [exact F1| |].
      + intros F2. apply tracks_mul; [exact F2|]. intros F3. apply tracks_opp. apply tracks_add.
        * exact (eq_trans (eq_sym (is_finite_Bopp _ _ _)) F3).
        * intros _. eapply tracks_weaken; [apply tracks_exact|lia|apply Rle_refl].
        * intros F4. apply tracks_mul; [exact F4|]. intros _. apply tracks_exact.
      + intros _. eapply tracks_weaken; [apply tracks_exact|lia|apply Rle_refl].
    - reflexivity.
    - reflexivity.
    - unfold Rdiv. ring.
  Qed.
  Lemma push_ok dens dV : finite (n_mul (n_opp dens) dV) ->
    entry_ok 1 (n_mul (n_opp dens) dV) (Entry (- value dens * value dV) (Rabs (value dens) * Rabs (value dV)) 1).
  Proof.
    intros F. unfold entry_ok; cbn [e_r e_m e_t].
    eapply conv; [exact (tracks_mul (Bopp dens) dV _ _ _ _ F (fun _ => tracks_opp _ _ _ _ _ (tracks_exact dens)))
                 |reflexivity|reflexivity|ring].
  Qed.

  (** the donor's enthalpy *)
  Definition giver (m a b : b64) : b64 := if n_le n0 m then a else b.
  Lemma giver_eq m a b hn : by_direction (sign_of m) (n_div a hn) (n_div b hn) = n_div (giver m a b) hn.
  Proof. unfold sign_of, giver. destruct (n_le n0 m); reflexivity. Qed.
  Lemma giver_donor m a b : finite m -> donor_R (value m) (value a) (value b) (value (giver m a b)).
  Proof.
    intros F. assert (N : forall z : b64, finite z -> is_nan z = false) by (intros z; apply finite_not_nan).
    assert (F0 : finite n0) by (assert (E : is_finite (b64_lit 0 0) = true) by (vm_compute; reflexivity); exact E).
    pose proof (Bleb_val n0 m (N _ F0) (N _ F)) as L. rewrite (val_finite n0 F0), (val_finite m F) in L.
    change (B2R n0) with (value n0) in L. rewrite value_0 in L.
    assert (L' : n_le n0 m = Rle_bool 0 (value m)) by exact L. unfold giver, donor_R. rewrite L'.
    destruct (Rle_bool_spec 0 (value m)) as [H0|H0]; split; intros H; try reflexivity; exfalso; lra.
  Qed.

  Definition h_ck (i : Inputs b64) (s : Solution b64) := giver (so_m_dot_ck s) (wi_enth (in_comp i)) (hi_enth (in_chx i)).
  Definition h_kr (i : Inputs b64) (s : Solution b64) := giver (so_m_dot_kr s) (hi_enth (in_chx i)) (gi_enth_cold (in_regen i)).
  Definition h_rl (i : Inputs b64) (s : Solution b64) := giver (so_m_dot_rl s) (gi_enth_hot (in_regen i)) (hi_enth (in_hhx i)).
  Definition h_le (i : Inputs b64) (s : Solution b64) := giver (so_m_dot_le s) (hi_enth (in_hhx i)) (wi_enth (in_exp i)).
  Lemma directed_giver i s : directed_matrix i (signs s) =
    let hn := in_enth_norm i in
    state_matrix i (n_div (h_ck i s) hn) (n_div (h_kr i s) hn) (n_div (h_rl i s) hn) (n_div (h_le i s) hn).
  Proof.
    unfold directed_matrix, signs. cbn [fd_ck fd_kr fd_rl fd_le]. rewrite !giver_eq. reflexivity.
  Qed.

  Lemma times_norm (hn Z W B : R) : hn <> 0 -> Rabs W <= B -> Z = hn * W -> Rabs Z <= Rabs hn * B.
  Proof.
    intros Hh H ->. rewrite Rabs_mult. apply Rmult_le_compat_l; [apply Rabs_pos|exact H].
  Qed.
  Lemma finite_opp (x : b64) : finite (n_opp x) -> finite x.
  Proof. intros H. exact (eq_trans (eq_sym (is_finite_Bopp _ _ _)) H). Qed.
  Lemma abs_m1 : Rabs (-1) = 1.
  Proof. rewrite Rabs_left; lra. Qed.
  Lemma value_m1 : value (n_opp n1) = -1.
  Proof. unfold value. change (B2R (Bopp n1) = -1). rewrite B2R_Bopp. change (- value n1 = -1). rewrite value_1. lra. Qed.
  Lemma same_abs (Z W B : R) : Rabs W <= B -> Z = W -> Rabs Z <= B.
  Proof. intros H ->. exact H. Qed.
  Lemma by_eq (a b c : R) : a <= b -> b = c -> a <= c.
  Proof. intros H <-. exact H. Qed.

  Ltac split_finite H := repeat match type of H with _ /\ _ => let A := fresh "F" in destruct H as (A & H) end.

  Section Rows.
    Context (e : R) (i : Inputs b64) (s : Solution b64).
    Hypotheses (He : 0 <= e) (Hn : value (in_enth_norm i) <> 0) (FS : finite_system i s).
    Let x : vec10 b64 := V10 (so_m_dot_ck s) (so_m_dot_kr s) (so_m_dot_rl s) (so_m_dot_le s) (so_Q_dot_k s)
      (so_Q_dot_r s) (so_Q_dot_l s) (so_dTc_dt s) (so_dTe_dt s) (so_dP_dt s).
    Hypothesis rows : forall j : ix, row_holds e (vget (directed_matrix i (signs s)) j) x (vget (state_rhs i) j).

    Let hn := in_enth_norm i.
    Let c := in_comp i. Let k := in_chx i. Let r := in_regen i. Let l := in_hhx i. Let y := in_exp i.

    Ltac leaf := match goal with
      | |- entry_ok _ n0 _ => apply zero_ok
      | |- entry_ok _ n1 _ => apply one_ok
      | |- entry_ok _ (n_opp n1) _ => apply minus_ok
      | |- entry_ok 1 (n_mul (n_opp _) _) _ => apply push_ok; assumption
      | |- entry_ok 1 (n_mul _ _) _ => apply store_ok; assumption
      | |- entry_ok 5 (n_div (n_mul _ _) _) _ => apply content_ok; assumption
      | |- entry_ok 5 (n_div (n_sub _ _) _) _ => apply work_ok; assumption
      | |- entry_ok 5 (n_opp (n_div _ _)) _ => apply neg_ok; leaf
      | |- entry_ok 5 (n_div _ _) _ => apply weaken_entry with 1%nat; [apply norm_ok; [assumption|first [assumption|apply finite_opp; assumption]]|lia]
      end.

    Ltac finites := repeat match goal with H : _ /\ _ |- _ => destruct H end.
    Ltac expose j :=
      destruct FS as (FM & FB); pose proof (rows j) as W;
      assert (FA : all10 finite (vget (directed_matrix i (signs s)) j)) by (unfold all10 in FM |- *; finites; repeat split; assumption);
      assert (FC : finite (vget (state_rhs i) j)) by (unfold all10 in FB; finites; assumption);
      rewrite directed_giver in W, FA;
      cbn [vget state_matrix state_rhs v0 v1 v2 v3 v4 v5 v6 v7 v8 v9] in W, FA, FC;
      unfold all10 in FA; cbn [v0 v1 v2 v3 v4 v5 v6 v7 v8 v9] in FA.
    Ltac bound kk n nb :=
      match goal with W : row_holds _ ?a _ ?b |- _ =>
        assert (HA : pointwise (entry_ok kk) a n)
          by (unfold pointwise; cbn [v0 v1 v2 v3 v4 v5 v6 v7 v8 v9]; finites; repeat match goal with |- _ /\ _ => split end; leaf);
        assert (HB : entry_ok kk b nb) by leaf;
        pose proof (row_error kk e a x b n nb He HA HB W) as K;
      unfold dot, vec_map in K;
      cbn [v0 v1 v2 v3 v4 v5 v6 v7 v8 v9 e_r e_m e_t e_zero e_one e_minus e_store e_content e_norm e_neg e_work x] in K;
      rewrite ?value_1, ?value_m1 in K
      end.
    Ltac mass_row j n nb := expose j; bound 1%nat n nb;
      unfold vanishes, mass_rate_space, mass_rate_hx, mass_rate_regen, ws_values, hx_values, reg_values;
      cbn [wi_vol wi_dens wi_dV_dt wi_dd_dP_T wi_dd_dT_P hi_vol hi_dd_dP_T gi_vol gi_dd_dP_T];
      eapply by_eq; [eapply same_abs; [eassumption|ring]|rewrite ?Rabs_mult; ring].
    Ltac energy_row j n nb := expose j; bound 5%nat n nb;
      unfold vanishes, energy_rate_space, energy_rate_hx, energy_rate_regen, mass_rate_space, mass_rate_hx,
        mass_rate_regen, ws_values, hx_values, reg_values, content;
      cbn [wi_vol wi_dens wi_inte wi_dV_dt wi_dd_dP_T wi_dd_dT_P wi_du_dP_T wi_du_dT_P
           hi_vol hi_dens hi_inte hi_dd_dP_T hi_du_dP_T gi_vol gi_dens gi_inte gi_dd_dP_T gi_du_dP_T];
      pose proof (Rabs_no_R0 _ Hn);
      eapply by_eq; [eapply times_norm; [exact Hn|eassumption|unfold hn; field; exact Hn]
                    |rewrite ?Rabs_mult, ?Rabs_R1, ?abs_m1; unfold hn; field; assumption].
    Lemma row0 : vanishes e 1
      (Rabs (value (wi_vol c) * value (wi_dd_dT_P c) * value (so_dTc_dt s)) +
       Rabs (value (wi_vol c) * value (wi_dd_dP_T c) * value (so_dP_dt s)) +
       Rabs (value (wi_dens c) * value (wi_dV_dt c)) + Rabs (value (so_m_dot_ck s)))
      (Rabs (value (so_dTc_dt s)) + Rabs (value (so_dP_dt s)) + 1)
      (mass_rate_space (ws_values c) (value (so_dTc_dt s)) (value (so_dP_dt s)) + value (so_m_dot_ck s)).
    Proof.
      mass_row I0 (V10 e_one e_zero e_zero e_zero e_zero e_zero e_zero (e_store (wi_vol c) (wi_dd_dT_P c)) e_zero (e_store (wi_vol c) (wi_dd_dP_T c)))
        (Entry (- value (wi_dens c) * value (wi_dV_dt c)) (Rabs (value (wi_dens c)) * Rabs (value (wi_dV_dt c))) 1).
    Qed.
    Lemma row1 : vanishes e 5
      (content (value (wi_vol c)) (value (wi_dens c)) (value (wi_du_dT_P c)) (value (wi_inte c)) (value (wi_dd_dT_P c)) * Rabs (value (so_dTc_dt s)) +
       content (value (wi_vol c)) (value (wi_dens c)) (value (wi_du_dP_T c)) (value (wi_inte c)) (value (wi_dd_dP_T c)) * Rabs (value (so_dP_dt s)) +
       Rabs (value (h_ck i s) * value (so_m_dot_ck s)) +
       (Rabs (value (in_pres i)) + Rabs (value (wi_dens c) * value (wi_inte c))) * Rabs (value (wi_dV_dt c)) + Rabs (value (wi_Q_dot c)))
      ((16 * Rabs (value (wi_vol c)) + 2 + Rabs (value hn)) * Rabs (value (so_dTc_dt s)) +
       (16 * Rabs (value (wi_vol c)) + 2 + Rabs (value hn)) * Rabs (value (so_dP_dt s)) +
       Rabs (value hn) * Rabs (value (so_m_dot_ck s)) + (16 * Rabs (value (wi_dV_dt c)) + 4 + Rabs (value hn)))
      (energy_rate_space (ws_values c) (value (so_dTc_dt s)) (value (so_dP_dt s)) -
        (- (value (h_ck i s) * value (so_m_dot_ck s)) - value (in_pres i) * value (wi_dV_dt c) - value (wi_Q_dot c))).
    Proof.
      energy_row I1 (V10 (e_norm (h_ck i s) hn) e_zero e_zero e_zero e_zero e_zero e_zero (e_content (wi_vol c) (wi_dens c) (wi_du_dT_P c) (wi_inte c) (wi_dd_dT_P c) hn) e_zero (e_content (wi_vol c) (wi_dens c) (wi_du_dP_T c) (wi_inte c) (wi_dd_dP_T c) hn))
        (e_work (in_pres i) (wi_dens c) (wi_inte c) (wi_dV_dt c) (wi_Q_dot c) hn).
    Qed.
    Lemma row2 : vanishes e 1
      (Rabs (value (hi_vol k) * value (hi_dd_dP_T k) * value (so_dP_dt s)) + Rabs (value (so_m_dot_ck s)) +
       Rabs (value (so_m_dot_kr s)))
      (Rabs (value (so_dP_dt s)))
      (mass_rate_hx (hx_values k) (value (so_dP_dt s)) - (value (so_m_dot_ck s) - value (so_m_dot_kr s))).
    Proof.
      mass_row I2 (V10 e_minus e_one e_zero e_zero e_zero e_zero e_zero e_zero e_zero (e_store (hi_vol k) (hi_dd_dP_T k))) e_zero.
    Qed.
    Lemma row3 : vanishes e 5
      (content (value (hi_vol k)) (value (hi_dens k)) (value (hi_du_dP_T k)) (value (hi_inte k)) (value (hi_dd_dP_T k)) * Rabs (value (so_dP_dt s)) +
       Rabs (value (h_ck i s) * value (so_m_dot_ck s)) + Rabs (value (h_kr i s) * value (so_m_dot_kr s)) + Rabs (value (so_Q_dot_k s)))
      ((16 * Rabs (value (hi_vol k)) + 2 + Rabs (value hn)) * Rabs (value (so_dP_dt s)) +
       Rabs (value hn) * (Rabs (value (so_m_dot_ck s)) + Rabs (value (so_m_dot_kr s)) + Rabs (value (so_Q_dot_k s))))
      (energy_rate_hx (hx_values k) (value (so_dP_dt s)) -
        (value (h_ck i s) * value (so_m_dot_ck s) - value (h_kr i s) * value (so_m_dot_kr s) - value (so_Q_dot_k s))).
    Proof.
      energy_row I3 (V10 (e_neg (e_norm (h_ck i s) hn)) (e_norm (h_kr i s) hn) e_zero e_zero (e_norm n1 hn) e_zero e_zero e_zero e_zero (e_content (hi_vol k) (hi_dens k) (hi_du_dP_T k) (hi_inte k) (hi_dd_dP_T k) hn)) e_zero.
    Qed.
    Lemma row4 : vanishes e 1
      (Rabs (value (gi_vol r) * value (gi_dd_dP_T r) * value (so_dP_dt s)) + Rabs (value (so_m_dot_kr s)) +
       Rabs (value (so_m_dot_rl s)))
      (Rabs (value (so_dP_dt s)))
      (mass_rate_regen (reg_values r) (value (so_dP_dt s)) - (value (so_m_dot_kr s) - value (so_m_dot_rl s))).
    Proof.
      mass_row I4 (V10 e_zero e_minus e_one e_zero e_zero e_zero e_zero e_zero e_zero (e_store (gi_vol r) (gi_dd_dP_T r))) e_zero.
    Qed.
    Lemma row5 : vanishes e 5
      (content (value (gi_vol r)) (value (gi_dens r)) (value (gi_du_dP_T r)) (value (gi_inte r)) (value (gi_dd_dP_T r)) * Rabs (value (so_dP_dt s)) +
       Rabs (value (h_kr i s) * value (so_m_dot_kr s)) + Rabs (value (h_rl i s) * value (so_m_dot_rl s)) + Rabs (value (so_Q_dot_r s)))
      ((16 * Rabs (value (gi_vol r)) + 2 + Rabs (value hn)) * Rabs (value (so_dP_dt s)) +
       Rabs (value hn) * (Rabs (value (so_m_dot_kr s)) + Rabs (value (so_m_dot_rl s)) + Rabs (value (so_Q_dot_r s))))
      (energy_rate_regen (reg_values r) (value (so_dP_dt s)) -
        (value (h_kr i s) * value (so_m_dot_kr s) - value (h_rl i s) * value (so_m_dot_rl s) - value (so_Q_dot_r s))).
    Proof.
      energy_row I5 (V10 e_zero (e_neg (e_norm (h_kr i s) hn)) (e_norm (h_rl i s) hn) e_zero e_zero (e_norm n1 hn) e_zero e_zero e_zero (e_content (gi_vol r) (gi_dens r) (gi_du_dP_T r) (gi_inte r) (gi_dd_dP_T r) hn)) e_zero.
    Qed.
    Lemma row6 : vanishes e 1
      (Rabs (value (hi_vol l) * value (hi_dd_dP_T l) * value (so_dP_dt s)) + Rabs (value (so_m_dot_rl s)) +
       Rabs (value (so_m_dot_le s)))
      (Rabs (value (so_dP_dt s)))
      (mass_rate_hx (hx_values l) (value (so_dP_dt s)) - (value (so_m_dot_rl s) - value (so_m_dot_le s))).
    Proof.
      mass_row I6 (V10 e_zero e_zero e_minus e_one e_zero e_zero e_zero e_zero e_zero (e_store (hi_vol l) (hi_dd_dP_T l))) e_zero.
    Qed.
    Lemma row7 : vanishes e 5
      (content (value (hi_vol l)) (value (hi_dens l)) (value (hi_du_dP_T l)) (value (hi_inte l)) (value (hi_dd_dP_T l)) * Rabs (value (so_dP_dt s)) +
       Rabs (value (h_rl i s) * value (so_m_dot_rl s)) + Rabs (value (h_le i s) * value (so_m_dot_le s)) + Rabs (value (so_Q_dot_l s)))
      ((16 * Rabs (value (hi_vol l)) + 2 + Rabs (value hn)) * Rabs (value (so_dP_dt s)) +
       Rabs (value hn) * (Rabs (value (so_m_dot_rl s)) + Rabs (value (so_m_dot_le s)) + Rabs (value (so_Q_dot_l s))))
      (energy_rate_hx (hx_values l) (value (so_dP_dt s)) -
        (value (h_rl i s) * value (so_m_dot_rl s) - value (h_le i s) * value (so_m_dot_le s) + value (so_Q_dot_l s))).
    Proof.
      energy_row I7 (V10 e_zero e_zero (e_neg (e_norm (h_rl i s) hn)) (e_norm (h_le i s) hn) e_zero e_zero (e_norm (n_opp n1) hn) e_zero e_zero (e_content (hi_vol l) (hi_dens l) (hi_du_dP_T l) (hi_inte l) (hi_dd_dP_T l) hn)) e_zero.
    Qed.
    Lemma row8 : vanishes e 1
      (Rabs (value (wi_vol y) * value (wi_dd_dT_P y) * value (so_dTe_dt s)) +
       Rabs (value (wi_vol y) * value (wi_dd_dP_T y) * value (so_dP_dt s)) +
       Rabs (value (wi_dens y) * value (wi_dV_dt y)) + Rabs (value (so_m_dot_le s)))
      (Rabs (value (so_dTe_dt s)) + Rabs (value (so_dP_dt s)) + 1)
      (mass_rate_space (ws_values y) (value (so_dTe_dt s)) (value (so_dP_dt s)) - value (so_m_dot_le s)).
    Proof.
      mass_row I8 (V10 e_zero e_zero e_zero e_minus e_zero e_zero e_zero e_zero (e_store (wi_vol y) (wi_dd_dT_P y)) (e_store (wi_vol y) (wi_dd_dP_T y)))
        (Entry (- value (wi_dens y) * value (wi_dV_dt y)) (Rabs (value (wi_dens y)) * Rabs (value (wi_dV_dt y))) 1).
    Qed.
    Lemma row9 : vanishes e 5
      (content (value (wi_vol y)) (value (wi_dens y)) (value (wi_du_dT_P y)) (value (wi_inte y)) (value (wi_dd_dT_P y)) * Rabs (value (so_dTe_dt s)) +
       content (value (wi_vol y)) (value (wi_dens y)) (value (wi_du_dP_T y)) (value (wi_inte y)) (value (wi_dd_dP_T y)) * Rabs (value (so_dP_dt s)) +
       Rabs (value (h_le i s) * value (so_m_dot_le s)) +
       (Rabs (value (in_pres i)) + Rabs (value (wi_dens y) * value (wi_inte y))) * Rabs (value (wi_dV_dt y)) + Rabs (value (wi_Q_dot y)))
      ((16 * Rabs (value (wi_vol y)) + 2 + Rabs (value hn)) * Rabs (value (so_dTe_dt s)) +
       (16 * Rabs (value (wi_vol y)) + 2 + Rabs (value hn)) * Rabs (value (so_dP_dt s)) +
       Rabs (value hn) * Rabs (value (so_m_dot_le s)) + (16 * Rabs (value (wi_dV_dt y)) + 4 + Rabs (value hn)))
      (energy_rate_space (ws_values y) (value (so_dTe_dt s)) (value (so_dP_dt s)) -
        ( (value (h_le i s) * value (so_m_dot_le s)) - value (in_pres i) * value (wi_dV_dt y) - value (wi_Q_dot y))).
    Proof.
      energy_row I9 (V10 e_zero e_zero e_zero (e_neg (e_norm (h_le i s) hn)) e_zero e_zero e_zero e_zero (e_content (wi_vol y) (wi_dens y) (wi_du_dT_P y) (wi_inte y) (wi_dd_dT_P y) hn) (e_content (wi_vol y) (wi_dens y) (wi_du_dP_T y) (wi_inte y) (wi_dd_dP_T y) hn))
        (e_work (in_pres i) (wi_dens y) (wi_inte y) (wi_dV_dt y) (wi_Q_dot y) hn).
    Qed.
  End Rows.

  Lemma upwind_balances D e i s : careful D e i -> 0 <= e -> upwind_solution D i s -> finite_system i s ->
    finite_solution s -> value (in_enth_norm i) <> 0 -> nearly_conserves e (input_values i) (solution_values s).
  Proof.
    intros Hc He Hs HF Hsol Hn. apply solves_for_upwind in Hs. destruct Hs as (x & Hx & ->).
    destruct x as [x0 x1 x2 x3 x4 x5 x6 x7 x8 x9].
    assert (FX : all10 finite (V10 x0 x1 x2 x3 x4 x5 x6 x7 x8 x9)).
    { unfold finite_solution in Hsol. rewrite !Forall_cons_iff in Hsol. cbn in Hsol.
      unfold all10; cbn. tauto. }
    destruct HF as (HM & HB).
    pose proof (Hc _ _ Hx HM HB FX) as Rows.
    set (s := named (V10 x0 x1 x2 x3 x4 x5 x6 x7 x8 x9)) in *.
    assert (HF : finite_system i s) by (split; assumption).
    split.
    - split; [exact (row0 e i s He HF Rows)|].
      split; [exact (row2 e i s He HF Rows)|].
      split; [exact (row4 e i s He HF Rows)|].
      split; [exact (row6 e i s He HF Rows)|exact (row8 e i s He HF Rows)].
    - unfold finite_solution in Hsol. rewrite !Forall_cons_iff in Hsol. destruct Hsol as (G1 & G2 & G3 & G4 & _).
      exists (value (h_ck i s)), (value (h_kr i s)), (value (h_rl i s)), (value (h_le i s)).
      split; [exact (giver_donor _ _ _ G1)|]. split; [exact (giver_donor _ _ _ G2)|].
      split; [exact (giver_donor _ _ _ G3)|]. split; [exact (giver_donor _ _ _ G4)|].
      split; [exact (row1 e i s He Hn HF Rows)|].
      split; [exact (row3 e i s He Hn HF Rows)|].
      split; [exact (row5 e i s He Hn HF Rows)|].
      split; [exact (row7 e i s He Hn HF Rows)|exact (row9 e i s He Hn HF Rows)].
  Qed.
  Lemma balances D e i hint s : careful D e i -> 0 <= e -> solve D i hint = Ok s -> finite_system i s ->
    finite_solution s -> value (in_enth_norm i) <> 0 -> nearly_conserves e (input_values i) (solution_values s).
  Proof. intros Hc He Hs. exact (upwind_balances D e i s Hc He (solve_upwind D i hint s Hs)). Qed.

  Lemma values_balance D e c pts vs : 0 <= e -> into_state_values D c pts = Ret vs ->
    Forall (fun v => let i := cy_calculate_inputs c (sv_time v) (sv_conditions v) in
      careful D e i -> finite_system i (sv_solution v) -> finite_solution (sv_solution v) ->
      value (in_enth_norm i) <> 0 -> nearly_conserves e (input_values i) (solution_values (sv_solution v))) vs.
  Proof.
    intros He H. pose proof (into_state_values_from_spec D c pts FlowDirection_default) as S.
    unfold into_state_values in H. rewrite H in S. clear H.
    unfold values_of_points in S. induction S as [|p v pts vs (Ht & Hc & Hu) S IH]; constructor; [|exact IH].
    intros i Hi HF HS HN. apply (upwind_balances D e); try assumption.
    unfold i. rewrite Ht, Hc. exact Hu.
  Qed.
End Flt.

(** ** Totals *)
Lemma add5 (a b c d f A B C D F : R) : Rabs a <= A -> Rabs b <= B -> Rabs c <= C -> Rabs d <= D -> Rabs f <= F ->
  Rabs (a + b + c + d + f) <= A + B + C + D + F.
Proof.
  intros Ha Hb Hc Hd Hf. repeat (eapply Rle_trans; [apply Rabs_triang|]; apply Rplus_le_compat; [|assumption]). assumption.
Qed.
Lemma total_balances e i s : nearly_conserves e i s -> totals_nearly e i s.
Proof.
  intros ((M0 & M1 & M2 & M3 & M4) & h1 & h2 & h3 & h4 & D1 & D2 & D3 & D4 & E0 & E1 & E2 & E3 & E4).
  unfold vanishes in *. split.
  - pose proof (add5 _ _ _ _ _ _ _ _ _ _ M0 M1 M2 M3 M4) as K. unfold vanishes.
    eapply by_eq; [eapply same_abs; [exact K|unfold total_mass_rate; ring]|unfold mass_magnitude; ring].
  - exists h1, h2, h3, h4. split; [exact D1|]. split; [exact D2|]. split; [exact D3|]. split; [exact D4|].
    pose proof (add5 _ _ _ _ _ _ _ _ _ _ E0 E1 E2 E3 E4) as K. unfold vanishes.
    eapply by_eq; [eapply same_abs; [exact K|unfold total_energy_rate; ring]|unfold energy_magnitude, energy_slack; ring].
Qed.
