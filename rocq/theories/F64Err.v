(** * Rounding errors of sums, products and averages *)
From Coq Require Import ZArith NArith List Reals Bool Lra Lia.
From Flocq Require Import Core BinarySingleNaN Plus_error Relative.
From Verif Require Import Num ModelTypes ModelEngine ModelApi B64 SpecF64 SpecSeries SpecRound F64Base.
Import ListNotations.
Local Open Scope R_scope.

Notation u := unit_roundoff.
Lemma u_pos : 0 < u.
Proof. unfold unit_roundoff. apply Rinv_0_lt_compat, pow_lt. lra. Qed.
Lemma tiny_pos : 0 < tiny.
Proof. unfold tiny. apply Rinv_0_lt_compat, pow_lt. lra. Qed.
Lemma bpow_neg n : bpow radix2 (- Z.of_nat n) = / 2 ^ n.
Proof. rewrite bpow_opp, bpow_powerRZ, <- pow_powerRZ. reflexivity. Qed.
Lemma half_bpow : / 2 * bpow radix2 (- (53) + 1) = u.
Proof.
  replace (- (53) + 1)%Z with (- Z.of_nat 52)%Z by reflexivity. rewrite bpow_neg. unfold unit_roundoff.
  rewrite <- (tech_pow_Rmult 2 52). rewrite Rinv_mult. reflexivity.
Qed.
Lemma half_emin : / 2 * bpow radix2 (-1074) = tiny.
Proof.
  replace (-1074)%Z with (- Z.of_nat 1074)%Z by reflexivity. rewrite bpow_neg. unfold tiny.
  rewrite <- (tech_pow_Rmult 2 1074). rewrite Rinv_mult. reflexivity.
Qed.

Lemma rounded_ex x : exists e h, Rabs e <= u /\ Rabs h <= tiny /\ rounded x = x * (1 + e) + h.
Proof.
  destruct (error_N_FLT radix2 (-1074) 53 eq_refl (fun z => negb (Z.even z)) x) as (e & h & He & Hh & _ & E).
  exists e, h. split; [rewrite <- half_bpow; exact He|]. split; [rewrite <- half_emin; exact Hh|exact E].
Qed.
Lemma rounded_plus_ex (x y : b64) : exists e, Rabs e <= u /\ rounded (B2R x + B2R y) = (B2R x + B2R y) * (1 + e).
Proof.
  destruct (FLT_plus_error_N_ex radix2 (-1074) 53 (fun z => negb (Z.even z)) (B2R x) (B2R y)) as (e & He & E).
  - exact (generic_format_B2R 53 1024 x).
  - exact (generic_format_B2R 53 1024 y).
  - exists e. split; [|exact E]. eapply Rle_trans; [exact He|].
    change (u_ro radix2 53) with (/ 2 * bpow radix2 (- (53) + 1)). rewrite half_bpow.
    pose proof u_pos. apply Rmult_le_reg_r with (1 + u); [lra|]. unfold Rdiv. rewrite Rmult_assoc, Rinv_l by lra.
    assert (0 <= u * u) by (apply Rmult_le_pos; lra). lra.
Qed.

(** ** A finite result comes from finite operands *)
Lemma plus_finite (x y : b64) : finite (Bplus mode_NE x y) ->
  finite x /\ finite y /\ B2R (Bplus mode_NE x y) = rounded (B2R x + B2R y).
Proof.
  intros H.
  assert (F : finite x /\ finite y).
  { destruct x as [sx|sx| |sx mx ex Hx], y as [sy|sy| |sy my ey Hy]; try (split; reflexivity); try discriminate H.
    destruct sx, sy; discriminate H. }
  destruct F as (Fx & Fy). split; [exact Fx|]. split; [exact Fy|].
  destruct (plus_cases x y Fx Fy) as [(_ & _ & E)|(_ & s & E)]; [exact E|]. rewrite E in H. discriminate.
Qed.
Lemma minus_finite (x y : b64) : finite (Bminus mode_NE x y) ->
  finite x /\ finite y /\ B2R (Bminus mode_NE x y) = rounded (B2R x - B2R y).
Proof.
  intros H.
  assert (F : finite x /\ finite y).
  { destruct x as [sx|sx| |sx mx ex Hx], y as [sy|sy| |sy my ey Hy]; try (split; reflexivity); try discriminate H.
    destruct sx, sy; discriminate H. }
  destruct F as (Fx & Fy). split; [exact Fx|]. split; [exact Fy|].
  destruct (minus_cases x y Fx Fy) as [(_ & _ & E)|(_ & s & E)]; [exact E|]. rewrite E in H. discriminate.
Qed.
Lemma mult_finite (x y : b64) : finite (Bmult mode_NE x y) ->
  finite x /\ finite y /\ B2R (Bmult mode_NE x y) = rounded (B2R x * B2R y).
Proof.
  intros H.
  assert (F : finite x /\ finite y).
  { destruct x as [sx|sx| |sx mx ex Hx], y as [sy|sy| |sy my ey Hy]; try (split; reflexivity); discriminate H. }
  destruct F as (Fx & Fy). split; [exact Fx|]. split; [exact Fy|].
  destruct (mult_cases x y Fx Fy) as [(_ & _ & E)|(_ & s & E)]; [exact E|]. rewrite E in H. discriminate.
Qed.
Lemma div_finite (x y : b64) : finite (Bdiv mode_NE x y) -> B2R y <> 0 ->
  finite x /\ B2R (Bdiv mode_NE x y) = rounded (B2R x / B2R y).
Proof.
  intros H Hy.
  assert (Fx : finite x).
  { destruct x as [sx|sx| |sx mx ex Hx]; try reflexivity.
    - destruct y as [sy|sy| |sy my ey Hy']; try discriminate H; now elim Hy.
    - discriminate H. }
  split; [exact Fx|].
  destruct (div_cases x y Fx Hy) as [(_ & _ & E)|(_ & s & E)]; [exact E|]. rewrite E in H. discriminate.
Qed.
Lemma half_value : B2R (b64_lit 5 (-1)) = / 2.
Proof.
  assert (E : B2SF (b64_lit 5 (-1)) = SpecFloat.S754_finite false 4503599627370496 (-53)) by (vm_compute; reflexivity).
  rewrite <- SF2R_B2SF, E. unfold SF2R, F2R. cbn. lra.
Qed.

(** ** Products of roundings *)
Lemma one_u : 1 <= 1 + u. Proof. pose proof u_pos. lra. Qed.
Lemma one_u_pow n : 1 <= (1 + u) ^ n.
Proof. apply pow_R1_Rle, one_u. Qed.
Lemma growth_nonneg n : 0 <= growth n.
Proof. unfold growth. pose proof (one_u_pow n). lra. Qed.
Lemma growth_S n : growth (S n) = (1 + u) * growth n + u.
Proof. unfold growth. cbn [pow]. ring. Qed.
Lemma growth_le m n : (m <= n)%nat -> growth m <= growth n.
Proof. intros H. unfold growth. pose proof (Rle_pow (1 + u) m n one_u H). lra. Qed.
(** one more rounding of something known up to [growth n] *)
Lemma one_more (n : nat) (a b e : R) : Rabs (a - b) <= growth n * Rabs b -> Rabs e <= u ->
  Rabs (a * (1 + e) - b) <= growth (S n) * Rabs b.
Proof.
  intros H He. rewrite growth_S.
  replace (a * (1 + e) - b) with ((a - b) * (1 + e) + b * e) by ring.
  eapply Rle_trans; [apply Rabs_triang|]. rewrite !Rabs_mult.
  assert (K : Rabs (1 + e) <= 1 + u).
  { eapply Rle_trans; [apply Rabs_triang|]. rewrite Rabs_R1. lra. }
  assert (M : Rabs (a - b) * Rabs (1 + e) <= growth n * Rabs b * (1 + u)).
  { apply Rmult_le_compat; auto using Rabs_pos. }
  assert (M2 : Rabs b * Rabs e <= Rabs b * u) by (apply Rmult_le_compat_l; auto using Rabs_pos).
  lra.
Qed.
(** [growth n] is about [n u] *)
Lemma growth_small n : INR n * u <= 1 -> growth n <= INR n * u * (1 + INR n * u).
Proof.
  pose proof u_pos as U. induction n as [|n IH]; intros H.
  - unfold growth. simpl. lra.
  - rewrite growth_S. rewrite S_INR in *. pose proof (pos_INR n) as P. set (k := INR n) in *.
    assert (B : k * u <= 1) by lra. specialize (IH B).
    assert (M : (1 + u) * growth n <= (1 + u) * (k * u * (1 + k * u))) by (apply Rmult_le_compat_l; lra).
    assert (Q : 0 <= k * u * u) by (apply Rmult_le_pos; [apply Rmult_le_pos|]; lra).
    assert (Q2 : 0 <= u * u) by (apply Rmult_le_pos; lra).
    assert (Q3 : k * u * u * (k * u) <= k * u * u * 1) by (apply Rmult_le_compat_l; lra).
    nra.
Qed.

Lemma nearby (a b e : R) : Rabs e <= u -> Rabs (a - b) <= Rabs e * Rabs b -> Rabs (a - b) <= u * Rabs b.
Proof. intros He H. eapply Rle_trans; [exact H|]. apply Rmult_le_compat_r; auto using Rabs_pos. Qed.

(** ** One panel *)
Section Flt.
  Context (lm : Libm) (nt : bool).
  #[local] Instance fops : NumOps b64 := b64_ops lm nt.

  Definition panel (x0 x1 y0 y1 : b64) : b64 := n_mul (n_mul (n_add y1 y0) (n_sub x1 x0)) nhalf.

  Lemma panel_err (x0 x1 y0 y1 : b64) : finite (panel x0 x1 y0 y1) ->
    let E := (value y0 + value y1) / 2 * (value x1 - value x0) in
    Rabs (value (panel x0 x1 y0 y1) - E) <= growth 4 * Rabs E + 2 * tiny.
  Proof.
    intros F E.
    destruct (mult_finite _ _ F) as (F1 & _ & V1).
    destruct (mult_finite _ _ F1) as (Fs & Fd & V2).
    destruct (plus_finite _ _ Fs) as (_ & _ & V3).
    destruct (minus_finite _ _ Fd) as (_ & _ & V4).
    destruct (rounded_plus_ex y1 y0) as (e1 & He1 & R1). rewrite R1 in V3.
    assert (Xd : exists e, Rabs e <= u /\ rounded (B2R x1 - B2R x0) = (B2R x1 - B2R x0) * (1 + e)).
    { destruct (rounded_plus_ex x1 (Bopp x0)) as (e & He & Re). rewrite B2R_Bopp in Re. exists e. split; assumption. }
    destruct Xd as (e2 & He2 & R2). rewrite R2 in V4.
    unfold panel, value in *. cbn [n_mul n_add n_sub fops b64_ops] in *.
    rewrite V1. change (@nhalf b64 fops) with (b64_lit 5 (-1)). rewrite half_value.
    destruct (rounded_ex (B2R (Bmult mode_NE (Bplus mode_NE y1 y0) (Bminus mode_NE x1 x0)) * / 2)) as (e4 & h4 & He4 & Hh4 & R4).
    rewrite R4, V2, V3, V4.
    destruct (rounded_ex ((B2R y1 + B2R y0) * (1 + e1) * ((B2R x1 - B2R x0) * (1 + e2)))) as (e3 & h3 & He3 & Hh3 & R3).
    rewrite R3.
    assert (A0 : Rabs (E - E) <= growth 0 * Rabs E).
    { unfold growth. simpl. rewrite !Rminus_eq_0, Rabs_R0. lra. }
    pose proof (one_more _ _ _ _ (one_more _ _ _ _ (one_more _ _ _ _ (one_more _ _ _ _ A0 He1) He2) He3) He4) as K.
    match goal with |- Rabs ?t <= _ => replace t with
      ((E * (1 + e1) * (1 + e2) * (1 + e3) * (1 + e4) - E) + (h3 * / 2 * (1 + e4) + h4)) by (unfold E; field) end.
    eapply Rle_trans; [apply Rabs_triang|]. apply Rplus_le_compat; [exact K|].
    pose proof u_pos. pose proof tiny_pos.
    assert (u <= 1). { unfold unit_roundoff. rewrite <- Rinv_1 at 1. apply Rinv_le_contravar; [lra|]. apply pow_R1_Rle. lra. }
    eapply Rle_trans; [apply Rabs_triang|]. rewrite !Rabs_mult, (Rabs_right (/ 2)) by lra.
    assert (Rabs (1 + e4) <= 2).
    { eapply Rle_trans; [apply Rabs_triang|]. rewrite Rabs_R1. lra. }
    assert (Rabs h3 * / 2 * Rabs (1 + e4) <= tiny * / 2 * 2).
    { apply Rmult_le_compat; auto using Rabs_pos; [|apply Rmult_le_compat_r; lra].
      apply Rmult_le_pos; [apply Rabs_pos|lra]. }
    lra.
  Qed.

  (** the panels of a series *)
  Fixpoint panels_of (pts : list (b64 * b64)) : list b64 :=
    match pts with
    | (x0, y0) :: (((x1, y1) :: _) as pts') => panel x0 x1 y0 y1 :: panels_of pts'
    | _ => []
    end.
  Lemma integrate_panels (x y : list b64) : integrate x y = n_sum (panels_of (combine x y)).
  Proof.
    unfold integrate. f_equal. revert y.
    induction x as [|x0 x IH]; intros [|y0 y]; try reflexivity.
    - cbn [windows2 combine map panels_of]. destruct x; reflexivity.
    - destruct x as [|x1 x]; [reflexivity|]. destruct y as [|y1 y]; [reflexivity|].
      specialize (IH (y1 :: y)).
      change (windows2 (x0 :: x1 :: x)) with ((x0, x1) :: windows2 (x1 :: x)).
      change (windows2 (y0 :: y1 :: y)) with ((y0, y1) :: windows2 (y1 :: y)).
      cbn [combine map]. rewrite IH. reflexivity.
  Qed.
  Notation pvals := (map (fun p : b64 * b64 => (value (fst p), value (snd p)))).
  Lemma points_map (x y : list b64) : points x y = pvals (combine x y).
  Proof.
    unfold points. revert y. induction x as [|a x IH]; intros [|b y]; try reflexivity.
    cbn [map combine]. rewrite IH. reflexivity.
  Qed.
  Lemma magnitude_nonneg pts : 0 <= magnitude pts.
  Proof.
    induction pts as [|(x0, y0) [|(x1, y1) pts] IH]; try (simpl; lra).
    change (0 <= Rabs (y0 + y1) / 2 * Rabs (x1 - x0) + magnitude ((x1, y1) :: pts)).
    assert (0 <= Rabs (y0 + y1) / 2 * Rabs (x1 - x0)); [|lra].
    apply Rmult_le_pos; [|apply Rabs_pos]. pose proof (Rabs_pos (y0 + y1)). lra.
  Qed.
  Lemma sum_finite (l : list b64) (s : b64) : finite (fold_left (Bplus mode_NE) l s) -> finite s.
  Proof.
    revert s. induction l as [|a l IH]; intros s H; [exact H|]. exact (proj1 (plus_finite _ _ (IH _ H))).
  Qed.

  (** running sum: [k] panels so far, their exact sum [e] and magnitude [m] *)
  Lemma sum_err (pts : list (b64 * b64)) : forall (s : b64) (k : nat) (e m : R),
    finite (fold_left (Bplus mode_NE) (panels_of pts) s) ->
    Rabs e <= m -> Rabs (value s - e) <= growth (k + 4) * m + 2 * INR k * tiny * (1 + u) ^ k ->
    let n := (k + length (panels_of pts))%nat in
    Rabs (value (fold_left (Bplus mode_NE) (panels_of pts) s) - (e + trapezoid (pvals pts)))
      <= growth (n + 4) * (m + magnitude (pvals pts)) + 2 * INR n * tiny * (1 + u) ^ n.
  Proof.
    induction pts as [|(x0, y0) [|(x1, y1) pts] IH]; intros s k e m F Em H.
    1,2: cbn [panels_of fold_left map trapezoid magnitude length fst snd]; rewrite !Rplus_0_r, Nat.add_0_r; exact H.
    change (panels_of ((x0, y0) :: (x1, y1) :: pts)) with (panel x0 x1 y0 y1 :: panels_of ((x1, y1) :: pts)) in *.
    cbn [fold_left] in F. cbn [fold_left length].
    set (E := (value y0 + value y1) / 2 * (value x1 - value x0)).
    change (trapezoid (pvals ((x0, y0) :: (x1, y1) :: pts))) with (E + trapezoid (pvals ((x1, y1) :: pts))).
    change (magnitude (pvals ((x0, y0) :: (x1, y1) :: pts))) with
      (Rabs (value y0 + value y1) / 2 * Rabs (value x1 - value x0) + magnitude (pvals ((x1, y1) :: pts))).
    assert (AE : Rabs (value y0 + value y1) / 2 * Rabs (value x1 - value x0) = Rabs E).
    { unfold E, Rdiv. rewrite !Rabs_mult, (Rabs_right (/ 2)) by lra. reflexivity. }
    rewrite AE, <- !Rplus_assoc.
    pose proof (sum_finite _ _ F) as Fs. destruct (plus_finite _ _ Fs) as (_ & Fp & V).
    pose proof (panel_err _ _ _ _ Fp) as PE. cbv zeta in PE. fold E in PE.
    set (p := panel x0 x1 y0 y1) in *. clearbody p.
    replace (k + S (length (panels_of ((x1, y1) :: pts))))%nat with (S k + length (panels_of ((x1, y1) :: pts)))%nat by lia.
    apply (IH (Bplus mode_NE s p) (S k) (e + E) (m + Rabs E) F).
    - eapply Rle_trans; [apply Rabs_triang|]. lra.
    - unfold value in *. rewrite V. destruct (rounded_plus_ex s p) as (d & Hd & Rd). rewrite Rd.
      replace ((B2R s + B2R p) * (1 + d) - (e + E)) with
        ((B2R s - e) * (1 + d) + (B2R p - E) * (1 + d) + (e + E) * d) by ring.
      pose proof u_pos as U. pose proof tiny_pos as T.
      assert (D : Rabs (1 + d) <= 1 + u).
      { eapply Rle_trans; [apply Rabs_triang|]. rewrite Rabs_R1. lra. }
      assert (M1 : Rabs ((B2R s - e) * (1 + d)) <= (growth (k + 4) * m + 2 * INR k * tiny * (1 + u) ^ k) * (1 + u)).
      { rewrite Rabs_mult. apply Rmult_le_compat; auto using Rabs_pos. }
      assert (M2 : Rabs ((B2R p - E) * (1 + d)) <= (growth 4 * Rabs E + 2 * tiny) * (1 + u)).
      { rewrite Rabs_mult. apply Rmult_le_compat; auto using Rabs_pos. }
      assert (M3 : Rabs ((e + E) * d) <= (m + Rabs E) * u).
      { rewrite Rabs_mult. apply Rmult_le_compat; auto using Rabs_pos.
        eapply Rle_trans; [apply Rabs_triang|]. lra. }
      assert (G : growth 4 * Rabs E <= growth (k + 4) * Rabs E).
      { apply Rmult_le_compat_r; [apply Rabs_pos|]. apply growth_le. lia. }
      assert (P : 2 * tiny * (1 + u) <= 2 * tiny * ((1 + u) * (1 + u) ^ k)).
      { apply Rmult_le_compat_l; [lra|]. pose proof (one_u_pow k).
        rewrite <- (Rmult_1_r (1 + u)) at 1. apply Rmult_le_compat_l; lra. }
      assert (G2 : growth 4 * Rabs E * (1 + u) <= growth (k + 4) * Rabs E * (1 + u)).
      { apply Rmult_le_compat_r; lra. }
      eapply Rle_trans; [apply Rabs_triang|].
      eapply Rle_trans; [apply Rplus_le_compat_r, Rabs_triang|].
      rewrite S_INR. change (S k + 4)%nat with (S (k + 4)). rewrite growth_S. cbn [pow].
      set (g := growth (k + 4)) in *. set (w := (1 + u) ^ k) in *. lra.
  Qed.

  Lemma panels_length pts : length (panels_of pts) = panels (pvals pts).
  Proof.
    unfold panels. rewrite map_length.
    induction pts as [|(x0, y0) [|(x1, y1) pts] IH]; try reflexivity.
    change (S (length (panels_of ((x1, y1) :: pts))) = S (length pts)). rewrite IH. reflexivity.
  Qed.
  Theorem integrate_err (x y : list b64) : finite (integrate x y) ->
    let pts := points x y in let n := panels pts in
    Rabs (value (integrate x y) - trapezoid pts)
      <= growth (n + 4) * magnitude pts + 2 * INR n * tiny * (1 + u) ^ n.
  Proof.
    rewrite integrate_panels. intros F pts n.
    pose proof (sum_err (combine x y) n0 0 0 0 F) as H. cbv zeta in H.
    rewrite Rabs_R0, Rplus_0_l, Rplus_0_l, Nat.add_0_l, panels_length, <- points_map in H.
    apply H; [lra|].
    change (value n0) with (B2R (b64_lit 0 0)).
    assert (Z : B2R (b64_lit 0 0) = 0).
    { assert (Z : B2SF (b64_lit 0 0) = SpecFloat.S754_zero false) by (vm_compute; reflexivity).
      rewrite <- SF2R_B2SF, Z. reflexivity. }
    rewrite Z, Rminus_0_r, Rabs_R0. simpl. lra.
  Qed.
  Theorem average_err (x y : list b64) (t : b64) : finite (n_div (integrate x y) t) -> 0 < value t ->
    let pts := points x y in let n := panels pts in
    Rabs (value (n_div (integrate x y) t) - trapezoid pts / value t)
      <= growth (n + 5) * (magnitude pts / value t)
         + (2 * INR n * (1 + u) ^ (n + 1) / value t + 1) * tiny.
  Proof.
    intros F T pts n. unfold value in *.
    destruct (div_finite _ _ F ltac:(lra)) as (Fi & V). cbn [n_div fops b64_ops] in *. rewrite V.
    pose proof (integrate_err x y Fi) as K. cbv zeta in K. fold pts n in K. unfold value in K.
    set (i := B2R (integrate x y)) in *. set (E := trapezoid pts) in *. set (A := magnitude pts) in *.
    destruct (rounded_ex (i / B2R t)) as (d & h & Hd & Hh & Rd). rewrite Rd.
    set (t' := B2R t) in *.
    assert (EA : Rabs E <= A).
    { unfold E, A. clear. induction pts as [|(x0, y0) [|(x1, y1) pts] IH]; try (simpl; rewrite Rabs_R0; lra).
      change (Rabs ((y0 + y1) / 2 * (x1 - x0) + trapezoid ((x1, y1) :: pts)) <=
              Rabs (y0 + y1) / 2 * Rabs (x1 - x0) + magnitude ((x1, y1) :: pts)).
      eapply Rle_trans; [apply Rabs_triang|]. apply Rplus_le_compat; [|exact IH].
      unfold Rdiv. rewrite !Rabs_mult, (Rabs_right (/ 2)) by lra. lra. }
    assert (IT : 0 < / t') by (apply Rinv_0_lt_compat, T).
    replace (i / t' * (1 + d) + h - E / t') with ((i - E) * (1 + d) * / t' + E * d * / t' + h) by (field; lra).
    pose proof u_pos as U. pose proof tiny_pos as Y.
    assert (D : Rabs (1 + d) <= 1 + u).
    { eapply Rle_trans; [apply Rabs_triang|]. rewrite Rabs_R1. lra. }
    set (B := growth (n + 4) * A + 2 * INR n * tiny * (1 + u) ^ n) in *.
    assert (M1 : Rabs ((i - E) * (1 + d) * / t') <= B * (1 + u) * / t').
    { rewrite Rabs_mult, (Rabs_right (/ t')) by lra. apply Rmult_le_compat_r; [lra|].
      rewrite Rabs_mult. apply Rmult_le_compat; auto using Rabs_pos. }
    assert (M2 : Rabs (E * d * / t') <= A * u * / t').
    { rewrite Rabs_mult, (Rabs_right (/ t')) by lra. apply Rmult_le_compat_r; [lra|].
      rewrite Rabs_mult. apply Rmult_le_compat; auto using Rabs_pos. }
    eapply Rle_trans; [apply Rabs_triang|].
    eapply Rle_trans; [apply Rplus_le_compat_r, Rabs_triang|].
    replace (n + 5)%nat with (S (n + 4)) by lia. rewrite growth_S. replace (n + 1)%nat with (S n) by lia.
    cbn [pow]. unfold B, Rdiv in *. set (g := growth (n + 4)) in *. set (w := (1 + u) ^ n) in *. lra.
  Qed.
End Flt.
