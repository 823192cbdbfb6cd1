(** * In f64 the volumes of the rhombic drive follow the linkage up to rounding *)
From Coq Require Import ZArith NArith List Reals Bool Lra Lia.
From Flocq Require Import Core BinarySingleNaN.
From Verif Require Import Num ModelTypes ModelWs ModelHx ModelStateEq ModelEngine B64 Spec SpecF64 SpecRound SpecBalance
  SpecRange SpecProps SpecAngle SpecDrive SpecLink F64Base F64Err F64Balance F64Norm F64Range F64Props F64PropsCase F64Pi F64Angle F64Order F64Rhombic.
Import ListNotations.
Local Open Scope R_scope.
Local Open Scope bool_scope.
Local Opaque Bplus Bminus Bmult Bdiv Bopp Bsqrt.

Lemma sqrt_near (q y low : R) : 0 <= q -> 0 < low -> low * low <= y -> Rabs (sqrt q - sqrt y) <= Rabs (q - y) / low.
Proof.
  intros Q L Y. assert (Y0 : 0 <= y) by nra. pose proof (sqrt_sqrt q Q) as E1. pose proof (sqrt_sqrt y Y0) as E2.
  pose proof (sqrt_pos q) as P1. pose proof (sqrt_pos y) as P2.
  assert (S : low <= sqrt y) by (rewrite <- (sqrt_square low) by lra; apply sqrt_le_1_alt; exact Y).
  apply (Rmult_le_reg_r low); [exact L|]. unfold Rdiv. rewrite Rmult_assoc, Rinv_l, Rmult_1_r by lra.
  replace (q - y) with ((sqrt q - sqrt y) * (sqrt q + sqrt y)) by (ring_simplify; cbn [pow]; rewrite !Rmult_1_r; lra).
  rewrite Rabs_mult, (Rabs_pos_eq (sqrt q + sqrt y)) by lra. apply Rmult_le_compat_l; [apply Rabs_pos|lra].
Qed.
Lemma abs_minus (a b : R) : Rabs (a - b) <= Rabs a + Rabs b.
Proof. unfold Rminus. eapply Rle_trans; [apply Rabs_triang|]. rewrite Rabs_Ropp. lra. Qed.
Lemma growth_linear (n : nat) : INR n * u <= growth n.
Proof.
  pose proof u_pos. induction n as [|n I]; [unfold growth; cbn; lra|]. rewrite growth_S, S_INR. pose proof (growth_nonneg n).
  assert (0 <= u * growth n) by (apply Rmult_le_pos; lra). lra.
Qed.
Lemma growth_2 : u <= growth 2 /\ (1 + u) * (5 * growth 2) <= growth 11.
Proof.
  pose proof u_pos. pose proof u_small. pose proof (growth_linear 11) as L. cbn [INR] in L. unfold growth at 1 2. cbn [pow].
  assert (u * u <= u * 0.01) by (apply Rmult_le_compat_l; lra). assert (0 <= u * u) by (apply Rmult_le_pos; lra).
  assert (u * u * u <= u * 0.01 * 1) by (apply Rmult_le_compat; lra). split; lra.
Qed.
Lemma tiny_small : tiny <= / 2 ^ 900.
Proof. pose proof (tiny_900 1) as H. rewrite Rmult_1_l in H. apply H. pose proof (pow_mono 0 100 ltac:(lia)). cbn [pow] in *. lra. Qed.

Lemma lim_ext (f g : R -> R) (x l : R) : (forall y, g y = f y) -> derivable_pt_lim f x l -> derivable_pt_lim g x l.
Proof. intros E H eps P. destruct (H eps P) as (del & D). exists del. intros h N B. rewrite !E. exact (D h N B). Qed.

Section Link.
  Variables (lm : Libm) (nan_top : bool).
  Local Instance lops : NumOps b64 := b64_ops lm nan_top.
  Let height (L X : b64) : b64 := n_sqrt (n_sub (powi2 L) (powi2 X)).

  Section Rod.
    Variables (L X : b64) (M Lx Xx low r T : R).
    Hypothesis UL : upto 8 L.
    Hypothesis UX : upto 8 X.
    Hypothesis HX : Rabs (value X) <= value L.
    Hypothesis HL : value L <= M.
    Hypothesis M7 : M <= 128.
    Hypothesis Hlow : / 2 ^ 20 <= low.
    Hypothesis HM : low <= M.
    Hypothesis HLx : 0 <= Lx <= M.
    Hypothesis HXx : Rabs Xx <= M.
    Hypothesis Hy : low * low <= Lx * Lx - Xx * Xx.
    Hypothesis HD : Rabs (value L - Lx) + Rabs (value X - Xx) <= growth 2 * M + r * T + 8 * tiny.
    Hypothesis HT : 0 <= r * T.

    Lemma low_pos : 0 < low.
    Proof. apply Rlt_le_trans with (/ 2 ^ 20); [apply Rinv_0_lt_compat, pow_lt; lra|exact Hlow]. Qed.
    Lemma rod_finite : finite (n_sub (powi2 L) (powi2 X)).
    Proof. eapply upto_finite, u_sub; [eapply u_mul; [exact UL|exact UL|zside]|eapply u_mul; [exact UX|exact UX|zside]|zside]. Qed.
    Let q := value (n_sub (powi2 L) (powi2 X)).
    Let y := Lx * Lx - Xx * Xx.
    Lemma q_parts : q = rounded (rounded (value L * value L) - rounded (value X * value X)) /\ 0 <= q <= rounded (value L * value L).
    Proof.
      destruct (minus_finite _ _ rod_finite) as (F1 & F2 & V). destruct (mult_finite _ _ F1) as (_ & _ & V1). destruct (mult_finite _ _ F2) as (_ & _ & V2).
      assert (S : value X * value X <= value L * value L).
      { rewrite <- (Rabs_pos_eq (value X * value X)) by apply Rle_0_sqr. rewrite Rabs_mult. apply Rmult_le_compat; auto using Rabs_pos. }
      pose proof (rounded_le _ _ S) as S1. assert (S0 : 0 <= rounded (value X * value X)) by (apply rounded_pos, Rle_0_sqr).
      assert (E : q = rounded (rounded (value L * value L) - rounded (value X * value X))).
      { unfold q, value. rewrite <- V1, <- V2. exact V. }
      split; [exact E|]. rewrite E. split.
      - apply rounded_pos. lra.
      - unfold value in *. rewrite <- V1 at 2. apply rounded_le_float. rewrite V1. lra.
    Qed.
    Lemma q_near : Rabs (q - y) <= 2 * growth 2 * (M * M) + 2 * M * (growth 2 * M + r * T) + 5000 * tiny.
    Proof.
      pose proof (tracks_sub _ _ _ _ _ _ _ _ _ rod_finite (fun F => tracks_mul _ _ _ _ _ _ F (fun _ => tracks_exact L))
        (fun F => tracks_mul _ _ _ _ _ _ F (fun _ => tracks_exact X))) as (K & _).
      change (value (Bminus mode_NE (powi2 L) (powi2 X))) with q in K.
      pose proof low_pos. pose proof (Rabs_pos (value X)) as PX. pose proof (growth_nonneg 2) as G. pose proof tiny_pos as TP.
      rewrite (Rabs_pos_eq (value L)) in K by lra.
      assert (B1 : value L * value L <= M * M) by (apply Rmult_le_compat; lra).
      assert (B2 : Rabs (value X) * Rabs (value X) <= M * M) by (apply Rmult_le_compat; lra).
      assert (B3 : growth 2 * (value L * value L + Rabs (value X) * Rabs (value X)) <= growth 2 * (M * M + M * M)) by (apply Rmult_le_compat_l; lra).
      assert (C1 : Rabs (value L * value L - Lx * Lx) <= 2 * M * Rabs (value L - Lx)).
      { replace (value L * value L - Lx * Lx) with ((value L + Lx) * (value L - Lx)) by ring. rewrite Rabs_mult.
        apply Rmult_le_compat_r; [apply Rabs_pos|]. rewrite Rabs_pos_eq by lra. lra. }
      assert (C2 : Rabs (value X * value X - Xx * Xx) <= 2 * M * Rabs (value X - Xx)).
      { replace (value X * value X - Xx * Xx) with ((value X + Xx) * (value X - Xx)) by ring. rewrite Rabs_mult.
        apply Rmult_le_compat_r; [apply Rabs_pos|]. eapply Rle_trans; [apply Rabs_triang|]. lra. }
      assert (C3 : 2 * M * (Rabs (value L - Lx) + Rabs (value X - Xx)) <= 2 * M * (growth 2 * M + r * T + 8 * tiny)) by (apply Rmult_le_compat_l; lra).
      assert (C4 : M * tiny <= 128 * tiny) by (apply Rmult_le_compat_r; lra).
      replace (q - y) with ((q - (value L * value L - value X * value X)) + ((value L * value L - Lx * Lx) - (value X * value X - Xx * Xx))) by (unfold y; ring).
      eapply Rle_trans; [apply Rabs_triang|].
      pose proof (abs_minus (value L * value L - Lx * Lx) (value X * value X - Xx * Xx)) as C5. lra.
    Qed.
    Lemma rod_near : finite (height L X) /\ 0 <= value (height L X) <= 2 * M /\
      Rabs (value (height L X) - sqrt y) <= rod_error M r low T.
    Proof.
      destruct q_parts as (_ & Q0 & Q1). destruct (sqrt_up _ rod_finite Q0) as (F & V).
      change (value (height L X) = rounded (sqrt q)) in V. change (finite (height L X)) in F.
      pose proof low_pos as LP. pose proof u_pos as UP. pose proof u_small as US. pose proof tiny_pos as TP. pose proof tiny_small as TS. pose proof far_900 as FA.
      split; [exact F|].
      assert (SM : sqrt y <= M).
      { rewrite <- (sqrt_square M) by lra. apply sqrt_le_1_alt. unfold y. pose proof (Rle_0_sqr Xx) as S. unfold Rsqr in S.
        assert (Lx * Lx <= M * M) by (apply Rmult_le_compat; lra). lra. }
      destruct (rounded_ex (sqrt q)) as (e & h & He & Hh & E). rewrite E in V.
      pose proof (sqrt_near q y low Q0 LP Hy) as SN. pose proof q_near as QN. pose proof (sqrt_pos y) as PY. pose proof (sqrt_pos q) as PQ.
      assert (L20 : / 2 ^ 20 * 1048576 = 1) by (cbn; lra).
      assert (LL : 1 <= low * 1048576) by lra.
      destruct growth_2 as (G1 & G2). pose proof (growth_nonneg 2) as G.
      split.
      - split.
        + rewrite V, <- E. apply rounded_pos, PQ.
        + destruct (rounded_ex (value L * value L)) as (e' & h' & He' & Hh' & E'). rewrite E' in Q1.
          assert (PL : 0 <= value L) by (pose proof (Rabs_pos (value X)); lra).
          assert (B1 : 0 <= value L * value L <= M * M) by (split; [apply Rle_0_sqr|apply Rmult_le_compat; lra]).
          assert (B2 : value L * value L * (1 + e') <= (M * M) * 1.1).
          { apply Rabs_le_inv in He'. apply Rmult_le_compat; lra. }
          assert (B3 : / 1048576 * / 1048576 <= M * M) by (apply Rmult_le_compat; lra).
          apply Rabs_le_inv in Hh'. apply Rabs_le_inv in He. apply Rabs_le_inv in Hh.
          assert (T2 : tiny <= / 1000000000000000).
          { apply Rle_trans with (/ 2 ^ 60); [unfold tiny; apply Rinv_le_contravar; [apply pow_lt; lra|apply Rle_pow; [lra|lia]]|].
            apply Rinv_le_contravar; [lra|cbn; lra]. }
          assert (B4 : q <= (1.5 * M) * (1.5 * M)) by lra.
          assert (B5 : sqrt q <= 1.5 * M) by (rewrite <- (sqrt_square (1.5 * M)) by lra; apply sqrt_le_1_alt; exact B4).
          assert (B6 : sqrt q * (1 + e) <= 1.5 * M * 1.1) by (apply Rmult_le_compat; lra).
          rewrite V. lra.
      - rewrite V. replace (sqrt q * (1 + e) + h - sqrt y) with ((sqrt q - sqrt y) * (1 + e) + sqrt y * e + h) by ring.
        eapply Rle_trans; [apply Rabs_triang|]. eapply Rle_trans; [apply Rplus_le_compat_r, Rabs_triang|]. rewrite !Rabs_mult.
        rewrite (Rabs_pos_eq (sqrt y)) by exact PY.
        assert (E1 : Rabs (1 + e) <= 1 + u) by (eapply Rle_trans; [apply Rabs_triang|]; rewrite Rabs_R1; lra).
        assert (E2 : sqrt y * Rabs e <= M * u) by (apply Rmult_le_compat; auto using Rabs_pos).
        set (E0 := 2 * growth 2 * (M * M) + 2 * M * (growth 2 * M + r * T) + 5000 * tiny) in QN.
        assert (E3 : Rabs (sqrt q - sqrt y) <= E0 / low).
        { eapply Rle_trans; [exact SN|]. apply Rmult_le_compat_r; [left; apply Rinv_0_lt_compat, LP|exact QN]. }
        assert (E4 : Rabs (sqrt q - sqrt y) * Rabs (1 + e) <= E0 / low * (1 + u)) by (apply Rmult_le_compat; auto using Rabs_pos).
        assert (E5 : M * u <= growth 2 * (M * M) / low).
        { apply (Rmult_le_reg_r low); [exact LP|]. unfold Rdiv. rewrite (Rmult_assoc _ (/ low)), Rinv_l, Rmult_1_r by lra.
          replace (growth 2 * (M * M)) with (M * growth 2 * M) by ring. apply Rmult_le_compat; [apply Rmult_le_pos; lra|lra|apply Rmult_le_compat_l; lra|lra]. }
        assert (E6 : E0 / low * (1 + u) + growth 2 * (M * M) / low <= (growth 11 * (M * M) + 3 * M * r * T) / low + 5000 * (1 + u) * tiny / low).
        { replace (E0 / low * (1 + u) + growth 2 * (M * M) / low) with ((E0 * (1 + u) + growth 2 * (M * M)) * / low) by (field; lra).
          replace ((growth 11 * (M * M) + 3 * M * r * T) / low + 5000 * (1 + u) * tiny / low) with
            ((growth 11 * (M * M) + 3 * M * r * T + 5000 * (1 + u) * tiny) * / low) by (field; lra).
          apply Rmult_le_compat_r; [left; apply Rinv_0_lt_compat, LP|]. unfold E0.
          assert (0 <= M * M) by (apply Rmult_le_pos; lra). assert (0 <= M * (r * T)) by (apply Rmult_le_pos; lra).
          assert (H1 : (1 + u) * (5 * growth 2) * (M * M) <= growth 11 * (M * M)) by (apply Rmult_le_compat_r; lra).
          assert (H2 : u * (M * (r * T)) <= 0.1 * (M * (r * T))) by (apply Rmult_le_compat_r; lra).
          assert (H3 : 0 <= u * (growth 2 * (M * M))) by (apply Rmult_le_pos; [lra|apply Rmult_le_pos; lra]).
          assert (H4 : 0 <= growth 2 * (M * M)) by (apply Rmult_le_pos; lra). lra. }
        assert (E7 : 5000 * (1 + u) * tiny / low <= 10000000000 * tiny).
        { apply (Rmult_le_reg_r low); [exact LP|]. unfold Rdiv. rewrite (Rmult_assoc _ (/ low)), Rinv_l, Rmult_1_r by lra.
          assert (K1 : 5000 * (1 + u) * tiny <= 5001 * tiny) by (apply Rmult_le_compat_r; lra).
          assert (K2 : tiny * 1 <= tiny * (low * 1048576)) by (apply Rmult_le_compat_l; lra). lra. }
        assert (E8 : 10000000001 * tiny <= / 2 ^ 900).
        { apply tiny_900. split; [lra|]. apply Rle_trans with (2 ^ 40); [cbn; lra|apply pow_mono; lia]. }
        unfold rod_error. lra.
    Qed.
  End Rod.

  (** ** Areas and volumes *)
  Let area (D : b64) : b64 := n_div (n_mul n_pi (powi2 D)) (n_lit 4 0).
  Lemma four : value (n_lit 4 0) = 4.
  Proof. exact (proj1 lit_4). Qed.
  Lemma two : value n2 = 2.
  Proof. exact (proj1 lit_2). Qed.
  Lemma disc_nonneg (x : R) : 0 <= disc x.
  Proof. unfold disc. pose proof pi_bounds. pose proof (Rle_0_sqr x) as S. unfold Rsqr in S. assert (0 <= PI * (x * x)) by (apply Rmult_le_pos; lra). lra. Qed.
  Lemma disc_bound (x : R) : Rabs x <= 128 -> disc x <= 16384.
  Proof.
    intros H. unfold disc. pose proof pi_bounds. assert (x * x <= 128 * 128).
    { rewrite <- (Rabs_pos_eq (x * x)) by apply Rle_0_sqr. rewrite Rabs_mult. apply Rmult_le_compat; auto using Rabs_pos. }
    pose proof (Rle_0_sqr x) as S. unfold Rsqr in S.
    assert (PI * (x * x) <= 4 * (128 * 128)) by (apply Rmult_le_compat; lra). lra.
  Qed.
  Lemma area_upto (D : b64) : upto 7 D -> upto 20 (area D).
  Proof.
    intros U. eapply upto_weaken; [eapply u_div; [eapply u_mul; [apply (upto_checked 2); vm_cast_no_check (eq_refl true)|eapply u_mul; [exact U|exact U|zside]|zside]
      |apply (from_checked 2); vm_cast_no_check (eq_refl true)|zside]|zside].
  Qed.
  Lemma track_area (D : b64) : upto 7 D -> tracks (area D) (disc (value D)) (disc (value D)) 4 100.
  Proof.
    intros U. pose proof (upto_finite _ _ (area_upto D U)) as F.
    assert (N : value (n_lit 4 0) <> 0) by (rewrite four; lra).
    assert (A4 : Rabs (value (n_lit 4 0)) = 4) by (rewrite four; apply Rabs_pos_eq; lra).
    eapply tracks_weaken; [|apply le_n|].
    - eapply conv; [exact (tracks_div _ _ _ _ _ _ F N (fun F1 => tracks_mulg _ _ _ _ _ _ _ _ _ _ F1 (fun _ => track_pi)
        (fun F2 => tracks_mul _ _ _ _ _ _ F2 (fun _ => tracks_exact D))))| | |reflexivity].
      + rewrite four. reflexivity.
      + rewrite A4. unfold disc. rewrite <- Rabs_mult, Rabs_pos_eq by apply Rle_0_sqr. reflexivity.
    - rewrite A4. pose proof u_le_1. pose proof u_pos. pose proof pi_bounds. cbn [pow]. rewrite !Rmult_1_r.
      assert (PI * (1 + u) <= 4 * 2) by (apply Rmult_le_compat; lra). lra.
  Qed.
  Lemma diff_track (x y : b64) : finite (n_sub x y) -> tracks (n_sub x y) (value x - value y) (Rabs (value x) + Rabs (value y)) 1 0.
  Proof. intros F. eapply conv; [exact (tracks_sub _ _ _ _ _ _ _ _ _ F (fun _ => tracks_exact x) (fun _ => tracks_exact y))|reflexivity|reflexivity|ring]. Qed.

  Lemma piston_track (D clear b1 b : b64) : upto 7 D -> upto 7 clear -> upto 8 b1 -> upto 8 b ->
    tracks (n_add clear (n_mul (n_mul n2 (area D)) (n_sub b1 b))) (value clear + 2 * disc (value D) * (value b1 - value b))
      (Rabs (value clear) + 2 * disc (value D) * (Rabs (value b1) + Rabs (value b))) 8 (2 ^ 40).
  Proof.
    intros UD UC U1 U2. pose proof (area_upto D UD) as UA.
    assert (U3 : upto 22 (n_mul n2 (area D))) by (eapply upto_weaken; [eapply u_mul; [apply (upto_checked 2); vm_cast_no_check (eq_refl true)|exact UA|zside]|zside]).
    assert (U4 : upto 9 (n_sub b1 b)) by (eapply upto_weaken; [eapply u_sub; [exact U1|exact U2|zside]|zside]).
    assert (U5 : upto 31 (n_mul (n_mul n2 (area D)) (n_sub b1 b))) by (eapply upto_weaken; [eapply u_mul; [exact U3|exact U4|zside]|zside]).
    assert (F : finite (n_add clear (n_mul (n_mul n2 (area D)) (n_sub b1 b)))) by (eapply upto_finite, u_add; [exact UC|exact U5|zside]).
    assert (Q : tracks (n_mul n2 (area D)) (2 * disc (value D)) (2 * disc (value D)) 5 1000).
    { eapply tracks_weaken; [|apply le_n|].
      - eapply conv; [exact (tracks_mul_l _ _ _ _ _ _ (upto_finite _ _ U3) (fun _ => track_area D UD))| | |reflexivity].
        + rewrite two. reflexivity.
        + rewrite two, (Rabs_pos_eq 2) by lra. reflexivity.
      - rewrite two, (Rabs_pos_eq 2) by lra. lra. }
    pose proof (diff_track b1 b (upto_finite _ _ U4)) as K.
    eapply tracks_weaken.
    - apply tracks_add; [exact F|intros _|intros F'].
      + exact (tracks_weaken _ _ _ 0 _ 7 0 (tracks_exact clear) (Nat.le_0_l 7) (Rle_refl 0)).
      + exact (tracks_mul2 _ _ _ _ _ _ _ _ _ F' (fun _ => Q) (fun _ => K)).
    - apply le_n.
    - destruct U1 as (_ & B1). destruct U2 as (_ & B2). change (bpow radix2 8) with 256 in B1, B2.
      pose proof u_le_1. pose proof u_pos. cbn [pow]. rewrite !Rmult_1_r.
      pose proof (Rabs_pos (value b1)). pose proof (Rabs_pos (value b)).
      assert ((Rabs (value b1) + Rabs (value b)) * (1 + u) <= 512 * 2) by (apply Rmult_le_compat; lra). lra.
  Qed.
  Lemma displacer_track (D clear b b2 r s : b64) : upto 7 D -> upto 7 clear -> upto 8 b -> upto 8 b2 -> upto 7 r -> upto 0 s ->
    tracks (n_add clear (n_mul (area D) (n_sub (n_sub b b2) (n_mul r s))))
      (value clear + disc (value D) * ((value b - value b2) - value r * value s))
      (Rabs (value clear) + disc (value D) * ((Rabs (value b) + Rabs (value b2)) + Rabs (value r) * Rabs (value s))) 8 (2 ^ 40).
  Proof.
    intros UD UC U1 U2 UR US. pose proof (area_upto D UD) as UA.
    assert (U3 : upto 9 (n_sub b b2)) by (eapply upto_weaken; [eapply u_sub; [exact U1|exact U2|zside]|zside]).
    assert (U4 : upto 7 (n_mul r s)) by (eapply upto_weaken; [eapply u_mul; [exact UR|exact US|zside]|zside]).
    assert (U5 : upto 10 (n_sub (n_sub b b2) (n_mul r s))) by (eapply upto_weaken; [eapply u_sub; [exact U3|exact U4|zside]|zside]).
    assert (U6 : upto 30 (n_mul (area D) (n_sub (n_sub b b2) (n_mul r s)))) by (eapply upto_weaken; [eapply u_mul; [exact UA|exact U5|zside]|zside]).
    assert (F : finite (n_add clear (n_mul (area D) (n_sub (n_sub b b2) (n_mul r s))))) by (eapply upto_finite, u_add; [exact UC|exact U6|zside]).
    assert (K : tracks (n_sub (n_sub b b2) (n_mul r s)) ((value b - value b2) - value r * value s)
      ((Rabs (value b) + Rabs (value b2)) + Rabs (value r) * Rabs (value s)) 2 2).
    { eapply conv; [exact (tracks_sub _ _ _ _ _ _ _ _ _ (upto_finite _ _ U5) (fun F1 => diff_track b b2 F1)
        (fun F2 => tracks_mul _ _ _ _ _ _ F2 (fun _ => tracks_exact r)))|reflexivity|reflexivity|ring]. }
    eapply tracks_weaken.
    - apply tracks_add; [exact F|intros _|intros F'].
      + exact (tracks_weaken _ _ _ 0 _ 7 0 (tracks_exact clear) (Nat.le_0_l 7) (Rle_refl 0)).
      + exact (tracks_mulg _ _ _ _ _ _ _ _ _ _ F' (fun _ => track_area D UD) (fun _ => K)).
    - apply le_n.
    - destruct U1 as (_ & B1). destruct U2 as (_ & B2). destruct UR as (_ & BR). destruct US as (_ & BS). destruct UD as (_ & BD).
      change (bpow radix2 8) with 256 in B1, B2. change (bpow radix2 7) with 128 in BR, BD. change (bpow radix2 0) with 1 in BS.
      pose proof u_le_1. pose proof u_pos.
      pose proof (Rabs_pos (value b)). pose proof (Rabs_pos (value b2)). pose proof (Rabs_pos (value r)). pose proof (Rabs_pos (value s)).
      assert (P : Rabs (value r) * Rabs (value s) <= 128 * 1) by (apply Rmult_le_compat; lra).
      assert (P0 : 0 <= Rabs (value r) * Rabs (value s)) by (apply Rmult_le_pos; lra).
      assert (G2 : 0 <= (1 + u) ^ 2 <= 4) by (cbn [pow]; nra). assert (G4 : 0 <= (1 + u) ^ 4 <= 16) by (replace ((1 + u) ^ 4) with ((1 + u) ^ 2 * (1 + u) ^ 2) by ring; nra).
      assert (W1 : ((Rabs (value b) + Rabs (value b2)) + Rabs (value r) * Rabs (value s)) * (1 + u) ^ 2 <= 640 * 4) by (apply Rmult_le_compat; lra).
      pose proof (disc_nonneg (value D)). pose proof (disc_bound (value D) BD).
      assert (W2 : disc (value D) * (1 + u) ^ 4 <= 16384 * 16) by (apply Rmult_le_compat; lra).
      replace (2 ^ 40) with 1099511627776 by (cbn; lra). lra.
  Qed.

  (** ** The drive *)
  Section Drive.
    Variables (eps low : R) (d : RhombicDrive b64) (t : b64).
    Hypothesis HC : cosine_bounded lm.
    Hypothesis HS : sine_bounded lm.
    Hypothesis HA : trig_accurate lm eps.
    Hypothesis HO : ordinary_rhombic d low.
    Hypothesis UT : upto 40 t.
    Let e := rg_eccentricity (rd_geometry d).
    Let r := rg_r_crank (rd_geometry d).
    Let l := rg_L_conn (rd_geometry d).
    Let f := rd_frequency d.
    Let theta := n_mul (n_mul (n_mul n2 n_pi) f) t.
    Let T := trig_error eps (value f) (value t) 0.
    Let a := turn_angle (value f) (value t).

    Lemma sizes : upto 20 f /\ upto 7 e /\ upto 7 r /\ upto 7 l.
    Proof.
      destruct HO as (UF & G & _). inversion_clear G as [|? ? U1 G1]. inversion_clear G1 as [|? ? U2 G2]. inversion_clear G2 as [|? ? U3 G3].
      split; [exact UF|]. split; [exact U1|]. split; [exact U2|exact U3].
    Qed.
    Lemma geometry : 0 <= value e /\ 0 <= value r /\ value e + value r <= value l /\ 0 < low /\ / 2 ^ 20 <= low /\ low <= value l /\ value l <= 128 /\
      low * low + value e * value e <= (value l - value r) * (value l - value r).
    Proof.
      destruct HO as (_ & _ & E & R & L & H). fold e in E, H. fold r l in R, H.
      assert (P : 0 < low) by (apply Rlt_le_trans with (/ 2 ^ 20); [apply Rinv_0_lt_compat, pow_lt; lra|exact L]).
      destruct sizes as (_ & _ & _ & _ & B). change (bpow radix2 7) with 128 in B. apply Rabs_le_inv in B.
      assert (K : value e <= value l - value r) by (apply Rnot_lt_le; intros N; nra).
      assert (K2 : low <= value l - value r) by (apply Rnot_lt_le; intros N; nra).
      repeat split; lra.
    Qed.
    Lemma trig_off : finite theta /\ Rabs (value (n_cos theta) - cos a) <= T /\ Rabs (value (n_sin theta) - sin a) <= T.
    Proof.
      destruct sizes as (UF & _). pose proof (upto_finite _ _ (theta_upto lm nan_top f t UF UT)) as F.
      pose proof (angle_comp lm nan_top f t UF UT) as A.
      assert (ET : T = eps + (growth 4 * (2 * PI * Rabs (value f * value t)) + / 2 ^ 900)).
      { unfold T, trig_error. rewrite Rabs_R0. replace (0 * PI / 180) with 0 by lra. ring. }
      assert (EA : a = crank_angle (value f) (value t) 0) by (unfold a, turn_angle, crank_angle; lra).
      rewrite EA, ET. split; [exact F|]. split; [exact (cos_error lm nan_top eps HA _ _ _ F A)|exact (sin_error lm nan_top eps HA _ _ _ F A)].
    Qed.
    Lemma T_pos : 0 <= T.
    Proof. destruct trig_off as (_ & H & _). pose proof (Rabs_pos (value (n_cos theta) - cos a)). lra. Qed.

    Let arm := n_add e (n_mul r (n_cos theta)).
    Lemma arm_facts : upto 8 arm /\ Rabs (value arm) <= value l /\ Rabs (value arm - (value e + value r * cos a)) <= growth 2 * value l + value r * T + 8 * tiny.
    Proof.
      destruct sizes as (_ & Ue & Ur & Ul). destruct trig_off as (FT & HT & _). destruct geometry as (E0 & R0 & ER & _). destruct (HC theta FT) as (FC & BC).
      pose proof (unit_upto _ FC BC) as UK.
      assert (U1 : upto 7 (n_mul r (n_cos theta))) by (eapply upto_weaken; [eapply u_mul; [exact Ur|exact UK|zside]|zside]).
      assert (U2 : upto 8 arm) by (eapply upto_weaken; [eapply u_add; [exact Ue|exact U1|zside]|zside]).
      destruct (swing r _ (upto_finite _ _ Ur) R0 FC BC) as (F1 & S1).
      destruct (plus_finite _ _ (upto_finite _ _ U2)) as (_ & _ & V).
      split; [exact U2|]. split.
      - change (value arm = rounded (B2R e + B2R (Bmult mode_NE r (lm_cos lm theta)))) in V. apply Rabs_le. rewrite V.
        change (- B2R r <= B2R (Bmult mode_NE r (lm_cos lm theta)) <= B2R r) in S1.
        destruct (opp_float l (upto_finite _ _ Ul)) as (_ & OV). unfold value in *. rewrite <- OV. split; [apply rounded_ge; rewrite OV; lra|apply rounded_le_float; lra].
      - pose proof (tracks_add _ _ _ _ _ _ _ _ _ (upto_finite _ _ U2)
          (fun _ => tracks_weaken _ _ _ 0 _ 1 0 (tracks_exact e) (Nat.le_0_l 1) (Rle_refl 0))
          (fun F => tracks_mul _ _ _ _ _ _ F (fun _ => tracks_exact r))) as (K & _).
        change (Rabs (value arm - (value e + value r * value (n_cos theta))) <= growth 2 * (Rabs (value e) + Rabs (value r) * Rabs (value (n_cos theta)))
          + 2 * (0 + (2 * 0 * Rabs (value (n_cos theta)) + 1)) * tiny) in K.
        assert (CU : Rabs (value (n_cos theta)) <= 1) by (apply Rabs_le; exact BC).
        rewrite (Rabs_pos_eq (value e)), (Rabs_pos_eq (value r)) in K by assumption. pose proof (growth_nonneg 2). pose proof tiny_pos.
        assert (B1 : value r * Rabs (value (n_cos theta)) <= value r * 1) by (apply Rmult_le_compat_l; lra).
        assert (B2 : growth 2 * (value e + value r * Rabs (value (n_cos theta))) <= growth 2 * value l) by (apply Rmult_le_compat_l; lra).
        assert (B3 : Rabs (value r * (value (n_cos theta) - cos a)) <= value r * T).
        { rewrite Rabs_mult, (Rabs_pos_eq (value r)) by assumption. apply Rmult_le_compat_l; assumption. }
        replace (value arm - (value e + value r * cos a)) with ((value arm - (value e + value r * value (n_cos theta))) + value r * (value (n_cos theta) - cos a)) by ring.
        eapply Rle_trans; [apply Rabs_triang|]. lra.
    Qed.
    Lemma reach (x : R) : Rabs x <= value e + value r -> low * low <= value l * value l - x * x.
    Proof.
      intros H. destruct geometry as (E0 & R0 & ER & LP & _ & _ & _ & G).
      assert (x * x <= (value e + value r) * (value e + value r)).
      { rewrite <- (Rabs_pos_eq (x * x)) by apply Rle_0_sqr. rewrite Rabs_mult. apply Rmult_le_compat; auto using Rabs_pos. }
      nra.
    Qed.
    Lemma moving_rod : upto 8 (height l arm) /\ Rabs (value (height l arm)) <= 2 * value l /\
      Rabs (value (height l arm) - sqrt (value l * value l - (value e + value r * cos a) * (value e + value r * cos a))) <= rod_error (value l) (value r) low T.
    Proof.
      destruct sizes as (_ & Ue & Ur & Ul). destruct geometry as (E0 & R0 & ER & LP & L20 & LM & M7 & G). destruct arm_facts as (U & B & N).
      pose proof T_pos as TP. pose proof (COS_bound a) as CB.
      assert (X : Rabs (value e + value r * cos a) <= value e + value r).
      { apply Rabs_le. assert (value r * -1 <= value r * cos a <= value r * 1) by (split; apply Rmult_le_compat_l; lra). lra. }
      destruct (rod_near l arm (value l) (value l) (value e + value r * cos a) low (value r) T) as (F & H & K); try assumption; try lra.
      - exact (upto_weaken 7 8 _ Ul ltac:(lia)).
      - apply reach, X.
      - rewrite Rminus_eq_0, Rabs_R0. lra.
      - apply Rmult_le_pos; assumption.
      - rewrite Rabs_pos_eq by lra. split; [|split; [lra|exact K]]. split; [exact F|]. change (bpow radix2 8) with 256. rewrite Rabs_pos_eq by lra. lra.
    Qed.
    Lemma inner_rod : upto 8 (height l (n_sub e r)) /\ Rabs (value (height l (n_sub e r))) <= 2 * value l /\
      Rabs (value (height l (n_sub e r)) - sqrt (value l * value l - (value e - value r) * (value e - value r))) <= rod_error (value l) (value r) low 0.
    Proof.
      destruct sizes as (_ & Ue & Ur & Ul). destruct geometry as (E0 & R0 & ER & LP & L20 & LM & M7 & G).
      assert (U : upto 8 (n_sub e r)) by (eapply upto_weaken; [eapply u_sub; [exact Ue|exact Ur|zside]|zside]).
      destruct (minus_finite _ _ (upto_finite _ _ U)) as (_ & _ & V). change (value (n_sub e r) = rounded (value e - value r)) in V.
      assert (X : Rabs (value e - value r) <= value e + value r) by (apply Rabs_le; lra).
      destruct (rounded_ex (value e - value r)) as (x & h & Hx & Hh & EX). destruct growth_2 as (G1 & _). pose proof tiny_pos. pose proof u_pos.
      destruct (rod_near l (n_sub e r) (value l) (value l) (value e - value r) low (value r) 0) as (F & H' & K); try assumption; try lra.
      - exact (upto_weaken 7 8 _ Ul ltac:(lia)).
      - rewrite V. destruct (opp_float l (upto_finite _ _ Ul)) as (_ & OV). apply Rabs_le. unfold value in *. rewrite <- OV.
        split; [apply rounded_ge; rewrite OV; lra|apply rounded_le_float; lra].
      - apply reach, X.
      - rewrite Rminus_eq_0, Rabs_R0, V, EX. replace ((value e - value r) * (1 + x) + h - (value e - value r)) with (x * (value e - value r) + h) by ring.
        pose proof (Rabs_triang (x * (value e - value r)) h) as TR. rewrite Rabs_mult in TR.
        assert (Rabs x * Rabs (value e - value r) <= growth 2 * value l) by (apply Rmult_le_compat; auto using Rabs_pos; lra). lra.
      - rewrite Rabs_pos_eq by lra. split; [|split; [lra|exact K]]. split; [exact F|]. change (bpow radix2 8) with 256. rewrite Rabs_pos_eq by lra. lra.
    Qed.
    Lemma offset_rod : upto 8 (height (n_sub l r) e) /\ Rabs (value (height (n_sub l r) e)) <= 2 * value l /\
      Rabs (value (height (n_sub l r) e) - sqrt ((value l - value r) * (value l - value r) - value e * value e)) <= rod_error (value l) (value r) low 0.
    Proof.
      destruct sizes as (_ & Ue & Ur & Ul). destruct geometry as (E0 & R0 & ER & LP & L20 & LM & M7 & G).
      assert (U : upto 8 (n_sub l r)) by (eapply upto_weaken; [eapply u_sub; [exact Ul|exact Ur|zside]|zside]).
      destruct (minus_finite _ _ (upto_finite _ _ U)) as (_ & _ & V). change (value (n_sub l r) = rounded (value l - value r)) in V.
      destruct (rounded_ex (value l - value r)) as (x & h & Hx & Hh & EX). destruct growth_2 as (G1 & _). pose proof tiny_pos. pose proof u_pos.
      destruct (rod_near (n_sub l r) e (value l) (value l - value r) (value e) low (value r) 0) as (F & H' & K); try assumption; try lra.
      - exact (upto_weaken 7 8 _ Ue ltac:(lia)).
      - rewrite V, Rabs_pos_eq by assumption. unfold value in *. apply rounded_ge. lra.
      - rewrite V. unfold value in *. apply rounded_le_float. lra.
      - rewrite Rabs_pos_eq; lra.
      - rewrite Rminus_eq_0, Rabs_R0, V, EX. replace ((value l - value r) * (1 + x) + h - (value l - value r)) with (x * (value l - value r) + h) by ring.
        pose proof (Rabs_triang (x * (value l - value r)) h) as TR. rewrite Rabs_mult, (Rabs_pos_eq (value l - value r)) in TR by lra.
        assert (Rabs x * (value l - value r) <= growth 2 * value l) by (apply Rmult_le_compat; auto using Rabs_pos; lra). lra.
      - rewrite Rabs_pos_eq by lra. split; [|split; [lra|exact K]]. split; [exact F|]. change (bpow radix2 8) with 256. rewrite Rabs_pos_eq by lra. lra.
    Qed.

    Lemma yokes (angle above below : R) : linkage (value e) (value r) (value l) angle above below ->
      let b := sqrt (value l * value l - (value e + value r * cos angle) * (value e + value r * cos angle)) in
      above = value r * sin angle + b /\ below = value r * sin angle - b.
    Proof.
      intros (H1 & H2 & H3) b. unfold b. split.
      - rewrite <- H1. replace ((value e + value r * cos angle) * (value e + value r * cos angle) + (above - value r * sin angle) * (above - value r * sin angle)
          - (value e + value r * cos angle) * (value e + value r * cos angle)) with ((above - value r * sin angle) * (above - value r * sin angle)) by ring.
        rewrite sqrt_square by lra. ring.
      - rewrite <- H2. replace ((value e + value r * cos angle) * (value e + value r * cos angle) + (below - value r * sin angle) * (below - value r * sin angle)
          - (value e + value r * cos angle) * (value e + value r * cos angle)) with ((value r * sin angle - below) * (value r * sin angle - below)) by ring.
        rewrite sqrt_square by lra. ring.
    Qed.
    (** the linkage the volumes are compared with exists *)
    Lemma linkage_exists (angle : R) : exists above below, linkage (value e) (value r) (value l) angle above below.
    Proof.
      destruct geometry as (E0 & R0 & ER & LP & _). pose proof (COS_bound angle) as CB.
      set (x := value e + value r * cos angle).
      assert (X : Rabs x <= value e + value r).
      { apply Rabs_le. unfold x. assert (value r * -1 <= value r * cos angle <= value r * 1) by (split; apply Rmult_le_compat_l; lra). lra. }
      pose proof (reach x X) as Y. set (y := value l * value l - x * x) in *. assert (Y0 : 0 < y) by nra.
      pose proof (sqrt_lt_R0 y Y0) as P. pose proof (sqrt_sqrt y ltac:(lra)) as S.
      exists (value r * sin angle + sqrt y), (value r * sin angle - sqrt y). unfold linkage. cbv zeta. fold x.
      replace (value r * sin angle + sqrt y - value r * sin angle) with (sqrt y) by ring.
      replace ((value r * sin angle - sqrt y - value r * sin angle) * (value r * sin angle - sqrt y - value r * sin angle)) with (sqrt y * sqrt y) by ring.
      rewrite S. split; [unfold y; ring|]. split; [unfold y; ring|]. lra.
    Qed.
    Lemma highest_exists : exists highest, highest <= 0 /\
      value e * value e + highest * highest = (value l - value r) * (value l - value r).
    Proof.
      destruct geometry as (E0 & R0 & ER & LP & _ & _ & _ & G). assert (Y : 0 <= (value l - value r) * (value l - value r) - value e * value e) by nra.
      exists (- sqrt ((value l - value r) * (value l - value r) - value e * value e)).
      pose proof (sqrt_pos ((value l - value r) * (value l - value r) - value e * value e)). pose proof (sqrt_sqrt _ Y). split; lra.
    Qed.
    Theorem linkage_volumes : near_linkage eps d low t (rh_volumes d t).
    Proof.
      unfold near_linkage. cbv zeta. fold e r l f. fold T a. intros above below above' below' highest K1 K2 H0 H1.
      destruct HO as (_ & G & _). do 3 apply Forall_inv_tail in G. pose proof (Forall_inv G) as Up. apply Forall_inv_tail in G. pose proof (Forall_inv G) as Ud.
      apply Forall_inv_tail in G. pose proof (Forall_inv G) as Uc. apply Forall_inv_tail in G. pose proof (Forall_inv G) as Ue'.
      destruct sizes as (_ & Ue & Ur & Ul). destruct geometry as (E0 & R0 & ER & LP & L20 & LM & M7 & _).
      destruct (yokes _ _ _ K1) as (A1 & B1). destruct (yokes _ _ _ K2) as (A2 & B2). fold a in A1, B1.
      rewrite cos_PI, sin_PI in A2, B2. replace (value e + value r * -1) with (value e - value r) in A2, B2 by ring.
      assert (A3 : highest = - sqrt ((value l - value r) * (value l - value r) - value e * value e)).
      { rewrite <- H1. replace (value e * value e + highest * highest - value e * value e) with ((- highest) * (- highest)) by ring. rewrite sqrt_square by lra. ring. }
      destruct moving_rod as (U1 & S1 & N1). destruct inner_rod as (U2 & S2 & N2). destruct offset_rod as (U3 & S3 & N3).
      destruct trig_off as (FT & _ & HT). destruct (HS theta FT) as (FS & BS). pose proof (unit_upto _ FS BS) as US. change (upto 0 (n_sin theta)) in US.
      assert (SU : Rabs (value (n_sin theta)) <= 1) by (apply Rabs_le; exact BS).
      pose proof (of_track 8 _ _ _ _ (pow_mono 40 100 ltac:(lia)) (piston_track _ _ _ _ Up Uc U2 U1)) as P1.
      pose proof (of_track 8 _ _ _ _ (pow_mono 40 100 ltac:(lia)) (displacer_track _ _ _ _ _ _ Ud Ue' U1 U3 Ur US)) as P2.
      unfold nearly in P1, P2. pose proof (growth_nonneg 8) as G8.
      set (b := sqrt (value l * value l - (value e + value r * cos a) * (value e + value r * cos a))) in *.
      set (b1 := sqrt (value l * value l - (value e - value r) * (value e - value r))) in *.
      set (b2 := sqrt ((value l - value r) * (value l - value r) - value e * value e)) in *.
      set (hb := height l arm) in *. set (hb1 := height l (n_sub e r)) in *. set (hb2 := height (n_sub l r) e) in *.
      set (Ap := disc (value (rg_D_p (rd_geometry d)))) in *. set (Ad := disc (value (rg_D_d (rd_geometry d)))) in *.
      assert (AP : 0 <= Ap) by apply disc_nonneg. assert (AD : 0 <= Ad) by apply disc_nonneg.
      subst above below above' below' highest. split.
      - match type of P1 with Rabs (value ?v - _) <= _ => change (v_value (fst (rh_volumes d t))) with v; set (V := v) in * end.
        set (c := value (rd_V_clearance_c d)) in *.
        replace (value V - (c + Ap * (value r * 0 + b1 - (value r * 0 - b1) - (value r * sin a + b - (value r * sin a - b))))) with
          ((value V - (c + 2 * Ap * (value hb1 - value hb))) + (2 * Ap) * ((value hb1 - b1) - (value hb - b))) by ring.
        eapply Rle_trans; [apply Rabs_triang|]. rewrite (Rabs_mult (2 * Ap)), (Rabs_pos_eq (2 * Ap)) by lra.
        pose proof (abs_minus (value hb1 - b1) (value hb - b)) as AM.
        assert (Q1 : 2 * Ap * Rabs ((value hb1 - b1) - (value hb - b)) <= 2 * Ap * (rod_error (value l) (value r) low 0 + rod_error (value l) (value r) low T))
          by (apply Rmult_le_compat_l; lra).
        assert (Q2 : 2 * Ap * (Rabs (value hb1) + Rabs (value hb)) <= 2 * Ap * (4 * value l)) by (apply Rmult_le_compat_l; lra).
        assert (Q3 : growth 8 * (Rabs c + 2 * Ap * (Rabs (value hb1) + Rabs (value hb))) <= growth 8 * (Rabs c + 8 * Ap * value l)) by (apply Rmult_le_compat_l; lra).
        lra.
      - match type of P2 with Rabs (value ?v - _) <= _ => change (v_value (snd (rh_volumes d t))) with v; set (V := v) in * end.
        set (c := value (rd_V_clearance_e d)) in *.
        replace (value V - (c + Ad * (- b2 - (value r * sin a - b)))) with
          ((value V - (c + Ad * ((value hb - value hb2) - value r * value (n_sin theta)))) + Ad * (((value hb - b) - (value hb2 - b2)) - value r * (value (n_sin theta) - sin a))) by ring.
        eapply Rle_trans; [apply Rabs_triang|]. rewrite (Rabs_mult Ad), (Rabs_pos_eq Ad) by lra.
        pose proof (abs_minus ((value hb - b) - (value hb2 - b2)) (value r * (value (n_sin theta) - sin a))) as AM.
        pose proof (abs_minus (value hb - b) (value hb2 - b2)) as AM2.
        rewrite (Rabs_mult (value r)), (Rabs_pos_eq (value r)) in AM by lra.
        assert (Q0 : value r * Rabs (value (n_sin theta) - sin a) <= value r * T) by (apply Rmult_le_compat_l; lra).
        assert (Q1 : Ad * Rabs (((value hb - b) - (value hb2 - b2)) - value r * (value (n_sin theta) - sin a)) <=
          Ad * (rod_error (value l) (value r) low 0 + rod_error (value l) (value r) low T + value r * T)) by (apply Rmult_le_compat_l; lra).
        assert (Q4 : Rabs (value r) * Rabs (value (n_sin theta)) <= value l * 1) by (rewrite (Rabs_pos_eq (value r)) by lra; apply Rmult_le_compat; auto using Rabs_pos; lra).
        assert (Q2 : Ad * (Rabs (value hb) + Rabs (value hb2) + Rabs (value r) * Rabs (value (n_sin theta))) <= Ad * (8 * value l)) by (apply Rmult_le_compat_l; lra).
        assert (Q3 : growth 8 * (Rabs c + Ad * (Rabs (value hb) + Rabs (value hb2) + Rabs (value r) * Rabs (value (n_sin theta)))) <= growth 8 * (Rabs c + 8 * Ad * value l))
          by (apply Rmult_le_compat_l; lra).
        lra.
    Qed.

    (** ** Rates *)
    Hypothesis HR : ordinary_rates d low T.
    Let b := height l arm.
    Let s := n_sin theta.
    Let c := n_cos theta.
    Let A_p := area (rg_D_p (rd_geometry d)).
    Let A_d := area (rg_D_d (rd_geometry d)).
    Let Y := n_mul n2 A_p.
    Let N := n_mul (n_opp n2) A_p.
    Let omega := n_mul (n_mul n2 n_pi) f.
    Let dVc := n_div (n_mul (n_mul (n_mul N r) s) arm) b.
    Let dVe := n_sub (n_opp (n_div (n_mul dVc A_d) Y)) (n_mul (n_mul A_d r) c).
    Let ap := disc (value (rg_D_p (rd_geometry d))).
    Let ad := disc (value (rg_D_d (rd_geometry d))).
    Let slope := value s * value arm / value b.
    Let x := value e + value r * cos a.
    Let bx := sqrt (value l * value l - x * x).

    Lemma rod_low : low <= bx /\ low / 2 <= value b /\ Rabs (value b - bx) <= rod_error (value l) (value r) low T.
    Proof.
      destruct geometry as (E0 & R0 & ER & LP & L20 & LM & M7 & G). destruct moving_rod as (_ & _ & K). destruct HR as (_ & B). fold l r in B.
      pose proof (COS_bound a) as CB.
      assert (X : Rabs x <= value e + value r).
      { apply Rabs_le. unfold x. assert (value r * -1 <= value r * cos a <= value r * 1) by (split; apply Rmult_le_compat_l; lra). lra. }
      pose proof (reach x X) as Q. assert (LB : low <= bx) by (unfold bx; rewrite <- (sqrt_square low) by lra; apply sqrt_le_1_alt; exact Q).
      change (Rabs (value b - bx) <= rod_error (value l) (value r) low T) in K.
      split; [exact LB|]. split; [|exact K]. apply Rabs_le_inv in K. lra.
    Qed.
    Lemma low_inv : / low <= 1048576.
    Proof.
      destruct geometry as (_ & _ & _ & LP & L20 & _). apply (Rmult_le_reg_l low); [exact LP|]. rewrite Rinv_r by lra.
      replace (/ 2 ^ 20) with (1 / 1048576) in L20 by (cbn; lra). lra.
    Qed.
    Lemma b_inv : 0 < value b /\ / Rabs (value b) <= 2 / low.
    Proof.
      destruct geometry as (_ & _ & _ & LP & _). destruct rod_low as (_ & B & _). split; [lra|]. rewrite Rabs_pos_eq by lra.
      replace (2 / low) with (/ (low / 2)) by (field; lra). apply Rinv_le_contravar; lra.
    Qed.
    Lemma pieces : Rabs (value s) <= 1 /\ Rabs (value c) <= 1 /\ Rabs (value arm) <= value l /\ upto 0 s /\ upto 0 c.
    Proof.
      destruct trig_off as (FT & _). destruct (HS theta FT) as (FS & BS). destruct (HC theta FT) as (FC & BC).
      pose proof (unit_upto _ FS BS) as US. pose proof (unit_upto _ FC BC) as UC. destruct arm_facts as (_ & B & _).
      split; [apply Rabs_le; exact BS|]. split; [apply Rabs_le; exact BC|]. split; [exact B|]. split; [exact US|exact UC].
    Qed.
    Lemma slope_near : Rabs (slope - sin a * x / bx) <= slope_error (value l) (value r) low T.
    Proof.
      destruct geometry as (E0 & R0 & ER & LP & L20 & LM & M7 & G). destruct rod_low as (B0 & B1 & B2). destruct pieces as (P1 & _ & P2 & _).
      destruct trig_off as (_ & _ & HT). fold s in HT. destruct arm_facts as (_ & _ & AN). fold x in AN. pose proof (SIN_bound a) as SB. pose proof (COS_bound a) as CB. pose proof T_pos as TP.
      assert (X : Rabs x <= value l).
      { apply Rabs_le. unfold x. assert (value r * -1 <= value r * cos a <= value r * 1) by (split; apply Rmult_le_compat_l; lra). lra. }
      assert (S1 : Rabs (sin a) <= 1) by (apply Rabs_le; lra).
      assert (BP : 0 < value b) by lra. assert (XP : 0 < bx) by lra.
      replace (slope - sin a * x / bx) with (((value s - sin a) * value arm + sin a * (value arm - x) - sin a * x / bx * (value b - bx)) / value b)
        by (unfold slope; field; lra).
      destruct b_inv as (_ & BI). unfold Rdiv at 1. rewrite Rabs_mult, Rabs_inv. 
      assert (Q1 : Rabs ((value s - sin a) * value arm) <= T * value l) by (rewrite Rabs_mult; apply Rmult_le_compat; auto using Rabs_pos).
      assert (T8 : 8 * tiny <= / 2 ^ 900) by (apply tiny_900; split; [lra|]; apply Rle_trans with (2 ^ 3); [cbn; lra|apply pow_mono; lia]).
      assert (Q2 : Rabs (sin a * (value arm - x)) <= 1 * (growth 2 * value l + value r * T + / 2 ^ 900)).
      { rewrite Rabs_mult. apply Rmult_le_compat; auto using Rabs_pos. lra. }
      assert (XI : / bx <= / low) by (apply Rinv_le_contravar; lra). assert (IP : 0 < / bx) by (apply Rinv_0_lt_compat; lra).
      assert (Q3 : Rabs (sin a * x / bx * (value b - bx)) <= value l * / low * rod_error (value l) (value r) low T).
      { rewrite Rabs_mult. apply Rmult_le_compat; auto using Rabs_pos. unfold Rdiv. rewrite Rabs_mult, Rabs_inv, (Rabs_pos_eq bx) by lra.
        apply Rmult_le_compat; auto using Rabs_pos; [lra|]. rewrite Rabs_mult. pose proof (Rmult_le_compat _ _ _ _ (Rabs_pos (sin a)) (Rabs_pos x) S1 X). lra. }
      unfold slope_error. replace (2 * (value l * T + (growth 2 * value l + value r * T + / 2 ^ 900) + value l * rod_error (value l) (value r) low T / low) / low)
        with ((value l * T + (growth 2 * value l + value r * T + / 2 ^ 900) + value l * / low * rod_error (value l) (value r) low T) * (2 / low)) by (field; lra).
      apply Rmult_le_compat; [apply Rabs_pos|left; apply Rinv_0_lt_compat, Rabs_pos_lt; lra| |exact BI].
      pose proof (abs_minus ((value s - sin a) * value arm + sin a * (value arm - x)) (sin a * x / bx * (value b - bx))) as A1.
      pose proof (Rabs_triang ((value s - sin a) * value arm) (sin a * (value arm - x))) as A2. lra.
    Qed.
    Lemma drive_sizes : upto 7 (rg_D_p (rd_geometry d)) /\ upto 7 (rg_D_d (rd_geometry d)) /\ upto 20 A_p /\ upto 20 A_d /\ upto 22 Y /\ upto 22 N /\ upto 25 omega /\
      from (-21) b /\ upto 8 b /\ upto 7 arm.
    Proof.
      destruct HO as (UF & G & _). do 3 apply Forall_inv_tail in G. pose proof (Forall_inv G) as Up. apply Forall_inv_tail in G. pose proof (Forall_inv G) as Ud.
      pose proof (area_upto _ Up) as U1. pose proof (area_upto _ Ud) as U2.
      assert (U22 : upto 2 n2) by (apply (upto_checked 2); vm_cast_no_check (eq_refl true)).
      assert (U3 : upto 22 Y) by (eapply upto_weaken; [eapply u_mul; [exact U22|exact U1|zside]|zside]).
      assert (U4 : upto 22 N) by (eapply upto_weaken; [eapply u_mul; [apply u_opp; exact U22|exact U1|zside]|zside]).
      destruct rod_low as (_ & B & _). destruct geometry as (_ & _ & _ & LP & L20 & _ & M7 & _). destruct moving_rod as (U8 & _). destruct arm_facts as ((FA & _) & BA & _).
      repeat split; try assumption; try apply Up; try apply Ud; try apply U1; try apply U2; try apply U3; try apply U4; try apply U8; try apply (omega_upto lm nan_top f UF).
      - unfold from. rewrite Rabs_pos_eq by lra. change (bpow radix2 (-21)) with (/ 2097152). replace (/ 2 ^ 20) with (1 / 1048576) in L20 by (cbn; lra). lra.
      - change (bpow radix2 7) with 128. lra.
    Qed.
    Lemma N_opp : value N = - value Y.
    Proof.
      destruct drive_sizes as (_ & _ & _ & _ & U3 & U4 & _). destruct (mult_finite _ _ (upto_finite _ _ U3)) as (_ & _ & V3). destruct (mult_finite _ _ (upto_finite _ _ U4)) as (_ & _ & V4).
      change (value Y = rounded (value n2 * value A_p)) in V3. change (value N = rounded (B2R (Bopp n2) * value A_p)) in V4.
      rewrite V3, V4, B2R_Bopp, <- rounded_opp, Ropp_mult_distr_l. reflexivity.
    Qed.
    Lemma track_Y : tracks Y (2 * ap) (2 * ap) 5 1000.
    Proof.
      destruct drive_sizes as (Up & _ & _ & _ & U3 & _). eapply tracks_weaken; [|apply le_n|].
      - eapply conv; [exact (tracks_mul_l _ _ _ _ _ _ (upto_finite _ _ U3) (fun _ => track_area _ Up))| | |reflexivity].
        + rewrite two. reflexivity.
        + rewrite two, (Rabs_pos_eq 2) by lra. reflexivity.
      - rewrite two, (Rabs_pos_eq 2) by lra. lra.
    Qed.
    Lemma track_N : tracks N (- (2 * ap)) (2 * ap) 5 1000.
    Proof.
      destruct track_Y as (K & B & P). split; [|split; [rewrite Rabs_Ropp; exact B|exact P]].
      rewrite N_opp. replace (- value Y - - (2 * ap)) with (- (value Y - 2 * ap)) by ring. rewrite Rabs_Ropp. exact K.
    Qed.
    Lemma dVc_upto : upto 57 dVc.
    Proof.
      destruct drive_sizes as (_ & _ & _ & _ & _ & U4 & _ & FB & _ & UA). destruct sizes as (_ & _ & Ur & _). destruct pieces as (_ & _ & _ & US & _).
      eapply upto_weaken; [eapply u_div; [eapply u_mul; [eapply u_mul; [eapply u_mul; [exact U4|exact Ur|zside]|exact US|zside]|exact UA|zside]|exact FB|zside]|zside].
    Qed.
    (** the computed slope starting from any factor the first product follows *)
    Lemma chain (n m t0 : R) (k : nat) : tracks N n m k t0 -> t0 <= 1000 -> m <= 100000 ->
      tracks dVc (n * value r * slope) (m * value r * (2 * value l / low)) (S (S (S (S k)))) (2 ^ 60).
    Proof.
      intros K B0 Bm. destruct geometry as (E0 & R0 & ER & LP & L20 & LM & M7 & G). destruct pieces as (P1 & _ & P2 & _). destruct b_inv as (BP & BI). pose proof low_inv as LI.
      assert (NB : value b <> 0) by lra. pose proof (tracks_m _ _ _ _ _ K) as M0. pose proof K as (_ & KM & KT).
      pose proof (tracks_div _ _ _ _ _ _ (upto_finite _ _ dVc_upto) NB (fun F1 => tracks_mul _ _ _ _ _ _ F1 (fun F2 => tracks_mul _ _ _ _ _ _ F2
        (fun F3 => tracks_mul _ _ _ _ _ _ F3 (fun _ => K))))) as (H1 & H2 & H3).
      pose proof (Rabs_pos (value s)) as Ps. pose proof (Rabs_pos (value arm)) as Pa. rewrite (Rabs_pos_eq (value r)) in H1, H2, H3 by exact R0.
      set (B := / Rabs (value b)) in *. assert (PB : 0 < B) by (apply Rinv_0_lt_compat; rewrite Rabs_pos_eq; lra).
      assert (M1 : m * value r * Rabs (value s) * Rabs (value arm) / Rabs (value b) <= m * value r * (2 * value l / low)).
      { unfold Rdiv at 1. fold B. replace (m * value r * (2 * value l / low)) with (m * value r * 1 * value l * (2 / low)) by (field; lra).
        assert (0 <= m * value r) by (apply Rmult_le_pos; lra). assert (0 <= m * value r * Rabs (value s)) by (apply Rmult_le_pos; lra).
        apply Rmult_le_compat; [apply Rmult_le_pos; lra|lra| |exact BI]. apply Rmult_le_compat; [lra|lra| |lra]. apply Rmult_le_compat_l; lra. }
      split; [|split].
      - change (value (Bdiv mode_NE (n_mul (n_mul (n_mul N r) s) arm) b)) with (value dVc) in H1.
        replace (n * value r * slope) with (n * value r * value s * value arm / value b) by (unfold slope; field; lra).
        eapply Rle_trans; [exact H1|]. apply Rplus_le_compat.
        + apply Rmult_le_compat_l; [apply growth_nonneg|exact M1].
        + apply Rmult_le_compat_r; [left; apply tiny_pos|].
          assert (W1 : 2 * t0 * value r <= 2000 * 128) by (apply Rmult_le_compat; lra). assert (W10 : 0 <= 2 * t0 * value r) by (apply Rmult_le_pos; lra).
          assert (W2 : 2 * (2 * t0 * value r + 1) * Rabs (value s) <= 600000 * 1) by (apply Rmult_le_compat; lra).
          assert (W20 : 0 <= 2 * (2 * t0 * value r + 1) * Rabs (value s)) by (apply Rmult_le_pos; lra).
          assert (W3 : 2 * (2 * (2 * t0 * value r + 1) * Rabs (value s) + 1) * Rabs (value arm) <= 1300000 * 128) by (apply Rmult_le_compat; lra).
          assert (W30 : 0 <= 2 * (2 * (2 * t0 * value r + 1) * Rabs (value s) + 1) * Rabs (value arm)) by (apply Rmult_le_pos; lra).
          unfold Rdiv. fold B.
          assert (W4 : 2 * (2 * (2 * (2 * t0 * value r + 1) * Rabs (value s) + 1) * Rabs (value arm) + 1) * B <= 400000000 * 3000000) by (apply Rmult_le_compat; lra).
          replace (2 ^ 60) with 1152921504606846976 by (cbn; lra). lra.
      - replace (n * value r * slope) with (n * value r * value s * value arm / value b) by (unfold slope; field; lra). eapply Rle_trans; [exact H2|exact M1].
      - apply pow_le. lra.
    Qed.
    Lemma ap_bounds : / 1048576 <= 2 * ap <= 32768 /\ 0 <= ad <= 16384 /\ / 2000000 <= value Y <= 40000.
    Proof.
      destruct drive_sizes as (Up & Ud & _). destruct HR as (FD & _). destruct Up as (_ & Bp). destruct Ud as (_ & Bd). change (bpow radix2 7) with 128 in Bp, Bd.
      pose proof (disc_bound _ Bp). pose proof (disc_bound _ Bd). fold ap in H. fold ad in H0. unfold from in FD. change (bpow radix2 (-10)) with (/ 1024) in FD.
      assert (Q : / 1024 * / 1024 <= value (rg_D_p (rd_geometry d)) * value (rg_D_p (rd_geometry d))).
      { rewrite <- (Rabs_pos_eq (value (rg_D_p (rd_geometry d)) * _)) by apply Rle_0_sqr. rewrite Rabs_mult. apply Rmult_le_compat; lra. }
      assert (A : / 1048576 <= 2 * ap).
      { unfold ap, disc. pose proof pi_bounds. assert (3 * (/ 1024 * / 1024) <= PI * (value (rg_D_p (rd_geometry d)) * value (rg_D_p (rd_geometry d)))) by (apply Rmult_le_compat; lra). lra. }
      split; [lra|]. split; [split; [apply disc_nonneg|lra]|]. destruct track_Y as (K & _). pose proof (growth_16 5 ltac:(lia)). pose proof (growth_nonneg 5). pose proof u_small.
      assert (growth 5 * (2 * ap) <= 0.01 * (2 * ap)) by (apply Rmult_le_compat_r; lra).
      assert (T2 : tiny <= / 1000000000000000).
      { apply Rle_trans with (/ 2 ^ 60); [unfold tiny; apply Rinv_le_contravar; [apply pow_lt; lra|apply Rle_pow; [lra|lia]]|].
        apply Rinv_le_contravar; [lra|cbn; lra]. }
      apply Rabs_le_inv in K. lra.
    Qed.
    Lemma of_track' (n : nat) (z : b64) (rr m tt : R) : tt <= 2 ^ 150 -> tracks z rr m n tt -> nearly n z rr m.
    Proof.
      intros L (H & _ & P). unfold nearly. pose proof tiny_pos. assert (tt * tiny <= 2 ^ 150 * tiny) by (apply Rmult_le_compat_r; lra).
      assert (E : 2 ^ 150 * tiny <= / 2 ^ 900).
      { unfold tiny. replace (2 ^ 1075) with (2 ^ 150 * (2 ^ 900 * 2 ^ 25)) by (rewrite <- !pow_add; reflexivity).
        assert (P1 : 0 < 2 ^ 150) by (apply pow_lt; lra). assert (P2 : 0 < 2 ^ 900) by (apply pow_lt; lra). assert (P3 : 0 < 2 ^ 25) by (apply pow_lt; lra).
        replace (2 ^ 150 * / (2 ^ 150 * (2 ^ 900 * 2 ^ 25))) with (/ (2 ^ 900 * 2 ^ 25)) by (field; lra).
        apply Rinv_le_contravar; [exact P2|]. pose proof (pow_R1_Rle 2 25 ltac:(lra)). assert (2 ^ 900 * 1 <= 2 ^ 900 * 2 ^ 25) by (apply Rmult_le_compat_l; lra). lra. }
      lra.
    Qed.
    Lemma slope_bound : 0 <= 2 * value l / low <= 268435456.
    Proof.
      destruct geometry as (_ & R0 & _ & LP & _ & LM & M7 & _). pose proof low_inv as LI. assert (0 < / low) by (apply Rinv_0_lt_compat; lra). unfold Rdiv.
      split; [apply Rmult_le_pos; lra|]. assert (2 * value l * / low <= 256 * 1048576) by (apply Rmult_le_compat; lra). lra.
    Qed.
    Lemma spin : tracks omega (2 * PI * value f) (2 * PI * Rabs (value f)) 2 1 /\ 0 <= 2 * PI * Rabs (value f) <= 8388608.
    Proof.
      destruct sizes as (UF & _). split; [exact (track_omega lm nan_top f UF)|]. destruct UF as (_ & B). change (bpow radix2 20) with 1048576 in B.
      pose proof pi_bounds. pose proof (Rabs_pos (value f)). split; [apply Rmult_le_pos; lra|].
      assert (2 * PI * Rabs (value f) <= 8 * 1048576) by (apply Rmult_le_compat; lra). lra.
    Qed.
    Lemma powers : (forall k, (k <= 16)%nat -> 0 <= (1 + u) ^ k <= 2).
    Proof.
      intros k K. pose proof (growth_16 k K) as G. unfold growth in G. pose proof u_small. pose proof (one_u_pow k). lra.
    Qed.
    Lemma comp_rate : Rabs (value (n_mul dVc omega) - - (2 * ap) * value r * slope * (2 * PI * value f)) <=
      growth 12 * (4 * ap * value r * value l / low) * (2 * PI * Rabs (value f)) + / 2 ^ 900.
    Proof.
      destruct geometry as (E0 & R0 & ER & LP & L20 & LM & M7 & G). destruct ap_bounds as (A1 & A2 & A3). destruct spin as (TO & OB). destruct drive_sizes as (_ & _ & _ & _ & _ & _ & UO & _).
      pose proof (chain _ _ _ _ track_N ltac:(lra) ltac:(lra)) as K. pose proof slope_bound as SB. pose proof (powers 2 ltac:(lia)) as P2. pose proof (powers 9 ltac:(lia)) as P9.
      assert (F : finite (n_mul dVc omega)) by (eapply upto_finite, u_mul; [exact dVc_upto|exact UO|zside]).
      pose proof (tracks_mulg _ _ _ _ _ _ _ _ _ _ F (fun _ => K) (fun _ => TO)) as H.
      assert (N2 : nearly 12 (n_mul dVc omega) (- (2 * ap) * value r * slope * (2 * PI * value f)) (2 * ap * value r * (2 * value l / low) * (2 * PI * Rabs (value f)))).
      { refine (of_track' 12 _ _ _ _ _ H).
        assert (B1 : 0 <= 2 * PI * Rabs (value f) * (1 + u) ^ 2 <= 8388608 * 2) by (split; [apply Rmult_le_pos|apply Rmult_le_compat]; lra).
        assert (B2 : 0 <= 2 * ap * value r <= 32768 * 128) by (split; [apply Rmult_le_pos|apply Rmult_le_compat]; lra).
        assert (B3 : 0 <= 2 * ap * value r * (2 * value l / low) <= 32768 * 128 * 268435456) by (split; [apply Rmult_le_pos|apply Rmult_le_compat]; lra).
        assert (B4 : 2 * ap * value r * (2 * value l / low) * (1 + u) ^ 9 <= 32768 * 128 * 268435456 * 2) by (apply Rmult_le_compat; lra).
        assert (Q : 0 <= 2 ^ 60) by (apply pow_le; lra).
        assert (B5 : 2 ^ 60 * (2 * PI * Rabs (value f) * (1 + u) ^ 2) <= 2 ^ 60 * (8388608 * 2)) by (apply Rmult_le_compat_l; lra).
        replace (2 ^ 60) with 1152921504606846976 in * by (cbn; lra). apply Rle_trans with (2 ^ 100); [|apply pow_mono; lia].
        replace (2 ^ 100) with (1152921504606846976 * 1099511627776) by (cbn; lra). lra. }
      unfold nearly in N2. replace (growth 12 * (4 * ap * value r * value l / low) * (2 * PI * Rabs (value f))) with
        (growth 12 * (2 * ap * value r * (2 * value l / low) * (2 * PI * Rabs (value f)))) by (field; lra). exact N2.
    Qed.
    Lemma exp_rate : Rabs (value (n_mul dVe omega) - (value r * slope * ad - ad * value r * value c) * (2 * PI * value f)) <=
      ad * (growth 14 * (2 * value r * value l / low + value r)) * (2 * PI * Rabs (value f)) + / 2 ^ 900.
    Proof.
      destruct geometry as (E0 & R0 & ER & LP & L20 & LM & M7 & G). destruct ap_bounds as (A1 & A2 & A3). destruct spin as (TO & OB).
      destruct drive_sizes as (Up & Ud & _ & UAd & UY & _ & UO & _). destruct sizes as (_ & _ & Ur & _). destruct pieces as (_ & PC & _ & _ & UC).
      assert (FY : from (-21) Y).
      { unfold from. rewrite Rabs_pos_eq by lra. change (bpow radix2 (-21)) with (/ 2097152). lra. }
      assert (KN : tracks N (- value Y) (value Y) 0 0).
      { eapply conv; [exact (tracks_exact N)|exact N_opp|rewrite N_opp, Rabs_Ropp, Rabs_pos_eq by lra; reflexivity|reflexivity]. }
      pose proof (chain _ _ _ _ KN ltac:(lra) ltac:(lra)) as K. pose proof slope_bound as SB.
      pose proof (powers 2 ltac:(lia)) as P2. pose proof (powers 4 ltac:(lia)) as P4. pose proof (powers 11 ltac:(lia)) as P11.
      set (sl := 2 * value l / low) in *.
      assert (U1 : upto 77 (n_mul dVc A_d)) by (eapply upto_weaken; [eapply u_mul; [exact dVc_upto|exact UAd|zside]|zside]).
      assert (U2 : upto 98 (n_div (n_mul dVc A_d) Y)) by (eapply upto_weaken; [eapply u_div; [exact U1|exact FY|zside]|zside]).
      assert (U3 : upto 27 (n_mul (n_mul A_d r) c)) by (eapply upto_weaken; [eapply u_mul; [eapply u_mul; [exact UAd|exact Ur|zside]|exact UC|zside]|zside]).
      assert (U4 : upto 99 dVe) by (eapply upto_weaken; [eapply u_sub; [apply u_opp; exact U2|exact U3|zside]|zside]).
      assert (F : finite (n_mul dVe omega)) by (eapply upto_finite, u_mul; [exact U4|exact UO|zside]).
      assert (NY : value Y <> 0) by lra.
      assert (Q1 : 0 <= value r * sl <= 128 * 268435456) by (split; [apply Rmult_le_pos|apply Rmult_le_compat]; lra).
      assert (Q2 : 0 <= ad * value r <= 16384 * 128) by (split; [apply Rmult_le_pos|apply Rmult_le_compat]; lra).
      assert (Q60 : 2 ^ 60 = 1152921504606846976) by (cbn; lra).
      assert (H1 : tracks (n_div (n_mul dVc A_d) Y) (- (value r * slope * ad)) (value r * sl * ad) 10 (2 ^ 110)).
      { eapply tracks_weaken; [|apply le_n|].
        - eapply conv; [exact (tracks_div _ _ _ _ _ _ (upto_finite _ _ U2) NY (fun F1 => tracks_mulg _ _ _ _ _ _ _ _ _ _ F1 (fun _ => K) (fun _ => track_area _ Ud)))| | |reflexivity].
          + fold ad. field. exact NY.
          + fold ad. rewrite (Rabs_pos_eq (value Y)) by lra. field. exact NY.
        - fold ad. rewrite (Rabs_pos_eq (value Y)) by lra.
          assert (B1 : 0 <= ad * (1 + u) ^ 4 <= 16384 * 2) by (split; [apply Rmult_le_pos|apply Rmult_le_compat]; lra).
          assert (B2 : 0 <= value Y * value r <= 40000 * 128) by (split; [apply Rmult_le_pos|apply Rmult_le_compat]; lra).
          assert (B3 : 0 <= value Y * value r * sl <= 40000 * 128 * 268435456) by (split; [apply Rmult_le_pos|apply Rmult_le_compat]; lra).
          assert (B4 : 0 <= value Y * value r * sl * (1 + u) ^ 4 <= 40000 * 128 * 268435456 * 2) by (split; [apply Rmult_le_pos|apply Rmult_le_compat]; lra).
          assert (IY : 0 < / value Y <= 2000000).
          { split; [apply Rinv_0_lt_compat; lra|]. replace 2000000 with (/ / 2000000) by lra. apply Rinv_le_contravar; lra. }
          rewrite Q60. unfold Rdiv.
          set (big := 2 * (1152921504606846976 * (ad * (1 + u) ^ 4) + 100 * (value Y * value r * sl * (1 + u) ^ 4) + 1152921504606846976 * 100) + 1).
          assert (B5 : 0 <= big <= 1152921504606846976 * 1048576) by (unfold big; lra).
          assert (B6 : 2 * big * / value Y <= 2 * (1152921504606846976 * 1048576) * 2000000) by (apply Rmult_le_compat; lra).
          apply Rle_trans with (2 ^ 105); [|apply pow_mono; lia].
          replace (2 ^ 105) with (1152921504606846976 * 35184372088832) by (cbn; lra). lra. }
      assert (H2 : tracks (n_mul (n_mul A_d r) c) (ad * value r * value c) (ad * value r) 10 (2 ^ 60)).
      { pose proof (tracks_mul _ _ _ _ _ _ (upto_finite _ _ U3) (fun F1 => tracks_mul _ _ _ _ _ _ F1 (fun _ => track_area _ Ud))) as H. fold ad in H.
        rewrite (Rabs_pos_eq (value r)) in H by exact R0. pose proof (Rabs_pos (value c)) as Pc.
        assert (MB : ad * value r * Rabs (value c) <= ad * value r * 1) by (apply Rmult_le_compat_l; lra).
        assert (W : 0 <= 2 * 100 * value r + 1 <= 40000) by lra.
        assert (W2 : 2 * (2 * 100 * value r + 1) * Rabs (value c) <= 80000 * 1) by (apply Rmult_le_compat; lra).
        destruct H as (K1 & K2 & K3). split; [|split; [lra|apply pow_le; lra]].
        eapply Rle_trans; [exact K1|]. pose proof tiny_pos. pose proof (growth_nonneg 6). pose proof (growth_le 6 10 ltac:(lia)).
        assert (growth 6 * (ad * value r * Rabs (value c)) <= growth 10 * (ad * value r)).
        { apply Rmult_le_compat; [lra|apply Rmult_le_pos; lra|lra|lra]. }
        rewrite Q60. assert ((2 * (2 * 100 * value r + 1) * Rabs (value c) + 1) * tiny <= 1152921504606846976 * tiny) by (apply Rmult_le_compat_r; lra). lra. }
      assert (H3 : tracks dVe (value r * slope * ad - ad * value r * value c) (value r * sl * ad + ad * value r) 11 (2 ^ 112)).
      { eapply tracks_weaken; [|apply le_n|].
        - eapply conv; [exact (tracks_sub _ _ _ _ _ _ _ _ _ (upto_finite _ _ U4) (fun _ => tracks_opp _ _ _ _ _ H1) (fun _ => H2))|ring|reflexivity|reflexivity].
        - pose proof (pow_mono 60 110 ltac:(lia)). replace (2 ^ 112) with (4 * 2 ^ 110) by ring. lra. }
      pose proof (tracks_mulg _ _ _ _ _ _ _ _ _ _ F (fun _ => H3) (fun _ => TO)) as H.
      assert (N2 : nearly 14 (n_mul dVe omega) ((value r * slope * ad - ad * value r * value c) * (2 * PI * value f)) ((value r * sl * ad + ad * value r) * (2 * PI * Rabs (value f)))).
      { refine (of_track' 14 _ _ _ _ _ H).
        assert (B1 : 0 <= 2 * PI * Rabs (value f) * (1 + u) ^ 2 <= 8388608 * 2) by (split; [apply Rmult_le_pos|apply Rmult_le_compat]; lra).
        assert (B2 : 0 <= value r * sl * ad <= 128 * 268435456 * 16384) by (split; [apply Rmult_le_pos|apply Rmult_le_compat]; lra).
        assert (B4 : (value r * sl * ad + ad * value r) * (1 + u) ^ 11 <= (128 * 268435456 * 16384 + 16384 * 128) * 2) by (apply Rmult_le_compat; lra).
        assert (Q : 0 <= 2 ^ 112) by (apply pow_le; lra).
        assert (B5 : 2 ^ 112 * (2 * PI * Rabs (value f) * (1 + u) ^ 2) <= 2 ^ 112 * (8388608 * 2)) by (apply Rmult_le_compat_l; lra).
        pose proof (pow_mono 60 112 ltac:(lia)) as P. rewrite Q60 in P. replace (2 ^ 150) with (2 ^ 112 * 274877906944) by (replace 274877906944 with (2 ^ 38) by (cbn; lra); rewrite <- pow_add; reflexivity). lra. }
      unfold nearly in N2. replace (ad * (growth 14 * (2 * value r * value l / low + value r)) * (2 * PI * Rabs (value f))) with
        (growth 14 * ((value r * sl * ad + ad * value r) * (2 * PI * Rabs (value f)))) by (unfold sl; field; lra). exact N2.
    Qed.

    Lemma d_angle (w : R) : derivable_pt_lim (fun v => turn_angle (value f) v) w (2 * PI * value f).
    Proof.
      assert (H : derivable_pt_lim (mult_real_fct (2 * PI * value f) id) w (2 * PI * value f * 1)) by (apply derivable_pt_lim_scal, derivable_pt_lim_id).
      rewrite Rmult_1_r in H. eapply lim_ext; [|exact H]. intros z. unfold mult_real_fct, id, turn_angle. ring.
    Qed.
    Lemma d_sin (w : R) : derivable_pt_lim (fun v => sin (turn_angle (value f) v)) w (cos (turn_angle (value f) w) * (2 * PI * value f)).
    Proof. exact (derivable_pt_lim_comp _ sin _ _ _ (d_angle w) (derivable_pt_lim_sin _)). Qed.
    Lemma d_cos (w : R) : derivable_pt_lim (fun v => cos (turn_angle (value f) v)) w (- sin (turn_angle (value f) w) * (2 * PI * value f)).
    Proof. exact (derivable_pt_lim_comp _ cos _ _ _ (d_angle w) (derivable_pt_lim_cos _)). Qed.
    Let rod (v : R) := sqrt (value l * value l - (value e + value r * cos (turn_angle (value f) v)) * (value e + value r * cos (turn_angle (value f) v))).
    Lemma d_rod : derivable_pt_lim rod (value t) (value r * (sin a * x / bx) * (2 * PI * value f)).
    Proof.
      destruct rod_low as (B0 & _). destruct geometry as (_ & _ & _ & LP & _).
      set (arm' := fun v => value e + value r * cos (turn_angle (value f) v)).
      assert (D1 : derivable_pt_lim arm' (value t) (0 + value r * (- sin a * (2 * PI * value f)))).
      { apply (derivable_pt_lim_plus (fct_cte (value e)) (mult_real_fct (value r) (fun v => cos (turn_angle (value f) v)))); [apply derivable_pt_lim_const|apply derivable_pt_lim_scal, d_cos]. }
      assert (D2 : derivable_pt_lim (fun v => value l * value l - arm' v * arm' v) (value t)
        (0 - ((0 + value r * (- sin a * (2 * PI * value f))) * arm' (value t) + arm' (value t) * (0 + value r * (- sin a * (2 * PI * value f)))))).
      { apply (derivable_pt_lim_minus (fct_cte (value l * value l)) (mult_fct arm' arm')); [apply derivable_pt_lim_const|apply derivable_pt_lim_mult; exact D1]. }
      change (arm' (value t)) with x in D2.
      assert (YP : 0 < value l * value l - x * x).
      { apply Rnot_le_lt. intros N0. assert (bx = 0) by (unfold bx; apply sqrt_neg_0; exact N0). lra. }
      pose proof (derivable_pt_lim_comp _ sqrt _ _ _ D2 (derivable_pt_lim_sqrt _ YP)) as D.
      change (value l * value l - arm' (value t) * arm' (value t)) with (value l * value l - x * x) in D. fold bx in D.
      replace (value r * (sin a * x / bx) * (2 * PI * value f)) with
        (/ (2 * bx) * (0 - ((0 + value r * (- sin a * (2 * PI * value f))) * x + x * (0 + value r * (- sin a * (2 * PI * value f)))))) by (field; lra).
      exact D.
    Qed.
    Theorem linkage_rates : near_linkage_rates eps d low t (rh_volumes d t).
    Proof.
      unfold near_linkage_rates. cbv zeta. fold e r l f. fold T ap ad. intros above below rate_c rate_e C_c C_e K D1 D2.
      destruct geometry as (E0 & R0 & ER & LP & L20 & LM & M7 & G). destruct ap_bounds as (A1 & A2 & _). destruct spin as (_ & OB). pose proof slope_near as SN.
      destruct trig_off as (_ & HT & _). fold c in HT.
      assert (EC : rate_c = - (2 * ap) * (value r * (sin a * x / bx) * (2 * PI * value f))).
      { apply (uniqueness_limite _ _ _ _ D1).
        assert (D : derivable_pt_lim (fun v => C_c - ap * (2 * rod v)) (value t) (0 - ap * (2 * (value r * (sin a * x / bx) * (2 * PI * value f))))).
        { apply (derivable_pt_lim_minus (fct_cte C_c) (mult_real_fct ap (mult_real_fct 2 rod))); [apply derivable_pt_lim_const|apply derivable_pt_lim_scal, derivable_pt_lim_scal, d_rod]. }
        replace (- (2 * ap) * (value r * (sin a * x / bx) * (2 * PI * value f))) with (0 - ap * (2 * (value r * (sin a * x / bx) * (2 * PI * value f)))) by ring.
        eapply lim_ext; [|exact D]. intros v. destruct (yokes _ _ _ (K v)) as (Y1 & Y2). rewrite Y1, Y2. unfold rod. ring. }
      assert (EE : rate_e = ad * (value r * (sin a * x / bx) - value r * cos a) * (2 * PI * value f)).
      { apply (uniqueness_limite _ _ _ _ D2).
        assert (D : derivable_pt_lim (fun v => C_e - ad * (value r * sin (turn_angle (value f) v) - rod v)) (value t)
          (0 - ad * (value r * (cos a * (2 * PI * value f)) - value r * (sin a * x / bx) * (2 * PI * value f)))).
        { apply (derivable_pt_lim_minus (fct_cte C_e) (mult_real_fct ad (minus_fct (mult_real_fct (value r) (fun v => sin (turn_angle (value f) v))) rod)));
            [apply derivable_pt_lim_const|]. apply derivable_pt_lim_scal, derivable_pt_lim_minus; [apply derivable_pt_lim_scal, d_sin|exact d_rod]. }
        replace (ad * (value r * (sin a * x / bx) - value r * cos a) * (2 * PI * value f)) with
          (0 - ad * (value r * (cos a * (2 * PI * value f)) - value r * (sin a * x / bx) * (2 * PI * value f))) by ring.
        eapply lim_ext; [|exact D]. intros v. destruct (yokes _ _ _ (K v)) as (_ & Y2). rewrite Y2. unfold rod. ring. }
      set (q := sin a * x / bx) in *. set (W := 2 * PI * Rabs (value f)) in *.
      assert (EW : Rabs (2 * PI * value f) = W) by (unfold W; rewrite Rabs_mult, (Rabs_pos_eq (2 * PI)); [reflexivity|pose proof pi_bounds; lra]).
      set (se := slope_error (value l) (value r) low T) in *. pose proof comp_rate as P1. pose proof exp_rate as P2. fold W in P1, P2.
      subst rate_c rate_e. split.
      - change (v_deriv (fst (rh_volumes d t))) with (n_mul dVc omega). set (V := n_mul dVc omega) in *.
        replace (value V - - (2 * ap) * (value r * q * (2 * PI * value f))) with
          ((value V - - (2 * ap) * value r * slope * (2 * PI * value f)) + (2 * ap * value r) * (q - slope) * (2 * PI * value f)) by ring.
        eapply Rle_trans; [apply Rabs_triang|]. rewrite (Rabs_mult _ (2 * PI * value f)), EW, (Rabs_mult (2 * ap * value r)), (Rabs_pos_eq (2 * ap * value r)) by (apply Rmult_le_pos; lra).
        rewrite (Rabs_minus_sym q). assert (Q : 2 * ap * value r * Rabs (slope - q) * W <= 2 * ap * value r * se * W).
        { apply Rmult_le_compat_r; [lra|]. apply Rmult_le_compat_l; [apply Rmult_le_pos; lra|exact SN]. }
        lra.
      - change (v_deriv (snd (rh_volumes d t))) with (n_mul dVe omega). set (V := n_mul dVe omega) in *.
        replace (value V - ad * (value r * q - value r * cos a) * (2 * PI * value f)) with
          ((value V - (value r * slope * ad - ad * value r * value c) * (2 * PI * value f)) + ad * (value r * ((slope - q) - (value c - cos a))) * (2 * PI * value f)) by ring.
        eapply Rle_trans; [apply Rabs_triang|]. rewrite (Rabs_mult _ (2 * PI * value f)), EW, (Rabs_mult ad), (Rabs_pos_eq ad), (Rabs_mult (value r)), (Rabs_pos_eq (value r)) by lra.
        pose proof (abs_minus (slope - q) (value c - cos a)) as AM.
        assert (Q : ad * (value r * Rabs ((slope - q) - (value c - cos a))) * W <= ad * (value r * (se + T)) * W).
        { apply Rmult_le_compat_r; [lra|]. apply Rmult_le_compat_l; [lra|]. apply Rmult_le_compat_l; lra. }
        lra.
    Qed.
    Lemma yokes_exist : exists (above below : R -> R) (rate_c rate_e : R),
      (forall v, linkage (value e) (value r) (value l) (turn_angle (value f) v) (above v) (below v)) /\
      derivable_pt_lim (fun v => 0 - ap * (above v - below v)) (value t) rate_c /\
      derivable_pt_lim (fun v => 0 - ad * below v) (value t) rate_e.
    Proof.
      exists (fun v => value r * sin (turn_angle (value f) v) + rod v), (fun v => value r * sin (turn_angle (value f) v) - rod v).
      exists (0 - ap * (2 * (value r * (sin a * x / bx) * (2 * PI * value f)))).
      exists (0 - ad * (value r * (cos a * (2 * PI * value f)) - value r * (sin a * x / bx) * (2 * PI * value f))).
      split; [|split].
      - intros v. destruct (linkage_exists (turn_angle (value f) v)) as (ab & be & L). destruct (yokes _ _ _ L) as (Y1 & Y2). unfold rod. rewrite <- Y1, <- Y2. exact L.
      - eapply lim_ext with (f := fun v => 0 - ap * (2 * rod v)); [intros v; ring|].
        apply (derivable_pt_lim_minus (fct_cte 0) (mult_real_fct ap (mult_real_fct 2 rod))); [apply derivable_pt_lim_const|apply derivable_pt_lim_scal, derivable_pt_lim_scal, d_rod].
      - apply (derivable_pt_lim_minus (fct_cte 0) (mult_real_fct ad (minus_fct (mult_real_fct (value r) (fun v => sin (turn_angle (value f) v))) rod)));
            [apply derivable_pt_lim_const|]. apply derivable_pt_lim_scal, derivable_pt_lim_minus; [apply derivable_pt_lim_scal, d_sin|exact d_rod].
    Qed.
  End Drive.
End Link.
