(** * In f64 the approach of a fixed-conductance exchanger is right up to errors relative to the temperature change of the gas *)
From Coq Require Import ZArith NArith List Reals Bool Lra Lia.
From Flocq Require Import Core BinarySingleNaN.
From Verif Require Import Num ModelTypes ModelWs ModelHx ModelStateEq ModelEngine B64 Spec SpecF64 SpecRound SpecBalance
  SpecRange SpecProps SpecNtu F64Base F64Err F64Balance F64Norm F64Range F64Props F64PropsCase F64Angle F64Mean F64Link.
Import ListNotations.
Local Open Scope R_scope.
Local Open Scope bool_scope.
Local Opaque Bplus Bminus Bmult Bdiv Bopp Bsqrt.

Lemma exp_near (a b : R) : 0 <= a -> a <= b -> 0 <= exp (- a) - exp (- b) <= (b - a) * exp (- a).
Proof.
  intros A B. pose proof (exp_ineq1_le (- (b - a))) as E. pose proof (exp_pos (- a)) as P.
  replace (exp (- b)) with (exp (- a) * exp (- (b - a))) by (rewrite <- exp_plus; f_equal; ring).
  assert (H : exp (- (b - a)) <= 1). { rewrite <- exp_0. destruct (Req_dec a b) as [->|N]; [right; f_equal; ring|left; apply exp_increasing; lra]. }
  split.
  - assert (exp (- a) * exp (- (b - a)) <= exp (- a) * 1) by (apply Rmult_le_compat_l; lra). lra.
  - assert (exp (- a) * (1 - (b - a)) <= exp (- a) * exp (- (b - a))) by (apply Rmult_le_compat_l; lra). lra.
Qed.
Lemma t_exp (t : R) : 0 <= t -> t * exp (- t) <= 1.
Proof.
  intros T. pose proof (exp_ineq1_le t) as E. pose proof (exp_pos (- t)). rewrite <- exp_0. replace 0 with (t + - t) by ring. rewrite exp_plus. apply Rmult_le_compat_r; lra.
Qed.
Lemma exp_neg (t : R) : 0 <= t -> exp (- t) <= 1.
Proof. intros T. rewrite <- exp_0. destruct (Req_dec t 0) as [->|N]; [right; f_equal; ring|left; apply exp_increasing; lra]. Qed.
Lemma growth_sum (i j : nat) : growth i + growth j <= growth (i + j).
Proof.
  unfold growth. rewrite pow_add. pose proof (one_u_pow i) as P. pose proof (one_u_pow j) as Q.
  assert (0 <= ((1 + u) ^ i - 1) * ((1 + u) ^ j - 1)) by (apply Rmult_le_pos; lra). lra.
Qed.

Section Ntu.
  Variables (lm : Libm) (nan_top : bool).
  Local Instance nops : NumOps b64 := b64_ops lm nan_top.
  Variables (eps : R) (UA : b64) (x : HeatExchanger b64).
  Hypothesis HE : exp_accurate lm eps.
  Hypothesis HO : ordinary_exchanger eps UA x.
  Let C := value (hx_cp x) * value (hx_m_dot x).
  Let Q := value (hx_Q_dot x).
  Let n := value UA / C.
  Let eff := 1 - exp (- n).
  Let C' := n_mul (hx_cp x) (hx_m_dot x).
  Let N' := n_div UA C'.
  Let e' := n_exp (n_opp N').
  Let eff' := n_sub n1 e'.
  Let i' := n_div n1 eff'.
  Let g' := n_sub i' n1.
  Let q' := n_div (hx_Q_dot x) C'.

  Lemma one : value n1 = 1 /\ upto 1 n1.
  Proof.
    split; [|apply (upto_checked 1); vm_cast_no_check (eq_refl true)].
    assert (H : lit_check 0 n1 1 1 = true) by (vm_cast_no_check (eq_refl true)). apply lit_sound in H. destruct H as (H & _).
    unfold growth in H. cbn [pow] in H. replace ((1 - 1) * Rabs (1 / 1) + 0 * tiny) with 0 in H by ring. apply Rabs_le_inv in H. lra.
  Qed.
  Lemma pieces4 : upto 40 UA /\ upto 40 (hx_cp x) /\ upto 40 (hx_m_dot x) /\ upto 40 (hx_Q_dot x).
  Proof.
    destruct HO as (U & _). pose proof (Forall_inv U) as U1. apply Forall_inv_tail in U. pose proof (Forall_inv U) as U2. apply Forall_inv_tail in U.
    pose proof (Forall_inv U) as U3. apply Forall_inv_tail in U. pose proof (Forall_inv U) as U4. auto.
  Qed.
  Lemma tu : tiny * 2 ^ 41 <= u /\ 0 < tiny.
  Proof.
    split; [|apply tiny_pos]. unfold tiny, unit_roundoff. replace 1075%nat with (41 + (53 + 981))%nat by reflexivity. rewrite pow_add, Rinv_mult.
    assert (P : 0 < 2 ^ 41) by (apply pow_lt; lra). rewrite (Rmult_comm (/ 2 ^ 41)), Rmult_assoc, Rinv_l, Rmult_1_r by lra.
    apply Rinv_le_contravar; [apply pow_lt; lra|apply Rle_pow; [lra|lia]].
  Qed.
  Lemma t_small : tiny <= 0.000001.
  Proof. destruct tu as (H & _). pose proof u_small. assert (1 <= 2 ^ 41) by (apply pow_R1_Rle; lra). pose proof tiny_pos. assert (tiny * 1 <= tiny * 2 ^ 41) by (apply Rmult_le_compat_l; lra). lra. Qed.
  Lemma rate : upto 80 C' /\ 0 < C /\ Rabs (value C' - C) <= growth 2 * C /\ C / 2 <= value C' /\ from (-41) C'.
  Proof.
    destruct pieces4 as (_ & U2 & U3 & _). destruct HO as (_ & _ & CL & _). fold C in CL. destruct tu as (T & TP).
    assert (U : upto 80 C') by (eapply upto_weaken; [eapply u_mul; [exact U2|exact U3|zside]|zside]).
    assert (CP : 0 < / 2 ^ 40) by (apply Rinv_0_lt_compat, pow_lt; lra).
    destruct (mult_finite _ _ (upto_finite _ _ U)) as (_ & _ & V). destruct (rounded_ex (B2R (hx_cp x) * B2R (hx_m_dot x))) as (e & h & He & Hh & E). rewrite E in V.
    change (value C' = C * (1 + e) + h) in V.
    assert (K1 : Rabs (C * e) <= C * u) by (rewrite Rabs_mult, (Rabs_pos_eq C) by lra; apply Rmult_le_compat_l; lra).
    assert (K2 : tiny <= C * u).
    { apply Rle_trans with (/ 2 ^ 40 * u); [|apply Rmult_le_compat_r; [pose proof u_pos; lra|exact CL]].
      apply (Rmult_le_reg_l (2 ^ 40)); [apply pow_lt; lra|]. rewrite <- Rmult_assoc, Rinv_r, Rmult_1_l by (apply pow_nonzero; lra).
      replace (2 ^ 41) with (2 * 2 ^ 40) in T by ring. assert (0 <= tiny * 2 ^ 40) by (apply Rmult_le_pos; [lra|apply pow_le; lra]). lra. }
    pose proof (growth_linear 2) as GL. cbn [INR] in GL. assert (K3 : (1 + 1) * u * C <= growth 2 * C) by (apply Rmult_le_compat_r; lra).
    apply Rabs_le_inv in K1, Hh. pose proof u_small. assert (C * u <= C * 0.01) by (apply Rmult_le_compat_l; lra).
    assert (KC : C / 2 <= value C') by lra.
    split; [exact U|]. split; [lra|]. split; [apply Rabs_le; lra|]. split; [exact KC|].
    unfold from. rewrite Rabs_pos_eq by lra. apply Rle_trans with (C / 2); [|exact KC]. replace (-41)%Z with (- Z.of_nat 41)%Z by reflexivity. rewrite bpow_neg. change (IZR radix2) with 2.
    replace (2 ^ 41) with (2 * 2 ^ 40) by ring. rewrite Rinv_mult. lra.
  Qed.
  Lemma inverse (z : R) : 0 <= z -> Rabs (z / value C' - z / C) <= 2 * growth 2 * (z / C) /\ 0 <= z / C /\ 0 <= z / value C' <= 2 * (z / C).
  Proof.
    intros Z. destruct rate as (_ & CP & K & H & _). assert (P : 0 < value C') by lra. assert (I1 : 0 < / C) by (apply Rinv_0_lt_compat; lra). assert (I2 : 0 < / value C') by (apply Rinv_0_lt_compat; lra).
    assert (I3 : / value C' <= 2 * / C) by (replace (2 * / C) with (/ (C / 2)) by (field; lra); apply Rinv_le_contravar; lra).
    assert (ZC : 0 <= z / C) by (unfold Rdiv; apply Rmult_le_pos; lra).
    split; [|split; [exact ZC|]].
    - replace (z / value C' - z / C) with (z / C * ((C - value C') * / value C')) by (field; lra). rewrite Rabs_mult, (Rabs_pos_eq (z / C)), Rabs_mult, Rabs_minus_sym, (Rabs_pos_eq (/ value C')) by lra.
      replace (2 * growth 2 * (z / C)) with (z / C * (growth 2 * C * (2 * / C))) by (field; lra). apply Rmult_le_compat_l; [exact ZC|].
      apply Rmult_le_compat; [apply Rabs_pos|lra|exact K|lra].
    - unfold Rdiv. split; [apply Rmult_le_pos; lra|]. replace (2 * (z * / C)) with (z * (2 * / C)) by ring. apply Rmult_le_compat_l; lra.
  Qed.
  Lemma units : finite N' /\ 0 <= n /\ 0 <= value N' /\ Rabs (value N' - n) <= growth 7 * n + tiny.
  Proof.
    destruct pieces4 as (U1 & _). destruct HO as (_ & UP & _). destruct rate as (_ & CP & _ & CL & FC).
    assert (UN : upto 81 N') by (eapply upto_weaken; [eapply u_div; [exact U1|exact FC|zside]|zside]).
    assert (NC : B2R C' <> 0) by (change (value C' <> 0); lra). destruct (div_finite _ _ (upto_finite _ _ UN) NC) as (_ & V).
    change (value N' = rounded (value UA / value C')) in V. destruct (inverse (value UA) UP) as (K & NP & (QP & QL)). fold n in K, NP, QL.
    assert (N0 : 0 <= value N') by (rewrite V; apply rounded_nonneg; exact QP).
    destruct (rounded_ex (value UA / value C')) as (e & h & He & Hh & E). rewrite E in V. set (m := value UA / value C') in *.
    assert (K1 : Rabs (m * e) <= m * u) by (rewrite Rabs_mult, (Rabs_pos_eq m) by lra; apply Rmult_le_compat_l; lra). pose proof u_pos as up. pose proof u_small as us.
    assert (K2 : m * u <= 2 * n * u) by (apply Rmult_le_compat_r; lra).
    assert (G : 2 * growth 2 + 2 * u <= growth 7).
    { pose proof (growth_linear 7) as GL. cbn [INR] in GL. unfold growth at 1. cbn [pow]. assert (u * u <= u * 0.01) by (apply Rmult_le_compat_l; lra). lra. }
    assert (K3 : (2 * growth 2 + 2 * u) * n <= growth 7 * n) by (apply Rmult_le_compat_r; lra).
    split; [exact (upto_finite _ _ UN)|]. split; [exact NP|]. split; [exact N0|]. apply Rabs_le_inv in K, K1, Hh. apply Rabs_le. lra.
  Qed.
  Lemma exp_close : finite e' /\ Rabs (value e' - exp (- n)) <= eps + growth 9 /\ 0 <= eps.
  Proof.
    destruct units as (FN & NP & N0 & K). assert (FO : finite (n_opp N')) by (exact (eq_trans (is_finite_Bopp _ _ _) FN)).
    assert (VO : value (n_opp N') = - value N') by (unfold value; apply B2R_Bopp).
    destruct (HE (n_opp N') FO ltac:(rewrite VO; lra)) as (Fe & Ke). change (lm_exp lm (n_opp N')) with e' in Fe, Ke. rewrite VO in Ke.
    assert (EP : 0 <= eps) by (eapply Rle_trans; [apply Rabs_pos|exact Ke]).
    split; [exact Fe|]. split; [|exact EP].
    pose proof (growth_16 7 ltac:(lia)) as G7. pose proof (growth_nonneg 7) as P7. pose proof u_small as us. pose proof u_pos as up. pose proof t_small as ts. pose proof tiny_pos as tp.
    assert (D : Rabs (exp (- value N') - exp (- n)) <= growth 9).
    { assert (GN : growth 7 * n <= 0.01 * n) by (apply Rmult_le_compat_r; lra).
      assert (M : exists k, 0 <= k /\ n <= (k + tiny) / 0.9 /\ Rabs (exp (- value N') - exp (- n)) <= Rabs (value N' - n) * exp (- k)).
      { apply Rabs_le_inv in K. destruct (Rle_dec (value N') n) as [L|L].
        - exists (value N'). split; [lra|]. split; [lra|]. destruct (exp_near (value N') n N0 L) as (E1 & E2). rewrite Rabs_pos_eq, Rabs_left1 by lra. lra.
        - exists n. split; [lra|]. split; [lra|]. destruct (exp_near n (value N') NP ltac:(lra)) as (E1 & E2). rewrite Rabs_left1, Rabs_pos_eq by lra. lra. }
      destruct M as (k & KP & KN & KE). pose proof (t_exp k KP) as T1. pose proof (exp_neg k KP) as T2. pose proof (exp_pos (- k)) as T3.
      eapply Rle_trans; [exact KE|]. apply Rle_trans with ((growth 7 * n + tiny) * exp (- k)); [apply Rmult_le_compat_r; lra|].
      assert (S1 : n * exp (- k) <= (k + tiny) / 0.9 * exp (- k)) by (apply Rmult_le_compat_r; lra).
      assert (S2 : tiny * exp (- k) <= tiny * 1) by (apply Rmult_le_compat_l; lra).
      assert (S3 : n * exp (- k) <= 1.12) by lra.
      assert (S4 : growth 7 * (n * exp (- k)) <= growth 7 * 1.12) by (apply Rmult_le_compat_l; lra).
      destruct tu as (TU & _). assert (1 <= 2 ^ 41) by (apply pow_R1_Rle; lra). assert (tiny * 1 <= tiny * 2 ^ 41) by (apply Rmult_le_compat_l; lra).
      pose proof (growth_sum 7 2) as GS. cbn [Nat.add] in GS. pose proof (growth_linear 2) as GL. cbn [INR] in GL.
      assert (G12 : growth 7 * 0.12 <= u).
      { assert (G71 : growth 7 <= 8 * u). { unfold growth. cbn [pow]. assert (P1 : u * u <= u * 0.001) by (apply Rmult_le_compat_l; lra). assert (0 <= u * u) by (apply Rmult_le_pos; lra).
          assert (E7 : (1 + u) * (1 + u) <= 1 + 2.001 * u) by lra.
          assert (E7' : (1 + 2.001 * u) * (1 + 2.001 * u) <= 1 + 4.01 * u) by lra.
          assert (E4 : ((1 + u) * (1 + u)) * ((1 + u) * (1 + u)) <= 1 + 4.01 * u) by (eapply Rle_trans; [apply Rmult_le_compat; [lra|lra|exact E7|exact E7]|exact E7']).
          assert (E3 : ((1 + u) * (1 + u)) * (1 + u) <= 1 + 3.01 * u) by (eapply Rle_trans; [apply Rmult_le_compat_r; [lra|exact E7]|lra]).
          assert (E0 : (((1 + u) * (1 + u)) * ((1 + u) * (1 + u))) * (((1 + u) * (1 + u)) * (1 + u)) <= (1 + 4.01 * u) * (1 + 3.01 * u)).
          { apply Rmult_le_compat; [|  |exact E4|exact E3]; repeat (apply Rmult_le_pos; try lra). }
          lra. }
        lra. }
      lra. }
    replace (value e' - exp (- n)) with ((value e' - exp (- value N')) + (exp (- value N') - exp (- n))) by ring.
    eapply Rle_trans; [apply Rabs_triang|]. lra.
  Qed.
  Lemma eff_close : upto 2 eff' /\ 0 < eff <= 1 /\ eff / 2 <= value eff' /\ Rabs (value eff' - eff) <= eps + growth 12 /\ from (-50) eff'.
  Proof.
    destruct exp_close as (Fe & Ke & EP). destruct HO as (_ & _ & _ & HM). fold C in HM. fold n in HM. fold eff in HM. destruct one as (V1 & U1). destruct units as (_ & NP & _).
    pose proof (exp_pos (- n)) as XP. pose proof (growth_nonneg 9) as G9. pose proof (growth_nonneg 12) as G12. pose proof u_small as us. pose proof u_pos as up.
    pose proof (growth_sum 9 3) as GS. cbn [Nat.add] in GS. pose proof (growth_linear 3) as GL. cbn [INR] in GL. pose proof (growth_linear 12) as GL2. cbn [INR] in GL2.
    assert (EL : eff <= 1) by (unfold eff; lra). assert (X1 : exp (- n) <= 1) by (unfold eff in HM; lra).
    assert (EB : Rabs (value e') <= 2).
    { replace (value e') with ((value e' - exp (- n)) + exp (- n)) by ring. eapply Rle_trans; [apply Rabs_triang|]. rewrite (Rabs_pos_eq (exp (- n))) by lra. lra. }
    assert (Ue : upto 1 e') by (split; [exact Fe|change (bpow radix2 1) with 2; exact EB]).
    assert (UE : upto 2 eff') by (eapply upto_weaken; [eapply u_sub; [exact U1|exact Ue|zside]|zside]).
    destruct (tracks_sub _ _ _ _ _ _ _ _ 0 (upto_finite _ _ UE) (fun _ => tracks_exact n1) (fun _ => tracks_exact e')) as (K & _).
    change (Rabs (value eff' - (value n1 - value e')) <= growth 1 * (Rabs (value n1) + Rabs (value e')) + 2 * (0 + 0) * tiny) in K. rewrite V1, (Rabs_pos_eq 1) in K by lra.
    assert (E1 : growth 1 = u) by (unfold growth; cbn [pow]; lra). rewrite E1 in K.
    assert (K2 : u * (1 + Rabs (value e')) <= u * 3) by (apply Rmult_le_compat_l; lra).
    assert (KF : Rabs (value eff' - eff) <= eps + growth 12).
    { replace (value eff' - eff) with ((value eff' - (1 - value e')) - (value e' - exp (- n))) by (unfold eff; ring). eapply Rle_trans; [apply abs_minus|]. lra. }
    assert (E2 : eff / 2 <= value eff') by (apply Rabs_le_inv in KF; lra).
    split; [exact UE|]. split; [lra|]. split; [exact E2|]. split; [exact KF|].
    unfold from. rewrite Rabs_pos_eq by lra. apply Rle_trans with (12 * u); [|lra]. replace (-50)%Z with (- Z.of_nat 50)%Z by reflexivity. rewrite bpow_neg. change (IZR radix2) with 2.
    unfold unit_roundoff. replace (2 ^ 53) with (8 * 2 ^ 50) by ring. rewrite Rinv_mult. assert (0 < / 2 ^ 50) by (apply Rinv_0_lt_compat, pow_lt; lra). lra.
  Qed.
  Theorem ntu_f64 : near_ntu eps UA x (n_mul q' g').
  Proof.
    unfold near_ntu. cbv zeta. fold C Q. fold n. fold eff.
    destruct pieces4 as (_ & _ & _ & UQ). destruct rate as (_ & CP & _ & CL & FC). destruct eff_close as (UE & (E0 & E1) & E2 & KE & FE). destruct one as (V1 & U1).
    pose proof u_small as us. pose proof u_pos as up.
    assert (Ui : upto 51 i') by (eapply upto_weaken; [eapply u_div; [exact U1|exact FE|zside]|zside]).
    assert (Ug : upto 52 g') by (eapply upto_weaken; [eapply u_sub; [exact Ui|exact U1|zside]|zside]).
    assert (Uq : upto 81 q') by (eapply upto_weaken; [eapply u_div; [exact UQ|exact FC|zside]|zside]).
    assert (F : finite (n_mul q' g')) by (eapply upto_finite, u_mul; [exact Uq|exact Ug|zside]).
    assert (NC : value C' <> 0) by lra. assert (NE : value eff' <> 0) by lra.
    set (j := / value eff'). assert (J : 0 < j <= 2 / eff).
    { unfold j. split; [apply Rinv_0_lt_compat; lra|]. replace (2 / eff) with (/ (eff / 2)) by (field; lra). apply Rinv_le_contravar; lra. }
    assert (KI : tracks i' j j 1 1).
    { eapply conv; [exact (tracks_div _ _ _ _ _ _ (upto_finite _ _ Ui) NE (fun _ => tracks_exact n1))| | |]; rewrite ?V1, ?(Rabs_pos_eq 1), ?(Rabs_pos_eq (value eff')) by lra; unfold j; field; lra. }
    assert (KG : tracks g' (j - 1) (j + 1) 2 2).
    { eapply conv; [exact (tracks_sub _ _ _ _ _ _ _ _ 1 (upto_finite _ _ Ug) (fun _ => KI) (fun _ => tracks_weaken _ _ _ _ _ 1 0 (tracks_exact n1) ltac:(lia) ltac:(lra)))| | |]; rewrite ?V1, ?(Rabs_pos_eq 1) by lra; ring. }
    assert (KQ : tracks q' (Q / value C') (Rabs Q / value C') 1 1).
    { eapply conv; [exact (tracks_div _ _ _ _ _ _ (upto_finite _ _ Uq) NC (fun _ => tracks_exact (hx_Q_dot x)))| | |]; fold Q; rewrite ?(Rabs_pos_eq (value C')) by lra; [reflexivity|reflexivity|field; lra]. }
    pose proof (tracks_mulg _ _ _ _ _ _ _ _ _ _ F (fun _ => KQ) (fun _ => KG)) as H.
    destruct (inverse (Rabs Q) (Rabs_pos Q)) as (QN & Q0 & (Q1 & Q2)). set (w := Rabs Q / C) in *. set (w' := Rabs Q / value C') in *.
    assert (JB : j <= 2 ^ 50).
    { unfold j. unfold from in FE. rewrite Rabs_pos_eq in FE by lra. replace (-50)%Z with (- Z.of_nat 50)%Z in FE by reflexivity. rewrite bpow_neg in FE. change (IZR radix2) with 2 in FE.
      replace (2 ^ 50) with (/ / 2 ^ 50) by apply Rinv_inv. apply Rinv_le_contravar; [apply Rinv_0_lt_compat, pow_lt; lra|exact FE]. }
    assert (WB : w' <= 2 ^ 81).
    { unfold w', Rdiv. unfold from in FC. rewrite Rabs_pos_eq in FC by lra. replace (-41)%Z with (- Z.of_nat 41)%Z in FC by reflexivity. rewrite bpow_neg in FC. change (IZR radix2) with 2 in FC.
      assert (/ value C' <= 2 ^ 41) by (replace (2 ^ 41) with (/ / 2 ^ 41) by apply Rinv_inv; apply Rinv_le_contravar; [apply Rinv_0_lt_compat, pow_lt; lra|exact FC]).
      destruct UQ as (_ & BQ). fold Q in BQ. replace 40%Z with (Z.of_nat 40) in BQ by reflexivity. 
      assert (BQ' : Rabs Q <= 2 ^ 40) by (eapply Rle_trans; [exact BQ|]; right; cbn; lra).
      replace (2 ^ 81) with (2 ^ 40 * 2 ^ 41) by (rewrite <- pow_add; reflexivity). apply Rmult_le_compat; [apply Rabs_pos|left; apply Rinv_0_lt_compat; lra|exact BQ'|lra]. }
    assert (PW : forall k, (k <= 16)%nat -> 0 <= (1 + u) ^ k <= 2) by (intros k Kk; pose proof (growth_16 k Kk) as Gk; unfold growth in Gk; pose proof (one_u_pow k); lra).
    pose proof (PW 1%nat ltac:(lia)) as P1. pose proof (PW 2%nat ltac:(lia)) as P2.
    assert (N4 : nearly 4 (n_mul q' g') (Q / value C' * (j - 1)) (w' * (j + 1))).
    { refine (of_track 4 _ _ _ _ _ H).
      assert (B1 : (j + 1) * (1 + u) ^ 2 <= (2 ^ 50 + 1) * 2) by (apply Rmult_le_compat; lra).
      assert (B2 : w' * (1 + u) ^ 1 <= 2 ^ 81 * 2) by (apply Rmult_le_compat; lra).
      pose proof (pow_mono 50 81 ltac:(lia)). pose proof (pow_R1_Rle 2 81 ltac:(lra)) as PM.
      replace (2 ^ 100) with (2 ^ 81 * 524288) by (replace 524288 with (2 ^ 19) by (cbn; lra); rewrite <- pow_add; reflexivity). lra. }
    unfold nearly in N4.
    set (G4 := growth 4) in *. pose proof (growth_nonneg 4) as G4P. fold G4 in G4P. pose proof (growth_nonneg 2) as G2P. pose proof (growth_le 2 4 ltac:(lia)) as G24. fold G4 in G24.
    set (d := eps + growth 12) in *. set (y := / eff). assert (Y : 1 <= y) by (unfold y; rewrite <- Rinv_1; apply Rinv_le_contravar; lra).
    assert (J2 : j <= 2 * y) by (unfold y; unfold Rdiv in J; lra).
    assert (M1 : G4 * (w' * (j + 1)) <= G4 * (2 * w * (3 * y))) by (apply Rmult_le_compat_l; [exact G4P|]; apply Rmult_le_compat; lra).
    assert (EQ : Rabs (Q / value C' - Q / C) <= 2 * growth 2 * w).
    { replace (Q / value C' - Q / C) with (Q * (/ value C' - / C)) by (field; lra). rewrite Rabs_mult.
      replace (w' - w) with (Rabs Q * (/ value C' - / C)) in QN by (unfold w', w; field; lra). rewrite Rabs_mult, (Rabs_pos_eq (Rabs Q)) in QN by apply Rabs_pos. exact QN. }
    assert (AJ : Rabs (j - 1) <= 3 * y) by (apply Rabs_le; lra).
    assert (M2 : Rabs ((Q / value C' - Q / C) * (j - 1)) <= 2 * growth 2 * w * (3 * y)) by (rewrite Rabs_mult; apply Rmult_le_compat; auto using Rabs_pos).
    assert (M3 : Rabs (Q / C * (j - y)) <= w * (2 * d * (y * y))).
    { rewrite Rabs_mult. replace (Rabs (Q / C)) with w by (unfold w, Rdiv; rewrite Rabs_mult, (Rabs_pos_eq (/ C)) by (left; apply Rinv_0_lt_compat; lra); reflexivity).
      apply Rmult_le_compat_l; [exact Q0|]. replace (j - y) with (- ((value eff' - eff) * (j * y))) by (unfold j, y; field; lra). rewrite Rabs_Ropp, Rabs_mult, (Rabs_pos_eq (j * y)) by (apply Rmult_le_pos; lra).
      replace (2 * d * (y * y)) with (d * (2 * y * y)) by ring. apply Rmult_le_compat; [apply Rabs_pos|apply Rmult_le_pos; lra|exact KE|apply Rmult_le_compat_r; lra]. }
    replace (value (n_mul q' g') - Q / C * (1 / eff - 1)) with ((value (n_mul q' g') - Q / value C' * (j - 1)) + ((Q / value C' - Q / C) * (j - 1) + Q / C * (j - y))) by (unfold y; field; lra).
    replace (12 * G4 / eff + 2 * d / (eff * eff)) with (12 * G4 * y + 2 * d * (y * y)) by (unfold y; field; lra).
    eapply Rle_trans; [apply Rabs_triang|]. pose proof (Rabs_triang ((Q / value C' - Q / C) * (j - 1)) (Q / C * (j - y))) as AT.
    assert (WY : 0 <= w * y) by (apply Rmult_le_pos; lra). assert (M4 : growth 2 * (w * y) <= G4 * (w * y)) by (apply Rmult_le_compat_r; lra).
    lra.
  Qed.
End Ntu.
