(** * In f64 the approach of a fixed-conductance regenerator is right up to errors relative to the temperature difference *)
From Coq Require Import ZArith NArith List Reals Bool Lra Lia.
From Flocq Require Import Core BinarySingleNaN.
From Verif Require Import Num ModelTypes ModelWs ModelHx ModelStateEq ModelEngine B64 Spec SpecF64 SpecRound SpecBalance
  SpecRange SpecProps SpecNtu F64Base F64Err F64Balance F64Norm F64Range F64Props F64PropsCase F64Angle F64Mean F64Link F64LogMeanCase F64Ntu F64NtuCase.
Import ListNotations.
Local Open Scope R_scope.
Local Open Scope bool_scope.

Section Regen.
  Local Opaque Bplus Bminus Bmult Bdiv Bopp Bsqrt.
  Variables (lm : Libm) (nan_top : bool).
  Local Instance gnops : NumOps b64 := b64_ops lm nan_top.
  Variables (UA : b64) (x : HeatExchanger b64) (Tc Th : b64).
  Hypothesis HO : ordinary_regen UA x Tc Th.
  Let n := value UA / (value (hx_cp x) * value (hx_m_dot x)).
  Let N' := n_div UA (n_mul (hx_cp x) (hx_m_dot x)).
  Let h' := n_div N' n2.
  Let s' := n_add n1 h'.
  Let f' := n_div h' s'.
  Let o' := n_sub n1 f'.
  Let D' := n_sub Th Tc.

  Lemma loose : ordinary_exchanger (- (1) - growth 12) UA x.
  Proof.
    destruct HO as (U & UP & CL). pose proof (Forall_inv U) as U1. apply Forall_inv_tail in U. pose proof (Forall_inv U) as U2. apply Forall_inv_tail in U.
    pose proof (Forall_inv U) as U3. apply Forall_inv_tail in U. pose proof (Forall_inv U) as U4.
    unfold ordinary_exchanger. cbv zeta. split; [repeat apply Forall_cons; try apply Forall_nil; assumption|]. split; [exact UP|]. split; [exact CL|].
    assert (P : 0 <= value UA / (value (hx_cp x) * value (hx_m_dot x))).
    { unfold Rdiv. apply Rmult_le_pos; [exact UP|left; apply Rinv_0_lt_compat]. assert (0 < / 2 ^ 40) by (apply Rinv_0_lt_compat, pow_lt; lra). lra. }
    pose proof (exp_neg _ P). lra.
  Qed.
  Lemma temps : upto 40 Tc /\ upto 40 Th.
  Proof. destruct HO as (U & _). do 4 apply Forall_inv_tail in U. pose proof (Forall_inv U) as U5. apply Forall_inv_tail in U. pose proof (Forall_inv U) as U6. auto. Qed.
  Lemma n2_is : value n2 = 2 /\ from 1 n2.
  Proof.
    assert (V : value n2 = 2) by exact (two lm nan_top). split; [exact V|]. unfold from. rewrite V. change (bpow radix2 1) with 2. rewrite Rabs_pos_eq; lra.
  Qed.
  Lemma half_units : upto 81 h' /\ 0 <= n /\ 0 <= value h' /\ Rabs (value h' - n / 2) <= growth 8 * (n / 2) + 2 * tiny.
  Proof.
    destruct (units lm nan_top _ UA x loose) as (FN & NP & N0 & K). destruct (rate lm nan_top _ UA x loose) as (_ & _ & _ & _ & FC). destruct (pieces4 _ UA x loose) as (U1 & _).
    fold n in NP, K. change (finite N') in FN. change (0 <= value N') in N0. change (Rabs (value N' - n) <= growth 7 * n + tiny) in K. destruct n2_is as (V2 & F2).
    assert (UN : upto 81 N') by (eapply upto_weaken; [eapply u_div; [exact U1|exact FC|zside]|zside]).
    assert (UH : upto 81 h') by (eapply upto_weaken; [eapply u_div; [exact UN|exact F2|zside]|zside]).
    assert (NZ : B2R n2 <> 0) by (change (value n2 <> 0); lra). destruct (div_finite _ _ (upto_finite _ _ UH) NZ) as (_ & V).
    change (value h' = rounded (value N' / value n2)) in V. rewrite V2 in V. set (m := value N') in *.
    assert (H0 : 0 <= value h') by (rewrite V; apply rounded_nonneg; lra).
    destruct (rounded_ex (m / 2)) as (e & t & He & Ht & E). rewrite E in V. pose proof u_pos as up. pose proof u_small as us. pose proof tiny_pos as tp.
    assert (K1 : Rabs (m / 2 * e) <= m / 2 * u) by (rewrite Rabs_mult, (Rabs_pos_eq (m / 2)) by lra; apply Rmult_le_compat_l; lra).
    apply Rabs_le_inv in K, K1, Ht.
    assert (K2 : m / 2 * u <= (n / 2 + growth 7 * (n / 2) + tiny / 2) * u) by (apply Rmult_le_compat_r; lra).
    assert (K3 : tiny / 2 * u <= tiny / 2 * 1) by (apply Rmult_le_compat_l; lra).
    split; [exact UH|]. split; [exact NP|]. split; [exact H0|]. rewrite (growth_S 7). apply Rabs_le. lra.
  Qed.
  Theorem counterflow : near_counterflow UA x Tc Th (n_mul o' D').
  Proof.
    unfold near_counterflow. cbv zeta. fold n. destruct half_units as (UH & NP & H0 & KH). destruct (one lm nan_top) as (V1 & U1). assert (V1' : value n1 = 1) by exact V1. destruct temps as (Uc & Ut).
    set (k := n / 2) in *. assert (KP : 0 <= k) by (unfold k; lra). set (h := value h') in *. pose proof u_pos as up. pose proof u_small as us. pose proof tiny_pos as tp. pose proof t_small as ts.
    assert (TU : 4 * tiny <= 0.001 * u).
    { destruct tu as (T & _). replace (2 ^ 41) with (2199023255552) in T by (cbn; lra). lra. }
    assert (US : upto 82 s') by (eapply upto_weaken; [eapply u_add; [exact U1|exact UH|zside]|zside]).
    destruct (plus_finite _ _ (upto_finite _ _ US)) as (_ & _ & VS). change (value s' = rounded (value n1 + value h')) in VS. rewrite V1' in VS. fold h in VS.
    destruct (rounded_ex (1 + h)) as (e1 & t1 & He1 & Ht1 & E1). rewrite E1 in VS.
    assert (S1 : Rabs ((1 + h) * e1) <= (1 + h) * u) by (rewrite Rabs_mult, (Rabs_pos_eq (1 + h)) by lra; apply Rmult_le_compat_l; lra).
    assert (S2 : (1 + h) * u <= (1 + h) * 0.01) by (apply Rmult_le_compat_l; lra).
    assert (S3 : u * 1 <= u * (1 + h)) by (apply Rmult_le_compat_l; lra).
    set (s := value s') in *. assert (KS : Rabs (s - (1 + h)) <= 1.01 * u * (1 + h)) by (apply Rabs_le_inv in S1, Ht1; apply Rabs_le; lra).
    assert (SP : 0.9 * (1 + h) <= s) by (apply Rabs_le_inv in S1, Ht1; lra).
    assert (FS : from (-1) s') by (unfold from; change (bpow radix2 (-1)) with (/ 2); change (/ 2 <= Rabs s); rewrite Rabs_pos_eq; lra).
    assert (UF : upto 82 f') by (eapply upto_weaken; [eapply u_div; [exact UH|exact FS|zside]|zside]).
    assert (NS : B2R s' <> 0) by (change (s <> 0); lra). destruct (div_finite _ _ (upto_finite _ _ UF) NS) as (_ & VF). change (value f' = rounded (h / s)) in VF.
    assert (IS : 0 < / s) by (apply Rinv_0_lt_compat; lra). assert (IH : 0 < / (1 + h) <= 1) by (split; [apply Rinv_0_lt_compat; lra|]; rewrite <- Rinv_1 at 2; apply Rinv_le_contravar; lra).
    assert (B0 : 0 <= h * / s <= 1.12).
    { split; [apply Rmult_le_pos; lra|]. apply (Rmult_le_reg_r s); [lra|]. rewrite Rmult_assoc, Rinv_l by lra. lra. }
    assert (KF : Rabs (h / s - h / (1 + h)) <= 1.2 * u).
    { replace (h / s - h / (1 + h)) with (- (h * / s * ((s - (1 + h)) * / (1 + h)))) by (field; lra). rewrite Rabs_Ropp, Rabs_mult, (Rabs_pos_eq (h * / s)), Rabs_mult, (Rabs_pos_eq (/ (1 + h))) by lra.
      assert (X : Rabs (s - (1 + h)) * / (1 + h) <= 1.01 * u) by (apply (Rmult_le_reg_r (1 + h)); [lra|]; rewrite Rmult_assoc, Rinv_l by lra; lra).
      assert (0 <= Rabs (s - (1 + h)) * / (1 + h)) by (apply Rmult_le_pos; [apply Rabs_pos|lra]).
      assert (h * / s * (Rabs (s - (1 + h)) * / (1 + h)) <= 1.12 * (1.01 * u)) by (apply Rmult_le_compat; lra). lra. }
    destruct (rounded_ex (h / s)) as (e2 & t2 & He2 & Ht2 & E2). rewrite E2 in VF. unfold Rdiv in VF at 1.
    assert (F1 : Rabs (h * / s * e2) <= 1.12 * u) by (rewrite Rabs_mult, (Rabs_pos_eq (h * / s)) by lra; apply Rmult_le_compat; try apply Rabs_pos; lra).
    set (f := value f') in *. assert (EH : h / (1 + h) = 1 - / (1 + h)) by (field; lra).
    assert (KF2 : Rabs (f - (1 - / (1 + h))) <= 2.4 * u).
    { rewrite EH in KF. unfold Rdiv in KF. apply Rabs_le_inv in KF, F1, Ht2. apply Rabs_le. lra. }
    assert (FB : -0.1 <= f <= 1.1) by (apply Rabs_le_inv in KF2; lra).
    assert (UF2 : upto 1 f') by (split; [exact (upto_finite _ _ UF)|change (bpow radix2 1) with 2; apply Rabs_le; change (value f') with f; lra]).
    assert (UO : upto 2 o') by (eapply upto_weaken; [eapply u_sub; [exact U1|exact UF2|zside]|zside]).
    destruct (minus_finite _ _ (upto_finite _ _ UO)) as (_ & _ & VO). change (value o' = rounded (value n1 - value f')) in VO. rewrite V1' in VO. fold f in VO.
    destruct (rounded_ex (1 - f)) as (e3 & t3 & He3 & Ht3 & E3). rewrite E3 in VO.
    assert (O1 : Rabs ((1 - f) * e3) <= 1.1 * u) by (rewrite Rabs_mult; apply Rmult_le_compat; try apply Rabs_pos; [apply Rabs_le; lra|lra]).
    set (o := value o') in *. assert (KO : Rabs (o - / (1 + h)) <= 3.6 * u) by (apply Rabs_le_inv in O1, Ht3, KF2; apply Rabs_le; lra).
    assert (IK : 0 < / (1 + k) <= 1) by (split; [apply Rinv_0_lt_compat; lra|]; rewrite <- Rinv_1 at 2; apply Rinv_le_contravar; lra).
    assert (KK : Rabs (/ (1 + h) - / (1 + k)) <= growth 8 + 2 * tiny).
    { replace (/ (1 + h) - / (1 + k)) with (- ((h - k) * (/ (1 + h) * / (1 + k)))) by (field; lra). rewrite Rabs_Ropp, Rabs_mult, (Rabs_pos_eq (/ (1 + h) * / (1 + k))) by (apply Rmult_le_pos; lra).
      pose proof (growth_nonneg 8) as G8. assert (X : / (1 + h) * / (1 + k) <= 1 * / (1 + k)) by (apply Rmult_le_compat_r; lra).
      assert (X0 : 0 <= / (1 + h) * / (1 + k)) by (apply Rmult_le_pos; lra). assert (KG : 0 <= growth 8 * k) by (apply Rmult_le_pos; lra).
      assert (Y : Rabs (h - k) * (/ (1 + h) * / (1 + k)) <= (growth 8 * k + 2 * tiny) * (1 * / (1 + k))) by (apply Rmult_le_compat; try apply Rabs_pos; lra).
      assert (Z : k * / (1 + k) <= 1) by (apply (Rmult_le_reg_r (1 + k)); [lra|]; rewrite Rmult_assoc, Rinv_l by lra; lra).
      assert (Z1 : growth 8 * (k * / (1 + k)) <= growth 8 * 1) by (apply Rmult_le_compat_l; lra). assert (Z2 : 2 * tiny * / (1 + k) <= 2 * tiny * 1) by (apply Rmult_le_compat_l; lra). lra. }
    assert (KO2 : Rabs (o - / (1 + k)) <= growth 15 - 3 * u).
    { pose proof (growth_sum 8 7) as GS. cbn [Nat.add] in GS. pose proof (growth_linear 7) as GL. cbn [INR] in GL. apply Rabs_le_inv in KO, KK. apply Rabs_le. lra. }
    assert (OB : Rabs o <= 1.1) by (apply Rabs_le_inv in KO; apply Rabs_le; lra).
    assert (UD : upto 41 D') by (eapply upto_weaken; [eapply u_sub; [exact Ut|exact Uc|zside]|zside]).
    destruct (minus_finite _ _ (upto_finite _ _ UD)) as (_ & _ & VD). change (value D' = rounded (value Th - value Tc)) in VD. set (D := value Th - value Tc) in *.
    destruct (rounded_ex D) as (e4 & t4 & He4 & Ht4 & E4). rewrite E4 in VD. pose proof (Rabs_pos D) as DP.
    assert (D1 : Rabs (D * e4) <= Rabs D * u) by (rewrite Rabs_mult; apply Rmult_le_compat_l; lra).
    set (d := value D') in *. assert (KD : Rabs (d - D) <= Rabs D * u + tiny) by (replace (d - D) with (D * e4 + t4) by lra; eapply Rle_trans; [apply Rabs_triang|lra]).
    assert (DB : Rabs d <= 1.01 * Rabs D + tiny).
    { replace d with (d - D + D) by ring. eapply Rle_trans; [apply Rabs_triang|]. assert (Rabs D * u <= Rabs D * 0.01) by (apply Rmult_le_compat_l; lra). lra. }
    assert (FR : finite (n_mul o' D')) by (eapply upto_finite, u_mul; [exact UO|exact UD|zside]).
    destruct (mult_finite _ _ FR) as (_ & _ & VR). change (value (n_mul o' D') = rounded (o * d)) in VR.
    destruct (rounded_ex (o * d)) as (e5 & t5 & He5 & Ht5 & E5). rewrite E5 in VR.
    assert (M0 : Rabs (o * d) <= 1.1 * (1.01 * Rabs D + tiny)) by (rewrite Rabs_mult; apply Rmult_le_compat; try apply Rabs_pos; lra).
    assert (M1 : Rabs (o * d * e5) <= 1.1 * (1.01 * Rabs D + tiny) * u) by (rewrite (Rabs_mult (o * d)); apply Rmult_le_compat; try apply Rabs_pos; lra).
    assert (M2 : Rabs (o * (d - D)) <= 1.1 * (Rabs D * u + tiny)) by (rewrite Rabs_mult; apply Rmult_le_compat; try apply Rabs_pos; lra).
    assert (M3 : Rabs (D * (o - / (1 + k))) <= Rabs D * (growth 15 - 3 * u)) by (rewrite Rabs_mult; apply Rmult_le_compat_l; lra).
    replace (value (n_mul o' D') - D / (1 + k)) with ((o * d * e5 + t5) + (o * (d - D) + D * (o - / (1 + k)))) by (rewrite VR; field; lra).
    eapply Rle_trans; [apply Rabs_triang|]. pose proof (Rabs_triang (o * d * e5) t5) as A1. pose proof (Rabs_triang (o * (d - D)) (D * (o - / (1 + k)))) as A2.
    pose proof (growth_le 15 18 ltac:(lia)) as GL. assert (GD : growth 15 * Rabs D <= growth 18 * Rabs D) by (apply Rmult_le_compat_r; lra).
    assert (T4 : 4 * tiny <= / 2 ^ 900) by (apply tiny_900; split; [lra|]; apply Rle_trans with (2 ^ 2); [cbn; lra|apply pow_mono; lia]).
    assert (TT : tiny * u <= tiny * 0.01) by (apply Rmult_le_compat_l; lra). assert (DU : 0 <= Rabs D * u) by (apply Rmult_le_pos; lra). lra.
  Qed.
End Regen.
Theorem regen_ntu (lm : Libm) (nan_top : bool) (f : FixedConductance b64) (x : HeatExchanger b64) (Tc Th : b64) : ordinary_regen (fc_UA f) x Tc Th ->
  near_counterflow (fc_UA f) x Tc Th (regen_fc_approach (ops := b64_ops lm nan_top) f (mkRegenState x Tc Th)).
Proof. exact (counterflow lm nan_top (fc_UA f) x Tc Th). Qed.

Section RegenCase.
  Variables (lm : Libm) (nan_top : bool).
  Local Instance rcops : NumOps b64 := b64_ops lm nan_top.
  (** one transfer unit between 300 K and 900 K *)
  Definition ntu_cold : b64 := n_lit 300 0.
  Definition ntu_hot : b64 := n_lit 900 0.
  Lemma regen_ntu_checked : upto_check 40 ntu_cold && upto_check 40 ntu_hot && (lit_check 0 ntu_cold 300 1 && lit_check 0 ntu_hot 900 1) = true.
  Proof. vm_cast_no_check (eq_refl true). Qed.
  Theorem regen_ntu_case : ordinary_regen (fc_UA (ntu_exchanger nan_top (ntu_1 nan_top))) (ntu_gas nan_top) ntu_cold ntu_hot /\
    Rabs (value (regen_fc_approach (ntu_exchanger nan_top (ntu_1 nan_top)) (mkRegenState (ntu_gas nan_top) ntu_cold ntu_hot)) - 400) <= 0.000000000002.
  Proof.
    pose proof (ntu_checked nan_top) as H. unfold ntu_check in H. rewrite !andb_true_iff in H. destruct H as ((((((U1 & _) & _) & _) & _) & ((((L1 & _) & _) & _) & _)) & _).
    apply upto_checked in U1. apply lit_sound in L1. destruct L1 as (L1 & _). apply lit_exact in L1. assert (V1 : value (ntu_1 nan_top) = 2600 * 1) by lra.
    destruct (ordinary_ntu nan_top (ntu_1 nan_top) 1 U1 V1 ltac:(lra)) as (O & EC & _ & _). destruct O as (U & UP & CL & _).
    pose proof regen_ntu_checked as H. rewrite !andb_true_iff in H. destruct H as ((UC & UT) & (LC & LT)). apply upto_checked in UC, UT. apply lit_sound in LC, LT.
    destruct LC as (LC & _). destruct LT as (LT & _). apply lit_exact in LC, LT.
    assert (O : ordinary_regen (fc_UA (ntu_exchanger nan_top (ntu_1 nan_top))) (ntu_gas nan_top) ntu_cold ntu_hot).
    { split; [|split; [exact UP|exact CL]]. pose proof (Forall_inv U) as A1. apply Forall_inv_tail in U. pose proof (Forall_inv U) as A2. apply Forall_inv_tail in U.
      pose proof (Forall_inv U) as A3. apply Forall_inv_tail in U. pose proof (Forall_inv U) as A4. repeat apply Forall_cons; try apply Forall_nil; assumption. }
    split; [exact O|]. pose proof (regen_ntu lm nan_top (ntu_exchanger nan_top (ntu_1 nan_top)) (ntu_gas nan_top) ntu_cold ntu_hot O) as K. unfold near_counterflow in K. cbv zeta in K.
    change (fc_UA (ntu_exchanger nan_top (ntu_1 nan_top))) with (ntu_1 nan_top) in K. rewrite EC, V1, LC, LT in K. replace (900 / 1 - 300 / 1) with 600 in K by lra.
    replace (600 / (1 + 2600 * 1 / 2600 / 2)) with 400 in K by lra. rewrite (Rabs_pos_eq 600) in K by lra. eapply Rle_trans; [exact K|].
    assert (FA : / 2 ^ 900 <= 0.00000000000000000000001).
    { apply Rle_trans with (/ 2 ^ 80); [apply Rinv_le_contravar; [apply pow_lt; lra|apply Rle_pow; [lra|lia]]|].
      apply (Rmult_le_reg_l (2 ^ 80)); [cbn; lra|]. rewrite Rinv_r by (cbn; lra). cbn. lra. }
    pose proof (growth_16 16 ltac:(lia)) as G. pose proof u_small as us. pose proof u_pos as up. pose proof (growth_nonneg 16) as GP.
    assert (G18 : growth 18 <= 21 * u).
    { rewrite (growth_S 17), (growth_S 16). assert (growth 16 * u <= 17 * u * u) by (apply Rmult_le_compat_r; lra). assert (u * u <= u * 0.001) by (apply Rmult_le_compat_l; lra).
      assert (growth 16 * u * u <= 17 * u * u * u) by (apply Rmult_le_compat_r; lra). assert (u * u * u <= u * 0.001 * u) by (apply Rmult_le_compat_r; lra). lra. }
    lra.
  Qed.
End RegenCase.
