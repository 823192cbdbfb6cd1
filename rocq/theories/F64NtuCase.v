(** * Where the approach of a fixed-conductance exchanger vanishes in f64 *)
From Coq Require Import ZArith NArith List Reals Bool Lra Lia.
From Flocq Require Import Core BinarySingleNaN.
From Verif Require Import Num ModelTypes ModelWs ModelHx ModelStateEq ModelEngine B64 Spec SpecF64 SpecRound SpecBalance
  SpecRange SpecProps SpecNtu F64Base F64Err F64Balance F64Norm F64Range F64Props F64PropsCase F64Angle F64AngleCase F64Mean F64Link F64LogMeanCase F64Ntu.
Import ListNotations.
Local Open Scope R_scope.
Local Open Scope bool_scope.

Lemma rounded_exact (x : b64) : rounded (value x) = value x.
Proof. apply round_generic; [apply valid_rnd_N|]. apply generic_format_B2R. Qed.
Lemma below_one (e : R) : 0 <= e <= / 2 ^ 55 -> rounded (1 - e) = 1.
Proof.
  intros H. assert (V1 : value (b64_lit 1 0) = 1).
  { assert (E : B2SF (b64_lit 1 0) = SpecFloat.S754_finite false 4503599627370496 (-52)) by (vm_compute; reflexivity).
    unfold value. rewrite <- SF2R_B2SF, E. unfold SF2R, F2R. cbn. lra. }
  assert (V2 : value (b64_norm 1 (-55)) = / 2 ^ 55).
  { assert (E : B2SF (b64_norm 1 (-55)) = SpecFloat.S754_finite false 4503599627370496 (-107)) by (vm_compute; reflexivity).
    unfold value. rewrite <- SF2R_B2SF, E. unfold SF2R, F2R. cbn. lra. }
  assert (F3 : finite (Bminus mode_NE (b64_lit 1 0) (b64_norm 1 (-55)))) by (vm_compute; reflexivity).
  destruct (minus_finite _ _ F3) as (_ & _ & V3). change (B2R (b64_lit 1 0)) with (value (b64_lit 1 0)) in V3. change (B2R (b64_norm 1 (-55))) with (value (b64_norm 1 (-55))) in V3.
  rewrite V1, V2 in V3.
  assert (V4 : B2R (Bminus mode_NE (b64_lit 1 0) (b64_norm 1 (-55))) = 1).
  { assert (E : B2SF (Bminus mode_NE (b64_lit 1 0) (b64_norm 1 (-55))) = SpecFloat.S754_finite false 4503599627370496 (-52)) by (vm_compute; reflexivity).
    rewrite <- SF2R_B2SF, E. unfold SF2R, F2R. cbn. lra. }
  assert (R1 : rounded 1 = 1) by (rewrite <- V1; apply rounded_exact).
  apply Rle_antisym.
  - rewrite <- R1. apply round_le; try typeclasses eauto. lra.
  - rewrite <- V4, V3. apply round_le; try typeclasses eauto. lra.
Qed.

Section Vanish.
  Variables (lm : Libm) (nan_top : bool).
  Local Instance vops : NumOps b64 := b64_ops lm nan_top.
  Local Opaque Bplus Bminus Bmult Bdiv Bopp.
  Theorem vanishes (f : FixedConductance b64) (x : HeatExchanger b64) (T : b64) :
    let C := n_mul (hx_cp x) (hx_m_dot x) in let e := lm_exp lm (n_opp (n_div (fc_UA f) C)) in
    upto 100 (n_div (hx_Q_dot x) C) -> finite e -> 0 <= value e <= / 2 ^ 55 ->
    value (chx_fc_approach f (mkChxState x T)) = 0.
  Proof.
    intros C e UQ Fe Be. destruct (one lm nan_top) as (V1 & U1).
    assert (Ue : upto 0 e).
    { split; [exact Fe|]. change (bpow radix2 0) with 1. rewrite Rabs_pos_eq by lra. assert (/ 2 ^ 55 <= / 1) by (apply Rinv_le_contravar; [lra|apply pow_R1_Rle; lra]). lra. }
    assert (UE : upto 2 (n_sub n1 e)) by (eapply upto_weaken; [eapply u_sub; [exact U1|exact Ue|zside]|zside]).
    destruct (minus_finite _ _ (upto_finite _ _ UE)) as (_ & _ & VE). change (value (n_sub n1 e) = rounded (value n1 - value e)) in VE.
    assert (V1' : value n1 = 1) by exact V1. rewrite V1', (below_one _ Be) in VE.
    assert (FE : from 0 (n_sub n1 e)) by (unfold from; change (bpow radix2 0) with 1; rewrite VE, Rabs_pos_eq; lra).
    assert (UI : upto 1 (n_div n1 (n_sub n1 e))) by (eapply upto_weaken; [eapply u_div; [exact U1|exact FE|zside]|zside]).
    assert (NE : B2R (n_sub n1 e) <> 0) by (change (value (n_sub n1 e) <> 0); lra).
    destruct (div_finite _ _ (upto_finite _ _ UI) NE) as (_ & VI). change (value (n_div n1 (n_sub n1 e)) = rounded (value n1 / value (n_sub n1 e))) in VI.
    assert (VI' : value (n_div n1 (n_sub n1 e)) = 1).
    { rewrite VI, VE, V1'. replace (1 / 1) with (1 - 0) by lra. apply below_one. split; [lra|]. left. apply Rinv_0_lt_compat, pow_lt. lra. }
    assert (UG : upto 2 (n_sub (n_div n1 (n_sub n1 e)) n1)) by (eapply upto_weaken; [eapply u_sub; [exact UI|exact U1|zside]|zside]).
    destruct (minus_finite _ _ (upto_finite _ _ UG)) as (_ & _ & VG).
    change (value (n_sub (n_div n1 (n_sub n1 e)) n1) = rounded (value (n_div n1 (n_sub n1 e)) - value n1)) in VG. rewrite VI', V1' in VG.
    assert (R0 : rounded 0 = 0) by (apply round_0; apply valid_rnd_N).
    replace (1 - 1) with 0 in VG by ring. rewrite R0 in VG.
    assert (FR : finite (n_mul (n_div (hx_Q_dot x) C) (n_sub (n_div n1 (n_sub n1 e)) n1))) by (eapply upto_finite, u_mul; [exact UQ|exact UG|zside]).
    destruct (mult_finite _ _ FR) as (_ & _ & VR).
    change (value (n_mul (n_div (hx_Q_dot x) C) (n_sub (n_div n1 (n_sub n1 e)) n1)) = rounded (value (n_div (hx_Q_dot x) C) * value (n_sub (n_div n1 (n_sub n1 e)) n1))) in VR.
    rewrite VG, Rmult_0_r, R0 in VR. exact VR.
  Qed.
  Theorem chx_ntu (eps : R) (f : FixedConductance b64) (x : HeatExchanger b64) (T : b64) : exp_accurate lm eps -> ordinary_exchanger eps (fc_UA f) x ->
    near_ntu eps (fc_UA f) x (chx_fc_approach f (mkChxState x T)).
  Proof. exact (ntu_f64 lm nan_top eps (fc_UA f) x). Qed.
  Theorem hhx_ntu (eps : R) (f : FixedConductance b64) (x : HeatExchanger b64) (T : b64) : exp_accurate lm eps -> ordinary_exchanger eps (fc_UA f) x ->
    near_ntu eps (fc_UA f) x (hhx_fc_approach f (mkHhxState x T)).
  Proof. exact (ntu_f64 lm nan_top eps (fc_UA f) x). Qed.
End Vanish.

(** exponentials rounded down to multiples of 2^-52 *)
Definition floored_exp : Libm := mkLibm (fun x => floored (exp (value x))) (fun x => x) (fun x => x) (fun x => x).
Lemma floored_exp_accurate : exp_accurate floored_exp (/ 2 ^ 52).
Proof.
  intros x _ B. cbn [lm_exp floored_exp]. pose proof (exp_pos (value x)). pose proof (exp_neg (- value x) ltac:(lra)) as E. rewrite Ropp_involutive in E.
  assert (L : -1 <= exp (value x) <= 1) by lra. destruct (floored_near _ L) as (F & _ & K). exact (conj F K).
Qed.
Lemma exp_40 : exp (-40) <= / 2 ^ 55.
Proof.
  assert (D : forall x m, 0 <= m -> m <= exp x -> m * m <= exp (2 * x)).
  { intros x m M H. replace (2 * x) with (x + x) by ring. rewrite exp_plus. apply Rmult_le_compat; lra. }
  pose proof exp_1_above as E1. pose proof (D 1 2.65 ltac:(lra) ltac:(lra)) as E2. pose proof (D (2 * 1) 7 ltac:(lra) ltac:(lra)) as E4. pose proof (D (2 * (2 * 1)) 49 ltac:(lra) ltac:(lra)) as E8.
  pose proof (D (2 * (2 * (2 * 1))) 2401 ltac:(lra) ltac:(lra)) as E16. pose proof (D (2 * (2 * (2 * (2 * 1)))) 5764801 ltac:(lra) ltac:(lra)) as E32.
  set (x32 := 2 * (2 * (2 * (2 * (2 * 1))))) in *. set (x8 := 2 * (2 * (2 * 1))) in *.
  replace (-40) with (- (x32 + x8)) by (unfold x32, x8; ring). rewrite exp_Ropp. apply Rinv_le_contravar; [apply pow_lt; lra|]. rewrite exp_plus.
  assert (33232930569601 * 2401 <= exp x32 * exp x8) by (apply Rmult_le_compat; lra). replace (2 ^ 55) with 36028797018963968 by (cbn; lra). lra.
Qed.
Section Case.
  Variable nan_top : bool.
  Local Instance cops : NumOps b64 := b64_ops floored_exp nan_top.
  (** heat exchangers of 2600 W/K through which 2600 W flow, with 1 and 40 transfer units *)
  Definition ntu_gas : HeatExchanger b64 := mkHxr (n_lit 300 0) (n_lit 1 6) (n_lit 1 0) (n_lit 5200 0) (n_lit 5 (-1)) (n_lit 2600 0).
  Definition ntu_exchanger (UA : b64) : FixedConductance b64 := mkFC (n_lit 0 0) (n_lit 4 (-5)) UA ParasiticPower_default.
  Definition ntu_1 : b64 := n_lit 2600 0.
  Definition ntu_40 : b64 := n_lit 104000 0.
  Definition ntu_check : bool :=
    upto_check 40 ntu_1 && upto_check 40 ntu_40 && upto_check 40 (hx_cp ntu_gas) && upto_check 40 (hx_m_dot ntu_gas) && upto_check 40 (hx_Q_dot ntu_gas) &&
    (lit_check 0 ntu_1 2600 1 && lit_check 0 ntu_40 104000 1 && lit_check 0 (hx_cp ntu_gas) 5200 1 && lit_check 0 (hx_m_dot ntu_gas) 1 2 && lit_check 0 (hx_Q_dot ntu_gas) 2600 1) &&
    (upto_check 100 (n_div (hx_Q_dot ntu_gas) (n_mul (hx_cp ntu_gas) (hx_m_dot ntu_gas))) &&
     lit_check 0 (n_opp (n_div ntu_40 (n_mul (hx_cp ntu_gas) (hx_m_dot ntu_gas)))) (-40) 1).
  Lemma ntu_checked : ntu_check = true.
  Proof. vm_cast_no_check (eq_refl true). Qed.
  Lemma ordinary_ntu (UA : b64) (n : R) : upto 40 UA -> value UA = 2600 * n -> 1 <= n -> ordinary_exchanger (/ 2 ^ 52) UA ntu_gas /\
    value (hx_cp ntu_gas) * value (hx_m_dot ntu_gas) = 2600 /\ value (hx_Q_dot ntu_gas) = 2600 /\ 0.6 <= 1 - exp (- (value UA / 2600)) <= 1.
  Proof.
    intros U VU N1. pose proof ntu_checked as H. unfold ntu_check in H. rewrite !andb_true_iff in H.
    destruct H as ((((((_ & _) & U3) & U4) & U5) & ((((_ & _) & L3) & L4) & L5)) & _). apply upto_checked in U3, U4, U5. apply lit_sound in L3, L4, L5.
    destruct L3 as (L3 & _). destruct L4 as (L4 & _). destruct L5 as (L5 & _). apply lit_exact in L3, L4, L5.
    assert (EC : value (hx_cp ntu_gas) * value (hx_m_dot ntu_gas) = 2600) by (rewrite L3, L4; lra). assert (EQ : value (hx_Q_dot ntu_gas) = 2600) by lra.
    assert (EX : 0.6 <= 1 - exp (- (value UA / 2600)) <= 1).
    { rewrite VU. replace (2600 * n / 2600) with n by lra. pose proof (exp_pos (- n)). assert (X : exp (- n) <= exp (Ropp 1)) by (destruct (Req_dec n 1) as [->|]; [lra|left; apply exp_increasing; lra]).
      rewrite (exp_Ropp 1) in X. pose proof exp_1_above. assert (/ exp 1 <= / 2.65) by (apply Rinv_le_contravar; lra). lra. }
    assert (E : 0 < / 2 ^ 52 <= 0.0000000000000003) by (replace (/ 2 ^ 52) with (1 / 4503599627370496) by (cbn; lra); lra).
    pose proof (growth_16 12 ltac:(lia)). pose proof u_small.
    split; [|split; [exact EC|split; [exact EQ|exact EX]]]. unfold ordinary_exchanger. cbv zeta. rewrite EC.
    split; [repeat apply Forall_cons; try apply Forall_nil; assumption|]. split; [lra|]. split; [replace (/ 2 ^ 40) with (1 / 1099511627776) by (cbn; lra); lra|lra].
  Qed.
  Theorem ntu_case (T : b64) : exp_accurate floored_exp (/ 2 ^ 52) /\ ordinary_exchanger (/ 2 ^ 52) (fc_UA (ntu_exchanger ntu_1)) ntu_gas /\
    Rabs (value (chx_fc_approach (ntu_exchanger ntu_1) (mkChxState ntu_gas T)) - (1 / (1 - exp (- (1))) - 1)) <= 0.0000000000001.
  Proof.
    pose proof ntu_checked as H. unfold ntu_check in H. rewrite !andb_true_iff in H. destruct H as ((((((U1 & _) & _) & _) & _) & ((((L1 & _) & _) & _) & _)) & _).
    apply upto_checked in U1. apply lit_sound in L1. destruct L1 as (L1 & _). apply lit_exact in L1. assert (V1 : value ntu_1 = 2600 * 1) by lra.
    destruct (ordinary_ntu ntu_1 1 U1 V1 ltac:(lra)) as (O & EC & EQ & EX). split; [exact floored_exp_accurate|]. split; [exact O|].
    pose proof (chx_ntu floored_exp nan_top (/ 2 ^ 52) (ntu_exchanger ntu_1) ntu_gas T floored_exp_accurate O) as K. unfold near_ntu in K. cbv zeta in K. rewrite EC, EQ in K.
    change (fc_UA (ntu_exchanger ntu_1)) with ntu_1 in K. rewrite V1 in K, EX. replace (2600 * 1 / 2600) with 1 in K, EX by lra. rewrite (Rabs_pos_eq 2600) in K by lra. replace (2600 / 2600) with 1 in K by lra.
    rewrite !Rmult_1_l in K. eapply Rle_trans; [exact K|].
    assert (E : 0 < / 2 ^ 52 <= 0.0000000000000003) by (replace (/ 2 ^ 52) with (1 / 4503599627370496) by (cbn; lra); lra).
    pose proof (growth_16 12 ltac:(lia)) as G12. pose proof (growth_16 4 ltac:(lia)) as G4. pose proof (growth_nonneg 4). pose proof (growth_nonneg 12). pose proof u_small.
    set (y := 1 - exp (- (1))) in *. assert (Y : 0 < / y <= / 0.6) by (split; [apply Rinv_0_lt_compat|apply Rinv_le_contravar]; lra).
    assert (FA : / 2 ^ 900 <= 0.00000000000000000000001).
    { apply Rle_trans with (/ 2 ^ 80); [apply Rinv_le_contravar; [apply pow_lt; lra|apply Rle_pow; [lra|lia]]|].
      apply (Rmult_le_reg_l (2 ^ 80)); [cbn; lra|]. rewrite Rinv_r by (cbn; lra). cbn. lra. }
    unfold Rdiv. rewrite Rinv_mult.
    assert (M1 : 12 * growth 4 * / y <= 12 * (17 * 0.00000000000000012) * / 0.6) by (apply Rmult_le_compat; lra).
    assert (M2 : / y * / y <= / 0.6 * / 0.6) by (apply Rmult_le_compat; lra). assert (0 <= / y * / y) by (apply Rmult_le_pos; lra).
    assert (M3 : 2 * (/ 2 ^ 52 + growth 12) * (/ y * / y) <= 2 * (0.0000000000000003 + 17 * 0.00000000000000012) * (/ 0.6 * / 0.6)) by (apply Rmult_le_compat; lra). lra.
  Qed.
  Theorem ntu_zero (T : b64) : ordinary_exchanger (/ 2 ^ 52) (fc_UA (ntu_exchanger ntu_40)) ntu_gas /\
    0 < value (hx_Q_dot ntu_gas) / 2600 * (1 / (1 - exp (-40)) - 1) /\
    value (chx_fc_approach (ntu_exchanger ntu_40) (mkChxState ntu_gas T)) = 0.
  Proof.
    pose proof ntu_checked as H. unfold ntu_check in H. rewrite !andb_true_iff in H. destruct H as ((((((_ & U2) & _) & _) & _) & ((((_ & L2) & _) & _) & _)) & (U6 & L6)).
    apply upto_checked in U2, U6. apply lit_sound in L2, L6. destruct L2 as (L2 & _). destruct L6 as (L6 & _). apply lit_exact in L2, L6. assert (V2 : value ntu_40 = 2600 * 40) by lra.
    destruct (ordinary_ntu ntu_40 40 U2 V2 ltac:(lra)) as (O & EC & EQ & EX). split; [exact O|]. rewrite EQ. pose proof exp_40 as E40. pose proof (exp_pos (-40)) as P40.
    assert (P55 : / 2 ^ 55 <= / 2 ^ 53) by (apply Rinv_le_contravar; [apply pow_lt; lra|apply Rle_pow; [lra|lia]]).
    assert (E53 : / 2 ^ 53 = 1 / 9007199254740992) by (cbn; lra).
    split.
    - assert (1 < 1 / (1 - exp (-40))); [|lra]. unfold Rdiv. rewrite Rmult_1_l, <- Rinv_1 at 1. apply Rinv_lt_contravar; lra.
    - apply (vanishes floored_exp nan_top (ntu_exchanger ntu_40) ntu_gas T U6).
      + change (finite (floored (exp (value (n_opp (n_div ntu_40 (n_mul (hx_cp ntu_gas) (hx_m_dot ntu_gas)))))))).
        rewrite L6. replace (-40 / 1) with (-40) by lra. apply floored_value. lra.
      + change (0 <= value (floored (exp (value (n_opp (n_div ntu_40 (n_mul (hx_cp ntu_gas) (hx_m_dot ntu_gas))))))) <= / 2 ^ 55).
        rewrite L6. replace (-40 / 1) with (-40) by lra. destruct (floored_value (exp (-40)) ltac:(lra)) as (_ & V). rewrite V.
        assert (Z : Zfloor (exp (-40) * 4503599627370496) = 0%Z) by (apply Zfloor_imp; cbn; lra). rewrite Z.
        split; [lra|]. replace (0 / 4503599627370496) with 0 by lra. left. apply Rinv_0_lt_compat, pow_lt. lra.
  Qed.
End Case.
