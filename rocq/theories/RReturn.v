(** * What returning temperatures say about the pressure *)
From Coq Require Import ZArith NArith List Reals Lra Lia.
From Verif Require Import Num ModelTypes ModelWs ModelHx ModelStateEq ModelEngine RNum Spec SpecR SpecGas
  SpecKin SpecTraj SpecLaws SpecUnique Fixture RSolve RGauss RFluid RKin RMass RLaws RPeriod PolyLoop.
Import ListNotations.
Local Open Scope R_scope.

(** a quotient and its denominator *)
Lemma quot_bounds v x y lo hi : 0 < v -> 0 < x -> 0 < y -> lo * x <= y <= hi * x ->
  lo * (v / y) <= v / x <= hi * (v / y).
Proof.
  intros Hv Hx Hy (H1 & H2).
  assert (E1 : v / x = v / y * (y / x)) by (field; lra).
  assert (P : 0 < v / y) by (apply Rdiv_lt_0_compat; assumption).
  assert (Q : lo <= y / x <= hi).
  { assert (E : y = y / x * x) by (field; lra). rewrite E in H1, H2 at 1.
    split; apply (Rmult_le_reg_r x); lra. }
  rewrite E1. split; [rewrite (Rmult_comm lo)|rewrite (Rmult_comm hi)]; apply Rmult_le_compat_l; lra.
Qed.
Lemma quot_strict v x y lo hi : 0 < v -> 0 < x -> 0 < y -> lo * x < y < hi * x ->
  lo * (v / y) < v / x < hi * (v / y).
Proof.
  intros Hv Hx Hy (H1 & H2).
  assert (E1 : v / x = v / y * (y / x)) by (field; lra).
  assert (P : 0 < v / y) by (apply Rdiv_lt_0_compat; assumption).
  assert (Q : lo < y / x < hi).
  { assert (E : y = y / x * x) by (field; lra). rewrite E in H1, H2 at 1.
    split; apply (Rmult_lt_reg_r x); lra. }
  rewrite E1. split; [rewrite (Rmult_comm lo)|rewrite (Rmult_comm hi)]; apply Rmult_lt_compat_l; lra.
Qed.

Section Return.
  Variable name : GasName.
  Variable r : Run R.
  Hypothesis Hf : ru_fluid r = IdealGas_Fluid (IdealGas_new name).
  Variable D : Decomp R.
  Hypothesis HD : sound D.
  Variables (c : R -> Conditions R) (a tau : R).
  Hypothesis Ht0 : 0 <= tau.
  Hypothesis HR : repeats (ru_ws_vol_fn r) tau.
  Hypothesis H : forall t, a <= t <= a + tau -> on_trajectory D r c t /\ physical (Run_calculate_inputs r t (c t)).

  Let b := a + tau.
  Let hx := ru_vol_chx r / te_chx (ru_temp r) + ru_vol_regen r / rt_avg (te_regen (ru_temp r))
    + ru_vol_hhx r / te_hhx (ru_temp r).
  Let Vc := v_value (fst (ru_ws_vol_fn r a)).
  Let Ve := v_value (snd (ru_ws_vol_fn r a)).

  Lemma return_facts : 0 < Vc /\ 0 < Ve /\ 0 <= hx /\ 0 < cd_T_c (c a) /\ 0 < cd_T_e (c a) /\ 0 < cd_T_c (c b) /\
    0 < cd_T_e (c b) /\ 0 < cd_P (c a) /\
    cd_P (c b) * (Vc / cd_T_c (c b) + hx + Ve / cd_T_e (c b)) = cd_P (c a) * (Vc / cd_T_c (c a) + hx + Ve / cd_T_e (c a)).
  Proof.
    destruct (H a) as (((T1 & T2 & T3 & T4 & T5) & _) & Hp); [lra|].
    destruct (H b) as (((U1 & U2 & _) & _) & _); [unfold b; lra|].
    pose proof (pressure_law (IdealGas_new name) (gas_R_pos name) r Hf D c a b HD ltac:(unfold b; lra)
      (fun u Hu => proj1 (H u Hu))) as HL.
    unfold reduced_volume in HL. unfold b in HL at 2 4. rewrite (HR a) in HL.
    unfold Run_calculate_inputs in Hp. unfold Vc, Ve in *. destruct (ru_ws_vol_fn r a) as [v w]. cbn [fst snd] in *.
    destruct Hp as (_ & (A & A2 & _) & (B & _) & Vk & _ & Vr & _ & Vl & _).
    cbn in A, B, Vk, Vr, Vl. change (0 < fl_dens (ru_fluid r) (cd_T_c (c a)) (cd_P (c a))) in A2. rewrite Hf in A2.
    change (0 < ig_dens (IdealGas_new name) (cd_T_c (c a)) (cd_P (c a))) in A2.
    assert (0 <= ru_vol_chx r / te_chx (ru_temp r)) by (apply Rle_mult_inv_pos; assumption).
    assert (0 <= ru_vol_regen r / rt_avg (te_regen (ru_temp r))) by (apply Rle_mult_inv_pos; assumption).
    assert (0 <= ru_vol_hhx r / te_hhx (ru_temp r)) by (apply Rle_mult_inv_pos; assumption).
    split; [assumption|]. split; [assumption|]. split; [unfold hx; lra|]. do 4 (split; [assumption|]). split.
    - rewrite (dens_law (IdealGas_new name) (gas_R_pos name) (cd_T_c (c a)) (cd_P (c a)) T1).
      pose proof (gas_R_pos name). apply Rmult_lt_0_compat; [apply Rmult_lt_0_compat; assumption|assumption].
    - unfold hx. lra.
  Qed.

  Lemma pressure_bounds lo hi : lo <= 1 <= hi ->
    lo * cd_T_c (c a) <= cd_T_c (c b) <= hi * cd_T_c (c a) -> lo * cd_T_e (c a) <= cd_T_e (c b) <= hi * cd_T_e (c a) ->
    lo * cd_P (c a) <= cd_P (c b) <= hi * cd_P (c a).
  Proof.
    intros H1 HC HE. destruct return_facts as (A1 & A2 & A3 & A4 & A5 & A6 & A7 & A8 & A9).
    pose proof (quot_bounds Vc _ _ lo hi A1 A4 A6 HC) as QC. pose proof (quot_bounds Ve _ _ lo hi A2 A5 A7 HE) as QE.
    assert (P1 : 0 < Vc / cd_T_c (c b)) by (apply Rdiv_lt_0_compat; assumption).
    assert (P2 : 0 < Ve / cd_T_e (c b)) by (apply Rdiv_lt_0_compat; assumption).
    set (s := Vc / cd_T_c (c b) + hx + Ve / cd_T_e (c b)) in *. assert (S : 0 < s) by (unfold s; lra).
    assert (B : lo * s <= Vc / cd_T_c (c a) + hx + Ve / cd_T_e (c a) <= hi * s).
    { assert (lo * hx <= hx) by (assert (0 <= (1 - lo) * hx) by (apply Rmult_le_pos; lra); lra).
      assert (hx <= hi * hx) by (assert (0 <= (hi - 1) * hx) by (apply Rmult_le_pos; lra); lra).
      unfold s. lra. }
    set (q := Vc / cd_T_c (c a) + hx + Ve / cd_T_e (c a)) in *.
    split; apply (Rmult_le_reg_r s); try assumption; rewrite A9.
    - replace (lo * cd_P (c a) * s) with (cd_P (c a) * (lo * s)) by ring. apply Rmult_le_compat_l; lra.
    - replace (hi * cd_P (c a) * s) with (cd_P (c a) * (hi * s)) by ring. apply Rmult_le_compat_l; lra.
  Qed.
  Lemma pressure_within dl : Rabs (cd_T_c (c b) - cd_T_c (c a)) < dl * cd_T_c (c a) ->
    Rabs (cd_T_e (c b) - cd_T_e (c a)) < dl * cd_T_e (c a) ->
    Rabs (cd_P (c b) - cd_P (c a)) < dl * cd_P (c a).
  Proof.
    intros HC HE. destruct return_facts as (A1 & A2 & A3 & A4 & A5 & A6 & A7 & A8 & A9).
    apply Rabs_def2 in HC, HE.
    pose proof (quot_strict Vc _ _ (1 - dl) (1 + dl) A1 A4 A6 ltac:(lra)) as QC.
    pose proof (quot_strict Ve _ _ (1 - dl) (1 + dl) A2 A5 A7 ltac:(lra)) as QE.
    assert (P1 : 0 < Vc / cd_T_c (c b)) by (apply Rdiv_lt_0_compat; assumption).
    assert (P2 : 0 < Ve / cd_T_e (c b)) by (apply Rdiv_lt_0_compat; assumption).
    assert (D0 : 0 < dl). { apply (Rmult_lt_reg_r (cd_T_c (c a))); [assumption|]. lra. }
    set (s := Vc / cd_T_c (c b) + hx + Ve / cd_T_e (c b)) in *. assert (S : 0 < s) by (unfold s; lra).
    assert (B : (1 - dl) * s < Vc / cd_T_c (c a) + hx + Ve / cd_T_e (c a) < (1 + dl) * s).
    { assert (0 <= dl * hx) by (apply Rmult_le_pos; lra). unfold s. lra. }
    set (q := Vc / cd_T_c (c a) + hx + Ve / cd_T_e (c a)) in *.
    assert (L1 : cd_P (c a) * ((1 - dl) * s) < cd_P (c a) * q) by (apply Rmult_lt_compat_l; lra).
    assert (L2 : cd_P (c a) * q < cd_P (c a) * ((1 + dl) * s)) by (apply Rmult_lt_compat_l; lra).
    apply Rabs_def1; apply (Rmult_lt_reg_r s); try assumption; lra.
  Qed.
  Lemma close_within (tol : ConvergenceTolerance R) x y : 0 < x -> close tol x y -> Rabs (y - x) < ct_rel tol * x.
  Proof.
    intros Hx (_ & C). cbn in C. destruct (Rlt_dec (Rabs ((y - x) / x)) (ct_rel tol)) as [L|N].
    - unfold Rdiv in L. rewrite Rabs_mult, Rabs_inv, (Rabs_pos_eq x) in L by lra.
      apply (Rmult_lt_compat_r x) in L; [|exact Hx]. rewrite Rmult_assoc, Rinv_l, Rmult_1_r in L by lra. exact L.
    - exfalso. revert C. cbn. destruct (Rlt_dec (Rabs ((y - x) / x)) (ct_rel tol)); [contradiction|discriminate].
  Qed.
  Lemma pressure_close tol : close tol (cd_T_c (c a)) (cd_T_c (c b)) -> close tol (cd_T_e (c a)) (cd_T_e (c b)) ->
    Rabs (cd_P (c b) - cd_P (c a)) < ct_rel tol * cd_P (c a).
  Proof.
    intros HC HE. destruct return_facts as (A1 & A2 & A3 & A4 & A5 & A6 & A7 & A8 & A9).
    apply pressure_within; apply close_within; assumption.
  Qed.
End Return.

Lemma converged_pressure name r D c a tol pts first last pre post :
  ru_fluid r = IdealGas_Fluid (IdealGas_new name) -> sound D -> 0 <= ru_period r ->
  repeats (ru_ws_vol_fn r) (ru_period r) ->
  (forall t, a <= t <= a + ru_period r -> on_trajectory D r c t /\ physical (Run_calculate_inputs r t (c t))) ->
  pts = first :: post -> pts = pre ++ [last] -> pt_conditions first = c a -> pt_conditions last = c (a + ru_period r) ->
  integration_is_converged pts tol = Ret true ->
  Rabs (cd_P (pt_conditions last) - cd_P (pt_conditions first)) < ct_rel tol * cd_P (pt_conditions first).
Proof.
  intros Hf HD H0 HR H E1 E2 F1 F2 HC.
  assert (L1 : first_unwrap pts = Ret first) by (rewrite E1; reflexivity).
  assert (L2 : last_unwrap pts = Ret last).
  { apply last_unwrap_Ret. exists pre. exact E2. }
  unfold integration_is_converged in HC. rewrite L1, L2 in HC. cbn [obind] in HC. injection HC as HC.
  apply andb_prop in HC as (C1 & C2). unfold is_converged in C1, C2. apply andb_prop in C1, C2.
  rewrite F1, F2 in *.
  apply (pressure_close name r Hf D HD c a (ru_period r) H0 HR H); assumption.
Qed.
