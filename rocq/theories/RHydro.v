(** * Hydrogen: the state equations can be solved at every temperature from 100 K up *)
From Coq Require Import ZArith NArith List Reals Lra Lia.
From Verif Require Import Num ModelTypes ModelWs ModelHx ModelStateEq ModelEngine ModelApi RNum
  Spec SpecR SpecGas SpecHydro RSolve RFluid.
Local Open Scope R_scope.

(** ** Polynomial bounds: Bernstein form on [100,1000] and [1000,1500], shifted form above *)
Ltac bern5 T a b :=
  let u := fresh "u" in let v := fresh "v" in
  assert (u : 0 <= T - a) by lra; assert (v : 0 <= b - T) by lra;
  pose proof (pow_le _ 5 v);
  pose proof (Rmult_le_pos _ _ (pow_le _ 1 u) (pow_le _ 4 v));
  pose proof (Rmult_le_pos _ _ (pow_le _ 2 u) (pow_le _ 3 v));
  pose proof (Rmult_le_pos _ _ (pow_le _ 3 u) (pow_le _ 2 v));
  pose proof (Rmult_le_pos _ _ (pow_le _ 4 u) (pow_le _ 1 v));
  pose proof (pow_le _ 5 u).
Ltac bern6 T a b :=
  let u := fresh "u" in let v := fresh "v" in
  assert (u : 0 <= T - a) by lra; assert (v : 0 <= b - T) by lra;
  pose proof (pow_le _ 6 v);
  pose proof (Rmult_le_pos _ _ (pow_le _ 1 u) (pow_le _ 5 v));
  pose proof (Rmult_le_pos _ _ (pow_le _ 2 u) (pow_le _ 4 v));
  pose proof (Rmult_le_pos _ _ (pow_le _ 3 u) (pow_le _ 3 v));
  pose proof (Rmult_le_pos _ _ (pow_le _ 4 u) (pow_le _ 2 v));
  pose proof (Rmult_le_pos _ _ (pow_le _ 5 u) (pow_le _ 1 v));
  pose proof (pow_le _ 6 u).
Ltac shift6 T a :=
  let u := fresh "u" in
  assert (u : 0 <= T - a) by lra;
  pose proof (pow_le _ 1 u); pose proof (pow_le _ 2 u); pose proof (pow_le _ 3 u);
  pose proof (pow_le _ 4 u); pose proof (pow_le _ 5 u); pose proof (pow_le _ 6 u).

Lemma ranges T : 100 <= T -> (100 <= T <= 1000) \/ (1000 <= T <= 1500) \/ 1500 <= T.
Proof. lra. Qed.

Lemma h2_cp_R T P : 100 <= T -> 4124.2 < ig_cp h2 T P.
Proof.
  intros HT. rewrite h2_cp. unfold h2_c. decimals.
  destruct (ranges T HT) as [[Ha Hb]|[[Ha Hb]|Ha]].
  - bern5 T 100 1000. lra.
  - bern5 T 1000 1500. lra.
  - shift6 T 1500. lra.
Qed.
Lemma h2_enth_low T P : 100 <= T -> -1960000 < ig_enth h2 T P.
Proof.
  intros HT. rewrite h2_enth. unfold h2_c. decimals.
  destruct (ranges T HT) as [[Ha Hb]|[[Ha Hb]|Ha]].
  - bern6 T 100 1000. lra.
  - bern6 T 1000 1500. lra.
  - shift6 T 1500. lra.
Qed.
Lemma h2_enth_carry T P : 100 <= T ->
  ig_enth h2 T P - T * ig_cp h2 T P + 4124.2 * 250 < -2000000.
Proof.
  intros HT. rewrite h2_enth, h2_cp. unfold h2_c. decimals.
  destruct (ranges T HT) as [[Ha Hb]|[[Ha Hb]|Ha]].
  - bern6 T 100 1000. lra.
  - bern6 T 1000 1500. lra.
  - shift6 T 1500. lra.
Qed.
(** above the reference temperature the enthalpy is positive *)
Lemma h2_enth_pos T P : 250 < T -> 0 < ig_enth h2 T P.
Proof.
  intros HT. rewrite h2_enth. apply Rmult_lt_0_compat; [lra|].
  unfold h2_c. decimals.
  destruct (ranges T) as [[Ha Hb]|[[Ha Hb]|Ha]]; [lra| | |].
  - assert (Hc : 250 <= T) by lra. clear Ha. bern5 T 250 1000. lra.
  - bern5 T 1000 1500. lra.
  - shift6 T 1500. lra.
Qed.
Lemma h2_enth_ref P : ig_enth h2 250 P = 0.
Proof. rewrite h2_enth. ring. Qed.

(** ** The inputs of a hydrogen engine are physical *)
Lemma h2_inte T P : ig_inte h2 T P = ig_enth h2 T P - 4124.2 * (T - 250).
Proof. unfold ig_inte. rewrite h2_R, h2_ref. reflexivity. Qed.
Lemma h2_du_dT T P : ig_du_dT_P h2 T P = ig_cp h2 T P - 4124.2.
Proof. unfold ig_du_dT_P. rewrite h2_R. reflexivity. Qed.

Lemma hydrogen_space r vol T P T' :
  ru_fluid r = IdealGas_Fluid h2 -> 0 < P -> 100 <= T -> 100 <= T' -> 0 < v_value vol ->
  physical_space (comp_inputs r vol T P) (ig_enth h2 T' P) /\
  physical_space (exp_inputs r vol T P) (ig_enth h2 T' P).
Proof.
  intros Hf HP HT HT' HV.
  assert (HT0 : 0 < T) by lra.
  assert (H1 : 0 < P / (4124.2 * T)) by (apply Rdiv_lt_0_compat; lra).
  pose proof (h2_cp_R T P HT) as Hcp.
  pose proof (h2_enth_low T P HT) as Hh.
  pose proof (h2_enth_low T' P HT') as Hh'.
  pose proof (h2_enth_carry T P HT) as Hq.
  assert (HX : physical_space (comp_inputs r vol T P) (ig_enth h2 T' P)).
  { unfold physical_space, comp_inputs. cbn [wi_vol wi_dens wi_du_dT_P wi_dd_dT_P wi_du_dP_T wi_dd_dP_T wi_enth wi_inte].
    rewrite Hf. cbn [IdealGas_Fluid fl_dens fl_inte fl_enth fl_dd_dP_T fl_dd_dT_P fl_du_dP_T fl_du_dT_P].
    rewrite dens_eq, dd_dT_P_eq, dd_dP_T_eq, h2_du_dT, h2_inte, h2_R.
    change (ig_du_dP_T h2 T P) with 0.
    assert (HQ : - P / (4124.2 * (T * T)) = - (P / (4124.2 * T)) * / T) by (field; lra).
    assert (Hinv : 0 < / T) by (apply Rinv_0_lt_compat; exact HT0).
    set (q := P / (4124.2 * T)) in *. rewrite HQ.
    set (h := ig_enth h2 T P) in *. set (h' := ig_enth h2 T' P) in *. set (cp := ig_cp h2 T P) in *.
    assert (HK : forall x, h - T * cp + 4124.2 * 250 < x ->
      - q * / T * (x - (h - 4124.2 * (T - 250))) < q * (cp - 4124.2)).
    { intros x Hx. apply (Rplus_lt_reg_l (q * / T * (x - (h - 4124.2 * (T - 250))))).
      replace (q * / T * (x - (h - 4124.2 * (T - 250))) + - q * / T * (x - (h - 4124.2 * (T - 250)))) with 0 by ring.
      replace (q * / T * (x - (h - 4124.2 * (T - 250))) + q * (cp - 4124.2))
        with (q * / T * (x - (h - T * cp + 4124.2 * 250))) by (field; lra).
      apply Rmult_lt_0_compat; [apply Rmult_lt_0_compat; assumption|lra]. }
    repeat split; try assumption; try lra.
    - rewrite Rmult_0_r. apply Rmult_lt_0_compat; [|lra].
      apply Rdiv_lt_0_compat; lra.
    - apply HK. lra.
    - apply HK. lra. }
  split; exact HX.
Qed.

Lemma hydrogen_physical r t c : ru_fluid r = IdealGas_Fluid h2 -> ru_enth_norm r <> 0 ->
  hydrogen_conditions r t c -> physical (Run_calculate_inputs r t c).
Proof.
  intros Hf Hn (HP & HTc & HTe & HTk & HTl & HTr & HVc & HVe & Vk & Vr & Vl).
  unfold Run_calculate_inputs.
  destruct (ru_ws_vol_fn r t) as [vc ve]. cbn [fst snd] in HVc, HVe.
  unfold physical. cbn [in_enth_norm in_comp in_exp in_chx in_hhx in_regen].
  split; [exact Hn|].
  assert (Ek : hi_enth (chx_inputs r (cd_P c)) = ig_enth h2 (te_chx (ru_temp r)) (cd_P c))
    by (unfold chx_inputs; rewrite Hf; reflexivity).
  assert (El : hi_enth (hhx_inputs r (cd_P c)) = ig_enth h2 (te_hhx (ru_temp r)) (cd_P c))
    by (unfold hhx_inputs; rewrite Hf; reflexivity).
  rewrite Ek, El.
  unfold T_cold in *.
  split; [exact (proj1 (hydrogen_space r vc _ _ _ Hf HP HTc HTk HVc))|].
  split; [exact (proj2 (hydrogen_space r ve _ _ _ Hf HP HTe HTl HVe))|].
  unfold chx_inputs, hhx_inputs, regen_inputs.
  cbn [hi_vol hi_dd_dP_T gi_vol gi_dd_dP_T]. rewrite Hf. cbn [IdealGas_Fluid fl_dd_dP_T].
  assert (HD : forall T P, 0 < T -> 0 <= ig_dd_dP_T h2 T P).
  { intros T P HT. rewrite dd_dP_T_eq, h2_R. left. apply Rdiv_lt_0_compat; lra. }
  repeat split; try assumption; apply HD; lra.
Qed.

Lemma run_new_norm comps s r : Run_new comps s = Ret r ->
  ru_fluid r = s_fluid s /\
  ru_enth_norm r = / 2 * (fl_enth (s_fluid s) (te_sink (s_temp s)) (pr_avg (s_pres s)) +
                          fl_enth (s_fluid s) (te_source (s_temp s)) (pr_avg (s_pres s))).
Proof.
  intros Hr. unfold Run_new in Hr.
  destruct (ex_volume (co_chx comps)); [|discriminate].
  destruct (ex_volume (co_regen comps)); [|discriminate].
  destruct (ex_volume (co_hhx comps)); [|discriminate]. cbn [obind] in Hr.
  destruct (ws_frequency (co_ws comps) (State_ws s)); [|discriminate]. cbn [obind] in Hr.
  destruct (ws_volumes (co_ws comps) (State_ws s)); [|discriminate]. cbn [obind] in Hr.
  destruct (ws_parasitics (co_ws comps) (State_ws s)); [|discriminate]. cbn [obind] in Hr.
  injection Hr as <-. split; [reflexivity|].
  cbn [ru_enth_norm]. rewrite <- R_nhalf. reflexivity.
Qed.

Lemma hydrogen_norm comps s r : s_fluid s = IdealGas_Fluid h2 -> Run_new comps s = Ret r ->
  250 <= te_sink (s_temp s) -> 250 < te_source (s_temp s) -> 0 < ru_enth_norm r.
Proof.
  intros Hf Hr Hk Hs. destruct (run_new_norm comps s r Hr) as [_ E]. rewrite E, Hf.
  cbn [IdealGas_Fluid fl_enth].
  pose proof (h2_enth_pos _ (pr_avg (s_pres s)) Hs) as H1.
  assert (H0 : 0 <= ig_enth h2 (te_sink (s_temp s)) (pr_avg (s_pres s))).
  { destruct (Req_dec (te_sink (s_temp s)) 250) as [E0|N0].
    - rewrite E0, h2_enth_ref. apply Rle_refl.
    - left. apply h2_enth_pos. lra. }
  lra.
Qed.

Lemma hydrogen_solves D comps s r t c hint : sound D -> complete D ->
  s_fluid s = IdealGas_Fluid h2 -> Run_new comps s = Ret r ->
  250 <= te_sink (s_temp s) -> 250 < te_source (s_temp s) ->
  hydrogen_conditions r t c ->
  exists sol, solve D (Run_calculate_inputs r t c) hint = Ok sol /\
    conserves (Run_calculate_inputs r t c) sol /\
    forall D' hint' sol', sound D' -> solve D' (Run_calculate_inputs r t c) hint' = Ok sol' -> sol' = sol.
Proof.
  intros HS HC Hf Hr Hk Hs Hcond.
  assert (Hn : ru_enth_norm r <> 0).
  { apply Rgt_not_eq. exact (hydrogen_norm comps s r Hf Hr Hk Hs). }
  assert (Hfr : ru_fluid r = IdealGas_Fluid h2).
  { rewrite <- Hf. exact (proj1 (run_new_norm comps s r Hr)). }
  pose proof (hydrogen_physical r t c Hfr Hn Hcond) as HP.
  destruct (solve_succeeds _ HP D hint HS HC) as [sol Hsol].
  exists sol. split; [exact Hsol|].
  split; [apply (energy_conserved D _ hint sol HS (norm_nonzero _ HP) Hsol)|].
  intros D' hint' sol' HS' H'. exact (solve_unique _ HP D' D hint' hint sol' sol HS' HS H' Hsol).
Qed.
