(** * An engine with a rhombic drive that settles *)
From Coq Require Import ZArith NArith List Reals Lra Lia.
From Verif Require Import Num ModelTypes ModelWs ModelHx ModelStateEq ModelEngine ModelApi RNum Spec SpecLoop SpecR SpecGas
  SpecKin SpecTraj SpecLaws SpecUnique SpecExist SpecDepend SpecSeries SpecQuad SpecReport SpecSpaces SpecBounds SpecSteady SpecContract
  SpecSample SpecGlobal SpecSearch SpecConverge SpecAccurate SpecSolver SpecApi SpecMeans SpecPush SpecEffective Fixture RSolve RGauss RFluid RKin RHx RPeriod
  RBounds RSteady RSampleReport RSettle RSettleCase RContractEngine RSearchCase RAccurate RAccurateCase RConsistentCase REffective RFamily REuler RUniform REffectiveCase.
Import ListNotations.
Local Open Scope R_scope.

Definition rb_drive : RhombicDrive R :=
  mkRh 60 (mkRhGeo 0.015 0.015 0.054 0.054 0.05) (mkPar (mkPP 0 10 0) (mkPP 0 10 0)) 1 1 0.0001 0.0001.
Definition rb_comps (u : R) : Components R :=
  mkComponents (RhombicDrive_ws rb_drive)
    (chx_FixedConductance (mkFC 1 3.1 u (mkPP 0 1 0)))
    (regen_FixedConductance (mkFC 2 5 u (mkPP 5 0 0)))
    (hhx_FixedConductance (mkFC 3 9.1 u (mkPP 6 2 0))).
Lemma rb_hint u : 0 < u -> State_new_hint (rb_comps u) (IdealGas_Fluid he) st_inputs = Ret st_state.
Proof.
  intros H. unfold State_new_hint, rb_comps.
  cbn [co_chx co_regen co_hhx chx_FixedConductance regen_FixedConductance hhx_FixedConductance ex_initial_approach obind fc_UA].
  rewrite lit_ten, R_n0. destruct (n_lt u 0) eqn:E; [apply R_lt_iff in E; lra|]. reflexivity.
Qed.
Lemma rb_conducting u : 0 < u -> conducting (rb_comps u) u u u.
Proof. intros H. unfold conducting. do 3 eexists. repeat (split; [reflexivity|]). repeat split; assumption. Qed.
Lemma rb_same u u' : same_build (rb_comps u) (rb_comps u').
Proof. repeat split; reflexivity. Qed.
Lemma rb_turns : turns rb_drive.
Proof. unfold turns. cbn. lra. Qed.
Lemma rb_driven u : driven (co_ws (rb_comps u)).
Proof. right. exists rb_drive. split; [reflexivity|]. split; [cbn; lra|]. split; [exact rb_turns|cbn; lra]. Qed.
Definition rb_run (s : State R) : Run R :=
  mkRun (nhalf * (fl_enth (s_fluid s) (te_sink (s_temp s)) (pr_avg (s_pres s)) + fl_enth (s_fluid s) (te_source (s_temp s)) (pr_avg (s_pres s))))
    (s_fluid s) (1 / 60) (s_pres s) (s_temp s) 3.1 9.1 5 (rd_parasitics rb_drive) (rh_volumes rb_drive).
Lemma rb_new u s : Run_new (rb_comps u) s = Ret (rb_run s).
Proof. reflexivity. Qed.

(** ** Its volumes *)
Definition rb_b (x : R) : R := sqrt (0.05 * 0.05 - (0.015 + 0.015 * cos x) * (0.015 + 0.015 * cos x)).
Definition rb_area : R := PI * (0.054 * 0.054) / 4.
Lemma area_range : 0.002187 <= rb_area <= 0.002916.
Proof. unfold rb_area. pose proof PI_4. pose proof PI2_3_2. lra. Qed.
Lemma root_between x lo hi : 0 <= lo -> 0 <= hi -> lo * lo <= x -> x <= hi * hi -> lo <= sqrt x <= hi.
Proof.
  intros H0 H1 H2 H3. split.
  - rewrite <- (sqrt_square lo H0). apply sqrt_le_1_alt. exact H2.
  - rewrite <- (sqrt_square hi H1). apply sqrt_le_1_alt. exact H3.
Qed.
Lemma reach_range x : 0 <= 0.015 + 0.015 * cos x <= 0.03.
Proof. pose proof (COS_bound x). lra. Qed.
Lemma square_range s m : 0 <= s <= m -> 0 <= s * s <= m * m.
Proof. intros H. split; [apply Rmult_le_pos; lra|apply Rmult_le_compat; lra]. Qed.
Lemma b_range x : 0.04 <= rb_b x <= 0.05.
Proof. pose proof (square_range _ _ (reach_range x)) as H. unfold rb_b. apply root_between; lra. Qed.
Lemma b_top : sqrt (0.05 * 0.05 - (0.015 - 0.015) * (0.015 - 0.015)) = 0.05.
Proof. replace (0.05 * 0.05 - (0.015 - 0.015) * (0.015 - 0.015)) with (0.05 * 0.05) by lra. apply sqrt_square. lra. Qed.
Definition rb_low : R := sqrt ((0.05 - 0.015) * (0.05 - 0.015) - 0.015 * 0.015).
Lemma low_range : 0.0316 <= rb_low <= 0.0317.
Proof. unfold rb_low. apply root_between; lra. Qed.
Lemma rb_comp s t : V_comp (rb_run s) t = 0.0001 + 2 * rb_area * (0.05 - rb_b (2 * PI * 60 * t)).
Proof.
  unfold V_comp. change (ru_ws_vol_fn (rb_run s) t) with (rh_volumes rb_drive t). rewrite rh_comp_value.
  cbn [rb_drive rd_geometry rd_frequency rd_V_clearance_c rg_eccentricity rg_r_crank rg_D_p rg_L_conn]. rewrite b_top. reflexivity.
Qed.
Lemma rb_exp s t : V_exp (rb_run s) t = 0.0001 + rb_area * (rb_b (2 * PI * 60 * t) - rb_low - 0.015 * sin (2 * PI * 60 * t)).
Proof. unfold V_exp. change (ru_ws_vol_fn (rb_run s) t) with (rh_volumes rb_drive t). rewrite rh_exp_value. reflexivity. Qed.
Lemma rb_volumes s T : between (V_comp (rb_run s)) 0.0001 0.0002 0 T /\ between (V_exp (rb_run s)) 0.0001 0.0002 0 T.
Proof.
  pose proof area_range as A. split; (split; [lra|]); intros t _.
  - rewrite rb_comp. pose proof (b_range (2 * PI * 60 * t)) as B. set (b := rb_b _) in *.
    assert (0 <= rb_area * (0.05 - b) <= 0.002916 * 0.01) by (split; [apply Rmult_le_pos; lra|apply Rmult_le_compat; lra]). lra.
  - split.
    + change (V_exp (rb_run s) t) with (v_value (snd (rh_volumes rb_drive t))). change 0.0001 with (rd_V_clearance_e rb_drive). apply rh_exp_clearance. exact rb_turns.
    + rewrite rb_exp. pose proof (b_range (2 * PI * 60 * t)) as B. set (b := rb_b _) in *. pose proof (SIN_bound (2 * PI * 60 * t)) as S. pose proof low_range as L.
      assert (rb_area * (b - rb_low - 0.015 * sin (2 * PI * 60 * t)) <= rb_area * 0.0334) by (apply Rmult_le_compat_l; lra). lra.
Qed.
Lemma slope_range x : -0.75 <= (0.015 + 0.015 * cos x) / rb_b x <= 0.75 /\ 0 <= (0.015 + 0.015 * cos x) / rb_b x.
Proof.
  pose proof (b_range x) as B. pose proof (reach_range x) as S. set (b := rb_b x) in *. set (s := 0.015 + 0.015 * cos x) in *.
  assert (I : 0 < / b <= 25).
  { split; [apply Rinv_0_lt_compat; lra|]. replace 25 with (/ 0.04) by lra. apply Rinv_le_contravar; lra. }
  assert (0 <= s * / b <= 0.03 * 25) by (split; [apply Rmult_le_pos; lra|apply Rmult_le_compat; lra]). unfold Rdiv. lra.
Qed.
Lemma product_range a b m n : Rabs a <= m -> Rabs b <= n -> Rabs (a * b) <= m * n.
Proof. intros H1 H2. rewrite Rabs_mult. pose proof (Rabs_pos a). pose proof (Rabs_pos b). apply Rmult_le_compat; lra. Qed.
Lemma rb_comp_deriv t : v_deriv (fst (rh_volumes rb_drive t)) =
  - (2 * rb_area * 0.015 * (sin (2 * PI * 60 * t) * ((0.015 + 0.015 * cos (2 * PI * 60 * t)) / rb_b (2 * PI * 60 * t)))) * (2 * PI * 60).
Proof.
  rewrite rh_comp_deriv. cbn [rb_drive rd_geometry rd_frequency rg_eccentricity rg_r_crank rg_D_p rg_L_conn]. fold rb_area.
  set (x := 2 * PI * 60 * t). fold (rb_b x). pose proof (b_range x). unfold Rdiv. ring.
Qed.
Lemma rb_exp_deriv t : v_deriv (snd (rh_volumes rb_drive t)) =
  (rb_area * 0.015 * (sin (2 * PI * 60 * t) * ((0.015 + 0.015 * cos (2 * PI * 60 * t)) / rb_b (2 * PI * 60 * t)) - cos (2 * PI * 60 * t))) * (2 * PI * 60).
Proof.
  rewrite rh_exp_deriv. cbn [rb_drive rd_geometry rd_frequency rg_eccentricity rg_r_crank rg_D_p rg_D_d rg_L_conn]. fold rb_area.
  set (x := 2 * PI * 60 * t). fold (rb_b x). pose proof (b_range x). pose proof area_range. field. lra.
Qed.
Lemma rb_moderate s : moderate (rb_run s) 0.0002 0.04.
Proof.
  intros t Ht. destruct (rb_volumes s t) as ((_ & H1) & (_ & H2)). specialize (H1 t ltac:(lra)). specialize (H2 t ltac:(lra)).
  split; [lra|]. split; [lra|]. change (ru_ws_vol_fn (rb_run s) t) with (rh_volumes rb_drive t). rewrite rb_comp_deriv, rb_exp_deriv.
  set (x := 2 * PI * 60 * t). pose proof (slope_range x) as (S & _). set (p := _ / rb_b x) in *. pose proof area_range as A. pose proof PI_4. pose proof PI_RGT_0.
  assert (P : Rabs p <= 0.75) by (apply Rabs_le; lra). assert (Q : Rabs (sin x) <= 1) by (apply Rabs_le; apply SIN_bound). assert (C : Rabs (cos x) <= 1) by (apply Rabs_le; apply COS_bound).
  assert (W : Rabs (2 * PI * 60) <= 480) by (rewrite Rabs_pos_eq; lra). assert (AA : Rabs rb_area <= 0.002916) by (rewrite Rabs_pos_eq; lra).
  pose proof (product_range _ _ _ _ Q P) as SP.
  split.
  - apply Rle_trans with (0.0000657 * 480); [|lra]. apply product_range; [|exact W]. rewrite Rabs_Ropp.
    replace (2 * rb_area * 0.015 * (sin x * p)) with (rb_area * (0.03 * (sin x * p))) by lra.
    apply Rle_trans with (0.002916 * (0.03 * (1 * 0.75))); [|lra]. apply product_range; [exact AA|]. apply product_range; [rewrite Rabs_pos_eq; lra|exact SP].
  - apply Rle_trans with (0.0000766 * 480); [|lra]. apply product_range; [|exact W].
    replace (rb_area * 0.015 * (sin x * p - cos x)) with (rb_area * (0.015 * (sin x * p - cos x))) by lra.
    apply Rle_trans with (0.002916 * (0.015 * (1 * 0.75 + 1))); [|lra]. apply product_range; [exact AA|]. apply product_range; [rewrite Rabs_pos_eq; lra|].
    apply abs_le_iff in SP, C. apply abs_le_iff. lra.
Qed.
Lemma b_half : 0.0476 <= rb_b (PI / 2) <= 0.0477 /\ rb_b (3 * (PI / 2)) = rb_b (PI / 2).
Proof.
  unfold rb_b. rewrite cos_PI2, cos_3PI2. split; [|reflexivity]. rewrite Rmult_0_r, Rplus_0_r. apply root_between; lra.
Qed.
Lemma b_end : rb_b PI = 0.05 /\ rb_b (2 * PI) = 0.04.
Proof.
  unfold rb_b. rewrite cos_PI, cos_2PI. split.
  - replace (0.05 * 0.05 - (0.015 + 0.015 * -1) * (0.015 + 0.015 * -1)) with (0.05 * 0.05) by lra. apply sqrt_square. lra.
  - replace (0.05 * 0.05 - (0.015 + 0.015 * 1) * (0.015 + 0.015 * 1)) with (0.04 * 0.04) by lra. apply sqrt_square. lra.
Qed.
Lemma rb_breathes s : breathes (V_comp (rb_run s)) (1 / 60) 0.0002 0.7 1.4 /\ breathes (V_exp (rb_run s)) (1 / 60) 0.0002 0.7 1.4.
Proof.
  pose proof area_range as A. destruct b_end as (B1 & B2). destruct b_half as (B3 & B4). pose proof low_range as L. split.
  - exists (/ 120), (1 / 60). rewrite !rb_comp. replace (2 * PI * 60 * / 120) with PI by lra. replace (2 * PI * 60 * (1 / 60)) with (2 * PI) by lra.
    rewrite B1, B2. lra.
  - exists (/ 240), (/ 80). rewrite !rb_exp. replace (2 * PI * 60 * / 240) with (PI / 2) by lra. replace (2 * PI * 60 * / 80) with (3 * (PI / 2)) by lra.
    rewrite B4, sin_PI2, sin_3PI2. set (b := rb_b (PI / 2)) in *.
    assert (X : 0 <= rb_area * (b - rb_low - 0.015 * 1) <= 0.002916 * 0.0012) by (split; [apply Rmult_le_pos; lra|apply Rmult_le_compat; lra]).
    assert (Y : 0.002187 * 0.0309 <= rb_area * (b - rb_low - 0.015 * -1)) by (apply Rmult_le_compat; lra). lra.
Qed.
Lemma rb_fixed s : approaches_within st_state 10 s -> 0.02 <= fixed_ratio (rb_run s).
Proof.
  intros H. pose proof (ef_temps s H) as (T1 & T2 & _ & _ & T5). unfold fixed_ratio. cbn [rb_run ru_vol_chx ru_vol_hhx ru_vol_regen ru_temp].
  assert (I : forall v t u, 0 < v -> 0 < t <= u -> v / u <= v / t).
  { intros v t u Hv Ht. unfold Rdiv. apply Rmult_le_compat_l; [lra|]. apply Rinv_le_contravar; lra. }
  pose proof (I 3.1 (te_chx (s_temp s)) 310 ltac:(lra) ltac:(lra)). pose proof (I 9.1 (te_hhx (s_temp s)) 910 ltac:(lra) ltac:(lra)).
  assert (0 < 5 / rt_avg (te_regen (s_temp s))) by (apply Rdiv_lt_0_compat; lra). lra.
Qed.
Lemma rb_numbers s : approaches_within st_state 10 s -> 0 <= through_pressure (rb_run s) 125 0.0002 0.04 <= 0.055 /\
  0 <= exp (pressure_rate (rb_run s) 125 0.04 * ru_period (rb_run s)) <= 1.01.
Proof.
  intros H. pose proof (rb_fixed s H) as HF. pose proof nil_value as N. unfold through_pressure, volume_flow, steepness, pressure_rate.
  set (F := fixed_ratio (rb_run s)) in *. clearbody F. change (ru_period (rb_run s)) with (1 / 60). set (g := 125 - T_nil). assert (G : 25 <= g <= 25.01) by (unfold g; lra).
  assert (I : 0 < / g <= 0.04).
  { split; [apply Rinv_0_lt_compat; lra|]. replace 0.04 with (/ 25) by lra. apply Rinv_le_contravar; lra. }
  assert (J : 0 < / F <= 50).
  { split; [apply Rinv_0_lt_compat; lra|]. replace 50 with (/ 0.02) by lra. apply Rinv_le_contravar; lra. }
  assert (IJ : 0 <= / g * / F <= 0.04 * 50) by (split; [apply Rmult_le_pos; lra|apply Rmult_le_compat; lra]).
  set (rate := 2 * 0.04 / (g * F)). assert (RT : rate = 0.08 * (/ g * / F)) by (unfold rate, Rdiv at 1; rewrite Rinv_mult; lra).
  assert (A : cv_he / cp_he <= 0.6001 /\ 0 <= cv_he / cp_he) by (unfold cv_he, cp_he, R_he; lra). set (a := cv_he / cp_he) in *.
  assert (E : 0 <= exp (rate * (1 / 60)) <= 1.01).
  { split; [left; apply exp_pos|]. apply Rle_trans with (1 := small_exp (rate * (1 / 60)) ltac:(lra) ltac:(lra)).
    replace 1.01 with (/ (100 / 101)) by lra. apply Rinv_le_contravar; lra. }
  split; [|exact E]. set (e := exp _) in *. clearbody e.
  assert (S : 0 <= (125 / g) ^ 2 <= 25).
  { split; [apply pow2_ge_0|]. replace 25 with (5 ^ 2) by lra. apply pow_incr. unfold Rdiv. lra. }
  set (st := (125 / g) ^ 2) in *. clearbody st.
  assert (V : 0 <= a * 0.0002 * rate + 0.04 <= 0.0401).
  { assert (0 <= a * rate) by (apply Rmult_le_pos; lra). assert (a * rate <= 0.6001 * 0.16) by (apply Rmult_le_compat; lra). lra. }
  set (v := a * 0.0002 * rate + 0.04) in *. clearbody v.
  assert (X : 0 <= / 125 + a / g <= 0.0321).
  { assert (0 <= a * / g) by (apply Rmult_le_pos; lra). assert (a * / g <= 0.6001 * 0.04) by (apply Rmult_le_compat; lra). unfold Rdiv. lra. }
  set (x := / 125 + a / g) in *. clearbody x.
  assert (SV : 0 <= st * v <= 25 * 0.0401) by (split; [apply Rmult_le_pos; lra|apply Rmult_le_compat; lra]).
  assert (XS : 0 <= x * (st * v) <= 0.0321 * (25 * 0.0401)) by (split; [apply Rmult_le_pos; lra|apply Rmult_le_compat; lra]).
  assert (XE : 0 <= x * (st * v) * e <= 0.0321 * (25 * 0.0401) * 1.01) by (split; [apply Rmult_le_pos; lra|apply Rmult_le_compat; lra]).
  assert (XF : 0 <= x * (st * v) * e * / F <= 0.0321 * (25 * 0.0401) * 1.01 * 50) by (split; [apply Rmult_le_pos; lra|apply Rmult_le_compat; lra]).
  replace (2 * x * (st * v / F) * (1 / 60) * e) with (x * (st * v) * e * / F * (2 / 60)) by (unfold Rdiv; ring). lra.
Qed.
Lemma rb_settles s : approaches_within st_state 10 s -> settles (rb_run s) 125 0.0002 0.04 0.7 1.4.
Proof.
  intros H. pose proof nil_value. pose proof (ef_temps s H) as (T1 & T2 & _). pose proof (rb_fixed s H). unfold settles. cbn [rb_run ru_temp].
  split; [exact (proj1 H)|]. split; [reflexivity|]. split; [reflexivity|]. split; [cbn; lra|]. split; [lra|]. split; [lra|]. split; [lra|].
  split; [lra|]. split; [apply rb_moderate|]. split; [apply rb_breathes|]. split; [apply rb_breathes|]. pose proof (rb_numbers s H). lra.
Qed.
Lemma rb_left_over s : approaches_within st_state 10 s -> left_over (rb_run s) 125 0.0002 0.04 0.7 1.4 <= 4 / 5.
Proof.
  intros H. destruct (rb_numbers s H) as (T & E). unfold left_over. set (e := exp _) in *. set (b := through_pressure _ _ _ _) in *. clearbody e b.
  assert (B : b / (1 - b) <= 0.0583).
  { apply (Rmult_le_reg_r (1 - b)); [lra|]. replace (b / (1 - b) * (1 - b)) with b by (field; lra). lra. }
  assert (e * (0.7 + 1.4 * (b / (1 - b))) <= 1.01 * (0.7 + 1.4 * 0.0583)).
  { apply Rmult_le_compat; try lra. assert (0 <= b / (1 - b)) by (apply Rle_mult_inv_pos; lra). lra. }
  lra.
Qed.
Lemma rb_between s : approaches_within st_state 10 s ->
  settles_between (rb_run s) 0.0001 0.0002 0.0001 0.0002 wide_lo wide_hi wide_lo wide_hi 125 2800 0.0002 0.04 0.7 1.4 (4 / 5) ef_margin.
Proof.
  intros H. pose proof (ef_temps s H) as (T1 & T2 & T3 & T4 & T5). pose proof nil_value as NV. unfold settles_between. cbv zeta. cbn [rb_run ru_temp].
  split.
  { unfold sane_exchangers. cbn [rb_run ru_temp ru_vol_chx ru_vol_regen ru_vol_hhx]. split; [apply nil_warm; lra|]. split; [apply nil_warm; lra|]. lra. }
  split; [exact (fun T => proj1 (rb_volumes s T))|]. split; [exact (fun T => proj2 (rb_volumes s T))|]. split; [exact (rb_settles s H)|]. split; [exact (rb_left_over s H)|].
  split; [apply ef_expanded; lra|]. split; [apply ef_expanded; lra|]. split; [apply ef_compressed; lra|]. split; [apply ef_compressed; lra|]. lra.
Qed.
Lemma rb_pushes s t : 1 / 240 < t < 1 / 120 -> pushes_at (rb_run s) t.
Proof.
  intros Ht. unfold pushes_at. change (ru_ws_vol_fn (rb_run s) t) with (rh_volumes rb_drive t).
  assert (Q : v_deriv (fst (rh_volumes rb_drive t)) < 0 /\ 0 <= v_deriv (snd (rh_volumes rb_drive t))).
  { rewrite rb_comp_deriv, rb_exp_deriv. pose proof PI_RGT_0 as P. set (th := 2 * PI * 60 * t). assert (B : PI / 2 < th < PI).
    { assert (PI * (1 / 240) < PI * t) by (apply Rmult_lt_compat_l; lra). assert (PI * t < PI * (1 / 120)) by (apply Rmult_lt_compat_l; lra). unfold th. lra. }
    assert (S : 0 < sin th) by (apply sin_gt_0; lra). assert (C : cos th <= 0) by (apply cos_le_0; lra).
    assert (C1 : -1 < cos th) by (rewrite <- cos_PI; apply cos_decreasing_1; lra). pose proof area_range as A. pose proof (b_range th) as BR.
    assert (X : 0 < (0.015 + 0.015 * cos th) / rb_b th) by (apply Rdiv_lt_0_compat; lra). set (p := _ / rb_b th) in *.
    assert (SP : 0 < sin th * p) by (apply Rmult_lt_0_compat; assumption). assert (W : 0 < 2 * PI * 60) by lra.
    assert (ASP : 0 < rb_area * (sin th * p)) by (apply Rmult_lt_0_compat; lra). assert (AD : 0 < rb_area * (sin th * p - cos th)) by (apply Rmult_lt_0_compat; lra).
    split.
    - assert (0 < 0.03 * (rb_area * (sin th * p)) * (2 * PI * 60)) by (apply Rmult_lt_0_compat; lra). lra.
    - apply Rmult_le_pos; lra. }
  destruct (rh_volumes rb_drive t) as [v1 v2]. left. exact Q.
Qed.
