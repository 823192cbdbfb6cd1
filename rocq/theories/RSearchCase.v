(** * A search that succeeds *)
From Coq Require Import ZArith NArith List Reals Lra Lia.
From Verif Require Import Num ModelTypes ModelWs ModelHx ModelStateEq ModelEngine RNum Spec SpecR SpecGas
  SpecSeries SpecQuad SpecKin SpecTraj SpecLaws SpecUnique SpecExist SpecSpaces SpecBounds SpecSteady SpecContract SpecSearch SpecDepend SpecGlobal SpecConverge Fixture PolySolve RSolve RGauss
  RFluid RKin RMass RCase RLaws RClose RUnique RPeriod RSpaces RBounds RSteady RContract RContractEngine RSettle RSettleCase RSearch RSampleReport RSample RSampleCase RGlobalReport.
Import ListNotations.
Local Open Scope R_scope.

(** ** An exact integrator *)
Lemma period_pos (comps : Components R) (s : State R) (r : Run R) : driven (co_ws comps) -> Run_new comps s = Ret r -> 0 < ru_period r.
Proof.
  intros Hd Hr. unfold Run_new in Hr. destruct (ex_volume (co_chx comps)); [|discriminate Hr]. destruct (ex_volume (co_regen comps)); [|discriminate Hr].
  destruct (ex_volume (co_hhx comps)); [|discriminate Hr]. cbn [obind] in Hr.
  destruct Hd as [(d & E & F)|(d & E & F & _)]; rewrite E in Hr; cbn [SinusoidalDrive_ws RhombicDrive_ws ws_frequency ws_volumes ws_parasitics obind] in Hr;
    injection Hr as <-; cbn [ru_period].
  - change (0 < 1 / sd_frequency d). apply Rdiv_lt_0_compat; lra.
  - change (0 < 1 / rd_frequency d). apply Rdiv_lt_0_compat; lra.
Qed.
Section Exact.
  Variables (comps : Components R) (s : State R) (r : Run R) (D : Decomp R) (P0 cl ch el eh : R).
  Hypothesis Hfl : s_fluid s = IdealGas_Fluid he.
  Hypothesis Hd : driven (co_ws comps).
  Hypothesis Hr : Run_new comps s = Ret r.
  Hypothesis Hn : te_sink (s_temp s) + te_source (s_temp s) <> 500.
  Hypothesis HS : sound D.
  Hypothesis HC : complete D.
  Hypothesis VC : forall T, between (V_comp r) cl ch 0 T.
  Hypothesis VE : forall T, between (V_exp r) el eh 0 T.
  Hypothesis QC : heat_lost_comp r = 0.
  Hypothesis QE : heat_lost_exp r = 0.
  Hypothesis HX : sane_exchangers r.
  Hypothesis HP0 : 0 < P0.
  Let Tk := te_chx (ru_temp r).
  Let Tl := te_hhx (ru_temp r).
  Hypothesis WC : warm (expanded cl ch Tk).
  Hypothesis WE : warm (expanded el eh Tl).
  (** temperatures between those that gas at rest would reach *)
  Definition between_levels (c : Conditions R) : Prop := cd_P c = P0 /\
    adiabat cl (Rmin T_ref (filling Tk)) / Rpower (V_comp r 0) (R_he / cv_he) <= cd_T_c c
      <= adiabat ch (Rmax T_ref (filling Tk)) / Rpower (V_comp r 0) (R_he / cv_he) /\
    adiabat el (Rmin T_ref (filling Tl)) / Rpower (V_exp r 0) (R_he / cv_he) <= cd_T_e c
      <= adiabat eh (Rmax T_ref (filling Tl)) / Rpower (V_exp r 0) (R_he / cv_he).
  (** what the exact trajectory from such temperatures is at time [t] *)
  Lemma at_named (p : Conditions R -> R) t x y : {v | 0 <= t <= ru_period r -> between_levels (mkCond P0 x y) ->
    forall c, c 0 = mkCond P0 x y -> (forall u, 0 <= u <= ru_period r -> physical_trajectory D r c u) -> v = p (c t)}.
  Proof.
    destruct (Rle_dec 0 t) as [T1|]; [|exists 0; lra]. destruct (Rle_dec t (ru_period r)) as [T2|]; [|exists 0; lra].
    pose proof (tau_nonneg comps s r Hd Hr) as TP. pose proof (Hf comps s r Hfl Hd Hr) as HF.
    set (lo1 := adiabat cl (Rmin T_ref (filling Tk)) / Rpower (V_comp r 0) (R_he / cv_he)).
    set (hi1 := adiabat ch (Rmax T_ref (filling Tk)) / Rpower (V_comp r 0) (R_he / cv_he)).
    set (lo2 := adiabat el (Rmin T_ref (filling Tl)) / Rpower (V_exp r 0) (R_he / cv_he)).
    set (hi2 := adiabat eh (Rmax T_ref (filling Tl)) / Rpower (V_exp r 0) (R_he / cv_he)).
    destruct (Rle_dec lo1 x) as [X1|N]; [|exists 0; intros _ (_ & (B & _) & _); contradiction].
    destruct (Rle_dec x hi1) as [X2|N]; [|exists 0; intros _ (_ & (_ & B) & _); contradiction].
    destruct (Rle_dec lo2 y) as [Y1|N]; [|exists 0; intros _ (_ & _ & (B & _)); contradiction].
    destruct (Rle_dec y hi2) as [Y2|N]; [|exists 0; intros _ (_ & _ & (_ & B)); contradiction].
    assert (U : forall c c', c 0 = mkCond P0 x y -> c' 0 = mkCond P0 x y ->
      (forall u, 0 <= u <= ru_period r -> physical_trajectory D r c u) -> (forall u, 0 <= u <= ru_period r -> physical_trajectory D r c' u) ->
      c t = c' t).
    { intros c c' E E' A A'. apply (trajectories_agree Helium r D D c c' 0 (ru_period r) 0 HF HS HS); [lra| |congruence|lra].
      intros u Hu. split; [apply A; lra|apply A'; lra]. }
    destruct (named_real (fun v => exists c, (c 0 = mkCond P0 x y /\ forall u, 0 <= u <= ru_period r -> physical_trajectory D r c u) /\ v = p (c t)))
      as (v & Hv).
    - destruct (from_start comps s r D P0 cl ch el eh Hfl Hd Hr Hn HS HC VC VE QC QE HX HP0 WC WE x y (conj X1 X2) (conj Y1 Y2)) as (c & E & H).
      assert (G : forall u, 0 <= u <= ru_period r -> physical_trajectory D r c u) by (intros u Hu; apply H; lra).
      exists (p (c t)). split.
      + exists c. auto.
      + intros v (c' & (E' & G') & ->). f_equal. apply U; assumption.
    - exists v. intros _ _ c E G. destruct Hv as (c' & (E' & G') & ->). f_equal. apply U; assumption.
  Qed.
  Let the p t x y := proj1_sig (at_named p t x y).
  Variable m : nat.
  Hypothesis Hm : (0 < m)%nat.
  Let times : list R := even (ru_period r / INR m) 0 (S m).
  (** it reports the exact trajectory at [m + 1] times *)
  Definition exact_env : Env R := mkEnv
    (fun a => let '(p, x, y) := oa_y a in
       ODone times (map (fun t => (the cd_P t x y, the cd_T_c t x y, the cd_T_e t x y)) times)) false.
  Lemma exact_from ic n tol : try_from exact_env D (Run_Cycle r) ic n tol = Ret (Ok
    (map (fun t => mkPoint t (mkCond (the cd_P t (cd_T_c ic) (cd_T_e ic)) (the cd_T_c t (cd_T_c ic) (cd_T_e ic))
       (the cd_T_e t (cd_T_c ic) (cd_T_e ic)))) times)).
  Proof.
    assert (Z : forall f, points_of times (map f times) = map (fun t => mkPoint t
      (mkCond (fst (fst (f t))) (snd (fst (f t))) (snd (f t)))) times).
    { intros f. unfold points_of. induction times as [|t l IH]; [reflexivity|]. cbn [map combine]. rewrite IH.
      destruct (f t) as [[p x] y]. reflexivity. }
    destruct ic as [p x y], n as [|n]; unfold try_from, try_from_traced, u32_pred; cbn [exact_env env_overflow_checks env_ode ode_args oa_y exec_ode snd obind cd_P cd_T_c cd_T_e];
      rewrite Z; reflexivity.
  Qed.
  Variable T_low : R.
  Hypothesis L1 : T_low <= expanded cl ch Tk.
  Hypothesis L2 : T_low <= expanded el eh Tl.
  Lemma times_grid : grid_to times (ru_period r) /\ steps_within (ru_period r / INR m) times.
  Proof.
    pose proof (period_pos comps s r Hd Hr) as TP. assert (N0 : 0 < INR m) by (apply lt_0_INR; exact Hm).
    split; [exact (even_grid _ m TP Hm)|]. apply even_steps. left. apply Rdiv_lt_0_compat; assumption.
  Qed.
  Lemma exact_points ic n tol : between_levels ic -> exists c, c 0 = ic /\
    (forall t, 0 <= t <= ru_period r -> physical_trajectory D r c t) /\ kept_warm T_low c 0 (ru_period r) /\
    try_from exact_env D (Run_Cycle r) ic n tol = Ret (Ok (map (fun t => mkPoint t (c t)) times)).
  Proof.
    rewrite exact_from. destruct ic as [p x y]. intros HI. pose proof HI as (HP & Hx & Hy). cbn [cd_P cd_T_c cd_T_e] in *. subst p.
    destruct (from_start comps s r D P0 cl ch el eh Hfl Hd Hr Hn HS HC VC VE QC QE HX HP0 WC WE x y Hx Hy) as (c & E & H).
    assert (G : forall t, 0 <= t <= ru_period r -> physical_trajectory D r c t) by (intros t Ht; apply H; lra).
    exists c. split; [exact E|]. split; [exact G|]. split.
    - intros t Ht. pose proof (common_box comps s r D P0 cl ch el eh Hfl Hd Hr HS VC VE QC QE HX HP0 WC WE x y c Hx Hy (conj E G) t Ht) as (_ & B1 & B2).
      cbn [cd_T_c cd_T_e] in B1, B2. fold Tk in B1. fold Tl in B2. lra.
    - do 2 f_equal. apply map_ext_in. intros t Ht. f_equal. destruct times_grid as (GT & _).
      pose proof (grid_range _ _ GT t Ht) as RT.
      assert (N : forall p, the p t x y = p (c t)).
      { intros p. unfold the. destruct (at_named p t x y) as (v & Hv). cbn [proj1_sig]. exact (Hv RT HI c E G). }
      rewrite !N. destruct (c t); reflexivity.
  Qed.
  Lemma exact_level ic : between_levels ic -> forall c, c 0 = ic -> (forall t, 0 <= t <= ru_period r -> physical_trajectory D r c t) ->
    between_levels (mkCond P0 (cd_T_c (c (ru_period r))) (cd_T_e (c (ru_period r)))).
  Proof.
    destruct ic as [p x y]. intros (HP & Hx & Hy) c E G. cbn [cd_P cd_T_c cd_T_e] in *. subst p. split; [reflexivity|]. cbn [cd_T_c cd_T_e].
    destruct (f_eq comps s r D P0 cl ch el eh Hfl Hd Hr Hn HS HC VC VE QC QE HX HP0 WC WE x y c Hx Hy (conj E G)) as (<- & <-).
    exact (into comps s r D P0 cl ch el eh Hfl Hd Hr Hn HS HC VC VE QC QE HX HP0 WC WE _ _ Hx Hy).
  Qed.
  Lemma exact_reliable tol n : reliable exact_env D r T_low 0 P0 between_levels tol n.
  Proof.
    intros ic HI. destruct (exact_points ic 2 tol HI) as (c & E0 & G & K & E1). pose proof (period_pos comps s r Hd Hr) as TP.
    destruct (exact_points ic n tol HI) as (c2 & E2 & G2 & _ & E3). destruct times_grid as (GT & _).
    pose proof GT as (_ & (rest & F1) & (pre & F2) & _). split.
    - exists (map (fun t => mkPoint t (c t)) times), (c (ru_period r)). split; [exact E1|]. split.
      + split; [rewrite F1; cbn [map]; eexists; eexists; split; [reflexivity|exact E0]|].
        split; [rewrite F2, map_app; eexists; eexists; split; reflexivity|].
        destruct (K (ru_period r) ltac:(lra)) as (K1 & K2). split; [exact K1|]. split; [exact K2|].
        exists (c (ru_period r)). split; [exists c; auto|]. unfold spread. rewrite !Rminus_diag_eq, Rabs_R0 by reflexivity. lra.
      + exact (exact_level ic HI c E0 G).
    - exists (map (fun t => mkPoint t (c2 t)) times). split; [exact E3|].
      split; [rewrite F1; cbn [map]; eexists; eexists; split; [reflexivity|exact E2]|].
      apply Forall_forall. intros p Hp. apply in_map_iff in Hp as (t & <- & Ht). cbn [pt_time pt_conditions].
      apply (G2 t). exact (grid_range _ _ GT t Ht).
  Qed.
  Lemma exact_resolves tol n : resolves exact_env D r between_levels tol n (ru_period r / INR m) 0.
  Proof.
    intros ic pts HI EP. destruct (exact_points ic n tol HI) as (c & E0 & G & _ & E1). 
    assert (pts = map (fun t => mkPoint t (c t)) times) as -> by congruence. clear EP.
    destruct times_grid as (GT & GS). 
    assert (ET : map (@pt_time R) (map (fun t => mkPoint t (c t)) times) = times) by (rewrite map_map; apply map_id).
    rewrite ET. split; [exact GT|]. split; [exact GS|].
    pose proof (period_pos comps s r Hd Hr) as TP. assert (N0 : 0 < INR m) by (apply lt_0_INR; exact Hm).
    set (w := ru_period r / INR m) in *. assert (W : 0 < w) by (apply Rdiv_lt_0_compat; assumption).
    assert (HK : forall k j, (j + k = S m)%nat -> accurate_points 0 D r (map (fun t => mkPoint t (c t)) (even w j k))).
    { induction k as [|k IH]; intros j Hj; [exact I|]. destruct k as [|k]; [exact I|].
      specialize (IH (S j) ltac:(lia)). split; [|exact IH]. cbn [pt_time pt_conditions]. exists c. split; [reflexivity|].
      split; [|rewrite gap_refl; lra]. intros u Hu. apply G.
      assert (L : INR (S j) <= INR m) by (apply le_INR; lia).
      assert (0 <= INR j * w) by (apply Rmult_le_pos; [apply pos_INR|lra]).
      assert (INR (S j) * w <= INR m * w) by (apply Rmult_le_compat_r; lra).
      replace (INR m * w) with (ru_period r) in * by (unfold w; field; lra). lra. }
    exact (HK (S m) 0%nat eq_refl).
  Qed.
End Exact.

(** ** An engine with fixed approaches *)
Definition st_inputs : RunInputs R := mkRunInputs 1000000 300 900.
Definition st_temps : Temperatures R := Temperatures_from_approach 300 900 (mkApproach 10 10 10) n0.
Definition st_avg : R := rt_avg (te_regen st_temps).
Definition st_comps : Components R :=
  mkComponents (SinusoidalDrive_ws gl_drive)
    (chx_FixedApproach (mkFA 1 0.31 10 (mkPP 0 1 0)))
    (regen_FixedApproach (mkFA 2 (0.002 * st_avg) 10 (mkPP 5 0 0)))
    (hhx_FixedApproach (mkFA 3 0.89 10 (mkPP 6 2 0))).
Definition st_state : State R :=
  mkState (IdealGas_Fluid he) (mkPressure 1000000 1000000 1000000 1000000) st_temps
    (mkMassFlows 0 0 0) (mkHeatFlows 0 0 0) 0.
Definition st_run : Run R :=
  mkRun case_norm (IdealGas_Fluid he) (1 / 60) (s_pres st_state) st_temps 0.31 0.89 (0.002 * st_avg)
    (sd_parasitics gl_drive) (sin_volumes gl_drive).
Lemma st_hint : State_new_hint st_comps (IdealGas_Fluid he) st_inputs = Ret st_state.
Proof. reflexivity. Qed.
Lemma st_new : Run_new st_comps st_state = Ret st_run.
Proof. reflexivity. Qed.
Lemma st_ends : te_chx st_temps = 310 /\ te_hhx st_temps = 890 /\ te_sink st_temps = 300 /\ te_source st_temps = 900.
Proof. cbn. repeat split; lra. Qed.
Lemma st_avg_pos : 0 < st_avg.
Proof.
  assert (E : st_avg = 570 / ln (885 / 315)).
  { unfold st_avg, st_temps, Temperatures_from_approach, regen_temp. rewrite R_nhalf. cbn [te_regen rt_avg ap_chx ap_regen ap_hhx n_le n_add n_sub n_mul n_div n_ln n0 R_ops].
    rewrite R_n0. destruct (Rle_dec 0 0) as [_|N]; [|exfalso; lra].
    replace (900 - 10 - / 2 * (10 + 0)) with 885 by lra. replace (300 + 10 + / 2 * 10) with 315 by lra. f_equal. lra. }
  rewrite E. apply Rdiv_lt_0_compat; [lra|]. rewrite <- ln_1. apply ln_increasing; lra.
Qed.
Lemma st_fixed : fixed_ratio st_run = 0.004.
Proof.
  pose proof st_avg_pos as P. destruct st_ends as (E1 & E2 & _). unfold fixed_ratio.
  change (ru_temp st_run) with st_temps. change (rt_avg (te_regen st_temps)) with st_avg. rewrite E1, E2.
  cbn [st_run ru_vol_chx ru_vol_regen ru_vol_hhx]. replace (0.002 * st_avg / st_avg) with 0.002; [lra|]. unfold Rdiv.
  rewrite Rmult_assoc, Rinv_r by lra. lra.
Qed.
Lemma st_volumes T : between (V_comp st_run) 0.0001 0.0002 0 T /\ between (V_exp st_run) 0.0001 0.0002 0 T.
Proof. exact (gl_volumes T). Qed.
Lemma st_sane : sane_exchangers st_run.
Proof.
  pose proof st_avg_pos. destruct st_ends as (E1 & E2 & _). unfold sane_exchangers. change (ru_temp st_run) with st_temps. rewrite E1, E2.
  change (rt_avg (te_regen st_temps)) with st_avg. cbn [st_run ru_vol_chx ru_vol_regen ru_vol_hhx]. unfold warm, R_he, T_ref, cp_he.
  repeat split; lra.
Qed.
Lemma st_settles : settles st_run 125 0.0002 0.024 (/ 2) 1.
Proof.
  pose proof se_settles as H. destruct st_ends as (E1 & E2 & _). unfold settles, through_pressure, volume_flow, pressure_rate in *.
  rewrite se_fixed in H. rewrite st_fixed. change (ru_temp st_run) with st_temps. rewrite E1, E2.
  destruct H as (H1 & H2 & H3 & H4 & H5 & H6 & H7 & H8 & H9 & H10 & H11 & H12).
  split; [exact H1|]. split; [reflexivity|]. split; [reflexivity|]. split; [exact H4|]. split; [exact H5|]. split; [lra|]. split; [lra|].
  split; [exact H8|]. split; [exact H9|]. split; [exact H10|]. split; [exact H11|exact H12].
Qed.
Lemma st_left_over : left_over st_run 125 0.0002 0.024 (/ 2) 1 < 3 / 4.
Proof.
  pose proof se_left_over as H. unfold left_over, through_pressure, volume_flow, pressure_rate in *.
  rewrite se_fixed in H. rewrite st_fixed. exact H.
Qed.
Lemma st_expanded : 125 <= expanded 0.0001 0.0002 (te_chx (ru_temp st_run)) /\ 125 <= expanded 0.0001 0.0002 (te_hhx (ru_temp st_run)).
Proof.
  destruct st_ends as (E1 & E2 & _). change (ru_temp st_run) with st_temps. rewrite E1, E2. split; apply expanded_low; lra.
Qed.
Lemma st_norm : te_sink (s_temp st_state) + te_source (s_temp st_state) <> 500.
Proof. destruct st_ends as (_ & _ & E1 & E2). change (s_temp st_state) with st_temps. rewrite E1, E2. lra. Qed.
Lemma st_warm : warm (expanded 0.0001 0.0002 (te_chx (ru_temp st_run))) /\ warm (expanded 0.0001 0.0002 (te_hhx (ru_temp st_run))).
Proof. pose proof st_expanded. pose proof nil_value. split; apply nil_warm; lra. Qed.
Definition st_env (m : nat) : Env R :=
  exact_env st_comps st_state st_run gauss 1000000 0.0001 0.0002 0.0001 0.0002 eq_refl gl_driven st_new st_norm gauss_sound gauss_complete
    (fun T => proj1 (st_volumes T)) (fun T => proj2 (st_volumes T)) eq_refl eq_refl st_sane ltac:(lra) (proj1 st_warm) (proj2 st_warm) m.
Definition st_region : Conditions R -> Prop := between_levels st_run 1000000 0.0001 0.0002 0.0001 0.0002.
Lemma st_reliable m tol n : (0 < m)%nat -> reliable (st_env m) gauss st_run 125 0 1000000 st_region tol n.
Proof. intros Hm. apply exact_reliable; [exact Hm|apply st_expanded|apply st_expanded]. Qed.
Lemma st_resolves m tol n : (0 < m)%nat -> resolves (st_env m) gauss st_run st_region tol n (1 / 60 / INR m) 0.
Proof. intros Hm. exact (exact_resolves st_comps st_state st_run gauss 1000000 _ _ _ _ _ _ _ _ _ _ _ _ _ _ _ _ _ _ m Hm 125 (proj1 st_expanded) (proj2 st_expanded) tol n). Qed.
Lemma st_filling T : 300 <= T -> T <= Rmax T_ref (filling T) /\ Rmin T_ref (filling T) <= 250.
Proof.
  intros H. split; [|apply Rmin_l]. apply Rle_trans with (2 := Rmax_r _ _). unfold filling, T_ref. pose proof cv_pos. pose proof cv_le.
  assert (1 <= cp_he / cv_he).
  { apply (Rmult_le_reg_r cv_he); [assumption|]. replace (cp_he / cv_he * cv_he) with cp_he by (field; lra). lra. }
  assert (1 * (T - 250) <= cp_he / cv_he * (T - 250)) by (apply Rmult_le_compat_r; lra). lra.
Qed.
Lemma st_level V T : 0.0001 <= V <= 0.0002 -> 300 <= T ->
  adiabat 0.0001 (Rmin T_ref (filling T)) / Rpower V (R_he / cv_he) <= T <= adiabat 0.0002 (Rmax T_ref (filling T)) / Rpower V (R_he / cv_he).
Proof.
  intros HV HT. destruct (st_filling T HT) as (F1 & F2). apply in_level. unfold adiabat.
  assert (P1 : 0 < Rpower 0.0001 (R_he / cv_he)) by apply pw_gt.
  assert (P2 : Rpower 0.0001 (R_he / cv_he) <= Rpower V (R_he / cv_he)) by (apply Rpower_mono; lra).
  assert (P3 : Rpower V (R_he / cv_he) <= Rpower 0.0002 (R_he / cv_he)) by (apply Rpower_mono; lra).
  split.
  - apply Rle_trans with (T * Rpower 0.0001 (R_he / cv_he)); [apply Rmult_le_compat_r; lra|apply Rmult_le_compat_l; lra].
  - apply Rmult_le_compat; lra.
Qed.
Lemma st_start : st_region (mkCond 1000000 (te_chx (s_temp st_state)) (te_hhx (s_temp st_state))).
Proof.
  destruct st_ends as (E1 & E2 & _). destruct (st_volumes 0) as ((_ & H1) & (_ & H2)).
  unfold st_region, between_levels. change (ru_temp st_run) with st_temps. change (s_temp st_state) with st_temps. cbn [cd_P cd_T_c cd_T_e].
  rewrite E1, E2. split; [reflexivity|]. split; apply st_level; try lra; [apply H1|apply H2]; lra.
Qed.
Definition st_top : R := Rmax
  (adiabat 0.0002 (Rmax T_ref (filling (te_chx (ru_temp st_run)))) / Rpower (V_comp st_run 0) (R_he / cv_he))
  (adiabat 0.0002 (Rmax T_ref (filling (te_hhx (ru_temp st_run)))) / Rpower (V_exp st_run 0) (R_he / cv_he)).
Lemma st_bounded ic : st_region ic -> cd_P ic = 1000000 /\ cd_T_c ic <= st_top /\ cd_T_e ic <= st_top.
Proof.
  intros (H & (_ & H1) & (_ & H2)). split; [exact H|]. unfold st_top.
  split; [apply Rle_trans with (1 := H1), Rmax_l|apply Rle_trans with (1 := H2), Rmax_r].
Qed.
Definition st_settings (tol tol' : ConvergenceTolerance R) (ode : OdeTolerance R) (points inner outer : N) : RunSettings R :=
  mkRunSettings points (mkLoopTol tol tol') ode (mkMaxIters inner outer).
(** whatever the tolerances are, the run succeeds if it may take enough steps *)
Lemma st_succeeds m tol tol' ode points : (0 < m)%nat -> 0 < ct_abs tol -> 0 < ct_rel tol -> 0 < ct_abs tol' -> 0 < ct_rel tol' ->
  exists c' n, steady_cycle gauss st_run c' /\ warm_trajectory gauss st_run 125 c' /\
  passes_test tol st_top (change_after (left_over st_run 125 0.0002 0.024 (/ 2) 1) 0
    (spread (mkCond 1000000 (te_chx (s_temp st_state)) (te_hhx (s_temp st_state))) (c' 0)) n) /\
  forall inner outer, (n < N.to_nat inner)%nat -> (0 < outer)%N ->
  exists k en vs,
    Engine_run_counted (st_env m) gauss st_comps (IdealGas_Fluid he) st_inputs (st_settings tol tol' ode points inner outer) = (k, Ret (Ok en)) /\
    (k <= n + 2)%nat /\ series_of vs (en_values en) /\
    found_near (c' 0) 1000000 (test_error 125 (left_over st_run 125 0.0002 0.024 (/ 2) 1) 0 tol) vs.
Proof.
  intros Hm A1 A2 A3 A4. pose proof st_left_over as HQ.
  destruct (engine_settles st_comps st_state st_run gauss 0.0001 0.0002 0.0001 0.0002 125 0.0002 0.024 (/ 2) 1) with (P0 := 1000000)
    as (c' & _ & SC & WT & _).
  - reflexivity.
  - exact gl_driven.
  - exact st_new.
  - exact st_norm.
  - exact gauss_sound.
  - exact gauss_complete.
  - apply st_volumes.
  - apply st_volumes.
  - exact st_sane.
  - exact st_settles.
  - apply st_expanded.
  - apply st_expanded.
  - lra.
  - pose proof (q_pos gauss st_run 125 0.0002 0.024 (/ 2) 1 c' st_settles WT) as Q0.
    destruct (st_bounded _ st_start) as (_ & B & _). destruct st_ends as (E1 & _).
    cbn [cd_T_c] in B. change (te_chx (s_temp st_state)) with (te_chx st_temps) in B. rewrite E1 in B.
    destruct (some_limit tol (left_over st_run 125 0.0002 0.024 (/ 2) 1) 0
      (spread (mkCond 1000000 (te_chx (s_temp st_state)) (te_hhx (s_temp st_state))) (c' 0)) st_top) as (n & Hn); try lra.
    + apply spread_pos.
    + unfold change_after, passes_test. unfold Rdiv. rewrite !Rmult_0_r, !Rmult_0_l, !Rplus_0_r, !Rmult_0_r. split; assumption.
    + exists c', n. split; [exact SC|]. split; [exact WT|]. split; [exact Hn|]. intros inner outer Hi Ho.
      destruct (run_finds (st_env m) gauss st_comps (IdealGas_Fluid he) st_inputs (st_settings tol tol' ode points inner outer) st_state st_run)
        with (T_low := 125) (V_hi := 0.0002) (v_hi := 0.024) (rho := / 2) (rv := 1) (e := 0) (T_hi := st_top) (c' := c')
          (region := st_region) (n := n) as (k & en & vs & F1 & F2 & _ & _ & F3 & F4 & _); try assumption.
      * intros x. reflexivity.
      * intros x. reflexivity.
      * intros x. reflexivity.
      * exact st_hint.
      * exact st_new.
      * intros p. discriminate.
      * exact st_settles.
      * lra.
      * exact gauss_sound.
      * exact gauss_complete.
      * rewrite <- (proj2 SC 0) by lra. f_equal. ring.
      * lra.
      * apply st_reliable, Hm.
      * exact st_bounded.
      * exact st_start.
      * exists k, en, vs. auto.
Qed.
