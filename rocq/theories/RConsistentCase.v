(** * An engine with a regenerator of fixed conductance that is consistent with its steady cycle *)
From Coq Require Import ZArith NArith List Reals Lra Lia.
From Verif Require Import Num ModelTypes ModelWs ModelHx ModelStateEq ModelEngine ModelApi RNum Spec SpecLoop SpecR SpecGas
  SpecKin SpecTraj SpecLaws SpecUnique SpecExist SpecDepend SpecSeries SpecQuad SpecReport SpecSpaces SpecBounds SpecSteady SpecContract
  SpecSample SpecGlobal SpecSearch SpecConverge SpecAccurate SpecApi SpecMeans SpecPush Fixture PolySolve PolyLoop RSolve RGauss RFluid RKin RPeriod
  RBounds RSteady RSample RSampleReport RSampleCase RSearchCase RGlobal RGlobalReport RContractEngine RSettle RSettleCase RSearch RConverge RConvergeCase RAccurate RAccurateCase
  RMeans RReturned RPush RApproach RConsistent.
Import ListNotations.
Local Open Scope R_scope.

Definition fc_comps (u : R) : Components R :=
  mkComponents (SinusoidalDrive_ws gl_drive)
    (chx_FixedApproach (mkFA 1 0.31 10 (mkPP 0 1 0)))
    (regen_FixedConductance (mkFC 2 (0.002 * st_avg) u (mkPP 5 0 0)))
    (hhx_FixedApproach (mkFA 3 0.89 10 (mkPP 6 2 0))).
Lemma lit_ten : INITIAL_APPROACH (F := R) = 10.
Proof. unfold INITIAL_APPROACH. cbn [n_lit R_ops]. unfold R_lit. cbn. lra. Qed.
Lemma fc_hint u : State_new_hint (fc_comps u) (IdealGas_Fluid he) st_inputs = Ret st_state.
Proof.
  unfold State_new_hint, fc_comps. cbn [co_chx co_regen co_hhx chx_FixedApproach regen_FixedConductance hhx_FixedApproach ex_initial_approach obind].
  rewrite lit_ten. reflexivity.
Qed.
Lemma fc_new u : Run_new (fc_comps u) st_state = Ret st_run.
Proof. reflexivity. Qed.
Lemma fc_replied u vals : replies (mkEngine (fc_comps u) st_state vals) st_replies.
Proof. exact (st_replied vals). Qed.
Lemma fc_no_panic u p : ~ approach_panics (fc_comps u) p.
Proof. intros [(x & H)|[(x & H)|(x & H)]]; discriminate H. Qed.
Lemma gl_volumes_rate : v_deriv (fst (sin_volumes gl_drive (1 / 240))) < 0 /\ 0 <= v_deriv (snd (sin_volumes gl_drive (1 / 240))).
Proof.
  rewrite sin_comp_deriv, sin_exp_deriv. cbn [gl_drive sd_comp_geometry sd_exp_geometry sg_swept_volume sd_frequency sd_phase_angle].
  replace (2 * PI * 60 * (1 / 240)) with (PI / 2) by field. replace (PI / 2 + 90 * PI / 180) with PI by field.
  rewrite sin_PI2, sin_PI. pose proof PI_RGT_0. split; [|lra].
  assert (0 < / 2 * 0.0001 * 1 * (2 * PI * 60)); [|lra]. apply Rmult_lt_0_compat; lra.
Qed.
Lemma gl_pushes : pushes_at st_run (1 / 240).
Proof.
  pose proof gl_volumes_rate as (V1 & V2). unfold pushes_at. change (ru_ws_vol_fn st_run) with (sin_volumes gl_drive).
  destruct (sin_volumes gl_drive (1 / 240)) as [v1 v2]. left. split; assumption.
Qed.
Lemma st_follow : temperatures_follow (te_sink st_temps) (te_source st_temps) 10 10 10 0 st_temps.
Proof. unfold st_temps. rewrite <- R_n0. repeat split; reflexivity. Qed.
Lemma st_order : 0 < te_chx st_temps + rt_cold (te_regen st_temps) < te_hhx st_temps + rt_hot (te_regen st_temps).
Proof.
  destruct st_ends as (E1 & E2 & _). pose proof st_follow as (_ & _ & _ & _ & F3 & F4 & _). rewrite F3, F4, E1, E2.
  rewrite R_n0. cbn [n_le n_add n_sub R_ops]. destruct (Rle_dec 0 0); lra.
Qed.
Lemma fc_steady u M : 0 < u -> u = 114 * (cp_he * mn_flow_r M) -> 0 < mn_flow_r M -> steady_approaches (fc_comps u) st_state M 10 10 10.
Proof.
  intros U0 Hu HM. unfold steady_approaches. cbv zeta. unfold fc_comps. cbn [co_chx co_regen co_hhx].
  split; [apply steady_fixed|]. split; [|apply steady_fixed].
  pose proof (steady_regen (s_fluid st_state) (mn_P M) (mn_flow_r M) (mn_heat_r M) eq_refl HM (mkFC 2 (0.002 * st_avg) u (mkPP 5 0 0))
    (rt_avg (te_regen (s_temp st_state))) (te_chx (s_temp st_state)) (te_hhx (s_temp st_state)) U0) as H.
  destruct st_ends as (E1 & E2 & _). change (s_temp st_state) with st_temps in *. rewrite E1, E2 in *. cbn [fc_UA] in H.
  replace ((890 - 310) * per_span (cp_he * mn_flow_r M) u) with 10 in H; [exact H|].
  assert (C : 0 < cp_he * mn_flow_r M) by (apply Rmult_lt_0_compat; [exact cp_pos|exact HM]).
  unfold per_span. replace (u / (cp_he * mn_flow_r M)) with 114; [lra|]. rewrite Hu. field. pose proof cp_pos. split; lra.
Qed.
(** whatever the outer tolerance, the run succeeds and reports the steady cycle *)
Lemma fc_succeeds : exists u s c' M X, 0 < u /\
  steady_cycle gauss st_run c' /\ (forall t, 0 <= t <= 1 / 60 -> solved_at gauss st_run t (c' t) (s t)) /\
  means st_temps (mkTR 1 1) c' s (1 / 60) M /\ 0 < mn_flow_k M /\ 0 < mn_flow_r M /\ 0 < mn_flow_l M /\
  steady_approaches (fc_comps u) st_state M 10 10 10 /\
  totals (IdealGas_Fluid he) st_temps st_replies c' s (1 / 60) X /\
  forall tol', 0 < ct_abs tol' -> 0 < ct_rel tol' -> forall eps, 0 < eps -> exists dl, 0 < dl /\
  forall m tol, (0 < m)%nat -> 1 / 60 / INR m <= dl -> 0 < ct_abs tol -> 0 < ct_rel tol <= dl ->
  exists n, forall ode points inner outer, (n < N.to_nat inner)%nat -> (0 < outer)%N ->
  exists k en rep,
    Engine_run_counted (wide_env m) gauss (fc_comps u) (IdealGas_Fluid he) st_inputs (st_settings tol tol' ode points inner outer) = (k, Ret (Ok en)) /\
    (k <= n + 2)%nat /\ en_state en = st_state /\ RunResults_from en = Ret rep /\ report_within st_replies X eps rep.
Proof.
  destruct st_steady as (c' & PC & SC & WT). pose proof SC as (HT & _). pose proof st_left_over as HQ. destruct wide_ok as (O1 & O2).
  destruct (reply_volumes (mkEngine st_comps st_state (Values_from [])) st_replies st_state st_run gl_driven st_new (st_replied _)) as (HV & _).
  destruct (eng_totals Helium st_comps st_state st_run gauss c' eq_refl gl_driven st_new gauss_sound (fun t Ht => HT t (proj1 Ht)) st_temps st_replies HV)
    as (s & X & Hs & HX').
  destruct (exact_means st_comps st_state st_run gauss c' st_replies eq_refl gl_driven st_new gauss_sound SC s Hs) as (M & HM).
  destruct (flows_positive st_temps (mkTR 1 1) Helium gauss st_run c' s (1 / 60) M (1 / 240) eq_refl gauss_sound eq_refl eq_refl
    (fun t Ht => HT t (proj1 Ht)) Hs HM ltac:(lra) gl_pushes) as (M1 & M2 & M3).
  set (u := 114 * (cp_he * mn_flow_r M)).
  assert (U0 : 0 < u) by (unfold u; apply Rmult_lt_0_compat; [lra|apply Rmult_lt_0_compat; [exact cp_pos|exact M2]]).
  pose proof (fc_steady u M U0 eq_refl M2) as HAp.
  exists u, s, c', M, X. split; [exact U0|]. split; [exact SC|]. split; [exact Hs|]. split; [exact HM|]. split; [exact M1|]. split; [exact M2|].
  split; [exact M3|]. split; [exact HAp|]. split; [exact HX'|]. intros tol' TA TR eps He.
  destruct (consistent_limit (fc_comps u) st_state st_run gauss 0.0001 0.0002 0.0001 0.0002 wide_lo wide_hi wide_lo wide_hi 125 0.0002 0.024 (/ 2) 1 c' st_replies
    eq_refl gl_driven (fc_new u) st_norm gauss_sound gauss_complete st_sane ltac:(cbn; lra)
    (fun T => proj1 (st_volumes T)) (fun T => proj2 (st_volumes T)) O1 O2 O1 O2 st_settles ltac:(lra) (proj1 wide_expanded) (proj2 wide_expanded)
    SC WT PC (fc_replied u) (fc_no_panic u) s M 10 10 10 Hs HM HAp st_follow st_order tol' X TA TR HX' eps He) as (dl & D0 & H1).
  exists dl. split; [exact D0|]. intros m tol Hm Hd A1 A2.
  destruct (H1 tol A1 A2) as (e0 & n & E0 & H2). exists n. intros ode points inner outer A6 A7.
  assert (N1 : 1 <= INR m) by (change 1 with (INR 1); apply le_INR; lia).
  apply (H2 (wide_env m) (IdealGas_Fluid he) st_inputs (st_settings tol tol' ode points inner outer) (1 / 60 / INR m)); try assumption.
  - exact (fc_hint u).
  - reflexivity.
  - reflexivity.
  - apply (accurate_wider _ _ _ _ _ _ (1 / 60 / INR m) _ 0 _); [|lra|exact (wide_accurate m ode 2 Hm)].
    change (ru_period st_run) with (1 / 60). apply (Rmult_le_reg_r (INR m)); [lra|].
    replace (1 / 60 / INR m * INR m) with (1 / 60) by (field; lra). lra.
  - apply (accurate_wider _ _ _ _ _ _ (1 / 60 / INR m) _ 0 _); [lra|lra|exact (wide_accurate m ode points Hm)].
Qed.
Lemma push_case : pushes_at st_run (1 / 240) /\ exists i s, physical i /\ conserves i s /\ expands_when_heated i /\
  squeezed (in_comp i) /\ relaxed (in_exp i) /\ to_expansion s.
Proof.
  split; [exact gl_pushes|]. destruct st_steady as (c' & PC & SC & WT). destruct SC as (HT & _).
  specialize (HT (1 / 240) ltac:(lra)). pose proof HT as (((Tc & Te & _) & _ & hint & s & Hs & _) & HP & _).
  pose proof (energy_conserved gauss _ hint s gauss_sound (norm_nonzero _ HP) Hs) as (HC & _).
  pose proof gl_volumes_rate as (V1 & V2).
  set (c := c' (1 / 240)) in *. exists (Run_calculate_inputs st_run (1 / 240) c), s.
  split; [exact HP|]. split; [exact HC|].
  assert (HE : expands_when_heated (Run_calculate_inputs st_run (1 / 240) c) /\ squeezed (in_comp (Run_calculate_inputs st_run (1 / 240) c)) /\
    relaxed (in_exp (Run_calculate_inputs st_run (1 / 240) c))).
  { pose proof HP as (_ & (_ & ZC & _) & _). unfold Run_calculate_inputs in *. change (ru_ws_vol_fn st_run) with (sin_volumes gl_drive) in *.
    destruct (sin_volumes gl_drive (1 / 240)) as [v1 v2]. cbn [fst snd] in *.
    unfold expands_when_heated, squeezed, relaxed.
    cbn [in_pres in_comp in_exp comp_inputs exp_inputs wi_Q_dot wi_dens wi_dd_dT_P wi_dV_dt fst snd st_run ru_fluid ru_ws_parasitics IdealGas_Fluid fl_dd_dT_P fl_dens] in *.
    rewrite dens_eq in ZC. rewrite !dd_dT_P_eq. pose proof he_pos as HR. set (Rg := ig_gas_constant he) in *.
    assert (P0 : 0 < cd_P c).
    { assert (0 < Rg * cd_T_c c) by (apply Rmult_lt_0_compat; assumption).
      replace (cd_P c) with (cd_P c / (Rg * cd_T_c c) * (Rg * cd_T_c c)) by (field; split; lra). apply Rmult_lt_0_compat; assumption. }
    assert (N : forall z, 0 < z -> - cd_P c / (Rg * (z * z)) <= 0).
    { intros z Hz. assert (0 < cd_P c / (Rg * (z * z))) by (apply Rdiv_lt_0_compat; [exact P0|apply Rmult_lt_0_compat; [exact HR|apply Rmult_lt_0_compat; exact Hz]]).
      unfold Rdiv in *. lra. }
    cbn [gl_drive sd_parasitics par_comp par_exp pp_thermal]. repeat split; try lra; apply N; assumption. }
  destruct HE as (E1 & E2 & E3). split; [exact E1|]. split; [exact E2|]. split; [exact E3|]. exact (push_out _ s HP HC E1 E2 E3).
Qed.
