(** * Engines turned end for end *)
From Coq Require Import ZArith NArith List Reals Lra Lia FunctionalExtensionality.
From Verif Require Import Num ModelTypes ModelWs ModelHx ModelStateEq ModelEngine ModelApi RNum Spec SpecR SpecGas
  SpecKin SpecTraj SpecLaws SpecUnique SpecSteady SpecSeries SpecReport SpecSimilar SpecTurn PolySolve PolyReport RSolve RGauss RFluid RKin RMass
  RSeries RLaws RSimilar.
Import ListNotations.
Local Open Scope R_scope.

(** ** Trajectories *)
Lemma turned_inputs t0 pr r t c :
  Run_calculate_inputs (turned_run t0 pr r) t (mirror_conditions c) = mirror (Run_calculate_inputs r (t + t0) c).
Proof.
  unfold Run_calculate_inputs. cbn [turned_run ru_ws_vol_fn]. unfold turned_volumes.
  destruct (ru_ws_vol_fn r (t + t0)) as [vc ve]. reflexivity.
Qed.
Lemma turned_physical t0 pr r t c : physical (Run_calculate_inputs r (t + t0) c) ->
  physical (Run_calculate_inputs (turned_run t0 pr r) t (mirror_conditions c)).
Proof. intros H. rewrite turned_inputs. apply mirror_physical. exact H. Qed.
Lemma turned_solves t0 pr r D t c hint hint' s : sound D -> complete D -> physical (Run_calculate_inputs r (t + t0) c) ->
  solve D (Run_calculate_inputs r (t + t0) c) hint = Ok s ->
  solve D (Run_calculate_inputs (turned_run t0 pr r) t (mirror_conditions c)) hint' = Ok (mirror_solution s).
Proof. intros HS HC HP H. rewrite turned_inputs. exact (solve_mirror D _ hint hint' s HS HC HP H). Qed.
Lemma deriv_later (f : R -> R) t0 t l : has_deriv f (t + t0) l -> has_deriv (fun u => f (u + t0)) t l.
Proof.
  intros H e He. destruct (H e He) as (d & Hd). exists d. intros h Hh Hh'.
  specialize (Hd h Hh Hh'). replace (t + h + t0) with (t + t0 + h) by ring. exact Hd.
Qed.
Lemma continuous_later (f : R -> R) t0 t : continuity_pt f (t + t0) -> continuity_pt (fun u => f (u + t0)) t.
Proof.
  intros H. apply (continuity_pt_comp (fun u => u + t0) f t); [|exact H].
  apply continuity_pt_plus; [apply derivable_continuous_pt, derivable_pt_id|apply continuity_pt_const; intros x y; reflexivity].
Qed.
Lemma turned_physical_trajectory t0 pr r D c t : sound D -> complete D -> physical_trajectory D r c (t + t0) ->
  physical_trajectory D (turned_run t0 pr r) (turned_trajectory t0 c) t.
Proof.
  intros HS HC (((P1 & P2 & P3 & P4 & P5) & (V1 & V2) & hint & s & H & F1 & F2 & F3) & HP & C1 & C2). split; [|split].
  - split; [repeat split; assumption|]. split.
    + split; cbn [turned_run ru_ws_vol_fn turned_volumes fst snd].
      * exact (deriv_later (fun u => v_value (snd (ru_ws_vol_fn r u))) t0 t _ V2).
      * exact (deriv_later (fun u => v_value (fst (ru_ws_vol_fn r u))) t0 t _ V1).
    + exists hint, (mirror_solution s). split; [exact (turned_solves t0 pr r D t _ hint hint s HS HC HP H)|].
      split; [|split]; cbn [turned_trajectory mirror_conditions cd_P cd_T_c cd_T_e mirror_solution so_dP_dt so_dTc_dt so_dTe_dt].
      * exact (deriv_later (fun u => cd_P (c u)) t0 t _ F1).
      * exact (deriv_later (fun u => cd_T_e (c u)) t0 t _ F3).
      * exact (deriv_later (fun u => cd_T_c (c u)) t0 t _ F2).
  - exact (turned_physical t0 pr r t _ HP).
  - split; cbn [turned_run ru_ws_vol_fn turned_volumes fst snd].
    + exact (continuous_later (fun u => v_deriv (snd (ru_ws_vol_fn r u))) t0 t C2).
    + exact (continuous_later (fun u => v_deriv (fst (ru_ws_vol_fn r u))) t0 t C1).
Qed.
Lemma turned_steady t0 pr r D c : sound D -> complete D -> 0 <= t0 -> steady_cycle D r c ->
  steady_cycle D (turned_run t0 pr r) (turned_trajectory t0 c).
Proof.
  intros HS HC H0 (HT & HR). split.
  - intros t Ht. apply turned_physical_trajectory; try assumption. apply HT. lra.
  - intros t Ht. unfold turned_trajectory. cbn [turned_run ru_period].
    replace (t + ru_period r + t0) with (t + t0 + ru_period r) by ring. rewrite HR by lra. reflexivity.
Qed.

(** ** Components *)
Lemma trig_turns k x : cos (x + 2 * IZR k * PI) = cos x /\ sin (x + 2 * IZR k * PI) = sin x.
Proof.
  assert (N : forall n x, cos (x + 2 * INR n * PI) = cos x /\ sin (x + 2 * INR n * PI) = sin x)
    by (intros n y; split; [apply cos_period|apply sin_period]).
  destruct (Z_le_gt_dec 0 k) as [Hk|Hk].
  - rewrite <- (Z2Nat.id k Hk), <- INR_IZR_INZ. apply N.
  - assert (E : IZR k = - INR (Z.to_nat (- k))) by (rewrite INR_IZR_INZ, Z2Nat.id by lia; rewrite opp_IZR; ring).
    rewrite E. destruct (N (Z.to_nat (- k)) (x + 2 * - INR (Z.to_nat (- k)) * PI)) as (A & B).
    rewrite <- A, <- B. split; f_equal; ring.
Qed.
Lemma turned_sin_volumes d t0 t : turned_by d t0 -> sin_volumes (turned_sin d) t = turned_volumes t0 (sin_volumes d) t.
Proof.
  intros (k & Hk). unfold turned_volumes.
  pose proof (sin_comp_value (turned_sin d) t) as H1. pose proof (sin_comp_deriv (turned_sin d) t) as H2.
  pose proof (sin_exp_value (turned_sin d) t) as H3. pose proof (sin_exp_deriv (turned_sin d) t) as H4.
  pose proof (sin_comp_value d (t + t0)) as G1. pose proof (sin_comp_deriv d (t + t0)) as G2.
  pose proof (sin_exp_value d (t + t0)) as G3. pose proof (sin_exp_deriv d (t + t0)) as G4.
  destruct (sin_volumes (turned_sin d) t) as [[a b] [p q]]. destruct (sin_volumes d (t + t0)) as [[a' b'] [p' q']].
  cbn [fst snd v_value v_deriv turned_sin sd_frequency sd_phase_angle sd_comp_geometry sd_exp_geometry] in *.
  set (f := sd_frequency d) in *. set (ph := sd_phase_angle d) in *.
  assert (E1 : 2 * PI * f * (t + t0) + ph * PI / 180 = 2 * PI * f * t + 2 * IZR k * PI).
  { replace (2 * PI * f * (t + t0)) with (2 * PI * f * t + 2 * PI * (t0 * f)) by ring. rewrite Hk. field. }
  assert (E2 : 2 * PI * f * (t + t0) = 2 * PI * f * t + - ph * PI / 180 + 2 * IZR k * PI).
  { replace (2 * PI * f * (t + t0)) with (2 * PI * f * t + 2 * PI * (t0 * f)) by ring. rewrite Hk. field. }
  rewrite E1 in G3, G4. rewrite E2 in G1, G2.
  destruct (trig_turns k (2 * PI * f * t)) as (A1 & A2). destruct (trig_turns k (2 * PI * f * t + - ph * PI / 180)) as (B1 & B2).
  rewrite A1 in G3. rewrite A2 in G4. rewrite B1 in G1. rewrite B2 in G2. congruence.
Qed.
Lemma turned_drive d t0 : turned_by d t0 -> sin_volumes (turned_sin d) = turned_volumes t0 (sin_volumes d).
Proof. intros H. apply functional_extensionality. intros t. exact (turned_sin_volumes d t0 t H). Qed.
Lemma turned_new t0 name d a b c s s' r : s_fluid s = IdealGas_Fluid (IdealGas_new name) -> turned_by d t0 -> turned_state s s' ->
  Run_new (fixed_engine (SinusoidalDrive_ws d) a b c) s = Ret r ->
  Run_new (turned_engine d a b c) s' = Ret (turned_run t0 (s_pres s') r).
Proof.
  intros Hf Hd (S1 & S2) H. unfold turned_run. injection H as <-.
  cbn [ru_enth_norm ru_fluid ru_period ru_temp ru_vol_chx ru_vol_hhx ru_vol_regen ru_ws_parasitics ru_ws_vol_fn].
  rewrite <- (turned_drive d t0 Hd).
  unfold Run_new, turned_engine, fixed_engine. cbn [co_chx co_regen co_hhx co_ws ex_volume chx_FixedApproach regen_FixedApproach hhx_FixedApproach
    SinusoidalDrive_ws ws_frequency ws_volumes ws_parasitics obind]. rewrite S1, S2, Hf. f_equal. f_equal.
  cbn [mirror_temps te_sink te_source n_mul n_add R_ops]. f_equal. apply Rplus_comm.
Qed.
Lemma turned_temperatures sink source a :
  0 < source - ap_hhx a - / 2 * ap_regen a -> 0 < sink + ap_chx a + / 2 * ap_regen a ->
  Temperatures_from_approach source sink (turned_approach a) 0 = mirror_temps (Temperatures_from_approach sink source a 0).
Proof.
  intros H1 H2. unfold Temperatures_from_approach, regen_temp, mirror_temps, turned_approach.
  cbn [te_sink te_source te_chx te_hhx te_regen rt_cold rt_avg rt_hot ap_chx ap_hhx ap_regen].
  assert (E : @n_le R R_ops n0 0 = true) by (cbn [n_le R_ops]; rewrite R_n0; destruct (Rle_dec 0 0); [reflexivity|lra]). rewrite !E, R_nhalf.
  cbn [n_add n_sub n_mul n_div n_ln R_ops]. rewrite !Rplus_0_r.
  set (x := source - ap_hhx a - / 2 * ap_regen a) in *. set (y := sink + ap_chx a + / 2 * ap_regen a) in *.
  f_equal; try (unfold x, y; lra). f_equal; try lra.
  replace (sink - - ap_chx a - / 2 * - ap_regen a) with y by (unfold y; lra).
  replace (source + - ap_hhx a + / 2 * - ap_regen a) with x by (unfold x; lra).
  replace (y - (source + - ap_hhx a) - / 2 * - ap_regen a) with (- (x - y)) by (unfold x; lra).
  replace (x - (sink + ap_chx a) - / 2 * ap_regen a) with (x - y) by (unfold y; lra).
  replace (y / x) with (/ (x / y)) by (field; split; lra).
  rewrite ln_Rinv by (apply Rdiv_lt_0_compat; assumption).
  unfold Rdiv. rewrite Rinv_opp. ring.
Qed.
Lemma turned_initial fl d a b c (i i' : RunInputs R) s s' :
  0 < ri_temp_source i - fa_approach c - / 2 * fa_approach b -> 0 < ri_temp_sink i + fa_approach a + / 2 * fa_approach b ->
  ri_temp_sink i' = ri_temp_source i -> ri_temp_source i' = ri_temp_sink i ->
  State_new_hint (fixed_engine (SinusoidalDrive_ws d) a b c) fl i = Ret s ->
  State_new_hint (turned_engine d a b c) fl i' = Ret s' -> turned_state s s'.
Proof.
  intros H1 H2 E1 E2 H H'. injection H as <-. injection H' as <-. split; [|reflexivity]. cbn [s_temp].
  rewrite E1, E2. exact (turned_temperatures _ _ (mkApproach (fa_approach a) (fa_approach b) (fa_approach c)) H1 H2).
Qed.
Lemma turned_replied t0 d a b c (e e' : Engine R) x : turned_by d t0 ->
  en_components e = fixed_engine (SinusoidalDrive_ws d) a b c -> en_components e' = turned_engine d a b c ->
  replies e x -> replies e' (turned_replies t0 x).
Proof.
  intros Hd Hc Hc' Hx.
  assert (HX : replies e (sin_replies d a b c)) by (unfold replies; rewrite Hc; repeat split).
  rewrite (replies_eq x (sin_replies d a b c)) by (exact (replies_unique e _ _ Hx HX)).
  unfold replies. rewrite Hc'. cbn -[sin_volumes turned_volumes]. rewrite <- (turned_drive d t0 Hd). repeat split.
Qed.

(** ** Reports *)
Lemma trapezoid_later (t0 k : R) : forall l, trapezoid (map (fun q => (fst q - t0, k * snd q)) l) = k * trapezoid l.
Proof.
  induction l as [|[x0 y0] l IH]; [cbn; ring|]. destruct l as [|[x1 y1] l]; [cbn; ring|].
  cbn [map trapezoid fst snd] in *. rewrite IH. field.
Qed.
Section Report.
  Context (t0 : R).
  Notation turn := (turned_sample t0).
  Lemma cycle_turned (a : Replies R) vs (k : R) (g g' : SeValues R -> R) : (forall x, g' (turn x) = k * g x) ->
    cycle_num (turned_replies t0 a) (map turn vs) g' = k * cycle_num a vs g.
  Proof.
    intros H. unfold cycle_num. rewrite !integrate_trapezoid, !map_map. cbn [turned_replies rp_freq n_mul R_ops].
    rewrite !combine_maps.
    rewrite (map_ext (fun x => (sv_time (turn x), g' (turn x))) (fun x => (fst (sv_time x, g x) - t0, k * snd (sv_time x, g x)))).
    2:{ intros x. rewrite H. reflexivity. }
    rewrite <- (map_map (fun x => (sv_time x, g x)) (fun q => (fst q - t0, k * snd q))), trapezoid_later. ring.
  Qed.
  Context (e e' : Engine R) (a : Replies R) (vs : list (SeValues R)).
  Hypothesis Hst : turned_state (en_state e) (en_state e').
  Lemma total_turned x : total_num e' (turned_replies t0 a) (turn x) = - total_num e a x.
  Proof.
    destruct Hst as (HT & HF). unfold total_num, drop_num, dens_num. rewrite HT, HF.
    cbn [turned_replies rp_R_chx rp_R_regen rp_R_hhx turned_sample sv_solution sv_conditions mirror_conditions cd_P mirror_solution
      so_m_dot_ck so_m_dot_kr so_m_dot_rl so_m_dot_le mirror_temps te_chx te_hhx te_regen rt_avg n_add n_mul n_div R_ops].
    unfold Rdiv. ring.
  Qed.
  Lemma later_turned x : sv_time (turn x) + t0 = sv_time x.
  Proof. cbn [turned_sample sv_time]. ring. Qed.
  Lemma work_turned x : work_num e' (turned_replies t0 a) (turn x) = 1 * work_num e a x.
  Proof.
    unfold work_num, Pc_num, Pe_num, dVc_num, dVe_num. rewrite total_turned.
    cbn [turned_replies rp_vols]. unfold turned_volumes. rewrite later_turned.
    cbn [turned_sample sv_conditions mirror_conditions cd_P fst snd n_add n_sub n_mul R_ops]. ring.
  Qed.
  Lemma ideal_turned x : ideal_num (turned_replies t0 a) (turn x) = 1 * ideal_num a x.
  Proof.
    unfold ideal_num, dVc_num, dVe_num. cbn [turned_replies rp_vols]. unfold turned_volumes. rewrite later_turned.
    cbn [turned_sample sv_conditions mirror_conditions cd_P fst snd n_add n_mul R_ops]. ring.
  Qed.
  Lemma wall_c_turned x : wall_c_num e' (turned_replies t0 a) (turn x) = 1 * wall_e_num e a x.
  Proof. destruct Hst as (HT & _). unfold wall_c_num, wall_e_num. rewrite HT. symmetry. apply Rmult_1_l. Qed.
  Lemma wall_e_turned x : wall_e_num e' (turned_replies t0 a) (turn x) = 1 * wall_c_num e a x.
  Proof. destruct Hst as (HT & _). unfold wall_c_num, wall_e_num. rewrite HT. symmetry. apply Rmult_1_l. Qed.
  Lemma report_turned : series_of vs (en_values e) -> replies e a ->
    series_of (map turn vs) (en_values e') -> replies e' (turned_replies t0 a) ->
    exists rep rep', RunResults_from e = Ret rep /\ RunResults_from e' = Ret rep' /\ turned_report t0 a rep rep'.
  Proof.
    intros H1 H2 H3 H4.
    destruct (reported e a vs H1 H2) as (rep & E & _ & _ & A1 & A2 & A3 & A4 & A5 & A6 & A7 & A8).
    destruct (reported e' _ (map turn vs) H3 H4) as (rep' & E' & _ & _ & B1 & B2 & B3 & B4 & B5 & B6 & B7 & B8).
    assert (I1 : indicated_num e' (turned_replies t0 a) (map turn vs) = indicated_num e a vs).
    { unfold indicated_num. rewrite (cycle_turned a vs 1 (work_num e a) _ work_turned). apply Rmult_1_l. }
    assert (I2 : ideal_ind_num (turned_replies t0 a) (map turn vs) = ideal_ind_num a vs).
    { unfold ideal_ind_num. rewrite (cycle_turned a vs 1 (ideal_num a) _ ideal_turned). apply Rmult_1_l. }
    assert (I3 : shaft_num e' (turned_replies t0 a) (map turn vs) = shaft_num e a vs).
    { unfold shaft_num. rewrite I1. unfold fric_c_num, fric_e_num.
      cbn [turned_replies rp_par turned_parasitics par_comp par_exp n_sub R_ops]. ring. }
    assert (I4 : net_num e' (turned_replies t0 a) (map turn vs) = net_num e a vs).
    { unfold net_num. rewrite I3. cbn [turned_replies rp_chx rp_hhx n_sub R_ops]. ring. }
    pose proof (cycle_turned a vs (-1) (fun x => so_Q_dot_k (sv_solution x)) (fun x => so_Q_dot_l (sv_solution x))) as K1.
    pose proof (cycle_turned a vs (-1) (fun x => so_Q_dot_l (sv_solution x)) (fun x => so_Q_dot_k (sv_solution x))) as K2.
    specialize (K1 ltac:(intros x; cbn [turned_sample mirror_solution sv_solution so_Q_dot_l]; ring)).
    specialize (K2 ltac:(intros x; cbn [turned_sample mirror_solution sv_solution so_Q_dot_k]; ring)).
    pose proof (cycle_turned a vs 1 (wall_e_num e a) _ wall_c_turned) as K3.
    pose proof (cycle_turned a vs 1 (wall_c_num e a) _ wall_e_turned) as K4.
    exists rep, rep'. split; [exact E|]. split; [exact E'|]. unfold turned_report, taken_up, given_off, dissipated, hot_losses.
    rewrite A1, A2, A3, A4, A5, A6, A7, B1, B2, B3, B4, B5, B6, B7, I3, I4.
    unfold input_num, rejected_num, losses_num, fric_c_num, fric_e_num. rewrite I1, I2, K1, K2, K3, K4.
    cbn [turned_replies rp_freq rp_par rp_chx rp_hhx rp_regen turned_parasitics par_comp par_exp n_add n_sub n_mul n_div R_ops].
    do 5 (split; [reflexivity|]). split; ring.
  Qed.
End Report.
