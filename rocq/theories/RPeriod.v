(** * Trajectories of repeating engines *)
From Coq Require Import ZArith NArith List Reals Lra Lia.
From Verif Require Import Num ModelTypes ModelWs ModelHx ModelStateEq ModelEngine RNum Spec SpecR SpecGas
  SpecKin SpecTraj SpecLaws SpecUnique Fixture PolySolve RSolve RGauss RFluid RKin RMass RCase RLaws RCase3
  RClose RPairs RUnique.
Local Open Scope R_scope.

Lemma trajectories_agree name r D D' c c' a b t0 :
  ru_fluid r = IdealGas_Fluid (IdealGas_new name) -> sound D -> sound D' -> a <= t0 <= b ->
  (forall t, a <= t <= b -> physical_trajectory D r c t /\ physical_trajectory D' r c' t) ->
  c t0 = c' t0 -> forall t, a <= t <= b -> c t = c' t.
Proof.
  intros Hf HD HD' H0 H E t Ht.
  apply (agree (IdealGas_new name) (gas_R_pos name) r Hf a b (fun j : bool => if j then c else c')
    (fun j : bool => if j then D else D')) with (t0 := t0); try assumption; try lra.
  - intros [|]; assumption.
  - intros [|] u Hu; apply (H u Hu).
  - intros [|] u Hu; apply (H u Hu).
  - intros u Hu. apply (H u Hu).
  - intros u Hu. apply (H u Hu).
Qed.

(** ** Shift in time *)
Lemma deriv_shift f t tau l : derivable_pt_lim f (t + tau) l -> derivable_pt_lim (fun u => f (u + tau)) t l.
Proof.
  intros H e He. destruct (H e He) as (dl & Hdl). exists dl. intros h Hh Hh'.
  replace (t + h + tau) with (t + tau + h) by ring. apply Hdl; assumption.
Qed.
Lemma deriv_shift_back f t tau l : derivable_pt_lim (fun u => f (u + tau)) t l -> derivable_pt_lim f (t + tau) l.
Proof.
  intros H e He. destruct (H e He) as (dl & Hdl). exists dl. intros h Hh Hh'.
  replace (t + tau + h) with (t + h + tau) by ring. apply Hdl; assumption.
Qed.
Lemma inputs_shift r tau t c : repeats (ru_ws_vol_fn r) tau ->
  Run_calculate_inputs r (t + tau) c = Run_calculate_inputs r t c.
Proof. intros H. unfold Run_calculate_inputs. rewrite (H t). reflexivity. Qed.
Lemma trajectory_shift D r c tau t : repeats (ru_ws_vol_fn r) tau ->
  true_derivatives (ru_ws_vol_fn r) t -> continuous_rates (ru_ws_vol_fn r) t ->
  physical_trajectory D r c (t + tau) -> physical_trajectory D r (fun u => c (u + tau)) t.
Proof.
  intros HR HV HC ((H1 & H2 & hint & s & H3 & (F1 & F2 & F3)) & H4 & H5).
  split; [|split; [|exact HC]].
  - split; [exact H1|]. split; [exact HV|]. exists hint, s.
    rewrite <- (inputs_shift r tau t _ HR). split; [exact H3|].
    split; [|split]; [exact (deriv_shift (fun u => cd_P (c u)) t tau _ F1)
      |exact (deriv_shift (fun u => cd_T_c (c u)) t tau _ F2)|exact (deriv_shift (fun u => cd_T_e (c u)) t tau _ F3)].
  - rewrite <- (inputs_shift r tau t _ HR). exact H4.
Qed.

Lemma physical_reduced r t c : positive_temps r c -> physical (Run_calculate_inputs r t c) ->
  0 < reduced_volume r t c.
Proof.
  intros (T1 & T2 & T3 & T4 & T5) H. unfold Run_calculate_inputs in H. unfold reduced_volume.
  destruct (ru_ws_vol_fn r t) as [v w]. cbn [fst snd].
  destruct H as (_ & (A & _) & (B & _) & Vk & _ & Vr & _ & Vl & _).
  cbn in A, B, Vk, Vr, Vl.
  assert (0 < v_value v / cd_T_c c) by (apply Rdiv_lt_0_compat; assumption).
  assert (0 < v_value w / cd_T_e c) by (apply Rdiv_lt_0_compat; assumption).
  assert (0 <= ru_vol_chx r / te_chx (ru_temp r)) by (apply Rle_mult_inv_pos; assumption).
  assert (0 <= ru_vol_regen r / rt_avg (te_regen (ru_temp r))) by (apply Rle_mult_inv_pos; assumption).
  assert (0 <= ru_vol_hhx r / te_hhx (ru_temp r)) by (apply Rle_mult_inv_pos; assumption).
  lra.
Qed.

Lemma cycle_repeats name r D c tau :
  ru_fluid r = IdealGas_Fluid (IdealGas_new name) -> sound D -> 0 <= tau -> repeats (ru_ws_vol_fn r) tau ->
  (forall t, 0 <= t -> physical_trajectory D r c t) ->
  cd_T_c (c tau) = cd_T_c (c 0) -> cd_T_e (c tau) = cd_T_e (c 0) ->
  forall t, 0 <= t -> c (t + tau) = c t.
Proof.
  intros Hf HD Ht0 HR H EC EE t Ht.
  assert (HP : cd_P (c tau) = cd_P (c 0)).
  { apply (pressure_returns (IdealGas_new name) (gas_R_pos name) r Hf D c 0 tau HD Ht0).
    - intros u Hu. apply (H u ltac:(lra)).
    - pose proof (HR 0) as E. rewrite Rplus_0_l in E. unfold spaces_return. rewrite E. auto.
    - apply Rgt_not_eq. destruct (H 0 ltac:(lra)) as ((HT & _) & Hp & _). exact (physical_reduced r 0 (c 0) HT Hp). }
  apply (trajectories_agree name r D D (fun u => c (u + tau)) c 0 t 0 Hf HD HD); try lra.
  - intros u Hu. split; [|apply H; lra].
    destruct (H u ltac:(lra)) as ((_ & HV & _) & _ & HC). apply trajectory_shift; try assumption. apply H. lra.
  - rewrite Rplus_0_l. destruct (c tau) as [x y w], (c 0) as [x' y' w']. cbn [cd_P cd_T_c cd_T_e] in *. congruence.
Qed.
Lemma cycles_repeat name r D c tau :
  ru_fluid r = IdealGas_Fluid (IdealGas_new name) -> sound D -> 0 <= tau -> repeats (ru_ws_vol_fn r) tau ->
  (forall t, 0 <= t -> physical_trajectory D r c t) ->
  cd_T_c (c tau) = cd_T_c (c 0) -> cd_T_e (c tau) = cd_T_e (c 0) ->
  forall t n, 0 <= t -> c (t + INR n * tau) = c t.
Proof.
  intros Hf HD Ht0 HR H EC EE t n Ht. induction n as [|n IH].
  - rewrite Rmult_0_l, Rplus_0_r. reflexivity.
  - rewrite S_INR. replace (t + (INR n + 1) * tau) with (t + INR n * tau + tau) by ring.
    rewrite (cycle_repeats name r D c tau Hf HD Ht0 HR H EC EE); [exact IH|].
    pose proof (pos_INR n). assert (0 <= INR n * tau) by (apply Rmult_le_pos; assumption). lra.
Qed.

(** ** The drives *)
Lemma sin_rates d t : continuous_rates (sin_volumes d) t.
Proof.
  split; eapply deriv_cont.
  - eapply deriv_ext; [intros y; symmetry; apply sin_comp_deriv|]. deriv.
  - eapply deriv_ext; [intros y; symmetry; apply sin_exp_deriv|]. deriv.
Qed.
Lemma rh_rates d t : turns d -> rg_D_p (rd_geometry d) <> 0 -> continuous_rates (rh_volumes d) t.
Proof.
  intros HT HD.
  pose proof (b_pos d HT (2 * PI * rd_frequency d * t)) as Nb. pose proof (under_pos d HT (2 * PI * rd_frequency d * t)) as Nu.
  assert (NA : 2 * (PI * (rg_D_p (rd_geometry d) * rg_D_p (rd_geometry d)) / 4) <> 0).
  { pose proof PI_RGT_0. intros E0. apply HD.
    assert (E' : PI * (rg_D_p (rd_geometry d) * rg_D_p (rd_geometry d)) = 0) by lra.
    apply Rmult_integral in E' as [E'|E']; [lra|]. apply Rmult_integral in E' as [E'|E']; exact E'. }
  split; eapply deriv_cont.
  - eapply deriv_ext; [intros y; symmetry; apply rh_comp_deriv|]. deriv; [exact Nu|lra].
  - eapply deriv_ext; [intros y; symmetry; apply rh_exp_deriv|]. deriv; [exact Nu|lra|exact NA].
Qed.

Lemma driven_run comps s r : driven (co_ws comps) -> Run_new comps s = Ret r ->
  0 <= ru_period r /\ repeats (ru_ws_vol_fn r) (ru_period r) /\ (forall t, continuous_rates (ru_ws_vol_fn r) t) /\
  ru_fluid r = s_fluid s.
Proof.
  intros Hd H. unfold Run_new in H.
  destruct (ex_volume (co_chx comps)); [|discriminate].
  destruct (ex_volume (co_regen comps)); [|discriminate].
  destruct (ex_volume (co_hhx comps)); [|discriminate]. cbn [obind] in H.
  destruct Hd as [(d & E & Hf)|(d & E & Hf & HT & HD)]; rewrite E in H;
    cbn [SinusoidalDrive_ws RhombicDrive_ws ws_frequency ws_volumes ws_parasitics obind] in H; injection H as <-;
    cbn [ru_period ru_ws_vol_fn ru_fluid].
  - split; [|split; [|split; [|reflexivity]]].
    + change (0 <= 1 / sd_frequency d). left. apply Rdiv_lt_0_compat; lra.
    + intros t. apply (sin_periodic d t). lra.
    + intros t. apply sin_rates.
  - split; [|split; [|split; [|reflexivity]]].
    + change (0 <= 1 / rd_frequency d). left. apply Rdiv_lt_0_compat; lra.
    + intros t. apply (rh_periodic d t). lra.
    + intros t. apply rh_rates; assumption.
Qed.

Lemma engine_repeats name comps s r D c :
  s_fluid s = IdealGas_Fluid (IdealGas_new name) -> driven (co_ws comps) -> Run_new comps s = Ret r -> sound D ->
  (forall t, 0 <= t -> on_trajectory D r c t /\ physical (Run_calculate_inputs r t (c t))) ->
  cd_T_c (c (ru_period r)) = cd_T_c (c 0) -> cd_T_e (c (ru_period r)) = cd_T_e (c 0) ->
  forall t n, 0 <= t -> c (t + INR n * ru_period r) = c t.
Proof.
  intros Hf Hd Hr HD H. destruct (driven_run comps s r Hd Hr) as (P0 & HR & HC & EF). rewrite <- EF in Hf.
  apply (cycles_repeat name r D c (ru_period r) Hf HD P0 HR).
  intros t Ht. destruct (H t Ht) as [A B]. split; [exact A|]. split; [exact B|apply HC].
Qed.
Lemma engine_unique name comps s r D D' c c' a b t0 :
  s_fluid s = IdealGas_Fluid (IdealGas_new name) -> driven (co_ws comps) -> Run_new comps s = Ret r ->
  sound D -> sound D' -> a <= t0 <= b ->
  (forall t, a <= t <= b -> on_trajectory D r c t /\ physical (Run_calculate_inputs r t (c t)) /\
                            on_trajectory D' r c' t /\ physical (Run_calculate_inputs r t (c' t))) ->
  c t0 = c' t0 -> forall t, a <= t <= b -> c t = c' t.
Proof.
  intros Hf Hd Hr HD HD' H0 H. destruct (driven_run comps s r Hd Hr) as (P0 & HR & HC & EF). rewrite <- EF in Hf.
  apply (trajectories_agree name r D D' c c' a b t0 Hf HD HD' H0).
  intros t Ht. destruct (H t Ht) as (A & B & A' & B'). split; (split; [assumption|]; split; [assumption|apply HC]).
Qed.

(** ** The breathing engine *)
Lemma br_physical_trajectory t : physical_trajectory gauss br_run br_traj t.
Proof.
  split; [apply br_on_trajectory|]. split; [apply br_physical|].
  split; cbn [br_run ru_ws_vol_fn fst snd v_deriv];
    eapply (deriv_cont (fun u => cos u / 2) t); deriv; lra.
Qed.
Lemma br_repeats : repeats (ru_ws_vol_fn br_run) (2 * PI).
Proof.
  intros t. cbn [br_run ru_ws_vol_fn]. unfold br_V. rewrite cos_turn, sin_turn. reflexivity.
Qed.
(** whatever starts like it, stays with it *)
Lemma br_only c D t : sound D -> 0 <= t -> (forall u, 0 <= u -> physical_trajectory D br_run c u) ->
  c 0 = br_traj 0 -> c t = br_traj t.
Proof.
  intros HD Ht H E. apply (trajectories_agree Helium br_run D gauss c br_traj 0 t 0 eq_refl HD gauss_sound); try lra.
  - intros u Hu. split; [apply H; lra|apply br_physical_trajectory].
  - exact E.
Qed.

(** ** The same with a sinusoidal drive: both spaces breathe in phase *)
Definition bd_drive : SinusoidalDrive R :=
  mkSin (1 / (2 * PI)) 0 (mkSinGeo (1 / 2) 1) (mkSinGeo (1 / 2) 1) (mkTR 1 1)
    (mkPar (mkPP 0 0 0) (mkPP 0 0 0)).
Definition bd_comps : Components R :=
  mkComponents (SinusoidalDrive_ws bd_drive)
    (chx_FixedApproach (mkFA 1 0 10 (mkPP 0 1 0)))
    (regen_FixedApproach (mkFA 2 0 10 (mkPP 5 0 0)))
    (hhx_FixedApproach (mkFA 3 0 10 (mkPP 6 2 0))).
Definition bd_run : Run R :=
  mkRun case_norm (IdealGas_Fluid he) (1 / (1 / (2 * PI))) (s_pres case_state) case_temps 0 0 0
    (sd_parasitics bd_drive) (sin_volumes bd_drive).
Definition bd_traj (t : R) : Conditions R := br_traj (t + PI / 2).
Lemma bd_new : Run_new bd_comps case_state = Ret bd_run.
Proof. reflexivity. Qed.
Lemma bd_driven : driven (co_ws bd_comps).
Proof.
  left. exists bd_drive. split; [reflexivity|]. cbn. pose proof PI_RGT_0. apply Rdiv_lt_0_compat; lra.
Qed.
Lemma bd_volumes t : sin_volumes bd_drive t = ru_ws_vol_fn br_run (t + PI / 2).
Proof.
  pose proof PI_RGT_0.
  assert (E : 2 * PI * sd_frequency bd_drive * t = t) by (cbn; field; lra).
  assert (E' : 2 * PI * sd_frequency bd_drive * t + sd_phase_angle bd_drive * PI / 180 = t) by (rewrite E; cbn; lra).
  assert (S1 : sin (t + PI / 2) = cos t) by (rewrite sin_plus, cos_PI2, sin_PI2; ring).
  assert (S2 : cos (t + PI / 2) = - sin t) by (rewrite cos_plus, cos_PI2, sin_PI2; ring).
  apply vol_ext; rewrite ?sin_comp_value, ?sin_comp_deriv, ?sin_exp_value, ?sin_exp_deriv, ?E', ?E;
    cbn [br_run ru_ws_vol_fn fst snd v_value v_deriv]; unfold br_V; rewrite ?S1, ?S2; cbn; field; lra.
Qed.
Lemma bd_inputs t c : Run_calculate_inputs bd_run t c = with_norm (Run_calculate_inputs br_run (t + PI / 2) c) case_norm.
Proof.
  unfold Run_calculate_inputs. change (ru_ws_vol_fn bd_run t) with (sin_volumes bd_drive t). rewrite bd_volumes.
  reflexivity.
Qed.
Lemma bd_on_trajectory t : on_trajectory gauss bd_run bd_traj t /\
  physical (Run_calculate_inputs bd_run t (bd_traj t)).
Proof.
  split; [|rewrite bd_inputs; apply norm_physical; [exact case_norm_nonzero|apply br_physical]].
  split; [exact (br_temps (t + PI / 2))|]. split; [apply sin_true_derivatives|].
  exists FlowDirection_default, (br_solution (t + PI / 2)). rewrite bd_inputs. split.
  - apply norm_solve; [exact gauss_sound|exact gauss_complete|apply br_physical|exact case_norm_nonzero|apply br_solves].
  - destruct (br_follows (t + PI / 2)) as (F1 & F2 & F3).
    split; [|split]; [exact (deriv_shift (fun u => cd_P (br_traj u)) t (PI / 2) _ F1)
      |exact (deriv_shift (fun u => cd_T_c (br_traj u)) t (PI / 2) _ F2)
      |exact (deriv_shift (fun u => cd_T_e (br_traj u)) t (PI / 2) _ F3)].
Qed.
Lemma bd_returns : cd_T_c (bd_traj (ru_period bd_run)) = cd_T_c (bd_traj 0) /\
  cd_T_e (bd_traj (ru_period bd_run)) = cd_T_e (bd_traj 0).
Proof.
  pose proof PI_RGT_0. cbn [bd_run ru_period].
  assert (E : br_f (1 / (1 / (2 * PI)) + PI / 2) = br_f (0 + PI / 2)).
  { unfold br_f, br_V. replace (1 / (1 / (2 * PI)) + PI / 2) with (0 + PI / 2 + 2 * PI) by (field; lra).
    rewrite sin_turn. reflexivity. }
  unfold bd_traj. cbn [br_traj cd_T_c cd_T_e]. rewrite E. split; reflexivity.
Qed.
Lemma bd_moves : cd_P (bd_traj 0) < cd_P (bd_traj (PI / 2)).
Proof.
  cbn [bd_traj br_traj cd_P]. replace (0 + PI / 2) with (PI / 2) by ring.
  replace (br_P (PI / 2 + PI / 2)) with (br_P 0); [exact br_moves|].
  replace (PI / 2 + PI / 2) with PI by field.
  assert (E : br_V PI = br_V 0) by (unfold br_V; rewrite sin_PI, sin_0; reflexivity).
  unfold br_P, br_f. rewrite E. reflexivity.
Qed.
