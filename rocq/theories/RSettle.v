(** * Every start of a helium engine that settles leads to one steady cycle *)
From Coq Require Import ZArith NArith List Reals Lra Lia Psatz.
From Verif Require Import Num ModelTypes ModelWs ModelHx ModelStateEq ModelEngine RNum Spec SpecR SpecGas
  SpecKin SpecTraj SpecLaws SpecUnique SpecExist SpecSpaces SpecBounds SpecSteady SpecContract Fixture PolySolve RSolve RGauss RFluid
  RKin RMass RCase RLaws RClose RUnique RPeriod RSpaces RBounds RSteady RContract RContractEngine.
Import ListNotations.
Local Open Scope R_scope.

Lemma spread_pos c c' : 0 <= spread c c'.
Proof. unfold spread. pose proof (Rabs_pos (/ cd_T_c c - / cd_T_c c')). pose proof (Rabs_pos (/ cd_T_e c - / cd_T_e c')). lra. Qed.
Lemma repeats_n vol tau n : repeats vol tau -> repeats vol (INR n * tau).
Proof.
  intros H. induction n as [|n IH]; intros t.
  - cbn [INR]. f_equal. ring.
  - rewrite S_INR. replace (t + (INR n + 1) * tau) with (t + INR n * tau + tau) by ring. rewrite H. apply IH.
Qed.
Lemma warm_shift D r T_low c tau : 0 <= tau -> repeats (ru_ws_vol_fn r) tau -> warm_trajectory D r T_low c ->
  warm_trajectory D r T_low (fun u => c (u + tau)).
Proof.
  intros H0 HR H t Ht. destruct (H (t + tau) ltac:(lra)) as (HP & HW). split; [|exact HW].
  destruct (H t Ht) as (((_ & HV & _) & _ & HC) & _). apply trajectory_shift; assumption.
Qed.

Section Settle.
  Variables (r : Run R) (T_low V_hi v_hi rho rv : R).
  Hypothesis HS : settles r T_low V_hi v_hi rho rv.
  Hypothesis HR : repeats (ru_ws_vol_fn r) (ru_period r).
  Let q := left_over r T_low V_hi v_hi rho rv.
  Let m := meanwhile r T_low V_hi v_hi.
  Let tau := ru_period r.
  Variable D : Decomp R.
  Hypothesis HD : sound D.
  Lemma tau_ge : 0 <= tau.
  Proof. apply HS. Qed.
  Lemma volumes_pos c : warm_trajectory D r T_low c -> forall t, 0 <= t -> 0 < V_comp r t /\ 0 < V_exp r t.
  Proof.
    intros H t Ht. destruct (H t Ht) as ((_ & (_ & (V1 & _) & (V2 & _) & _) & _) & _).
    unfold Run_calculate_inputs, comp_inputs, exp_inputs in V1, V2. unfold V_comp, V_exp. destruct (ru_ws_vol_fn r t). split; assumption.
  Qed.
  Lemma factors_pos c : warm_trajectory D r T_low c -> 0 <= q /\ 0 <= m.
  Proof.
    intros H. destruct HS as (Hf & L1 & L2 & Ht & H1 & H2 & H3 & HK & HM & (t1 & t2 & B1 & B2 & B3 & B4 & B5 & B6) & _ & HTP).
    destruct (volumes_pos c H t1 ltac:(lra)) as (V1 & _). destruct (HM 0 ltac:(lra)) as (M1 & _ & M3 & _).
    destruct (volumes_pos c H 0 ltac:(lra)) as (V0 & _). pose proof (Rabs_pos (v_deriv (fst (ru_ws_vol_fn r 0)))).
    pose proof nil_pos. pose proof cv_pos. pose proof cp_pos.
    assert (RH : 0 <= rho) by (apply (Rmult_le_reg_r (V_comp r t2)); [exact B3|lra]).
    assert (RV : 0 <= rv) by (apply (Rmult_le_reg_r (V_comp r t2)); [exact B3|lra]).
    assert (PR : 0 <= pressure_rate r T_low v_hi).
    { unfold pressure_rate. apply Rle_mult_inv_pos; [lra|]. apply Rmult_lt_0_compat; lra. }
    assert (CC : 0 < cv_he / cp_he) by (apply Rdiv_lt_0_compat; lra).
    assert (VF : 0 <= volume_flow r T_low V_hi v_hi).
    { unfold volume_flow. assert (0 <= cv_he / cp_he * V_hi * pressure_rate r T_low v_hi); [|lra].
      apply Rmult_le_pos; [apply Rmult_le_pos; lra|exact PR]. }
    assert (ST : 0 <= steepness T_low) by (unfold steepness; apply pow2_ge_0).
    assert (TP : 0 <= through_pressure r T_low V_hi v_hi).
    { unfold through_pressure. pose proof (exp_pos (pressure_rate r T_low v_hi * ru_period r)).
      assert (0 < / T_low) by (apply Rinv_0_lt_compat; lra).
      assert (0 < cv_he / cp_he / (T_low - T_nil)) by (apply Rdiv_lt_0_compat; lra).
      apply Rmult_le_pos; [|lra]. apply Rmult_le_pos; [|exact Ht]. apply Rmult_le_pos; [lra|].
      apply Rle_mult_inv_pos; [apply Rmult_le_pos; lra|lra]. }
    pose proof (exp_pos (pressure_rate r T_low v_hi * ru_period r)). split.
    - unfold q, left_over. apply Rmult_le_pos; [lra|]. assert (0 <= rv * (through_pressure r T_low V_hi v_hi / (1 - through_pressure r T_low V_hi v_hi))); [|lra].
      apply Rmult_le_pos; [exact RV|]. apply Rle_mult_inv_pos; lra.
    - unfold m, meanwhile. apply Rle_mult_inv_pos; lra.
  Qed.
  Lemma one_round D' c c' : sound D' -> warm_trajectory D r T_low c -> warm_trajectory D' r T_low c' ->
    spread (c tau) (c' tau) <= q * spread (c 0) (c' 0) /\ forall t, 0 <= t <= tau -> spread (c t) (c' t) <= m * spread (c 0) (c' 0).
  Proof.
    intros HD' H H'. apply (settled D D' r T_low V_hi v_hi rho rv c c' HS HD HD').
    - intros t Ht. apply H. lra.
    - intros t Ht. apply H'. lra.
    - intros t Ht. apply H. lra.
    - intros t Ht. apply H'. lra.
  Qed.
  Lemma approach D' c' : sound D' -> warm_trajectory D' r T_low c' -> c' tau = c' 0 ->
    forall c, warm_trajectory D r T_low c -> approaches tau q m c c'.
  Proof.
    intros HD' H' E. pose proof tau_ge as T0.
    assert (A : forall n c, warm_trajectory D r T_low c -> spread (c (INR n * tau)) (c' 0) <= q ^ n * spread (c 0) (c' 0)).
    { induction n as [|n IH]; intros c H.
      - cbn [INR pow]. rewrite !Rmult_0_l. lra.
      - destruct (factors_pos c H) as (Q0 & _). pose proof (IH _ (warm_shift D r T_low c tau T0 HR H)) as B. cbv beta in B.
        rewrite Rplus_0_l in B. rewrite S_INR. replace ((INR n + 1) * tau) with (INR n * tau + tau) by ring.
        apply Rle_trans with (1 := B). destruct (one_round D' c c' HD' H H') as (O & _). rewrite E in O.
        pose proof (pow_le q n Q0). cbn [pow]. apply Rle_trans with (q ^ n * (q * spread (c 0) (c' 0))); [apply Rmult_le_compat_l; assumption|].
        right. ring. }
    intros c H n. split; [apply A, H|]. intros t Ht. destruct (factors_pos c H) as (Q0 & M0).
    assert (N0 : 0 <= INR n * tau) by (apply Rmult_le_pos; [apply pos_INR|exact T0]).
    destruct (one_round D' _ c' HD' (warm_shift D r T_low c (INR n * tau) N0 (repeats_n _ _ n HR) H) H') as (_ & O).
    specialize (O t Ht). cbv beta in O. rewrite Rplus_0_l in O. apply Rle_trans with (1 := O).
    apply Rmult_le_compat_l; [exact M0|apply A, H].
  Qed.
End Settle.

(** ** One steady cycle up to its pressure *)
Lemma spread_zero c c' : 0 < cd_T_c c -> 0 < cd_T_c c' -> 0 < cd_T_e c -> 0 < cd_T_e c' -> spread c c' <= 0 ->
  cd_T_c c = cd_T_c c' /\ cd_T_e c = cd_T_e c'.
Proof.
  intros A A' B B' H. unfold spread in H.
  pose proof (Rabs_pos (/ cd_T_c c - / cd_T_c c')). pose proof (Rabs_pos (/ cd_T_e c - / cd_T_e c')).
  assert (I : forall x y, Rabs (/ x - / y) = 0 -> x = y).
  { intros x y Hx. rewrite <- (Rinv_inv x), <- (Rinv_inv y). f_equal. apply Rminus_diag_uniq.
    destruct (Req_dec (/ x - / y) 0) as [Z|Z]; [exact Z|]. apply Rabs_no_R0 in Z. contradiction. }
  split; apply I; lra.
Qed.
Lemma same_charged_run r k : heat_lost_comp r = 0 -> heat_lost_exp r = 0 -> charged_run k r = r.
Proof.
  destruct r as [n f per p te v1 v2 v3 [[h1 m1 e1] [h2 m2 e2]] vol]. unfold heat_lost_comp, heat_lost_exp, charged_run, charged_loss.
  cbn. intros -> ->. rewrite Rmult_0_r. reflexivity.
Qed.
Lemma charged_trajectory D r c k t : sound D -> complete D -> ru_fluid r = IdealGas_Fluid he ->
  heat_lost_comp r = 0 -> heat_lost_exp r = 0 -> 0 < k -> physical_trajectory D r c t ->
  physical_trajectory D r (fun u => charged k (c u)) t.
Proof.
  intros HS HC Hf L1 L2 Hk ((HT & HV & hint & s & H & F1 & F2 & F3) & HP & HR). pose proof (same_charged_run r k L1 L2) as E.
  split; [|split; [|exact HR]].
  - split; [exact HT|]. split; [exact HV|]. exists hint, (scaled k 1 k s). split.
    + rewrite <- E at 1. exact (run_charged he r Hf D k t (c t) hint hint s HS HC HP Hk H).
    + split; [|split].
      * change (has_deriv (fun u => k * cd_P (c u)) t (k * so_dP_dt s)). exact (derivable_pt_lim_scal (fun u => cd_P (c u)) k t _ F1).
      * change (has_deriv (fun u => cd_T_c (c u)) t (1 * so_dTc_dt s)). rewrite Rmult_1_l. exact F2.
      * change (has_deriv (fun u => cd_T_e (c u)) t (1 * so_dTe_dt s)). rewrite Rmult_1_l. exact F3.
  - rewrite <- E at 1. rewrite (run_charge he r Hf k t (c t)). apply charge_physical; [exact Hk|apply (run_no_du_dP he r Hf)|exact HP].
Qed.
Lemma pressure_pos D r c t : ru_fluid r = IdealGas_Fluid he -> physical_trajectory D r c t -> 0 < cd_P (c t).
Proof.
  intros Hf (((TC & _) & _) & (_ & (VC & RC & _) & _) & _).
  unfold Run_calculate_inputs, comp_inputs in VC, RC. destruct (ru_ws_vol_fn r t) as [vc ve].
  cbn [in_comp wi_vol wi_dens] in *. rewrite Hf in RC. cbn [IdealGas_Fluid fl_dens] in RC. unfold ig_dens in RC. rewrite he_R in RC. fold R_he in RC. cbn [n_mul n_div R_ops] in RC.
  pose proof R_pos. replace (cd_P (c t)) with (cd_P (c t) / (R_he * cd_T_c (c t)) * (R_he * cd_T_c (c t))) by (field; lra).
  apply Rmult_lt_0_compat; [exact RC|]. apply Rmult_lt_0_compat; lra.
Qed.
Lemma one_cycle D r T_low V_hi v_hi rho rv c c' : settles r T_low V_hi v_hi rho rv -> left_over r T_low V_hi v_hi rho rv < 1 ->
  sound D -> complete D -> steady_cycle D r c -> steady_cycle D r c' ->
  kept_warm T_low c 0 (ru_period r) -> kept_warm T_low c' 0 (ru_period r) ->
  forall t, 0 <= t -> c' t = charged (cd_P (c' 0) / cd_P (c 0)) (c t).
Proof.
  intros HS HQ HD HC (H & HR) (H' & HR') HW HW' t Ht. set (q := left_over r T_low V_hi v_hi rho rv) in *.
  destruct HS as (Hf & L1 & L2 & T0 & HS'). pose proof (conj Hf (conj L1 (conj L2 (conj T0 HS')))) as HS.
  destruct (settled D D r T_low V_hi v_hi rho rv c c' HS HD HD (fun u Hu => H u (proj1 Hu)) (fun u Hu => H' u (proj1 Hu)) HW HW') as (O & _).
  pose proof (HR 0 (Rle_refl 0)) as E. pose proof (HR' 0 (Rle_refl 0)) as E'. rewrite Rplus_0_l in E, E'. rewrite E, E' in O. fold q in O.
  pose proof (spread_pos (c 0) (c' 0)) as S0.
  assert (SZ : spread (c 0) (c' 0) <= 0) by nra.
  destruct (H 0 (Rle_refl 0)) as (((A1 & A2 & _) & _) & _). destruct (H' 0 (Rle_refl 0)) as (((B1 & B2 & _) & _) & _).
  destruct (spread_zero _ _ A1 B1 A2 B2 SZ) as (Z1 & Z2).
  pose proof (pressure_pos D r c 0 Hf (H 0 (Rle_refl 0))) as P1. pose proof (pressure_pos D r c' 0 Hf (H' 0 (Rle_refl 0))) as P2.
  set (k := cd_P (c' 0) / cd_P (c 0)). assert (Hk : 0 < k) by (apply Rdiv_lt_0_compat; assumption).
  apply (trajectories_agree Helium r D D c' (fun u => charged k (c u)) 0 t 0 Hf HD HD); [lra| | |lra].
  - intros u Hu. split; [apply H'; lra|]. apply charged_trajectory; try assumption. apply H. lra.
  - unfold charged. destruct (c' 0) as [p0 x0 y0]. cbn [cd_P cd_T_c cd_T_e] in *. unfold k. subst x0 y0. f_equal. field. lra.
Qed.

(** ** Engines *)
Section Attract.
  Variables (comps : Components R) (s : State R) (r : Run R) (D : Decomp R) (cl ch el eh T_low V_hi v_hi rho rv : R).
  Hypothesis Hfl : s_fluid s = IdealGas_Fluid he.
  Hypothesis Hd : driven (co_ws comps).
  Hypothesis Hr : Run_new comps s = Ret r.
  Hypothesis Hn : te_sink (s_temp s) + te_source (s_temp s) <> 500.
  Hypothesis HS : sound D.
  Hypothesis HC : complete D.
  Hypothesis VC : forall T, between (V_comp r) cl ch 0 T.
  Hypothesis VE : forall T, between (V_exp r) el eh 0 T.
  Hypothesis HX : sane_exchangers r.
  Hypothesis HB : settles r T_low V_hi v_hi rho rv.
  Hypothesis W1 : T_low <= expanded cl ch (te_chx (ru_temp r)).
  Hypothesis W2 : T_low <= expanded el eh (te_hhx (ru_temp r)).
  Lemma nil_warm T : T_nil < T -> warm T.
  Proof. intros H. unfold warm. unfold T_nil in H. pose proof cp_pos. apply (Rmult_lt_compat_l cp_he) in H; [|assumption].
    replace (cp_he * (R_he * T_ref / cp_he)) with (R_he * T_ref) in H by (field; lra). exact H. Qed.
  Lemma engine_settles P0 : 0 < P0 -> exists c', cd_P (c' 0) = P0 /\ steady_cycle D r c' /\ warm_trajectory D r T_low c' /\
    forall c, warm_trajectory D r T_low c -> approaches (ru_period r) (left_over r T_low V_hi v_hi rho rv) (meanwhile r T_low V_hi v_hi) c c'.
  Proof.
    intros HP. pose proof HB as (Hf & L1 & L2 & T0 & H1 & _).
    destruct (driven_run comps s r Hd Hr) as (_ & HR & _ & _).
    destruct (steady_ranges comps s r D P0 cl ch el eh Hfl Hd Hr Hn HS HC VC VE L1 L2 HX HP) as (c' & E & SC & RG).
    { apply nil_warm. lra. } { apply nil_warm. lra. }
    exists c'. split; [exact E|]. split; [exact SC|]. destruct SC as (SC1 & SC2).
    assert (HW : warm_trajectory D r T_low c').
    { assert (PR : 0 < ru_period r \/ ru_period r = 0) by lra.
      assert (Q : forall n t, 0 <= t -> t <= INR (S n) * ru_period r -> T_low <= cd_T_c (c' t) /\ T_low <= cd_T_e (c' t)).
      { induction n as [|n IH]; intros t Ht Hn'.
        - cbn [INR] in Hn'. rewrite Rmult_1_l in Hn'. destruct (RG t (conj Ht Hn')). lra.
        - destruct (Rle_lt_dec t (ru_period r)) as [L|L]; [destruct (RG t (conj Ht L)); lra|].
          replace t with (t - ru_period r + ru_period r) by ring. rewrite SC2 by lra. apply IH; [lra|].
          rewrite S_INR in Hn'. lra. }
      intros t Ht. split; [apply SC1, Ht|].
      assert (PP : 0 < ru_period r).
      { clear - Hd Hr. unfold Run_new in Hr.
        destruct (ex_volume (co_chx comps)); [|discriminate].
        destruct (ex_volume (co_regen comps)); [|discriminate].
        destruct (ex_volume (co_hhx comps)); [|discriminate]. cbn [obind] in Hr.
        destruct Hd as [(d & E & Hf)|(d & E & Hf & HT & HD)]; rewrite E in Hr;
          cbn [SinusoidalDrive_ws RhombicDrive_ws ws_frequency ws_volumes ws_parasitics obind] in Hr; injection Hr as <-; cbn [ru_period].
        - change (0 < 1 / sd_frequency d). apply Rdiv_lt_0_compat; lra.
        - change (0 < 1 / rd_frequency d). apply Rdiv_lt_0_compat; lra. }
      destruct (archimed_cor1 (ru_period r / (t + 1))) as (n & Hn' & N0); [apply Rdiv_lt_0_compat; lra|].
      apply (Q n t Ht). rewrite S_INR. apply lt_INR in N0. cbn [INR] in N0.
      apply (Rmult_lt_compat_r (INR n * (t + 1))) in Hn'; [|apply Rmult_lt_0_compat; lra].
      replace (/ INR n * (INR n * (t + 1))) with (t + 1) in Hn' by (field; lra).
      replace (ru_period r / (t + 1) * (INR n * (t + 1))) with (INR n * ru_period r) in Hn' by (field; lra). lra. }
    split; [exact HW|]. intros c Hc. apply (approach r T_low V_hi v_hi rho rv HB HR D HS D c' HS HW); [|exact Hc].
    pose proof (SC2 0 (Rle_refl 0)) as Z. rewrite Rplus_0_l in Z. exact Z.
  Qed.
  (** starts that stay warm *)
  Lemma start_stays c0 : helium_conditions r 0 c0 -> T_low <= T_c_lo r c0 cl ch -> T_low <= T_e_lo r c0 el eh ->
    exists c, c 0 = c0 /\ warm_trajectory D r T_low c.
  Proof.
    intros H0 B1 B2. pose proof HB as (Hf & L1 & L2 & T0 & H1 & _).
    pose proof (nil_warm _ (Rlt_le_trans _ _ _ H1 B1)) as X1. pose proof (nil_warm _ (Rlt_le_trans _ _ _ H1 B2)) as X2.
    destruct (forever comps s r D c0 cl ch el eh Hfl Hd Hr Hn HS HC VC VE L1 L2 H0 X1 X2) as (c & E & HP).
    exists c. split; [exact E|]. intros t Ht. split; [apply HP, Ht|].
    pose proof (stays comps s r D c0 cl ch el eh Hfl Hd Hr HS VC VE L1 L2 H0 X1 X2 c t Ht E (fun u Hu => HP u (proj1 Hu)) t (conj Ht (Rle_refl t))) as (_ & I1 & I2).
    unfold range_lo in I1, I2. cbn [cd_T_c cd_T_e] in I1, I2. lra.
  Qed.
End Attract.
