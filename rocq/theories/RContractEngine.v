(** * The temperatures of a helium engine settle *)
From Coq Require Import ZArith NArith List Reals Lra Lia Psatz.
From Verif Require Import Num ModelTypes ModelWs ModelHx ModelStateEq ModelEngine RNum Spec SpecR SpecGas
  SpecKin SpecTraj SpecLaws SpecUnique SpecExist SpecSpaces SpecBounds SpecSteady SpecContract Fixture PolySolve RSolve RGauss RFluid
  RKin RMass RCase RLaws RClose RUnique RPeriod RSpaces RBounds RSteady RContract.
Import ListNotations.
Local Open Scope R_scope.

Definition a_he : R := cv_he / cp_he.
Lemma cp_pos : 0 < cp_he. Proof. unfold cp_he. lra. Qed.
Lemma R_pos : 0 < R_he. Proof. unfold R_he. lra. Qed.
Lemma cv_le : cv_he <= cp_he. Proof. unfold cv_he. pose proof R_pos. lra. Qed.
Lemma a_range : 0 < a_he <= 1.
Proof.
  unfold a_he. pose proof cp_pos. pose proof cv_pos. pose proof cv_le. split; [apply Rdiv_lt_0_compat; lra|].
  apply (Rmult_le_reg_r cp_he); [lra|]. replace (cv_he / cp_he * cp_he) with cv_he by (field; lra). lra.
Qed.
Lemma nil_pos : 0 < T_nil.
Proof. unfold T_nil, R_he, T_ref, cp_he. lra. Qed.
(** ** One space *)
Lemma space_flow V T P dV dT dP n T_in : 0 < P -> 0 < V -> T_nil < T -> T_nil < T_in ->
  V * (P / (R_he * T)) * cv_he * dT + P * dV =
    Rmax (- n) 0 * R_he * (T_ref - T) + Rmax n 0 * cv_he * (filling T_in - T) ->
  n = dV * P / (R_he * T) + V * dP / (R_he * T) - V * P * dT / (R_he * (T * T)) ->
  let fl := flow a_he T_nil V dV (/ (T_in - T_nil)) (dP / P) (/ T) in
  n = P / R_he * fl /\ - dT / (T * T) = - / T * (dP / P + dV / V) + fl / V.
Proof.
  intros HP HV HT HTi E Hn fl. pose proof nil_pos. pose proof cp_pos. pose proof cv_pos. pose proof R_pos.
  assert (ED : dT = T * (dV / V + dP / P) - n * R_he * (T * T) / (V * P)) by (rewrite Hn; field; lra).
  set (w := a_he * V * (dP / P) + dV).
  assert (EW : forall mi mo, V * (P / (R_he * T)) * cv_he * dT + P * dV = mo * R_he * (T_ref - T) + mi * cv_he * (filling T_in - T) ->
    n = mi - mo -> P / R_he * w = mi * (T_in - T_nil) - mo * (T - T_nil)).
  { clear E. intros mi mo E En. apply (Rmult_eq_reg_r cp_he); [|lra]. apply Rminus_diag_uniq.
    transitivity ((V * (P / (R_he * T)) * cv_he * dT + P * dV) - (mo * R_he * (T_ref - T) + mi * cv_he * (filling T_in - T))); [|lra].
    clear E. rewrite ED, En. unfold w, a_he, filling, T_nil. unfold cv_he in *. field. repeat split; lra. }
  assert (HN : n = P / R_he * fl).
  { unfold fl, flow. cbv zeta. fold w. unfold out.
    replace (/ T / (1 - T_nil * / T)) with (/ (T - T_nil)) by (field; lra).
    assert (PR : 0 < P / R_he) by (apply Rdiv_lt_0_compat; lra).
    destruct (Rle_lt_dec 0 n) as [L|L].
    - rewrite (Rmax_right (- n) 0), (Rmax_left n 0) in E by lra. specialize (EW n 0 E ltac:(ring)).
      assert (W : 0 <= w).
      { apply (Rmult_le_reg_l (P / R_he)); [exact PR|]. rewrite EW. assert (0 <= n * (T_in - T_nil)) by (apply Rmult_le_pos; lra). lra. }
      rewrite Rmax_left, Rmin_right by exact W.
      replace (P / R_he * (w * / (T_in - T_nil) + 0 * / (T - T_nil))) with (P / R_he * w * / (T_in - T_nil)) by ring.
      rewrite EW. field. lra.
    - rewrite (Rmax_left (- n) 0), (Rmax_right n 0) in E by lra. specialize (EW 0 (- n) E ltac:(ring)).
      assert (W : w <= 0).
      { apply (Rmult_le_reg_l (P / R_he)); [exact PR|]. rewrite EW. assert (0 <= - n * (T - T_nil)) by (apply Rmult_le_pos; lra). lra. }
      rewrite Rmax_right, Rmin_left by exact W.
      replace (P / R_he * (0 * / (T_in - T_nil) + w * / (T - T_nil))) with (P / R_he * w * / (T - T_nil)) by ring.
      rewrite EW. field. lra. }
  split; [exact HN|]. rewrite ED, HN at 1. field. repeat split; lra.
Qed.

(** ** The engine *)
Lemma inv_deriv (T : R -> R) t dT : 0 < T t -> derivable_pt_lim T t dT -> derivable_pt_lim (fun u => / T u) t (- dT / (T t * T t)).
Proof.
  intros HT H. apply (deriv_ext (fun u => 1 / T u)); [intros u; unfold Rdiv; ring|].
  eapply deriv_eq; [apply (derivable_pt_lim_div (fun _ => 1) T t 0 dT); [apply deriv_const|exact H|lra]|].
  unfold Rsqr. cbv beta. field. lra.
Qed.
Section Engine.
  Variable r : Run R.
  Hypothesis Hf : ru_fluid r = IdealGas_Fluid he.
  Hypothesis HLc : heat_lost_comp r = 0.
  Hypothesis HLe : heat_lost_exp r = 0.
  Hypothesis HTk : T_nil < te_chx (ru_temp r).
  Hypothesis HTl : T_nil < te_hhx (ru_temp r).
  Let dVc t := v_deriv (fst (ru_ws_vol_fn r t)).
  Let dVe t := v_deriv (snd (ru_ws_vol_fn r t)).
  Let fc := / (te_chx (ru_temp r) - T_nil).
  Let fe := / (te_hhx (ru_temp r) - T_nil).
  Lemma mass_of (V P T : R -> R) t dV dP dT : derivable_pt_lim V t dV -> derivable_pt_lim P t dP -> derivable_pt_lim T t dT -> 0 < T t ->
    derivable_pt_lim (fun u => stored_mass r (V u) (T u) (P u)) t
      (dV * P t / (R_he * T t) + V t * dP / (R_he * T t) - V t * P t * dT / (R_he * (T t * T t))).
  Proof.
    intros H1 H2 H3 HT. pose proof R_pos.
    assert (E : forall u, V u * (P u * (/ R_he * / T u)) = stored_mass r (V u) (T u) (P u)).
    { intros u. unfold stored_mass. rewrite Hf. cbn [IdealGas_Fluid fl_dens]. unfold ig_dens. rewrite he_R. fold R_he. cbn [n_mul n_div R_ops].
      unfold Rdiv. rewrite Rinv_mult. reflexivity. }
    apply (deriv_ext _ _ _ _ E).
    eapply deriv_eq; [apply (deriv_mult V (fun u => P u * (/ R_he * / T u)) t dV); [exact H1|]|].
    - apply (deriv_mult P (fun u => / R_he * / T u) t dP); [exact H2|].
      apply (derivable_pt_lim_scal (fun u => / T u)). apply inv_deriv; eassumption.
    - cbv beta. field. lra.
  Qed.
  Lemma equations D c t : sound D -> physical_trajectory D r c t -> T_nil < cd_T_c (c t) -> T_nil < cd_T_e (c t) ->
    exists y, 0 < cd_P (c t) /\ derivable_pt_lim (fun u => cd_P (c u)) t (y * cd_P (c t)) /\ 0 < V_comp r t /\ 0 < V_exp r t /\
      derivable_pt_lim (V_comp r) t (dVc t) /\ derivable_pt_lim (V_exp r) t (dVe t) /\
      derivable_pt_lim (fun u => / cd_T_c (c u)) t (- / cd_T_c (c t) * (y + dVc t / V_comp r t)
        + flow a_he T_nil (V_comp r t) (dVc t) fc y (/ cd_T_c (c t)) / V_comp r t) /\
      derivable_pt_lim (fun u => / cd_T_e (c u)) t (- / cd_T_e (c t) * (y + dVe t / V_exp r t)
        + flow a_he T_nil (V_exp r t) (dVe t) fe y (/ cd_T_e (c t)) / V_exp r t) /\
      flow a_he T_nil (V_comp r t) (dVc t) fc y (/ cd_T_c (c t)) + flow a_he T_nil (V_exp r t) (dVe t) fe y (/ cd_T_e (c t))
        + fixed_ratio r * y = 0.
  Proof.
    intros HD ((HT & HV & hint & s & Hs & HF) & HP & _) HTc HTe.
    assert (Hn : ru_enth_norm r <> 0).
    { destruct HP as (Hn & _). unfold Run_calculate_inputs in Hn. destruct (ru_ws_vol_fn r t). exact Hn. }
    destruct (temperatures r Hf D HD c t hint s Hn Hs HF HT HV) as (E1 & E2). cbv zeta in E1, E2.
    destruct (masses he he_pos r Hf D c t hint s HD Hs HF HT HV) as (M1 & M2 & M3 & M4 & M5).
    assert (VP : 0 < V_comp r t /\ 0 < V_exp r t /\ 0 < cd_P (c t)).
    { destruct HP as (_ & (VC & RC & _) & (VE & RE & _) & _). unfold V_comp, V_exp.
      unfold Run_calculate_inputs, comp_inputs, exp_inputs in VC, RC, VE, RE. destruct (ru_ws_vol_fn r t) as [vc ve]. cbn [fst snd].
      cbn [in_comp in_exp wi_vol wi_dens] in *. split; [exact VC|]. split; [exact VE|].
      rewrite Hf in RC. cbn [IdealGas_Fluid fl_dens] in RC. unfold ig_dens in RC. rewrite he_R in RC. fold R_he in RC. cbn [n_mul n_div R_ops] in RC.
      destruct HT as (TC & _). pose proof R_pos. replace (cd_P (c t)) with (cd_P (c t) / (R_he * cd_T_c (c t)) * (R_he * cd_T_c (c t))) by (field; lra).
      apply Rmult_lt_0_compat; [exact RC|]. apply Rmult_lt_0_compat; lra. }
    destruct VP as (VC & VE & HPp). destruct HV as (D1 & D2). destruct HF as (F1 & F2 & F3). destruct HT as (TC & TE & TK & TL & TR).
    unfold has_deriv in *. fold (V_comp r t) in *. fold (V_exp r t) in *.
    pose proof (mass_of (V_comp r) (fun u => cd_P (c u)) (fun u => cd_T_c (c u)) t _ _ _ D1 F1 F2 TC) as N1.
    pose proof (mass_of (V_exp r) (fun u => cd_P (c u)) (fun u => cd_T_e (c u)) t _ _ _ D2 F1 F3 TE) as N5. cbv beta in N1, N5.
    pose proof (uniqueness_limite _ _ _ _ M1 N1) as U1. pose proof (uniqueness_limite _ _ _ _ M5 N5) as U5.
    assert (FX : forall V T dm, 0 < T -> derivable_pt_lim (fun u => stored_mass r V T (cd_P (c u))) t dm -> dm = V / T * so_dP_dt s / R_he).
    { intros V T dm HT HM.
      pose proof (mass_of (fun _ => V) (fun u => cd_P (c u)) (fun _ => T) t 0 _ 0 (deriv_const V t) F1 (deriv_const T t) HT) as N.
      cbv beta in N. rewrite (uniqueness_limite _ _ _ _ HM N). pose proof R_pos. field. lra. }
    pose proof (FX _ _ _ TK M2) as X2. pose proof (FX _ _ _ TR M3) as X3. pose proof (FX _ _ _ TL M4) as X4.
    assert (ST : forall V T, stored_mass r V T (cd_P (c t)) = V * (cd_P (c t) / (R_he * T))).
    { intros V T. unfold stored_mass. rewrite Hf. cbn [IdealGas_Fluid fl_dens]. unfold ig_dens. rewrite he_R. reflexivity. }
    rewrite ST, HLc, Rminus_0_r in E1. rewrite ST, HLe, Rminus_0_r in E2.
    assert (E1' : V_comp r t * (cd_P (c t) / (R_he * cd_T_c (c t))) * cv_he * so_dTc_dt s + cd_P (c t) * dVc t =
      Rmax (- - so_m_dot_ck s) 0 * R_he * (T_ref - cd_T_c (c t)) + Rmax (- so_m_dot_ck s) 0 * cv_he * (filling (te_chx (ru_temp r)) - cd_T_c (c t))).
    { rewrite Ropp_involutive. exact E1. }
    destruct (space_flow (V_comp r t) (cd_T_c (c t)) (cd_P (c t)) (dVc t) (so_dTc_dt s) (so_dP_dt s) (- so_m_dot_ck s) (te_chx (ru_temp r))
      HPp VC HTc HTk E1' U1) as (A1 & B1).
    destruct (space_flow (V_exp r t) (cd_T_e (c t)) (cd_P (c t)) (dVe t) (so_dTe_dt s) (so_dP_dt s) (so_m_dot_le s) (te_hhx (ru_temp r))
      HPp VE HTe HTl E2 U5) as (A2 & B2).
    exists (so_dP_dt s / cd_P (c t)). split; [exact HPp|].
    split; [eapply deriv_eq; [exact F1|field; lra]|]. split; [exact VC|]. split; [exact VE|]. split; [exact D1|]. split; [exact D2|].
    split; [|split].
    - fold fc in B1. rewrite <- B1. apply (inv_deriv (fun u => cd_T_c (c u))); assumption.
    - fold fe in B2. rewrite <- B2. apply (inv_deriv (fun u => cd_T_e (c u))); assumption.
    - fold fc in A1. fold fe in A2. set (f1 := flow _ _ _ _ _ _ _) in A1 |- *. set (f2 := flow _ _ _ _ _ _ _) in A2 |- *.
      pose proof R_pos. assert (PR : 0 < cd_P (c t) / R_he) by (apply Rdiv_lt_0_compat; lra).
      apply (Rmult_eq_reg_l (cd_P (c t) / R_he)); [|lra]. rewrite Rmult_0_r.
      replace (cd_P (c t) / R_he * (f1 + f2 + fixed_ratio r * (so_dP_dt s / cd_P (c t))))
        with (cd_P (c t) / R_he * f1 + cd_P (c t) / R_he * f2 + (ru_vol_chx r / te_chx (ru_temp r) * so_dP_dt s / R_he
          + ru_vol_regen r / rt_avg (te_regen (ru_temp r)) * so_dP_dt s / R_he + ru_vol_hhx r / te_hhx (ru_temp r) * so_dP_dt s / R_he))
        by (unfold fixed_ratio; field; repeat split; lra).
      rewrite <- A1, <- A2, <- X2, <- X3, <- X4. ring.
  Qed.
  (** what the trajectory does, with one name for the change of pressure *)
  Definition obeys (c : R -> Conditions R) (t y : R) : Prop :=
    derivable_pt_lim (fun u => / cd_T_c (c u)) t (- / cd_T_c (c t) * (y + dVc t / V_comp r t)
      + flow a_he T_nil (V_comp r t) (dVc t) fc y (/ cd_T_c (c t)) / V_comp r t) /\
    derivable_pt_lim (fun u => / cd_T_e (c u)) t (- / cd_T_e (c t) * (y + dVe t / V_exp r t)
      + flow a_he T_nil (V_exp r t) (dVe t) fe y (/ cd_T_e (c t)) / V_exp r t) /\
    flow a_he T_nil (V_comp r t) (dVc t) fc y (/ cd_T_c (c t)) + flow a_he T_nil (V_exp r t) (dVe t) fe y (/ cd_T_e (c t))
      + fixed_ratio r * y = 0.
  Lemma rate_named D c tau : sound D ->
    (forall t, 0 <= t <= tau -> physical_trajectory D r c t /\ T_nil < cd_T_c (c t) /\ T_nil < cd_T_e (c t)) ->
    {y : R -> R | forall t, 0 <= t <= tau -> obeys c t (y t)}.
  Proof.
    intros HD H.
    assert (Q : forall t, {y | 0 <= t <= tau -> obeys c t y}).
    { intros t. destruct (Rle_dec 0 t) as [A|A]; [|exists 0; lra]. destruct (Rle_dec t tau) as [B|B]; [|exists 0; lra].
      destruct (H t (conj A B)) as (HP & H1 & H2).
      destruct (named_real (fun y => derivable_pt_lim (fun u => cd_P (c u)) t (y * cd_P (c t)) /\ obeys c t y)) as (y & _ & Hy).
      - destruct (equations D c t HD HP H1 H2) as (y & P0 & Dy & _ & _ & _ & _ & E1 & E2 & E3). exists y. split; [split; [exact Dy|split; [exact E1|split; [exact E2|exact E3]]]|].
        intros y' (Dy' & _). pose proof (uniqueness_limite _ _ _ _ Dy' Dy) as U. apply (Rmult_eq_reg_r (cd_P (c t))); [exact U|lra].
      - exists y. intros _. exact Hy. }
    exists (fun t => proj1_sig (Q t)). intros t Ht. exact (proj2_sig (Q t) Ht).
  Qed.
  Variables (T_low V_hi v_hi : R).
  Let tau := ru_period r.
  Hypothesis Htau : 0 <= tau.
  Hypothesis Hlow : T_nil < T_low.
  Hypothesis HTk' : T_low <= te_chx (ru_temp r).
  Hypothesis HTl' : T_low <= te_hhx (ru_temp r).
  Hypothesis HK : 0 < fixed_ratio r.
  Hypothesis HM : moderate r V_hi v_hi.
  Hypothesis HTP : through_pressure r T_low V_hi v_hi < 1.
  Let zh := / T_low.
  Let zm := / (T_low - T_nil).
  Lemma rate_eq : top_rate (fixed_ratio r) zm v_hi = pressure_rate r T_low v_hi.
  Proof. unfold top_rate, pressure_rate, zm. field. lra. Qed.
  Lemma flow_eq : top_flow a_he (fixed_ratio r) zm V_hi v_hi = volume_flow r T_low V_hi v_hi.
  Proof. unfold top_flow, volume_flow. rewrite rate_eq. reflexivity. Qed.
  Lemma slope_eq : top_slope T_nil zh = steepness T_low.
  Proof. pose proof nil_pos. unfold top_slope, steepness, zh. field. lra. Qed.
  Lemma coupling_eq : coupling a_he T_nil (fixed_ratio r) tau zh zm V_hi v_hi = through_pressure r T_low V_hi v_hi.
  Proof.
    unfold coupling, through_pressure. rewrite rate_eq, flow_eq, slope_eq. unfold zh, zm. fold tau. fold a_he. unfold Rdiv. ring.
  Qed.
  Lemma factor_eq rho rv : approach_factor a_he T_nil (fixed_ratio r) tau zh zm V_hi v_hi rho rv = left_over r T_low V_hi v_hi rho rv.
  Proof. unfold approach_factor, left_over. rewrite rate_eq, coupling_eq. reflexivity. Qed.
  Section Two.
    Variables (D D' : Decomp R) (c c' : R -> Conditions R).
    Hypothesis HD : sound D.
    Hypothesis HD' : sound D'.
    Hypothesis HP : forall t, 0 <= t <= tau -> physical_trajectory D r c t.
    Hypothesis HP' : forall t, 0 <= t <= tau -> physical_trajectory D' r c' t.
    Hypothesis HW : kept_warm T_low c 0 tau.
    Hypothesis HW' : kept_warm T_low c' 0 tau.
    Lemma prepared : exists y y' : R -> R,
      (forall t, 0 <= t <= tau -> obeys c t (y t) /\ obeys c' t (y' t)) /\
      (forall t, 0 <= t <= tau -> 0 < V_comp r t /\ derivable_pt_lim (V_comp r) t (dVc t)) /\
      (forall t, 0 <= t <= tau -> 0 < V_exp r t /\ derivable_pt_lim (V_exp r) t (dVe t)) /\
      (forall t, 0 <= t <= tau -> 0 < / cd_T_c (c t) <= zh /\ 0 < / cd_T_c (c' t) <= zh) /\
      (forall t, 0 <= t <= tau -> 0 < / cd_T_e (c t) <= zh /\ 0 < / cd_T_e (c' t) <= zh).
    Proof.
      pose proof nil_pos.
      destruct (rate_named D c tau HD) as (y & Hy).
      { intros t Ht. destruct (HW t Ht). split; [apply HP, Ht|lra]. }
      destruct (rate_named D' c' tau HD') as (y' & Hy').
      { intros t Ht. destruct (HW' t Ht). split; [apply HP', Ht|lra]. }
      exists y, y'. split; [intros t Ht; split; [apply Hy, Ht|apply Hy', Ht]|].
      assert (I : forall T, T_low <= T -> 0 < / T <= zh).
      { intros T HT. split; [apply Rinv_0_lt_compat; lra|apply Rinv_le_contravar; lra]. }
      split; [|split; [|split]].
      - intros t Ht. destruct (HW t Ht). destruct (equations D c t HD (HP t Ht)) as (y0 & _ & _ & V1 & V2 & D1 & D2 & _); try lra. split; assumption.
      - intros t Ht. destruct (HW t Ht). destruct (equations D c t HD (HP t Ht)) as (y0 & _ & _ & V1 & V2 & D1 & D2 & _); try lra. split; assumption.
      - intros t Ht. destruct (HW t Ht). destruct (HW' t Ht). split; apply I; assumption.
      - intros t Ht. destruct (HW t Ht). destruct (HW' t Ht). split; apply I; assumption.
    Qed.
    Lemma carries T : T_low <= T -> 0 < / (T - T_nil) <= zm.
    Proof. intros H. split; [apply Rinv_0_lt_compat; lra|apply Rinv_le_contravar; lra]. Qed.
    Lemma zh_low : T_nil * zh < 1.
    Proof. pose proof nil_pos. unfold zh. apply (Rmult_lt_reg_r T_low); [lra|]. replace (T_nil * / T_low * T_low) with T_nil by (field; lra). lra. Qed.
    Lemma out_low : out T_nil zh <= zm.
    Proof. pose proof nil_pos. right. unfold out, zh, zm. field. lra. Qed.
    Lemma settled_by t1 t2 s1 s2 rho rv :
      (0 <= t1 <= t2 /\ t2 <= tau /\ 0 < V_comp r t2 /\ V_comp r t1 <= V_comp r t2 /\ V_comp r t1 <= rho * V_comp r t2 /\ V_hi <= rv * V_comp r t2) ->
      (0 <= s1 <= s2 /\ s2 <= tau /\ 0 < V_exp r s2 /\ V_exp r s1 <= V_exp r s2 /\ V_exp r s1 <= rho * V_exp r s2 /\ V_hi <= rv * V_exp r s2) ->
      spread (c tau) (c' tau) <= left_over r T_low V_hi v_hi rho rv * spread (c 0) (c' 0).
    Proof.
      intros (A1 & A2 & A3 & A4 & A5 & A6) (B1 & B2 & B3 & B4 & B5 & B6).
      destruct prepared as (y & y' & HO & HV1 & HV2 & HZ1 & HZ2). rewrite <- factor_eq.
      assert (Q : forall v w rr, 0 < w -> v <= rr * w -> v / w <= rr).
      { intros v w rr Hw Hv. apply (Rmult_le_reg_r w); [exact Hw|]. replace (v / w * w) with v by (field; lra). exact Hv. }
      refine (contracts a_he T_nil a_range (Rlt_le _ _ nil_pos) (V_comp r) dVc (V_exp r) dVe fc fe (fixed_ratio r) y y'
        (fun t => / cd_T_c (c t)) (fun t => / cd_T_c (c' t)) (fun t => / cd_T_e (c t)) (fun t => / cd_T_e (c' t)) tau zh zm V_hi v_hi
        Htau HK HV1 HV2 _ _ _ _ HZ1 HZ2 zh_low (carries _ HTk') (carries _ HTl') out_low t1 t2 s1 s2 rho rv _ _ _ _ _).
      - intros t Ht. apply HM. lra.
      - intros t Ht. destruct (HO t Ht) as ((O1 & _) & O2 & _). split; assumption.
      - intros t Ht. destruct (HO t Ht) as ((_ & O1 & _) & _ & O2 & _). split; assumption.
      - intros t Ht. destruct (HO t Ht) as ((_ & _ & O1) & _ & _ & O2). split; assumption.
      - lra.
      - lra.
      - split; apply Q; assumption.
      - split; apply Q; assumption.
      - rewrite coupling_eq. exact HTP.
    Qed.
    Lemma between_by t : 0 <= t <= tau -> spread (c t) (c' t) <= meanwhile r T_low V_hi v_hi * spread (c 0) (c' 0).
    Proof.
      intros Ht. destruct prepared as (y & y' & HO & HV1 & HV2 & HZ1 & HZ2). unfold meanwhile. rewrite <- coupling_eq, <- rate_eq.
      refine (stay_close a_he T_nil a_range (Rlt_le _ _ nil_pos) (V_comp r) dVc (V_exp r) dVe fc fe (fixed_ratio r) y y'
        (fun t => / cd_T_c (c t)) (fun t => / cd_T_c (c' t)) (fun t => / cd_T_e (c t)) (fun t => / cd_T_e (c' t)) tau zh zm V_hi v_hi
        Htau HK HV1 HV2 _ _ _ _ HZ1 HZ2 zh_low (carries _ HTk') (carries _ HTl') out_low _ t Ht).
      - intros u Hu. apply HM. lra.
      - intros u Hu. destruct (HO u Hu) as ((O1 & _) & O2 & _). split; assumption.
      - intros u Hu. destruct (HO u Hu) as ((_ & O1 & _) & _ & O2 & _). split; assumption.
      - intros u Hu. destruct (HO u Hu) as ((_ & _ & O1) & _ & _ & O2). split; assumption.
      - rewrite coupling_eq. exact HTP.
    Qed.
  End Two.
End Engine.

Lemma settled D D' r T_low V_hi v_hi rho rv c c' : settles r T_low V_hi v_hi rho rv -> sound D -> sound D' ->
  (forall t, 0 <= t <= ru_period r -> physical_trajectory D r c t) ->
  (forall t, 0 <= t <= ru_period r -> physical_trajectory D' r c' t) ->
  kept_warm T_low c 0 (ru_period r) -> kept_warm T_low c' 0 (ru_period r) ->
  spread (c (ru_period r)) (c' (ru_period r)) <= left_over r T_low V_hi v_hi rho rv * spread (c 0) (c' 0) /\
  forall t, 0 <= t <= ru_period r -> spread (c t) (c' t) <= meanwhile r T_low V_hi v_hi * spread (c 0) (c' 0).
Proof.
  intros (Hf & L1 & L2 & Ht & H1 & H2 & H3 & HK & HM & (t1 & t2 & B1) & (s1 & s2 & B2) & HTP) HD HD' HP HP' HW HW'. split.
  - apply (settled_by r Hf L1 L2 ltac:(lra) ltac:(lra) T_low V_hi v_hi Ht H1 H2 H3 HK HM HTP D D' c c' HD HD' HP HP' HW HW' t1 t2 s1 s2); assumption.
  - intros t. apply (between_by r Hf L1 L2 ltac:(lra) ltac:(lra) T_low V_hi v_hi Ht H1 H2 H3 HK HM HTP D D' c c'); assumption.
Qed.
