(** * Runs of one engine at different temperatures of its exchangers *)
From Coq Require Import ZArith NArith List Reals Lra Lia Psatz.
From Verif Require Import Num ModelTypes ModelWs ModelHx ModelStateEq ModelEngine RNum Spec SpecLoop SpecR SpecGas
  SpecKin SpecTraj SpecLaws SpecUnique SpecExist SpecDepend SpecSeries SpecQuad SpecReport SpecSpaces SpecBounds SpecSteady SpecContract
  SpecSample SpecGlobal SpecSearch SpecConverge SpecAccurate SpecSolver SpecApi SpecMeans SpecPush SpecEffective Fixture PolySolve RSolve RGauss RFluid RKin RMass RCase RLaws RPeriod RSeries
  RPicard RLocal RExist RStart RCase4 RDepend RSpaces RBounds RSteady RQuad RSample RSampleReport RMotion RGlobal RContract RContractEngine RSettle RSearch RConverge RAccurate RMeans
  RReturned RApproach RConsistent RPush RFlowBound RFollow REffective RFamily RSolverRun RTame RUniform RVary.
Import ListNotations.
Local Open Scope R_scope.

(** ** Heats at one instant *)
Definition upwind (m h1 h2 : R) : R := Rmax m 0 * h1 + Rmin m 0 * h2.
Lemma donor_up m a b h : donor_R m a b h -> h * m = upwind m a b.
Proof.
  intros (H1 & H2). unfold upwind, Rmax, Rmin. destruct (Rle_dec m 0) as [L|L].
  - destruct L as [L|L]; [rewrite (H2 L); ring|rewrite L; ring].
  - rewrite (H1 ltac:(lra)). ring.
Qed.
Lemma point_heats (r : Run R) D t x hint s : ru_fluid r = IdealGas_Fluid he -> sound D ->
  physical (Run_calculate_inputs r t x) -> solve D (Run_calculate_inputs r t x) hint = Ok s ->
  let T := ru_temp r in let h T := cp_he * (T - T_ref) in
  so_Q_dot_k s = upwind (so_m_dot_ck s) (h (cd_T_c x)) (h (te_chx T)) - upwind (so_m_dot_kr s) (h (te_chx T)) (h (rt_cold (te_regen T)))
    - cv_he * (te_chx T - T_ref) * (so_m_dot_ck s - so_m_dot_kr s) /\
  so_Q_dot_l s = upwind (so_m_dot_le s) (h (te_hhx T)) (h (cd_T_e x)) - upwind (so_m_dot_rl s) (h (rt_hot (te_regen T))) (h (te_hhx T))
    + cv_he * (te_hhx T - T_ref) * (so_m_dot_rl s - so_m_dot_le s).
Proof.
  intros Hf HD HP Hs. cbv zeta.
  pose proof HP as (Hn & _). destruct (energy_conserved D _ hint s HD Hn Hs) as ((BM & h1 & h2 & h3 & h4 & H1 & H2 & H3 & H4 & BE) & _).
  destruct BM as (_ & BM2 & _ & BM4 & _). destruct BE as (_ & BE2 & _ & BE4 & _).
  assert (IN : wi_enth (in_comp (Run_calculate_inputs r t x)) = cp_he * (cd_T_c x - T_ref) /\
    wi_enth (in_exp (Run_calculate_inputs r t x)) = cp_he * (cd_T_e x - T_ref) /\
    hi_enth (in_chx (Run_calculate_inputs r t x)) = cp_he * (te_chx (ru_temp r) - T_ref) /\
    hi_enth (in_hhx (Run_calculate_inputs r t x)) = cp_he * (te_hhx (ru_temp r) - T_ref) /\
    gi_enth_cold (in_regen (Run_calculate_inputs r t x)) = cp_he * (rt_cold (te_regen (ru_temp r)) - T_ref) /\
    gi_enth_hot (in_regen (Run_calculate_inputs r t x)) = cp_he * (rt_hot (te_regen (ru_temp r)) - T_ref) /\
    hi_inte (in_chx (Run_calculate_inputs r t x)) = cv_he * (te_chx (ru_temp r) - T_ref) /\
    hi_inte (in_hhx (Run_calculate_inputs r t x)) = cv_he * (te_hhx (ru_temp r) - T_ref) /\
    hi_du_dP_T (in_chx (Run_calculate_inputs r t x)) = 0 /\ hi_du_dP_T (in_hhx (Run_calculate_inputs r t x)) = 0).
  { unfold Run_calculate_inputs. destruct (ru_ws_vol_fn r t) as [v1 v2]. cbn [in_comp in_exp in_chx in_hhx in_regen].
    unfold comp_inputs, exp_inputs, chx_inputs, hhx_inputs, regen_inputs.
    cbn [wi_enth hi_enth gi_enth_cold gi_enth_hot hi_inte hi_du_dP_T]. rewrite Hf. cbn [IdealGas_Fluid fl_enth fl_inte fl_du_dP_T].
    rewrite !he_h, !he_cv. unfold ig_du_dP_T. rewrite R_n0. repeat split; reflexivity. }
  destruct IN as (J1 & J2 & J3 & J4 & J5 & J6 & J7 & J8 & J9 & J10).
  rewrite J1, J3 in H1. rewrite J3, J5 in H2. rewrite J6, J4 in H3. rewrite J4, J2 in H4.
  apply donor_up in H1, H2, H3, H4.
  unfold energy_rate_hx in BE2, BE4. rewrite BM2, J7, J9 in BE2. rewrite BM4, J8, J10 in BE4. lra.
Qed.

Section Varied.
  Variables (comps0 : Components R) (b : State R) (rb : Run R) (D : Decomp R) (cl ch el eh cl' ch' el' eh' T_low T_top V_hi v_hi rho rv q mg : R).
  Hypothesis Hd : driven (co_ws comps0).
  Hypothesis HD : sound D.
  Hypothesis O1 : 0 < cl' < cl.
  Hypothesis O3 : 0 < el' < el.
  Hypothesis Hrb : Run_new comps0 b = Ret rb.
  Let settled_run (r : Run R) := settles_between r cl ch el eh cl' ch' el' eh' T_low T_top V_hi v_hi rho rv q mg.
  Hypothesis Hsb : settled_run rb.
  Let Vf := ru_vol_chx rb + ru_vol_regen rb + ru_vol_hhx rb.
  Let inside T := T_low <= T <= T_top.
  Lemma base_consts : T_nil < T_low /\ T_low <= T_top /\ 0 < Vf /\ 0 <= v_hi.
  Proof.
    pose proof Hsb as (HX & _ & _ & HS & _ & _ & _ & _ & _ & I1 & _). pose proof HS as (_ & _ & _ & _ & L3 & _ & _ & L6 & L7 & _).
    destruct HX as (_ & _ & _ & X1 & X2 & X3). split; [exact L3|]. split; [lra|]. split.
    - destruct (Rlt_le_dec 0 Vf) as [L|L]; [exact L|]. exfalso. unfold Vf in L. unfold fixed_ratio in L6.
      assert (Z1 : ru_vol_chx rb = 0) by lra. assert (Z2 : ru_vol_regen rb = 0) by lra. assert (Z3 : ru_vol_hhx rb = 0) by lra.
      rewrite Z1, Z2, Z3 in L6. unfold Rdiv in L6. lra.
    - destruct (L7 0 ltac:(lra)) as (_ & _ & B & _). apply Rle_trans with (2 := B), Rabs_pos.
  Qed.
  Theorem vary_runs P_top : exists B L, 0 <= B /\ 0 <= L /\ forall s1 r1 s2 r2 t c1 c2 h1 h2 o1 o2,
    Run_new comps0 s1 = Ret r1 -> Run_new comps0 s2 = Ret r2 -> settled_run r1 -> settled_run r2 -> 0 <= t ->
    physical (Run_calculate_inputs r1 t c1) -> physical (Run_calculate_inputs r2 t c2) ->
    solve D (Run_calculate_inputs r1 t c1) h1 = Ok o1 -> solve D (Run_calculate_inputs r2 t c2) h2 = Ok o2 ->
    inside (cd_T_c c1) -> inside (cd_T_e c1) -> inside (cd_T_c c2) -> inside (cd_T_e c2) -> cd_P c1 <= P_top -> cd_P c2 <= P_top ->
    let d := gap c1 c2 + tdist (ru_temp r1) (ru_temp r2) in
    (tame B L d (so_dP_dt o1) (so_dP_dt o2) /\ tame B L d (so_dTc_dt o1) (so_dTc_dt o2) /\ tame B L d (so_dTe_dt o1) (so_dTe_dt o2)) /\
    (tame B L d (so_m_dot_ck o1) (so_m_dot_ck o2) /\ tame B L d (so_m_dot_kr o1) (so_m_dot_kr o2) /\
     tame B L d (so_m_dot_rl o1) (so_m_dot_rl o2) /\ tame B L d (so_m_dot_le o1) (so_m_dot_le o2)) /\
    tame B L d (so_Q_dot_k o1) (so_Q_dot_k o2) /\ tame B L d (so_Q_dot_l o1) (so_Q_dot_l o2).
  Proof.
    destruct base_consts as (BT & BTT & BV & Bv). pose proof nil_pos as NP. pose proof R_pos as RP.
    set (V_lo := Rmin cl el). assert (VL : 0 < V_lo) by (apply Rmin_pos; lra).
    assert (VL1 : V_lo <= cl) by apply Rmin_l. assert (VL2 : V_lo <= el) by apply Rmin_r.
    destruct (varies_evenly a_he T_nil T_low T_top P_top V_lo V_hi v_hi (Vf / T_top) (ru_vol_chx rb) (ru_vol_regen rb) (ru_vol_hhx rb) R_he cp_he cv_he T_ref
      a_range (conj NP BT) VL ltac:(apply Rdiv_lt_0_compat; lra)) as (B & L & B0 & L0 & HV).
    exists B, L. split; [exact B0|]. split; [exact L0|].
    intros s1 r1 s2 r2 t c1 c2 h1 h2 o1 o2 R1 R2 S1 S2 Ht Ph1 Ph2 So1 So2 A1 A2 A3 A4 P1 P2 d.
    destruct (same_motion comps0 s1 r1 s2 r2 Hd R1 R2) as (_ & EV).
    assert (PT : forall s r c h o, Run_new comps0 s = Ret r -> settled_run r -> physical (Run_calculate_inputs r t c) -> solve D (Run_calculate_inputs r t c) h = Ok o ->
      inside (cd_T_c c) -> inside (cd_T_e c) ->
      let T := ru_temp r in let Tk := te_chx T in let Tl := te_hhx T in let ratio := ru_vol_chx rb * / Tk + ru_vol_regen rb * / rt_avg (te_regen T) + ru_vol_hhx rb * / Tl in
      let y := so_dP_dt o / cd_P c in
      let n V dV Tf y T := flow a_he T_nil V dV (/ (Tf - T_nil)) y (/ T) in
      let dVc := v_deriv (fst (ru_ws_vol_fn r t)) in let dVe := v_deriv (snd (ru_ws_vol_fn r t)) in
      let nc := n (V_comp r t) dVc Tk y (cd_T_c c) in let ne := n (V_exp r t) dVe Tl y (cd_T_e c) in
      let dT V dV x Tf y := x * (y + dV * / V) - x * x * (n V dV Tf y x * / V) in
      (V_lo <= V_comp r t <= V_hi /\ V_lo <= V_exp r t <= V_hi /\ Rabs dVc <= v_hi /\ Rabs dVe <= v_hi /\
        inside Tk /\ inside Tl /\ inside (rt_cold (te_regen T)) /\ inside (rt_avg (te_regen T)) /\ inside (rt_hot (te_regen T))) /\
      0 < cd_P c /\ Vf / T_top <= ratio /\ nc + ne + ratio * y = 0 /\
      so_dP_dt o = y * cd_P c /\ so_dTc_dt o = dT (V_comp r t) dVc (cd_T_c c) Tk y /\ so_dTe_dt o = dT (V_exp r t) dVe (cd_T_e c) Tl y /\
      so_m_dot_ck o = - (cd_P c * / R_he * nc) /\ so_m_dot_kr o = - (cd_P c * / R_he * nc) - ru_vol_chx rb * / Tk * (y * cd_P c * / R_he) /\
      so_m_dot_rl o = cd_P c * / R_he * ne + ru_vol_hhx rb * / Tl * (y * cd_P c * / R_he) /\ so_m_dot_le o = cd_P c * / R_he * ne).
    { intros s r c h o Hr Hs Hph Hso I1 I2. cbv zeta.
      pose proof Hs as (HX & VC & VE & HS & _ & _ & _ & _ & _ & J1 & J2 & J3 & J4 & J5). pose proof HS as (Hf & L1 & L2 & _ & L3 & L4 & L5 & L6 & L7 & _).
      destruct (run_volumes comps0 b rb s r Hrb Hr) as (E1 & E2 & E3).
      pose proof (driven_smooth comps0 s r Hd Hr) as SM. unfold inside in *.
      destruct (point_all r Hf L1 L2 ltac:(lra) ltac:(lra) D t c h o HD ltac:(unfold positive_temps; lra) (proj1 (SM t)) Hph Hso ltac:(lra) ltac:(lra))
        as (Q1 & _ & _ & Q2 & Q3 & Q4 & _ & Q5 & Q6 & Q7 & Q8). cbv zeta in *.
      destruct (VC t) as (V1 & V2). specialize (V2 t ltac:(lra)). destruct (VE t) as (W1 & W2). specialize (W2 t ltac:(lra)).
      destruct (L7 t Ht) as (U1 & U2 & U3 & U4).
      assert (EY : so_dP_dt o = so_dP_dt o / cd_P c * cd_P c) by (field; lra).
      split; [lra|]. split; [exact Q1|]. split.
      { pose proof HX as (_ & _ & _ & X1 & X2 & X3). rewrite E1 in X1. rewrite E2 in X2. rewrite E3 in X3. unfold Vf.
        replace ((ru_vol_chx rb + ru_vol_regen rb + ru_vol_hhx rb) / T_top) with (ru_vol_chx rb * / T_top + ru_vol_regen rb * / T_top + ru_vol_hhx rb * / T_top) by (field; lra).
        repeat apply Rplus_le_compat; apply Rmult_le_compat_l; try assumption; apply Rinv_le_contravar; lra. }
      split.
      { rewrite <- Q6. unfold fixed_ratio, Rdiv. rewrite E1, E2, E3. reflexivity. }
      split; [exact EY|]. split; [exact Q7|]. split; [exact Q8|]. split; [exact Q2|].
      split; [rewrite <- EY; unfold Rdiv in Q2, Q4 |- *; rewrite E1 in Q4; rewrite <- Q2; lra|].
      split; [rewrite <- EY; unfold Rdiv in Q3, Q5 |- *; rewrite E3 in Q5; rewrite <- Q3; lra|exact Q3]. }
    destruct (PT s1 r1 c1 h1 o1 R1 S1 Ph1 So1 A1 A2) as ((F1 & F2 & F3 & F4 & F5 & F6 & F7 & F8 & F9) & F10 & F11 & F12 & F13 & F14 & F15 & F16 & F17 & F18 & F19).
    destruct (PT s2 r2 c2 h2 o2 R2 S2 Ph2 So2 A3 A4) as ((G1 & G2 & G3 & G4 & G5 & G6 & G7 & G8 & G9) & G10 & G11 & G12 & G13 & G14 & G15 & G16 & G17 & G18 & G19).
    cbv zeta in *. clear PT. unfold V_comp, V_exp in *. rewrite EV in *.
    pose proof (gap_nonneg c1 c2) as D1. pose proof (tdist_nonneg (ru_temp r1) (ru_temp r2)) as D2.
    destruct (gap_parts c1 c2 (gap c1 c2) (Rle_refl _)) as (GP & GC & GE). destruct (tdist_parts (ru_temp r1) (ru_temp r2)) as (TD1 & TD2 & TD3 & TD4 & TD5).
    assert (TT : forall u v, inside u -> inside v -> Rabs (u - v) <= d -> tame T_top 1 d u v).
    { intros u v (U1 & U2) (U3 & U4) H. split; [rewrite Rabs_right; lra|]. split; [rewrite Rabs_right; lra|lra]. }
    pose proof (point_heats r1 D t c1 h1 o1 (proj1 (proj1 (proj2 (proj2 (proj2 S1))))) HD Ph1 So1) as (QK1 & QL1).
    pose proof (point_heats r2 D t c2 h2 o2 (proj1 (proj1 (proj2 (proj2 (proj2 S2))))) HD Ph2 So2) as (QK2 & QL2). cbv zeta in *.
    specialize (HV d _ _ _ _ (cd_T_c c1) (cd_T_c c2) (cd_T_e c1) (cd_T_e c2) (cd_P c1) (cd_P c2) (te_chx (ru_temp r1)) (te_chx (ru_temp r2))
      (rt_avg (te_regen (ru_temp r1))) (rt_avg (te_regen (ru_temp r2))) (te_hhx (ru_temp r1)) (te_hhx (ru_temp r2))
      (rt_cold (te_regen (ru_temp r1))) (rt_cold (te_regen (ru_temp r2))) (rt_hot (te_regen (ru_temp r1))) (rt_hot (te_regen (ru_temp r2)))
      (so_dP_dt o1 / cd_P c1) (so_dP_dt o2 / cd_P c2) ltac:(unfold d; lra) F1 F2 F3 F4).
    destruct HV as ((V1 & V2 & V3) & (V4 & V5 & V6 & V7) & V8 & V9); try assumption; try (apply TT; try assumption; unfold d; lra).
    - tauto.
    - split; [rewrite Rabs_right; lra|]. split; [rewrite Rabs_right; lra|]. unfold d. lra.
    - cbv zeta in *. rewrite <- F13, <- G13 in V1. rewrite <- F14, <- G14 in V2. rewrite <- F15, <- G15 in V3.
      split; [auto|]. split.
      + rewrite F16, F17, F18, F19, G16, G17, G18, G19. split; [exact V4|]. split; [exact V5|]. split; [exact V6|exact V7].
      + rewrite QK1, QL1, QK2, QL2. rewrite F16, F17, F18, F19, G16, G17, G18, G19. split; [exact V8|exact V9].
  Qed.
End Varied.
