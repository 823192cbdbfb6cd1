(** * One promise of a solver is enough for all states of an engine with effective exchangers *)
From Coq Require Import ZArith NArith List Reals Lra Lia.
From Verif Require Import Num ModelTypes ModelWs ModelHx ModelStateEq ModelEngine ModelApi RNum Spec SpecLoop SpecR SpecGas
  SpecKin SpecTraj SpecLaws SpecUnique SpecExist SpecDepend SpecSeries SpecQuad SpecReport SpecSpaces SpecBounds SpecSteady SpecContract
  SpecSample SpecGlobal SpecSearch SpecConverge SpecAccurate SpecSolver SpecApi SpecMeans SpecPush SpecEffective SpecMixed Fixture PolySolve PolyLoop PolyPanic PolyRun PolyReport RSolve RGauss RFluid RKin RPeriod RSeries
  RPicard RLocal RExist RStart RCase4 RDepend RBounds RSteady RQuad RSample RSampleReport RMotion RSampleCase RSearchCase RGlobal RGlobalReport RContract RContractEngine RSettle RSearch RConverge RAccurate RMeans
  RReturned RApproach RConsistent RPush RFlowBound REffective RFamily REuler RSolver RSolverRun RTame.
Import ListNotations.
Local Open Scope R_scope.

Lemma same_motion (comps : Components R) (s : State R) (r : Run R) (s' : State R) (r' : Run R) : driven (co_ws comps) ->
  Run_new comps s = Ret r -> Run_new comps s' = Ret r' -> ru_period r' = ru_period r /\ ru_ws_vol_fn r' = ru_ws_vol_fn r.
Proof.
  intros Hd. unfold Run_new. intros H H'. destruct (ex_volume (co_chx comps)) as [v1|]; [|discriminate H]. destruct (ex_volume (co_regen comps)) as [v2|]; [|discriminate H].
  destruct (ex_volume (co_hhx comps)) as [v3|]; [|discriminate H]. cbn [obind] in H, H'.
  destruct Hd as [(d & E & _)|(d & E & _)]; rewrite E in H, H'; cbn [SinusoidalDrive_ws RhombicDrive_ws ws_frequency ws_volumes ws_parasitics obind] in H, H';
    injection H as <-; injection H' as <-; auto.
Qed.
Section Evenly.
  Variables (D : Decomp R) (cl ch el eh cl' ch' el' eh' T_low T_top V_hi v_hi rho rv q mg P0 Vf M : R).
  Hypothesis HD : sound D.
  Hypothesis HC : complete D.
  Hypothesis HP0 : 0 < P0.
  Hypothesis O1 : 0 < cl' < cl.
  Hypothesis O2 : ch < ch'.
  Hypothesis O3 : 0 < el' < el.
  Hypothesis O4 : eh < eh'.
  Hypothesis Hmg : 0 < mg.
  Hypothesis HT : T_nil < T_low.
  Hypothesis HTT : 0 < T_top.
  Hypothesis Hch : 0 < ch' /\ 0 < eh'.
  Hypothesis Hv : 0 <= v_hi.
  Hypothesis HV : 0 < Vf.
  Hypothesis HM : 0 <= M.
  Let lP := least_P cl' ch' el' eh' T_low T_top P0.
  Let mP := most_P cl' ch' el' eh' T_low T_top P0.
  Lemma least_pos : 0 < lP.
  Proof.
    pose proof nil_pos. unfold lP, least_P. destruct Hch. apply Rdiv_lt_0_compat; [apply Rmult_lt_0_compat; [exact HP0|]|];
      apply Rplus_lt_0_compat; apply Rdiv_lt_0_compat; lra.
  Qed.
  Let m := Rmin mg (lP / 2).
  Lemma m_pos : 0 < m.
  Proof. pose proof least_pos. apply Rmin_pos; lra. Qed.
  Theorem promise_evenly : exists L B, 0 <= L /\ 0 <= B /\
    forall (comps : Components R) (s0 : State R) (r : Run R), s_fluid s0 = IdealGas_Fluid he -> driven (co_ws comps) -> Run_new comps s0 = Ret r ->
    te_sink (s_temp s0) + te_source (s_temp s0) <> 500 -> pr_t_zero (s_pres s0) = P0 ->
    settles_between r cl ch el eh cl' ch' el' eh' T_low T_top V_hi v_hi rho rv q mg ->
    ru_vol_chx r + ru_vol_regen r + ru_vol_hhx r = Vf ->
    let H := ru_period r + / 10 ^ 14 in
    changes_within M (fun t => v_deriv (fst (ru_ws_vol_fn r t))) 0 H -> changes_within M (fun t => v_deriv (snd (ru_ws_vol_fn r t))) 0 H ->
    forall (E : Env R) (tol : OdeTolerance R) (n : N) (e : R),
    let h := ru_period r / IZR (Z.of_N (N.pred n)) in
    (2 <= n)%N -> / 10 ^ 14 < h -> solver_within E (ot_rel tol) (ot_abs tol) H m L B e ->
    accurate E D r (within_levels r P0 cl' ch' el' eh') tol n h e /\
    forall ic pts, within_levels r P0 cl' ch' el' eh' ic -> try_from E D (Run_Cycle r) ic n tol = Ret (Ok pts) -> map (@pt_time R) pts = sample_times (ru_period r) n.
  Proof.
    set (V_lo := Rmin cl el). set (K := Vf / T_top). pose proof nil_pos as NP. pose proof m_pos as M0. pose proof least_pos as LP0.
    assert (VL : 0 < V_lo) by (apply Rmin_pos; lra).
    assert (VL1 : V_lo <= cl) by apply Rmin_l. assert (VL2 : V_lo <= el) by apply Rmin_r.
    pose proof (Rmin_l mg (lP / 2)) as MM1. pose proof (Rmin_r mg (lP / 2)) as MM2. fold m in MM1, MM2.
    destruct (rates_tame_evenly a_he T_nil T_low T_top (mP + m) V_lo V_hi v_hi K M a_range ltac:(lra) VL
      ltac:(apply Rdiv_lt_0_compat; assumption)) as (B & L & B0 & L0 & HR).
    exists (3 * L), (3 * B). split; [lra|]. split; [lra|].
    intros comps s0 r Hfl Hd Hr Hn EP HB EV H C1 C2. subst P0.
    pose proof (driven_smooth comps s0 r Hd Hr) as SM. pose proof (period_pos comps s0 r Hd Hr) as TP.
    assert (H0 : 0 <= H) by (unfold H; pose proof eps_pos; lra).
    destruct (P_bounds s0 r cl ch el eh cl' ch' el' eh' T_low T_top V_hi v_hi rho rv q mg HP0 O1 O2 O3 O4 HB Hmg) as ((PL1 & PL2) & PH & _). cbv zeta in PL2, PH.
    fold lP in PL1, PL2. fold mP in PH.
    pose proof HB as (HX & VC & VE & HS & _ & M1 & M2 & M3 & M4 & I1 & I2 & I3 & I4 & I5).
    assert (VC1 := VC1 r cl ch el eh cl' ch' el' eh' T_low T_top V_hi v_hi rho rv q mg O1 O2 HB).
    assert (VE1 := VE1 r cl ch el eh cl' ch' el' eh' T_low T_top V_hi v_hi rho rv q mg O3 O4 HB).
    assert (WC := WC1 r cl ch el eh cl' ch' el' eh' T_low T_top V_hi v_hi rho rv q mg HB Hmg).
    assert (WE := WE1 r cl ch el eh cl' ch' el' eh' T_low T_top V_hi v_hi rho rv q mg HB Hmg).
    pose proof HS as (Hf & L1 & L2 & _ & L3 & L4 & L5 & L6 & L7 & _).
    assert (FR : K <= fixed_ratio r).
    { pose proof HX as (_ & _ & _ & X1 & X2 & X3). unfold K, fixed_ratio. rewrite <- EV.
      replace ((ru_vol_chx r + ru_vol_regen r + ru_vol_hhx r) / T_top) with (ru_vol_chx r / T_top + ru_vol_regen r / T_top + ru_vol_hhx r / T_top) by (field; lra).
      repeat apply Rplus_le_compat; unfold Rdiv; apply Rmult_le_compat_l; try assumption; apply Rinv_le_contravar; lra. }
    set (Tk := te_chx (ru_temp r)) in *. set (Tl := te_hhx (ru_temp r)) in *.
    set (rlo := cl' / compressed cl' ch' Tk + fixed_ratio r + el' / compressed el' eh' Tl) in *.
    set (rhi := ch' / expanded cl' ch' Tk + fixed_ratio r + eh' / expanded el' eh' Tl) in *.
    set (p0 := pr_t_zero (s_pres s0)) in *.
    set (lo' := mkCond (p0 * rlo / rhi - m) (expanded cl' ch' Tk - m) (expanded el' eh' Tl - m)).
    set (hi' := mkCond (p0 * rhi / rlo + m) (compressed cl' ch' Tk + m) (compressed el' eh' Tl + m)).
    assert (PB : physical_box r lo' hi' 0 H).
    { apply (helium_physical_box comps s0 r lo' hi' 0 H Hfl Hd Hr Hn). intros t Ht.
      destruct HX as (X1 & X2 & X3 & X4 & X5 & X6). destruct (VC t) as (V1 & V2). specialize (V2 t ltac:(lra)). destruct (VE t) as (W1 & W2). specialize (W2 t ltac:(lra)).
      unfold V_comp, V_exp in *. unfold helium_conditions, lo'. cbn [cd_P cd_T_c cd_T_e].
      split; [lra|]. split; [apply nil_warm; lra|]. split; [apply nil_warm; lra|]. repeat (split; [assumption || lra|]). assumption. }
    assert (RG : forall t1 t2 c1 c2 i, 0 <= t1 <= H -> 0 <= t2 <= H -> in_box lo' hi' c1 -> in_box lo' hi' c2 ->
      Rabs (rate r t1 c1 i) <= B /\ Rabs (rate r t1 c1 i - rate r t2 c2 i) <= L * (Rabs (t1 - t2) + gap c1 c2)).
    { intros t1 t2 c1 c2 i H1 H2 X1 X2. set (d := Rabs (t1 - t2) + gap c1 c2). pose proof (gap_nonneg c1 c2) as G0. pose proof (Rabs_pos (t1 - t2)) as G1.
      assert (D0 : 0 <= d) by (unfold d; lra).
      assert (PT : forall t c, 0 <= t <= H -> in_box lo' hi' c -> T_low <= cd_T_c c <= T_top /\ T_low <= cd_T_e c <= T_top /\ 0 < cd_P c <= mP + m /\
        V_lo <= V_comp r t <= V_hi /\ V_lo <= V_exp r t <= V_hi /\
        Rabs (v_deriv (fst (ru_ws_vol_fn r t))) <= v_hi /\ Rabs (v_deriv (snd (ru_ws_vol_fn r t))) <= v_hi /\
        let y := rate r t c uP / cd_P c in
        let nc := flow a_he T_nil (V_comp r t) (v_deriv (fst (ru_ws_vol_fn r t))) (/ (Tk - T_nil)) y (/ cd_T_c c) in
        let ne := flow a_he T_nil (V_exp r t) (v_deriv (snd (ru_ws_vol_fn r t))) (/ (Tl - T_nil)) y (/ cd_T_e c) in
        nc + ne + fixed_ratio r * y = 0 /\
        rate r t c uC = cd_T_c c * (y + v_deriv (fst (ru_ws_vol_fn r t)) * / V_comp r t) - cd_T_c c * cd_T_c c * (nc * / V_comp r t) /\
        rate r t c uE = cd_T_e c * (y + v_deriv (snd (ru_ws_vol_fn r t)) * / V_exp r t) - cd_T_e c * cd_T_e c * (ne * / V_exp r t)).
      { intros t c Ht Hc. destruct (PB t c Ht Hc) as (PTm & Hph). destruct (solve_succeeds _ Hph D FlowDirection_default HD HC) as (s & Hs).
        destruct (rate_is r 0 H lo' hi' PB D t c _ s HD Ht Hc Hs) as (R1 & R2 & R3).
        destruct Hc as (B1 & B2 & B3). cbn [lo' hi' cd_P cd_T_c cd_T_e] in B1, B2, B3.
        destruct (point_all r Hf L1 L2 ltac:(unfold Tk in *; lra) ltac:(unfold Tl in *; lra) D t c _ s HD PTm (proj1 (SM t)) Hph Hs ltac:(lra) ltac:(lra))
          as (Q1 & _ & _ & _ & _ & _ & _ & _ & Q2 & Q3 & Q4).
        rewrite R1 in Q2, Q3, Q4. rewrite R2 in Q3. rewrite R3 in Q4.
        destruct (VC t) as (V1 & V2). specialize (V2 t ltac:(lra)). destruct (VE t) as (W1 & W2). specialize (W2 t ltac:(lra)).
        destruct (L7 t ltac:(lra)) as (U1 & U2 & U3 & U4).
        split; [lra|]. split; [lra|]. split; [lra|]. split; [lra|]. split; [lra|]. split; [exact U3|]. split; [exact U4|].
        cbv zeta. split; [exact Q2|]. split; [exact Q3|exact Q4]. }
      destruct (PT t1 c1 H1 X1) as (A1 & A2 & A3 & A4 & A5 & A6 & A7 & A8 & A9 & A10).
      destruct (PT t2 c2 H2 X2) as (Z1 & Z2 & Z3 & Z4 & Z5 & Z6 & Z7 & Z8 & Z9 & Z10). cbv zeta in *.
      destruct (gap_parts c1 c2 (gap c1 c2) (Rle_refl _)) as (GP & GC & GE).
      assert (SP : forall (V w : R -> R), (forall t, 0 <= t <= H -> has_deriv V t (w t)) -> (forall t, 0 <= t <= H -> Rabs (w t) <= v_hi) ->
        Rabs (V t1 - V t2) <= v_hi * d).
      { intros V w DV DW. assert (CW : changes_within v_hi V 0 H).
        { intros u v U1 U2 U3. destruct U2 as [U2|U2]; [|subst v; rewrite !Rminus_diag_eq, Rabs_R0 by reflexivity; lra].
          destruct (mvt V w u v U2) as (x & Ex & Hx); [intros x Hx; apply DV; lra|].
          rewrite Ex, Rabs_mult, (Rabs_pos_eq (v - u)) by lra. apply Rmult_le_compat_r; [lra|]. apply DW. lra. }
        apply Rle_trans with (1 := changes_abs _ _ _ _ t2 t1 CW H2 H1). apply Rmult_le_compat_l; [exact Hv|unfold d; lra]. }
      assert (TV : tame V_hi v_hi d (V_comp r t1) (V_comp r t2)).
      { split; [rewrite Rabs_right; lra|].
        split; [rewrite Rabs_right; lra|].
        apply (SP (V_comp r) (fun t => v_deriv (fst (ru_ws_vol_fn r t)))); [intros t _; apply (SM t)|]. intros t Ht. apply (L7 t). lra. }
      assert (TW : tame V_hi v_hi d (V_exp r t1) (V_exp r t2)).
      { split; [rewrite Rabs_right; lra|].
        split; [rewrite Rabs_right; lra|].
        apply (SP (V_exp r) (fun t => v_deriv (snd (ru_ws_vol_fn r t)))); [intros t _; apply (SM t)|]. intros t Ht. apply (L7 t). lra. }
      assert (MD : M * Rabs (t1 - t2) <= M * d) by (apply Rmult_le_compat_l; [exact HM|unfold d; lra]).
      pose proof (changes_abs _ _ _ _ t2 t1 C1 H2 H1) as Q1. pose proof (changes_abs _ _ _ _ t2 t1 C2 H2 H1) as Q2. cbv beta in Q1, Q2.
      destruct (HR d (/ (Tk - T_nil)) (/ (Tl - T_nil)) (fixed_ratio r) (V_comp r t1) (V_comp r t2) (v_deriv (fst (ru_ws_vol_fn r t1))) (v_deriv (fst (ru_ws_vol_fn r t2)))
        (V_exp r t1) (V_exp r t2) (v_deriv (snd (ru_ws_vol_fn r t1))) (v_deriv (snd (ru_ws_vol_fn r t2))) (cd_T_c c1) (cd_T_c c2) (cd_T_e c1) (cd_T_e c2) (cd_P c1) (cd_P c2)
        (rate r t1 c1 uP / cd_P c1) (rate r t2 c2 uP / cd_P c2)) as (F1 & F2 & F3); try assumption.
      - split; [apply Rinv_0_lt_compat; lra|apply Rinv_le_contravar; lra].
      - split; [apply Rinv_0_lt_compat; lra|apply Rinv_le_contravar; lra].
      - split; [exact A6|]. split; [exact Z6|]. lra.
      - split; [exact A7|]. split; [exact Z7|]. lra.
      - split; [rewrite Rabs_right; lra|]. split; [rewrite Rabs_right; lra|]. unfold d. lra.
      - split; [rewrite Rabs_right; lra|]. split; [rewrite Rabs_right; lra|]. unfold d. lra.
      - split; [rewrite Rabs_right; lra|]. split; [rewrite Rabs_right; lra|]. unfold d. lra.
      - lra.
      - rewrite <- A9, <- Z9 in F2. rewrite <- A10, <- Z10 in F3.
        replace (rate r t1 c1 uP / cd_P c1 * cd_P c1) with (rate r t1 c1 uP) in F1 by (field; lra).
        replace (rate r t2 c2 uP / cd_P c2 * cd_P c2) with (rate r t2 c2 uP) in F1 by (field; lra).
        destruct F1 as (? & _ & ?), F2 as (? & _ & ?), F3 as (? & _ & ?). destruct i; split; assumption. }
    exact (promise_timed comps s0 r D p0 cl' ch' el' eh' Hfl Hd Hr Hn HD HC VC1 VE1 L1 L2 HX HP0 WC WE m L B M0 PB RG).
  Qed.
End Evenly.

Section Runs.
  Variables (comps0 : Components R) (b : State R) (rb : Run R) (D : Decomp R) (A kept cl ch el eh cl' ch' el' eh' T_low T_top V_hi v_hi rho rv q mg x y : R).
  Hypothesis Hfl : s_fluid b = IdealGas_Fluid he.
  Hypothesis Hd : driven (co_ws comps0).
  Hypothesis Hrb : Run_new comps0 b = Ret rb.
  Hypothesis Hn : te_sink (s_temp b) + te_source (s_temp b) <> 500.
  Hypothesis Hss : 0 < te_sink (s_temp b) < te_source (s_temp b).
  Hypothesis Him : s_regen_imbalance b = 0.
  Hypothesis HD : sound D.
  Hypothesis HC : complete D.
  Hypothesis HP0 : 0 < pr_t_zero (s_pres b).
  Hypothesis HA : 0 < A.
  Hypothesis HK : small_approach kept (te_sink (s_temp b)) (te_source (s_temp b)).
  Hypothesis HKA : kept <= A.
  Hypothesis O1 : 0 < cl' < cl.
  Hypothesis O2 : ch < ch'.
  Hypothesis O3 : 0 < el' < el.
  Hypothesis O4 : eh < eh'.
  Hypothesis HQ : q < 1.
  Hypothesis Hmg : 0 < mg.
  Hypothesis Hxy : 0 <= x < y.
  Hypothesis Hbb : approaches_within b A b.
  Hypothesis HB : forall s, approaches_within b A s -> exists r, Run_new comps0 s = Ret r /\
    settles_between r cl ch el eh cl' ch' el' eh' T_low T_top V_hi v_hi rho rv q mg /\
    y <= ru_period r /\ forall t, x < t < y -> pushes_at r t.
  Let H := ru_period rb + / 10 ^ 14.
  Theorem effective_solver tol' : 0 < ct_abs tol' -> 0 < ct_rel tol' -> exists U d L B, 0 < U /\ 0 < d /\ 0 <= L /\ 0 <= B /\
    forall tol, 0 < ct_abs tol -> 0 < ct_rel tol -> exists e0 n, 0 < e0 /\
    forall (E : Env R) (comps : Components R) (fl : Fluid R) (inputs : RunInputs R) (settings : RunSettings R),
    let ode := rs_ode_tol settings in
    let h := ru_period rb / IZR (Z.of_N (N.pred (rs_resolution settings))) in
    same_build comps0 comps -> mixed comps U kept ->
    State_new_hint comps fl inputs = Ret b ->
    lt_outer (rs_loop_tol settings) = tol' -> lt_inner (rs_loop_tol settings) = tol ->
    solver_within E (ot_rel ode) (ot_abs ode) H d L B e0 ->
    (2 <= rs_resolution settings)%N -> / 10 ^ 14 < h -> h < (y - x) / 2 ->
    (n < N.to_nat (mi_inner (rs_max_iters settings)))%nat -> (2 <= mi_outer (rs_max_iters settings))%N ->
    exists k en, Engine_run_counted E D comps fl inputs settings = (k, Ret (Ok en)) /\ (k <= 2 * (n + 2))%nat /\ approaches_within b A (en_state en).
  Proof.
    intros TA TR.
    destruct (effective_run comps0 b D A kept cl ch el eh cl' ch' el' eh' T_low T_top V_hi v_hi rho rv q mg x y Hfl Hd Hn Hss Him HD HC HP0 HA HK HKA O1 O2 O3 O4 HQ Hmg Hxy HB tol' TA TR)
      as (U & U0 & HU).
    destruct (HB b Hbb) as (r0 & Hr0 & Hs0 & _). assert (r0 = rb) by congruence. subst r0.
    pose proof (period_pos comps0 b rb Hd Hrb) as TP. pose proof eps_pos as EP.
    destruct (driven_motion comps0 b rb 0 H Hd Hrb) as (M' & C1 & C2).
    pose proof (Rle_abs M') as MA. pose proof (Rabs_pos M') as M0. set (M := Rabs M') in *.
    apply (changes_weaken _ _ _ _ _ MA) in C1, C2.
    set (Vf := ru_vol_chx rb + ru_vol_regen rb + ru_vol_hhx rb).
    pose proof Hs0 as (HX & VC & VE & HS & _ & N1 & N2 & N3 & N4 & I1 & I2 & I3 & I4 & I5). pose proof HS as (_ & _ & _ & _ & L3 & _ & _ & L6 & L7 & _).
    assert (T0 : 0 < T_top) by (pose proof nil_pos; lra).
    assert (V0 : 0 < Vf).
    { destruct (Rlt_le_dec 0 Vf) as [L|L]; [exact L|]. exfalso. unfold Vf in L. unfold fixed_ratio in L6. destruct HX as (_ & _ & _ & X1 & X2 & X3).
      assert (Z1 : ru_vol_chx rb = 0) by lra. assert (Z2 : ru_vol_regen rb = 0) by lra. assert (Z3 : ru_vol_hhx rb = 0) by lra.
      rewrite Z1, Z2, Z3 in L6. unfold Rdiv in L6. lra. }
    assert (v0 : 0 <= v_hi).
    { destruct (L7 0 ltac:(lra)) as (_ & _ & B & _). apply Rle_trans with (2 := B), Rabs_pos. }
    assert (CH : 0 < ch' /\ 0 < eh').
    { destruct (VC 0) as (A1 & A2), (VE 0) as (B1 & B2). specialize (A2 0 ltac:(lra)). specialize (B2 0 ltac:(lra)). lra. }
    destruct (promise_evenly D cl ch el eh cl' ch' el' eh' T_low T_top V_hi v_hi rho rv q mg (pr_t_zero (s_pres b)) Vf M HD HC HP0 O1 O2 O3 O4 Hmg L3 T0 CH v0 V0 M0)
      as (L & B & L0 & B0 & HL).
    exists U, (Rmin mg (least_P cl' ch' el' eh' T_low T_top (pr_t_zero (s_pres b)) / 2)), L, B.
    split; [exact U0|]. split; [apply (m_pos cl) with (el := el); assumption|]. split; [exact L0|]. split; [exact B0|].
    intros tol ta tr. destruct (HU tol ta tr) as (e0 & n & E0 & HN). exists e0, n. split; [exact E0|].
    intros E comps fl inputs settings ode h SB HCd Hst Hto Hti HSv R2 H1 H2 Hni Hou.
    apply (HN E comps fl inputs settings h SB HCd Hst Hbb Hto Hti); [|lra|exact Hni|exact Hou].
    intros s r Hs Hr. rewrite (same_run comps0 comps s SB) in Hr. destruct (HB s Hs) as (r' & Hr' & Hs' & _). assert (r' = r) by congruence. subst r'.
    destruct (same_motion comps0 b rb s r Hd Hrb Hr) as (EP1 & EV). destruct (run_volumes comps0 b rb s r Hrb Hr) as (E1 & E2 & E3).
    destruct (within_sym b A s Hs) as (S4 & S5). pose proof Hs as (S1 & S2 & _).
    assert (PR : forall tol n e, let h := ru_period r / IZR (Z.of_N (N.pred n)) in (2 <= n)%N -> / 10 ^ 14 < h ->
      solver_within E (ot_rel tol) (ot_abs tol) H (Rmin mg (least_P cl' ch' el' eh' T_low T_top (pr_t_zero (s_pres b)) / 2)) L B e ->
      accurate E D r (within_levels r (pr_t_zero (s_pres b)) cl' ch' el' eh') tol n h e).
    { intros tol0 n0 e h0 A1 A2 A3. unfold H in *. rewrite <- EP1 in A3, C1, C2. rewrite <- EV in C1, C2.
      apply (HL comps0 s r ltac:(congruence) Hd Hr ltac:(rewrite S4, S5; exact Hn) S2 Hs' ltac:(unfold Vf; lra) C1 C2 E tol0 n0 e A1 A2 A3). }
    assert (I0 : 1 <= IZR (Z.of_N (N.pred (rs_resolution settings)))) by (apply IZR_le; lia).
    assert (HT : h <= ru_period r).
    { unfold h. rewrite <- EP1. rewrite <- EP1 in TP. apply (Rmult_le_reg_r (IZR (Z.of_N (N.pred (rs_resolution settings))))); [lra|]. unfold Rdiv.
      rewrite Rmult_assoc, Rinv_l, Rmult_1_r by lra. rewrite <- (Rmult_1_r (ru_period r)) at 1. apply Rmult_le_compat_l; lra. }
    split.
    - replace (ru_period r) with (ru_period r / IZR (Z.of_N (N.pred 2))) at 1 by (cbn; field).
      apply (PR ode 2%N e0); [lia| |exact HSv]. replace (ru_period r / IZR (Z.of_N (N.pred 2))) with (ru_period r) by (cbn; field). lra.
    - unfold h in H1 |- *. rewrite <- EP1 in H1 |- *. exact (PR ode (rs_resolution settings) e0 R2 H1 HSv).
  Qed.
  (** Euler's method with enough steps *)
  Theorem effective_euler tol' : 0 < ct_abs tol' -> 0 < ct_rel tol' -> exists U, 0 < U /\
    forall tol, 0 < ct_abs tol -> 0 < ct_rel tol -> exists n N0,
    forall (N : nat) (comps : Components R) (fl : Fluid R) (inputs : RunInputs R) (settings : RunSettings R),
    let h := ru_period rb / IZR (Z.of_N (N.pred (rs_resolution settings))) in
    (N0 <= N)%nat -> same_build comps0 comps -> mixed comps U kept ->
    State_new_hint comps fl inputs = Ret b ->
    lt_outer (rs_loop_tol settings) = tol' -> lt_inner (rs_loop_tol settings) = tol ->
    (2 <= rs_resolution settings)%N -> / 10 ^ 14 < h -> h < (y - x) / 2 ->
    (n < N.to_nat (mi_inner (rs_max_iters settings)))%nat -> (2 <= mi_outer (rs_max_iters settings))%N ->
    exists k en, Engine_run_counted (euler_env N) D comps fl inputs settings = (k, Ret (Ok en)) /\ (k <= 2 * (n + 2))%nat /\ approaches_within b A (en_state en).
  Proof.
    intros TA TR. destruct (effective_solver tol' TA TR) as (U & d & L & B & U0 & D0 & L0 & B0 & HU). exists U. split; [exact U0|].
    intros tol ta tr. destruct (HU tol ta tr) as (e0 & n & E0 & HN).
    assert (H0 : 0 < H) by (pose proof (period_pos comps0 b rb Hd Hrb); pose proof eps_pos; unfold H; lra).
    destruct (euler_keeps H d L B e0 H0 D0 L0 B0 E0) as (N0 & HE). exists n, N0.
    intros N comps fl inputs settings h HN0 SB HCd Hst Hto Hti R2 H1 H2 Hni Hou.
    apply (HN (euler_env N) comps fl inputs settings); try assumption. apply HE, HN0.
  Qed.
End Runs.
