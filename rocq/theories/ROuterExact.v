(** * Runs approach the state that the engine would keep *)
From Coq Require Import ZArith NArith List Reals Lra Lia.
From Verif Require Import Num ModelTypes ModelWs ModelHx ModelStateEq ModelEngine ModelApi RNum Spec SpecLoop SpecR SpecGas
  SpecKin SpecTraj SpecLaws SpecUnique SpecExist SpecDepend SpecSeries SpecQuad SpecReport SpecSpaces SpecBounds SpecSteady SpecContract
  SpecSample SpecGlobal SpecSearch SpecConverge SpecAccurate SpecSolver SpecApi SpecMeans SpecPush SpecEffective SpecMixed SpecOuter Fixture PolySolve PolyLoop PolyPanic PolyRun PolyReport RSolve RGauss RFluid RKin RPeriod RSeries
  RPicard RLocal RExist RStart RCase4 RDepend RBounds RSteady RQuad RSample RSampleReport RMotion RSampleCase RSearchCase RGlobal RGlobalReport RContract RContractEngine RSettle RSearch RConverge RAccurate RMeans
  RReturned RApproach RConsistent RPush RFlowBound RFollow REffective RFamily REuler RSolver RSolverRun RTame RUniform RVaryRun RShadow RApart RMixed ROuter RClosing ROuterLimit.
Import ListNotations.
Local Open Scope R_scope.

Lemma series_is (vs : list (SeValues R)) v : series_of vs v -> v = Values_from vs.
Proof.
  assert (M : forall (f : SeValues R -> R) l l', Forall2 (fun x y => y = f x) l l' -> l' = map f l) by (intros f l l'; induction 1; cbn [map]; congruence).
  intros (H1 & H2 & H3 & H4 & H5 & H6 & H7 & H8 & H9 & H10 & H11). destruct v. cbn in *. unfold Values_from.
  f_equal; apply M; assumption.
Qed.
Lemma even_is period points : (2 <= points)%N -> sample_times period points = even_times period points.
Proof.
  intros H. unfold sample_times, even_times, even. replace (S (N.to_nat (N.pred points))) with (N.to_nat points) by lia.
  replace (IZR (Z.of_N (N.pred points))) with (INR (N.to_nat points - 1)); [reflexivity|]. rewrite INR_IZR_INZ. f_equal. lia.
Qed.
Section Runs.
  Variables (comps0 : Components R) (b : State R) (rb : Run R) (D : Decomp R) (A cl ch el eh cl' ch' el' eh' T_low T_top V_hi v_hi rho rv q mg x y : R).
  Hypothesis Hfl : s_fluid b = IdealGas_Fluid he.
  Hypothesis Hd : driven (co_ws comps0).
  Hypothesis Hrb : Run_new comps0 b = Ret rb.
  Hypothesis Hn : te_sink (s_temp b) + te_source (s_temp b) <> 500.
  Hypothesis Hss : 0 < te_sink (s_temp b) < te_source (s_temp b).
  Hypothesis Him : s_regen_imbalance b = 0.
  Hypothesis HD : sound D.
  Hypothesis HC : complete D.
  Hypothesis HP0 : 0 < pr_t_zero (s_pres b).
  Hypothesis HA : 0 < A.
  Hypothesis O1 : 0 < cl' < cl.
  Hypothesis O2 : ch < ch'.
  Hypothesis O3 : 0 < el' < el.
  Hypothesis O4 : eh < eh'.
  Hypothesis HQ : q < 1.
  Hypothesis Hmg : 0 < mg.
  Hypothesis Hxy : 0 <= x < y.
  Hypothesis Hbb : approaches_within b A b.
  Hypothesis HB : forall s, approaches_within b A s -> exists r, Run_new comps0 s = Ret r /\
    settles_between r cl ch el eh cl' ch' el' eh' T_low T_top V_hi v_hi rho rv q mg /\
    y <= ru_period r /\ forall t, x < t < y -> pushes_at r t.
  Variable kept : R.
  Hypothesis Hk : small_approach kept (te_sink (s_temp b)) (te_source (s_temp b)).
  Hypothesis HkA : kept <= A.
  Let H := ru_period rb + / 10 ^ 14.
  Let tau := ru_period rb.
  Lemma spec_step comps ts s : same_build comps0 comps -> approaches_within b A s ->
    self_consistent D comps T_low ts s -> consistent_step comps0 b D cl ch el eh cl' ch' el' eh' T_low T_top V_hi v_hi rho rv q mg comps ts s (s_temp s).
  Proof.
    intros SB Hs (r & c & vs & v & P & m & Q & Hr & SC & WT & CP & TS & EX & SR & RC). apply series_is in SR. subst v.
    rewrite (same_run comps0 comps s SB) in Hr.
    destruct (member_of comps0 b rb A cl ch el eh cl' ch' el' eh' T_low T_top V_hi v_hi rho rv q mg x y Hfl Hd Hrb Hn HB s Hs) as (r' & M & _).
    assert (r' = r) as -> by (destruct M as (_ & Hr' & _); congruence). exists r, c, vs, P, m, Q. split; [exact M|]. split; [exact SC|]. split; [exact WT|].
    split; [rewrite CP; apply M|]. split; [split; assumption|exact RC].
  Qed.
  Lemma step_spec comps ts s : same_build comps0 comps ->
    consistent_step comps0 b D cl ch el eh cl' ch' el' eh' T_low T_top V_hi v_hi rho rv q mg comps ts s (s_temp s) -> self_consistent D comps T_low ts s.
  Proof.
    intros SB (r & c & vs & P & m & Q & M & SC & WT & CP & (TS & EX) & RC). exists r, c, vs, (Values_from vs), P, m, Q. pose proof M as (_ & Hr & _ & HP & _).
    split; [rewrite (same_run comps0 comps s SB); exact Hr|]. split; [exact SC|]. split; [exact WT|]. split; [rewrite HP; exact CP|]. split; [exact TS|]. split; [exact EX|].
    split; [apply Values_from_series|exact RC].
  Qed.
  Theorem consistent_solver : exists U t1 d L B, 0 < U /\ 0 < t1 /\ 0 < d /\ 0 <= L /\ 0 <= B /\
    forall (comps : Components R) (fl : Fluid R) (inputs : RunInputs R) (points : N),
    let h := ru_period rb / IZR (Z.of_N (N.pred points)) in let ts := even_times (ru_period rb) points in
    same_build comps0 comps -> mixed comps U kept ->
    State_new_hint comps fl inputs = Ret b -> (2 <= points)%N -> / 10 ^ 14 < h -> h < (y - x) / 2 ->
    exists s, approaches_within b A s /\ self_consistent D comps T_low ts s /\
    (forall s', approaches_within b A s' -> self_consistent D comps T_low ts s' -> s_temp s' = s_temp s) /\
    forall tol', 0 < ct_abs tol' -> 0 < ct_rel tol' -> exists t0 m, 0 < t0 /\
    forall tol, 0 < ct_abs tol <= t0 -> 0 < ct_rel tol -> exists e0 n, 0 < e0 /\
    forall (E : Env R) (settings : RunSettings R), let ode := rs_ode_tol settings in
    lt_outer (rs_loop_tol settings) = tol' -> lt_inner (rs_loop_tol settings) = tol -> rs_resolution settings = points ->
    solver_within E (ot_rel ode) (ot_abs ode) H d L B e0 ->
    (n < N.to_nat (mi_inner (rs_max_iters settings)))%nat -> (m <= N.to_nat (mi_outer (rs_max_iters settings)))%nat ->
    exists k en, Engine_run_counted E D comps fl inputs settings = (k, Ret (Ok en)) /\ (k <= m * (n + 2))%nat /\
      approaches_within b A (en_state en) /\ (ct_abs tol' <= t1 -> temperatures_within (11 * ct_abs tol') (s_temp (en_state en)) (s_temp s)).
  Proof.
    assert (HR : exists res, forall p, ws_thermal_resistance (co_ws comps0) p = Ret res).
    { destruct Hd as [(dr & -> & _)|(dr & -> & _)]; eexists; intros p; reflexivity. }
    destruct HR as (res & HR).
    destruct (contracting_run comps0 b rb D A cl ch el eh cl' ch' el' eh' T_low T_top V_hi v_hi rho rv q mg x y Hfl Hd Hrb Hn Hss Him HD HC HP0 HA O1 O2 O3 O4 HQ Hmg Hxy Hbb HB res HR kept Hk HkA) as (Ua & d1 & U0 & D1 & RUN & AGR).
    destruct (consistent_one comps0 b rb D A cl ch el eh cl' ch' el' eh' T_low T_top V_hi v_hi rho rv q mg x y Hfl Hd Hrb Hn Hss Him HD HC HP0 HA O1 O2 O3 O4 HQ Hmg Hxy Hbb HB res HR kept Hk HkA) as (Ub & Ub0 & ONE).
    destruct (solver_serves comps0 b rb D A cl ch el eh cl' ch' el' eh' T_low T_top V_hi v_hi rho rv q mg x y Hfl Hd Hrb Hn HD HC HP0 O1 O2 O3 O4 Hmg Hbb HB) as (d & L & B & D0 & L0 & B0 & SV).
    pose proof (Rmax_l Ua Ub) as UL. pose proof (Rmax_r Ua Ub) as UR. set (U := Rmax Ua Ub) in *.
    exists U, d1, d, L, B. split; [lra|]. split; [exact D1|]. split; [exact D0|]. split; [exact L0|]. split; [exact B0|].
    intros comps fl inputs points h ts SB HCd Hst R2 H1 H2. pose proof eps_pos as EP.
    assert (Hh : 0 <= h < (y - x) / 2) by lra. pose proof (period_pos comps0 b rb Hd Hrb) as TP. fold tau in TP.
    assert (ET : sample_times tau points = ts) by (apply even_is; exact R2).
    assert (G : grid_to ts tau /\ steps_within h ts).
    { rewrite <- ET. unfold sample_times.
      replace (IZR (Z.of_N (N.pred points))) with (INR (N.to_nat (N.pred points))) by (rewrite INR_IZR_INZ; f_equal; lia).
      split; [apply even_grid; [exact TP|lia]|]. replace (tau / INR (N.to_nat (N.pred points))) with h; [apply even_steps; lra|].
      unfold h, tau. f_equal. rewrite INR_IZR_INZ. f_equal. lia. }
    destruct G as (HG & HStp).
    destruct (ONE comps h ts SB (mixed_less _ _ Ub _ HCd ltac:(lra)) HG HStp Hh) as (T & W & CS). set (s := at_temps b T) in *.
    assert (near : forall tol e w en, 0 < ct_abs tol <= d1 -> 0 <= e -> 0 <= w -> rests comps0 b rb D A cl ch el eh cl' ch' el' eh' T_low T_top V_hi v_hi rho rv q mg comps tol e w ts en ->
      forall s', approaches_within b A s' -> consistent_step comps0 b D cl ch el eh cl' ch' el' eh' T_low T_top V_hi v_hi rho rv q mg comps ts s' (s_temp s') ->
      tdist (s_temp (en_state en)) (s_temp s') <= 10 * ct_abs tol + (e + w)).
    { intros tol e w en Ht He Hw Hen s' Ws Cs. apply le_epsilon. intros eps He'.
      pose proof (Rmin_l d1 (eps / 10)) as M1. pose proof (Rmin_r d1 (eps / 10)) as M2. assert (M0 : 0 < Rmin d1 (eps / 10)) by (apply Rmin_pos; lra). set (a := Rmin d1 (eps / 10)) in *.
      destruct (consistent_rests comps0 b rb D A cl ch el eh cl' ch' el' eh' T_low T_top V_hi v_hi rho rv q mg x y Hfl Hd Hrb Hn Hss HD HC HP0 O1 O2 O3 O4 HQ Hmg Hxy Hbb HB res kept comps (mkConvTol a a) ts s' ltac:(cbn; lra) ltac:(cbn; lra) Ws HG Cs) as (vs & RS).
      pose proof (AGR comps SB (mixed_less _ _ Ua _ HCd ltac:(lra)) tol (mkConvTol a a) e w 0 0 ts h en _ Ht ltac:(cbn; lra) He Hw ltac:(lra) ltac:(lra) HStp Hh Hen RS) as Z.
      cbn [en_state ct_abs] in Z. lra. }
    exists s. split; [exact W|]. split; [apply step_spec; [exact SB|exact CS]|]. split.
    - intros s' Ws Cs. apply (spec_step comps ts s' SB Ws) in Cs.
      assert (Z : tdist (s_temp s') (s_temp s) <= 0).
      { apply le_epsilon. intros eps He'. pose proof (Rmin_l d1 (eps / 10)) as M1. pose proof (Rmin_r d1 (eps / 10)) as M2. assert (M0 : 0 < Rmin d1 (eps / 10)) by (apply Rmin_pos; lra). set (a := Rmin d1 (eps / 10)) in *.
        destruct (consistent_rests comps0 b rb D A cl ch el eh cl' ch' el' eh' T_low T_top V_hi v_hi rho rv q mg x y Hfl Hd Hrb Hn Hss HD HC HP0 O1 O2 O3 O4 HQ Hmg Hxy Hbb HB res kept comps (mkConvTol a a) ts s' ltac:(cbn; lra) ltac:(cbn; lra) Ws HG Cs) as (vs & RS).
        pose proof (near (mkConvTol a a) 0 0 _ ltac:(cbn; lra) ltac:(lra) ltac:(lra) RS s W CS) as Z. cbn [en_state ct_abs] in Z. lra. }
      destruct (within_sym b A s' Ws) as (X1 & X2). destruct (within_sym b A s W) as (Y1 & Y2). destruct (tdist_parts (s_temp s') (s_temp s)) as (P1 & P2 & P3 & P4 & P5).
      assert (ZE : forall u v, Rabs (u - v) <= tdist (s_temp s') (s_temp s) -> u = v) by (intros u v Huv; assert (Q : Rabs (u - v) <= 0) by lra; apply abs_le_iff in Q; lra).
      apply ZE in P1, P2, P3, P4, P5. clear - X1 X2 Y1 Y2 P1 P2 P3 P4 P5.
      destruct (s_temp s') as [t1 t2 [t3 t4 t5] t6 t7], (s_temp s) as [v1 v2 [v3 v4 v5] v6 v7]. cbn in *. congruence.
    - intros tol' TA TR. destruct (RUN tol' (ct_abs tol') TA TR TA) as (t0 & m & T0 & RUN1). exists t0, m. split; [exact T0|].
      intros tol ta tr. destruct (RUN1 tol ta tr) as (e0 & n & E0 & W0 & EW & RUN2). exists e0, n. split; [exact E0|].
      intros E settings ode Hto Hti Hpt HSv Hni Hou.
      assert (Sv : serves comps0 b rb D A cl' ch' el' eh' E settings h e0).
      { unfold h. rewrite <- Hpt. apply SV; [exact HSv|rewrite Hpt; exact R2|rewrite Hpt; exact H1]. }
      destruct (RUN2 E comps fl inputs settings h SB (mixed_less _ _ Ua _ HCd ltac:(lra)) Hst Hto Hti Sv Hh Hni Hou) as (_ & k & en & K1 & K2 & K3).
      rewrite Hpt in K3. fold tau in K3. rewrite ET in K3. exists k, en. split; [exact K1|]. split; [exact K2|]. split; [exact (proj1 K3)|]. intros Ht1.
      pose proof (near tol' e0 _ en ltac:(lra) ltac:(lra) W0 K3 s W CS) as Z.
      destruct (tdist_parts (s_temp (en_state en)) (s_temp s)) as (P1 & P2 & P3 & P4 & P5). unfold temperatures_within. repeat split; lra.
  Qed.
  (** Euler's method with enough steps *)
  Theorem consistent_euler : exists U t1, 0 < U /\ 0 < t1 /\
    forall (comps : Components R) (fl : Fluid R) (inputs : RunInputs R) (points : N),
    let h := ru_period rb / IZR (Z.of_N (N.pred points)) in let ts := even_times (ru_period rb) points in
    same_build comps0 comps -> mixed comps U kept ->
    State_new_hint comps fl inputs = Ret b -> (2 <= points)%N -> / 10 ^ 14 < h -> h < (y - x) / 2 ->
    exists s, approaches_within b A s /\ self_consistent D comps T_low ts s /\
    (forall s', approaches_within b A s' -> self_consistent D comps T_low ts s' -> s_temp s' = s_temp s) /\
    forall tol', 0 < ct_abs tol' -> 0 < ct_rel tol' -> exists t0 m, 0 < t0 /\
    forall tol, 0 < ct_abs tol <= t0 -> 0 < ct_rel tol -> exists n N0,
    forall (N : nat) (settings : RunSettings R), (N0 <= N)%nat ->
    lt_outer (rs_loop_tol settings) = tol' -> lt_inner (rs_loop_tol settings) = tol -> rs_resolution settings = points ->
    (n < N.to_nat (mi_inner (rs_max_iters settings)))%nat -> (m <= N.to_nat (mi_outer (rs_max_iters settings)))%nat ->
    exists k en, Engine_run_counted (euler_env N) D comps fl inputs settings = (k, Ret (Ok en)) /\ (k <= m * (n + 2))%nat /\
      approaches_within b A (en_state en) /\ (ct_abs tol' <= t1 -> temperatures_within (11 * ct_abs tol') (s_temp (en_state en)) (s_temp s)).
  Proof.
    destruct consistent_solver as (U & t1 & d & L & B & U0 & T1 & D0 & L0 & B0 & HU). exists U, t1. split; [exact U0|]. split; [exact T1|].
    intros comps fl inputs points h ts SB HCd Hst R2 H1 H2.
    destruct (HU comps fl inputs points SB HCd Hst R2 H1 H2) as (s & W & SC & UQ & HT). exists s. split; [exact W|]. split; [exact SC|]. split; [exact UQ|].
    intros tol' TA TR. destruct (HT tol' TA TR) as (t0 & m & T0 & HT1). exists t0, m. split; [exact T0|].
    intros tol ta tr. destruct (HT1 tol ta tr) as (e0 & n & E0 & HT2).
    assert (H0 : 0 < H) by (pose proof (period_pos comps0 b rb Hd Hrb); pose proof eps_pos; unfold H; lra).
    destruct (euler_keeps H d L B e0 H0 D0 L0 B0 E0) as (N0 & HE). exists n, N0.
    intros N settings HN0 Hto Hti Hpt Hni Hou. apply (HT2 (euler_env N) settings Hto Hti Hpt); try assumption. apply HE, HN0.
  Qed.
End Runs.
