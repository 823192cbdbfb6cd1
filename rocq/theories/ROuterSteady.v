(** * Runs approach the steady state of the engine *)
From Coq Require Import ZArith NArith List Reals Lra Lia.
From Verif Require Import Num ModelTypes ModelWs ModelHx ModelStateEq ModelEngine ModelApi RNum Spec SpecLoop SpecR SpecGas
  SpecKin SpecTraj SpecLaws SpecUnique SpecExist SpecDepend SpecSeries SpecQuad SpecReport SpecSpaces SpecBounds SpecSteady SpecContract
  SpecSample SpecGlobal SpecSearch SpecConverge SpecAccurate SpecSolver SpecApi SpecMeans SpecPush SpecEffective SpecMixed SpecOuter Fixture PolySolve PolyLoop PolyPanic PolyRun PolyReport RSolve RGauss RFluid RKin RPeriod RSeries
  RPicard RLocal RExist RStart RCase4 RDepend RBounds RSteady RQuad RSample RSampleReport RMotion RSampleCase RSearchCase RGlobal RGlobalReport RContract RContractEngine RSettle RSearch RConverge RAccurate RMeans
  RReturned RApproach RConsistent RPush RFlowBound RFollow REffective RFamily REuler RSolver RSolverRun RTame RUniform RVaryRun RShadow RApart RMixed ROuter RClosing ROuterLimit ROuterExact ROuterMean.
Import ListNotations.
Local Open Scope R_scope.

Section Runs.
  Variables (comps0 : Components R) (b : State R) (rb : Run R) (D : Decomp R) (A cl ch el eh cl' ch' el' eh' T_low T_top V_hi v_hi rho rv q mg x y : R).
  Hypothesis Hfl : s_fluid b = IdealGas_Fluid he.
  Hypothesis Hd : driven (co_ws comps0).
  Hypothesis Hrb : Run_new comps0 b = Ret rb.
  Hypothesis Hn : te_sink (s_temp b) + te_source (s_temp b) <> 500.
  Hypothesis Hss : 0 < te_sink (s_temp b) < te_source (s_temp b).
  Hypothesis Him : s_regen_imbalance b = 0.
  Hypothesis HD : sound D.
  Hypothesis HC : complete D.
  Hypothesis HP0 : 0 < pr_t_zero (s_pres b).
  Hypothesis HA : 0 < A.
  Hypothesis O1 : 0 < cl' < cl.
  Hypothesis O2 : ch < ch'.
  Hypothesis O3 : 0 < el' < el.
  Hypothesis O4 : eh < eh'.
  Hypothesis HQ : q < 1.
  Hypothesis Hmg : 0 < mg.
  Hypothesis Hxy : 0 <= x < y.
  Hypothesis Hbb : approaches_within b A b.
  Hypothesis HB : forall s, approaches_within b A s -> exists r, Run_new comps0 s = Ret r /\
    settles_between r cl ch el eh cl' ch' el' eh' T_low T_top V_hi v_hi rho rv q mg /\
    y <= ru_period r /\ forall t, x < t < y -> pushes_at r t.
  Variable kept : R.
  Hypothesis Hk : small_approach kept (te_sink (s_temp b)) (te_source (s_temp b)).
  Hypothesis HkA : kept <= A.
  Let H := ru_period rb + / 10 ^ 14.
  Let tau := ru_period rb.
  Let per_of s r (M : member comps0 b cl ch el eh cl' ch' el' eh' T_low T_top V_hi v_hi rho rv q mg s r) : ru_period r = ru_period rb :=
    member_period comps0 b rb cl ch el eh cl' ch' el' eh' T_low T_top V_hi v_hi rho rv q mg Hd (member_b comps0 b rb A cl ch el eh cl' ch' el' eh' T_low T_top V_hi v_hi rho rv q mg x y Hfl Hd Hrb Hn Hbb HB) s r M.
  Lemma grid_of points : (2 <= points)%N -> grid_to (even_times (ru_period rb) points) (ru_period rb) /\
    steps_within (ru_period rb / IZR (Z.of_N (N.pred points))) (even_times (ru_period rb) points).
  Proof.
    intros R2. pose proof (period_pos comps0 b rb Hd Hrb) as TP. rewrite <- (even_is (ru_period rb) points R2). unfold sample_times.
    replace (IZR (Z.of_N (N.pred points))) with (INR (N.to_nat (N.pred points))) by (rewrite INR_IZR_INZ; f_equal; lia).
    split; [apply even_grid; [exact TP|lia]|]. apply even_steps. left. apply Rdiv_lt_0_compat; [exact TP|]. apply lt_0_INR. lia.
  Qed.
  Lemma steady_step comps U res s : (forall p, ws_thermal_resistance (co_ws comps0) p = Ret res) -> same_build comps0 comps -> 0 < U -> mixed comps U kept ->
    approaches_within b A s -> steady_state D comps T_low s -> mean_step comps0 b rb D cl ch el eh cl' ch' el' eh' T_low T_top V_hi v_hi rho rv q mg res comps s (s_temp s).
  Proof.
    intros HR SB U0 HMx W (r & c & sol & res' & M & a_k & a_r & a_l & Hr & SC & WT & CP & HS & Hre & HM & A1 & A2 & A3 & FT).
    rewrite (same_run comps0 comps s SB) in Hr. pose proof SB as (EW & _). rewrite EW, HR in Hre. injection Hre as <-.
    destruct (member_of comps0 b rb A cl ch el eh cl' ch' el' eh' T_low T_top V_hi v_hi rho rv q mg x y Hfl Hd Hrb Hn HB s W) as (r' & Mr & _). assert (r' = r) as -> by (destruct Mr as (_ & Hr' & _); congruence).
    pose proof (per_of s r Mr) as EP. rewrite EP in HS, HM.
    pose proof (mean_flows comps0 b rb D A cl ch el eh cl' ch' el' eh' T_low T_top V_hi v_hi rho rv q mg x y Hfl Hd Hrb Hn HD Hxy HB res s r c sol M W Mr SC HS HM) as (M1 & M2 & M3).
    pose proof Mr as (Hf & _ & _ & HP & _). destruct (mixed_laws comps U kept U0 HMx) as (g_k & g_r & g_l & HCd). pose proof (steady_mixed comps s M U kept g_k g_r g_l Hf M1 M2 M3 HCd) as SA. pose proof SA as ((K1 & _) & (R1 & _) & (L1 & _)).
    rewrite A1 in K1. rewrite A2 in R1. rewrite A3 in L1. injection K1 as K1. injection R1 as R1. injection L1 as L1. rewrite <- K1, <- R1, <- L1 in SA.
    destruct (within_sym b A s W) as (E1 & E2). pose proof W as (_ & _ & E3 & _). cbv zeta in FT. rewrite E1, E2, E3, Him in FT.
    exists r, c, sol, M, a_k, a_r, a_l. split; [|exact FT]. rewrite HP in CP. repeat (split; [assumption|]). exact SA.
  Qed.
  Lemma step_steady comps res s : (forall p, ws_thermal_resistance (co_ws comps0) p = Ret res) -> same_build comps0 comps ->
    approaches_within b A s -> mean_step comps0 b rb D cl ch el eh cl' ch' el' eh' T_low T_top V_hi v_hi rho rv q mg res comps s (s_temp s) -> steady_state D comps T_low s.
  Proof.
    intros HR SB W (r & c & sol & M & a_k & a_r & a_l & (Mr & SC & WT & CP & HS & HM & ((K1 & _) & (R1 & _) & (L1 & _))) & FT).
    pose proof SB as (EW & _). pose proof (per_of s r Mr) as EP. pose proof Mr as (_ & Hr & _ & HP & _).
    destruct (within_sym b A s W) as (E1 & E2). pose proof W as (_ & _ & E3 & _).
    exists r, c, sol, res, M, a_k, a_r, a_l. split; [rewrite (same_run comps0 comps s SB); exact Hr|]. split; [exact SC|]. split; [exact WT|]. split; [rewrite HP; exact CP|].
    rewrite EP. split; [exact HS|]. split; [rewrite EW; apply HR|]. split; [exact HM|]. cbv zeta. rewrite E1, E2, E3, Him. rewrite E1 in K1. rewrite E2 in L1. auto.
  Qed.
  Theorem steady_solver : exists U t1 d L B, 0 < U /\ 0 < t1 /\ 0 < d /\ 0 <= L /\ 0 <= B /\
    forall (comps : Components R) (fl : Fluid R) (inputs : RunInputs R),
    same_build comps0 comps -> mixed comps U kept -> State_new_hint comps fl inputs = Ret b ->
    exists s, approaches_within b A s /\ steady_state D comps T_low s /\
    (forall s', approaches_within b A s' -> steady_state D comps T_low s' -> s_temp s' = s_temp s) /\
    forall eps, 0 < eps -> exists h0, 0 < h0 /\ forall points : N, let h := ru_period rb / IZR (Z.of_N (N.pred points)) in
    (2 <= points)%N -> / 10 ^ 14 < h -> h <= h0 ->
    forall tol', 0 < ct_abs tol' -> 0 < ct_rel tol' -> exists t0 m, 0 < t0 /\
    forall tol, 0 < ct_abs tol <= t0 -> 0 < ct_rel tol -> exists e0 n, 0 < e0 /\
    forall (E : Env R) (settings : RunSettings R), let ode := rs_ode_tol settings in
    lt_outer (rs_loop_tol settings) = tol' -> lt_inner (rs_loop_tol settings) = tol -> rs_resolution settings = points ->
    solver_within E (ot_rel ode) (ot_abs ode) H d L B e0 ->
    (n < N.to_nat (mi_inner (rs_max_iters settings)))%nat -> (m <= N.to_nat (mi_outer (rs_max_iters settings)))%nat ->
    exists k en, Engine_run_counted E D comps fl inputs settings = (k, Ret (Ok en)) /\ (k <= m * (n + 2))%nat /\
      approaches_within b A (en_state en) /\ (ct_abs tol' <= t1 -> temperatures_within (11 * ct_abs tol' + eps) (s_temp (en_state en)) (s_temp s)).
  Proof.
    assert (HR : exists res, forall p, ws_thermal_resistance (co_ws comps0) p = Ret res).
    { pose proof Hd as [(dr & E & _)|(dr & E & _)]; rewrite E; eexists; intros p; reflexivity. }
    destruct HR as (res & HR).
    destruct (consistent_solver comps0 b rb D A cl ch el eh cl' ch' el' eh' T_low T_top V_hi v_hi rho rv q mg x y Hfl Hd Hrb Hn Hss Him HD HC HP0 HA O1 O2 O3 O4 HQ Hmg Hxy Hbb HB kept Hk HkA) as (Ua & t1 & d & L & B & Ua0 & T1 & D0 & L0 & B0 & CS).
    destruct (mean_one comps0 b rb D A cl ch el eh cl' ch' el' eh' T_low T_top V_hi v_hi rho rv q mg x y Hfl Hd Hrb Hn Hss Him HD HC HP0 HA O1 O2 O3 O4 HQ Hmg Hxy Hbb HB res HR kept Hk HkA) as (Ub & Ub0 & MO).
    pose proof (Rmax_l Ua Ub) as UL. pose proof (Rmax_r Ua Ub) as UR. set (U := Rmax Ua Ub) in *.
    exists U, t1, d, L, B. split; [lra|]. split; [exact T1|]. split; [exact D0|]. split; [exact L0|]. split; [exact B0|].
    intros comps fl inputs SB HCd Hst.
    destruct (MO comps SB (mixed_less _ _ Ub _ HCd ltac:(lra))) as (s & W & MS & UQ & LIM).
    exists s. split; [exact W|]. split; [exact (step_steady comps res s HR SB W MS)|]. split.
    { intros s' W' SS. apply (UQ s' W'). exact (steady_step comps U res s' HR SB ltac:(lra) HCd W' SS). }
    intros eps He. destruct (LIM eps He) as (h1 & H1 & LI). exists (Rmin h1 ((y - x) / 4)). pose proof (Rmin_l h1 ((y - x) / 4)) as M1. pose proof (Rmin_r h1 ((y - x) / 4)) as M2.
    split; [apply Rmin_pos; lra|]. intros points h R2 H2 H3 tol' TA TR. pose proof eps_pos as EP.
    destruct (CS comps fl inputs points SB (mixed_less _ _ Ua _ HCd ltac:(lra)) Hst R2 H2 ltac:(fold h; lra)) as (s' & W' & SC & _ & RUN).
    pose proof (grid_of points R2) as (HG & HStp).
    assert (Z : tdist (s_temp s') (s_temp s) <= eps).
    { apply (LI (even_times (ru_period rb) points) h s' HG); [exact HStp| | |exact W'|]; [fold h; lra..|].
      exact (spec_step comps0 b rb D A cl ch el eh cl' ch' el' eh' T_low T_top V_hi v_hi rho rv q mg x y Hfl Hd Hrb Hn HB comps _ s' SB W' SC). }
    destruct (RUN tol' TA TR) as (t0 & m & T0 & RUN1). exists t0, m. split; [exact T0|]. intros tol ta tr.
    destruct (RUN1 tol ta tr) as (e0 & n & E0 & RUN2). exists e0, n. split; [exact E0|]. intros E settings ode Hto Hti Hpt HSv Hni Hou.
    destruct (RUN2 E settings Hto Hti Hpt HSv Hni Hou) as (k & en & K1 & K2 & K3 & K4). exists k, en. split; [exact K1|]. split; [exact K2|]. split; [exact K3|].
    intros Ht1. destruct (K4 Ht1) as (X1 & X2 & X3 & X4 & X5). destruct (tdist_parts (s_temp s') (s_temp s)) as (P1 & P2 & P3 & P4 & P5).
    assert (TRI : forall u v w, Rabs (u - v) <= 11 * ct_abs tol' -> Rabs (v - w) <= tdist (s_temp s') (s_temp s) -> Rabs (u - w) <= 11 * ct_abs tol' + eps).
    { intros u v w G1 G2. apply abs_le_iff in G1, G2. apply abs_le_iff. lra. }
    split; [exact (TRI _ _ _ X1 P1)|]. split; [exact (TRI _ _ _ X2 P2)|]. split; [exact (TRI _ _ _ X3 P3)|]. split; [exact (TRI _ _ _ X4 P4)|exact (TRI _ _ _ X5 P5)].
  Qed.
  (** Euler's method with enough steps *)
  Theorem steady_euler : exists U t1, 0 < U /\ 0 < t1 /\
    forall (comps : Components R) (fl : Fluid R) (inputs : RunInputs R),
    same_build comps0 comps -> mixed comps U kept -> State_new_hint comps fl inputs = Ret b ->
    exists s, approaches_within b A s /\ steady_state D comps T_low s /\
    (forall s', approaches_within b A s' -> steady_state D comps T_low s' -> s_temp s' = s_temp s) /\
    forall eps, 0 < eps -> exists h0, 0 < h0 /\ forall points : N, let h := ru_period rb / IZR (Z.of_N (N.pred points)) in
    (2 <= points)%N -> / 10 ^ 14 < h -> h <= h0 ->
    forall tol', 0 < ct_abs tol' -> 0 < ct_rel tol' -> exists t0 m, 0 < t0 /\
    forall tol, 0 < ct_abs tol <= t0 -> 0 < ct_rel tol -> exists n N0,
    forall (N : nat) (settings : RunSettings R), (N0 <= N)%nat ->
    lt_outer (rs_loop_tol settings) = tol' -> lt_inner (rs_loop_tol settings) = tol -> rs_resolution settings = points ->
    (n < N.to_nat (mi_inner (rs_max_iters settings)))%nat -> (m <= N.to_nat (mi_outer (rs_max_iters settings)))%nat ->
    exists k en, Engine_run_counted (euler_env N) D comps fl inputs settings = (k, Ret (Ok en)) /\ (k <= m * (n + 2))%nat /\
      approaches_within b A (en_state en) /\ (ct_abs tol' <= t1 -> temperatures_within (11 * ct_abs tol' + eps) (s_temp (en_state en)) (s_temp s)).
  Proof.
    destruct steady_solver as (U & t1 & d & L & B & U0 & T1 & D0 & L0 & B0 & HU). exists U, t1. split; [exact U0|]. split; [exact T1|].
    intros comps fl inputs SB HCd Hst.
    destruct (HU comps fl inputs SB HCd Hst) as (s & W & SC & UQ & HT). exists s. split; [exact W|]. split; [exact SC|]. split; [exact UQ|].
    intros eps He. destruct (HT eps He) as (h0 & H0' & HT0). exists h0. split; [exact H0'|]. intros points h R2 H1 H2 tol' TA TR.
    destruct (HT0 points R2 H1 H2 tol' TA TR) as (t0 & m & T0 & HT1). exists t0, m. split; [exact T0|].
    intros tol ta tr. destruct (HT1 tol ta tr) as (e0 & n & E0 & HT2).
    assert (H0 : 0 < H) by (pose proof (period_pos comps0 b rb Hd Hrb); pose proof eps_pos; unfold H; lra).
    destruct (euler_keeps H d L B e0 H0 D0 L0 B0 E0) as (N0 & HE). exists n, N0.
    intros N settings HN0 Hto Hti Hpt Hni Hou. apply (HT2 (euler_env N) settings Hto Hti Hpt); try assumption. apply HE, HN0.
  Qed.
End Runs.
