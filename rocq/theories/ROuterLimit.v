(** * Runs approach one steady state as the tolerances shrink *)
From Coq Require Import ZArith NArith List Reals Lra Lia.
From Verif Require Import Num ModelTypes ModelWs ModelHx ModelStateEq ModelEngine ModelApi RNum Spec SpecLoop SpecR SpecGas
  SpecKin SpecTraj SpecLaws SpecUnique SpecExist SpecDepend SpecSeries SpecQuad SpecReport SpecSpaces SpecBounds SpecSteady SpecContract
  SpecSample SpecGlobal SpecSearch SpecConverge SpecAccurate SpecSolver SpecApi SpecMeans SpecPush SpecEffective SpecMixed SpecOuter Fixture PolySolve PolyLoop PolyPanic PolyRun PolyReport RSolve RGauss RFluid RKin RPeriod RSeries
  RPicard RLocal RExist RStart RCase4 RDepend RBounds RSteady RQuad RSample RSampleReport RMotion RSampleCase RSearchCase RGlobal RGlobalReport RContract RContractEngine RSettle RSearch RConverge RAccurate RMeans
  RReturned RApproach RConsistent RPush RFlowBound RFollow REffective RFamily REuler RSolver RSolverRun RTame RUniform RVaryRun RShadow RApart RMixed ROuter RClosing.
Import ListNotations.
Local Open Scope R_scope.

Lemma temperatures_closing_in (S : R -> Temperatures R -> Prop) d c : 0 < d -> 0 <= c -> (forall a, 0 < a <= d -> exists T, S a T) ->
  (forall a a' T, a <= a' -> S a T -> S a' T) ->
  (forall a a' T T', 0 < a <= d -> 0 < a' <= d -> S a T -> S a' T' -> tdist T T' <= c * (a + a')) ->
  exists L, forall a T, 0 < a <= d -> S a T -> temperatures_within (c * a) T L.
Proof.
  intros D0 C0 HE HM HA.
  assert (one : forall f : Temperatures R -> R, (forall T T', Rabs (f T - f T') <= tdist T T') -> exists l, forall a T, 0 < a <= d -> S a T -> Rabs (f T - l) <= c * a).
  { intros f Hf. destruct (closing_in (fun a v => exists T, S a T /\ v = f T) d c D0 C0) as (l & Hl).
    - intros a Ha. destruct (HE a Ha) as (T & HT). exists (f T), T. auto.
    - intros a a' v Ha (T & HT & ->). exists T. split; [exact (HM a a' T Ha HT)|reflexivity].
    - intros a a' v v' Ha Ha' (T & HT & ->) (T' & HT' & ->). apply Rle_trans with (1 := Hf T T'). exact (HA a a' T T' Ha Ha' HT HT').
    - exists l. intros a T Ha HT. apply (Hl a (f T) Ha). exists T. auto. }
  pose proof tdist_parts as TP.
  destruct (one (fun T => te_chx T) (fun T T' => proj1 (TP T T'))) as (l1 & H1).
  destruct (one (fun T => te_hhx T) (fun T T' => proj1 (proj2 (TP T T')))) as (l2 & H2).
  destruct (one (fun T => rt_cold (te_regen T)) (fun T T' => proj1 (proj2 (proj2 (TP T T'))))) as (l3 & H3).
  destruct (one (fun T => rt_avg (te_regen T)) (fun T T' => proj1 (proj2 (proj2 (proj2 (TP T T')))))) as (l4 & H4).
  destruct (one (fun T => rt_hot (te_regen T)) (fun T T' => proj2 (proj2 (proj2 (proj2 (TP T T')))))) as (l5 & H5).
  exists (mkTemps l1 l1 (mkRegenTemp l3 l4 l5) l2 l2). intros a T Ha HT. unfold temperatures_within. cbn.
  split; [exact (H1 a T Ha HT)|]. split; [exact (H2 a T Ha HT)|]. split; [exact (H3 a T Ha HT)|]. split; [exact (H4 a T Ha HT)|exact (H5 a T Ha HT)].
Qed.

Section Runs.
  Variables (comps0 : Components R) (b : State R) (rb : Run R) (D : Decomp R) (A cl ch el eh cl' ch' el' eh' T_low T_top V_hi v_hi rho rv q mg x y : R).
  Hypothesis Hfl : s_fluid b = IdealGas_Fluid he.
  Hypothesis Hd : driven (co_ws comps0).
  Hypothesis Hrb : Run_new comps0 b = Ret rb.
  Hypothesis Hn : te_sink (s_temp b) + te_source (s_temp b) <> 500.
  Hypothesis Hss : 0 < te_sink (s_temp b) < te_source (s_temp b).
  Hypothesis Him : s_regen_imbalance b = 0.
  Hypothesis HD : sound D.
  Hypothesis HC : complete D.
  Hypothesis HP0 : 0 < pr_t_zero (s_pres b).
  Hypothesis HA : 0 < A.
  Hypothesis O1 : 0 < cl' < cl.
  Hypothesis O2 : ch < ch'.
  Hypothesis O3 : 0 < el' < el.
  Hypothesis O4 : eh < eh'.
  Hypothesis HQ : q < 1.
  Hypothesis Hmg : 0 < mg.
  Hypothesis Hxy : 0 <= x < y.
  Hypothesis Hbb : approaches_within b A b.
  Hypothesis HB : forall s, approaches_within b A s -> exists r, Run_new comps0 s = Ret r /\
    settles_between r cl ch el eh cl' ch' el' eh' T_low T_top V_hi v_hi rho rv q mg /\
    y <= ru_period r /\ forall t, x < t < y -> pushes_at r t.
  Variable kept : R.
  Hypothesis Hk : small_approach kept (te_sink (s_temp b)) (te_source (s_temp b)).
  Hypothesis HkA : kept <= A.
  Let H := ru_period rb + / 10 ^ 14.
  Let tau := ru_period rb.
  Lemma solver_serves : exists d L B, 0 < d /\ 0 <= L /\ 0 <= B /\
    forall (E : Env R) (settings : RunSettings R) (e : R), let ode := rs_ode_tol settings in
    let h := tau / IZR (Z.of_N (N.pred (rs_resolution settings))) in
    solver_within E (ot_rel ode) (ot_abs ode) H d L B e -> (2 <= rs_resolution settings)%N -> / 10 ^ 14 < h ->
    serves comps0 b rb D A cl' ch' el' eh' E settings h e.
  Proof.
    destruct (HB b Hbb) as (r0 & Hr0 & Hs0 & _). assert (r0 = rb) by congruence. subst r0.
    pose proof (period_pos comps0 b rb Hd Hrb) as TP. pose proof eps_pos as EP.
    destruct (driven_motion comps0 b rb 0 H Hd Hrb) as (M' & C1 & C2).
    pose proof (Rle_abs M') as MA. pose proof (Rabs_pos M') as M0. set (M := Rabs M') in *.
    apply (changes_weaken _ _ _ _ _ MA) in C1, C2.
    set (Vf := ru_vol_chx rb + ru_vol_regen rb + ru_vol_hhx rb).
    pose proof Hs0 as (HX & VC & VE & HS & _ & N1 & N2 & N3 & N4 & I1 & I2 & I3 & I4 & I5). pose proof HS as (_ & _ & _ & _ & L3 & _ & _ & L6 & L7 & _).
    assert (T0 : 0 < T_top) by (pose proof nil_pos; lra).
    assert (V0 : 0 < Vf).
    { destruct (Rlt_le_dec 0 Vf) as [L|L]; [exact L|]. exfalso. unfold Vf in L. unfold fixed_ratio in L6. destruct HX as (_ & _ & _ & X1 & X2 & X3).
      assert (Z1 : ru_vol_chx rb = 0) by lra. assert (Z2 : ru_vol_regen rb = 0) by lra. assert (Z3 : ru_vol_hhx rb = 0) by lra.
      rewrite Z1, Z2, Z3 in L6. unfold Rdiv in L6. lra. }
    assert (v0 : 0 <= v_hi).
    { destruct (L7 0 ltac:(lra)) as (_ & _ & B & _). apply Rle_trans with (2 := B), Rabs_pos. }
    assert (CH : 0 < ch' /\ 0 < eh').
    { destruct (VC 0) as (A1 & A2), (VE 0) as (B1 & B2). specialize (A2 0 ltac:(lra)). specialize (B2 0 ltac:(lra)). lra. }
    destruct (promise_evenly D cl ch el eh cl' ch' el' eh' T_low T_top V_hi v_hi rho rv q mg (pr_t_zero (s_pres b)) Vf M HD HC HP0 O1 O2 O3 O4 Hmg L3 T0 CH v0 V0 M0)
      as (L & B & L0 & B0 & HL).
    exists (Rmin mg (least_P cl' ch' el' eh' T_low T_top (pr_t_zero (s_pres b)) / 2)), L, B.
    split; [apply (m_pos cl) with (el := el); assumption|]. split; [exact L0|]. split; [exact B0|].
    intros E settings e ode h HSv R2 H1 s r Hs Hr. destruct (HB s Hs) as (r' & Hr' & Hs' & _). assert (r' = r) by congruence. subst r'.
    destruct (same_motion comps0 b rb s r Hd Hrb Hr) as (EP1 & EV). destruct (run_volumes comps0 b rb s r Hrb Hr) as (E1 & E2 & E3).
    destruct (within_sym b A s Hs) as (S4 & S5). pose proof Hs as (S1 & S2 & _).
    assert (PR : forall tol n e, let h := ru_period r / IZR (Z.of_N (N.pred n)) in (2 <= n)%N -> / 10 ^ 14 < h ->
      solver_within E (ot_rel tol) (ot_abs tol) H (Rmin mg (least_P cl' ch' el' eh' T_low T_top (pr_t_zero (s_pres b)) / 2)) L B e ->
      accurate E D r (within_levels r (pr_t_zero (s_pres b)) cl' ch' el' eh') tol n h e /\
      forall ic pts, within_levels r (pr_t_zero (s_pres b)) cl' ch' el' eh' ic -> try_from E D (Run_Cycle r) ic n tol = Ret (Ok pts) -> map (@pt_time R) pts = sample_times (ru_period r) n).
    { intros tol0 n0 e' h0 A1 A2 A3. unfold H in *. rewrite <- EP1 in A3, C1, C2. rewrite <- EV in C1, C2.
      apply (HL comps0 s r ltac:(congruence) Hd Hr ltac:(rewrite S4, S5; exact Hn) S2 Hs' ltac:(unfold Vf; lra) C1 C2 E tol0 n0 e' A1 A2 A3). }
    assert (I0 : 1 <= IZR (Z.of_N (N.pred (rs_resolution settings)))) by (apply IZR_le; lia).
    assert (HT : h <= ru_period r).
    { unfold h, tau. rewrite <- EP1. rewrite <- EP1 in TP. apply (Rmult_le_reg_r (IZR (Z.of_N (N.pred (rs_resolution settings))))); [lra|]. unfold Rdiv.
      rewrite Rmult_assoc, Rinv_l, Rmult_1_r by lra. rewrite <- (Rmult_1_r (ru_period r)) at 1. apply Rmult_le_compat_l; lra. }
    split.
    - replace (ru_period r) with (ru_period r / IZR (Z.of_N (N.pred 2))) at 1 by (cbn; field).
      apply (PR ode 2%N e); [lia| |exact HSv]. replace (ru_period r / IZR (Z.of_N (N.pred 2))) with (ru_period r) by (cbn; field). lra.
    - unfold h, tau in H1 |- *. rewrite <- EP1 in H1 |- *. exact (PR ode (rs_resolution settings) e R2 H1 HSv).
  Qed.
  Theorem limit_solver : exists U t1 d L B, 0 < U /\ 0 < t1 /\ 0 < d /\ 0 <= L /\ 0 <= B /\
    forall (comps : Components R) (fl : Fluid R) (inputs : RunInputs R) (points : N),
    let h := ru_period rb / IZR (Z.of_N (N.pred points)) in
    same_build comps0 comps -> mixed comps U kept ->
    State_new_hint comps fl inputs = Ret b -> (2 <= points)%N -> / 10 ^ 14 < h -> h < (y - x) / 2 ->
    exists T : Temperatures R, forall tol', 0 < ct_abs tol' -> 0 < ct_rel tol' -> exists t0 m, 0 < t0 /\
    forall tol, 0 < ct_abs tol <= t0 -> 0 < ct_rel tol -> exists e0 n, 0 < e0 /\
    forall (E : Env R) (settings : RunSettings R), let ode := rs_ode_tol settings in
    lt_outer (rs_loop_tol settings) = tol' -> lt_inner (rs_loop_tol settings) = tol -> rs_resolution settings = points ->
    solver_within E (ot_rel ode) (ot_abs ode) H d L B e0 ->
    (n < N.to_nat (mi_inner (rs_max_iters settings)))%nat -> (m <= N.to_nat (mi_outer (rs_max_iters settings)))%nat ->
    exists k en, Engine_run_counted E D comps fl inputs settings = (k, Ret (Ok en)) /\ (k <= m * (n + 2))%nat /\
      approaches_within b A (en_state en) /\ (ct_abs tol' <= t1 -> temperatures_within (11 * ct_abs tol') (s_temp (en_state en)) T).
  Proof.
    assert (HR : exists res, forall p, ws_thermal_resistance (co_ws comps0) p = Ret res).
    { destruct Hd as [(dr & -> & _)|(dr & -> & _)]; eexists; intros p; reflexivity. }
    destruct HR as (res & HR).
    destruct (contracting_run comps0 b rb D A cl ch el eh cl' ch' el' eh' T_low T_top V_hi v_hi rho rv q mg x y Hfl Hd Hrb Hn Hss Him HD HC HP0 HA O1 O2 O3 O4 HQ Hmg Hxy Hbb HB res HR kept Hk HkA)
      as (U & d1 & U0 & D1 & RUN & AGR).
    destruct solver_serves as (d & L & B & D0 & L0 & B0 & SV).
    exists U, d1, d, L, B. split; [exact U0|]. split; [exact D1|]. split; [exact D0|]. split; [exact L0|]. split; [exact B0|].
    intros comps fl inputs points h SB HCd Hst R2 H1 H2. pose proof eps_pos as EP.
    assert (Hh : 0 <= h < (y - x) / 2) by lra.
    assert (H0 : 0 < H) by (pose proof (period_pos comps0 b rb Hd Hrb); unfold H; lra).
    set (ts := sample_times tau points).
    set (rst := rests comps0 b rb D A cl ch el eh cl' ch' el' eh' T_low T_top V_hi v_hi rho rv q mg comps) in *.
    set (un := unsteady T_low q) in *.
    set (S := fun a T => exists tol e w en, 0 < ct_abs tol <= a /\ 0 <= e /\ 0 <= w /\ e + w <= a /\ steps_within h ts /\ rst tol e w ts en /\ T = s_temp (en_state en)).
    destruct (temperatures_closing_in S d1 11 D1 ltac:(lra)) as (T & HT).
    - intros a Ha. set (tol' := mkConvTol a a). destruct (RUN tol' a ltac:(cbn; lra) ltac:(cbn; lra) ltac:(lra)) as (t0 & m & T0 & RUN1).
      destruct (RUN1 (mkConvTol t0 t0) ltac:(cbn; lra) ltac:(cbn; lra)) as (e0 & n & E0 & W0 & EW & RUN2).
      destruct (euler_keeps H d L B e0 H0 D0 L0 B0 E0) as (N0 & HE).
      set (settings := mkRunSettings points (mkLoopTol (mkConvTol t0 t0) tol') (mkOdeTol 1 1) (mkMaxIters (N.of_nat (n + 1)) (N.of_nat m))).
      destruct (RUN2 (euler_env N0) comps fl inputs settings h SB HCd Hst eq_refl eq_refl) as (HStp & k & en & _ & _ & HRs).
      + apply (SV (euler_env N0) settings e0); [apply HE; lia|exact R2|exact H1].
      + exact Hh.
      + cbn. rewrite Nat2N.id. lia.
      + cbn. rewrite Nat2N.id. lia.
      + exists (s_temp (en_state en)), tol', e0, (un e0 (mkConvTol t0 t0)), en. split; [cbn; lra|]. split; [lra|]. split; [exact W0|]. split; [exact EW|]. split; [exact HStp|]. split; [exact HRs|reflexivity].
    - intros a a' T Ha (tol & e & w & en & A1 & A2 & A3 & A4 & A5). exists tol, e, w, en. split; [lra|]. split; [exact A2|]. split; [exact A3|]. split; [lra|exact A5].
    - intros a a' T T' Ha Ha' (tol & e & w & en & A1 & A2 & A3 & A4 & A5 & A6 & ->) (tol2 & e2 & w2 & en2 & B1 & B2 & B3 & B4 & B5 & B6 & ->).
      pose proof (AGR comps SB HCd tol tol2 e w e2 w2 ts h en en2 ltac:(lra) ltac:(lra) A2 A3 B2 B3 A5 Hh A6 B6) as Z. lra.
    - exists T. intros tol' TA TR. destruct (RUN tol' (ct_abs tol') TA TR TA) as (t0 & m & T0 & RUN1). exists t0, m. split; [exact T0|].
      intros tol ta tr. destruct (RUN1 tol ta tr) as (e0 & n & E0 & W0 & EW & RUN2). exists e0, n. split; [exact E0|].
      intros E settings ode Hto Hti Hpt HSv Hni Hou.
      assert (Sv : serves comps0 b rb D A cl' ch' el' eh' E settings h e0).
      { unfold h. rewrite <- Hpt. apply SV; [exact HSv|rewrite Hpt; exact R2|rewrite Hpt; exact H1]. }
      destruct (RUN2 E comps fl inputs settings h SB HCd Hst Hto Hti Sv Hh Hni Hou) as (HStp & k & en & K1 & K2 & K3).
      rewrite Hpt in HStp, K3. exists k, en. split; [exact K1|]. split; [exact K2|]. split; [exact (proj1 K3)|]. intros Ht1.
      apply HT; [lra|]. exists tol', e0, (un e0 tol), en. split; [lra|]. split; [lra|]. split; [exact W0|]. split; [exact EW|]. split; [exact HStp|]. split; [exact K3|reflexivity].
  Qed.
  (** Euler's method with enough steps *)
  Theorem limit_euler : exists U t1, 0 < U /\ 0 < t1 /\
    forall (comps : Components R) (fl : Fluid R) (inputs : RunInputs R) (points : N),
    let h := ru_period rb / IZR (Z.of_N (N.pred points)) in
    same_build comps0 comps -> mixed comps U kept ->
    State_new_hint comps fl inputs = Ret b -> (2 <= points)%N -> / 10 ^ 14 < h -> h < (y - x) / 2 ->
    exists T : Temperatures R, forall tol', 0 < ct_abs tol' -> 0 < ct_rel tol' -> exists t0 m, 0 < t0 /\
    forall tol, 0 < ct_abs tol <= t0 -> 0 < ct_rel tol -> exists n N0,
    forall (N : nat) (settings : RunSettings R), (N0 <= N)%nat ->
    lt_outer (rs_loop_tol settings) = tol' -> lt_inner (rs_loop_tol settings) = tol -> rs_resolution settings = points ->
    (n < N.to_nat (mi_inner (rs_max_iters settings)))%nat -> (m <= N.to_nat (mi_outer (rs_max_iters settings)))%nat ->
    exists k en, Engine_run_counted (euler_env N) D comps fl inputs settings = (k, Ret (Ok en)) /\ (k <= m * (n + 2))%nat /\
      approaches_within b A (en_state en) /\ (ct_abs tol' <= t1 -> temperatures_within (11 * ct_abs tol') (s_temp (en_state en)) T).
  Proof.
    destruct limit_solver as (U & t1 & d & L & B & U0 & T1 & D0 & L0 & B0 & HU). exists U, t1. split; [exact U0|]. split; [exact T1|].
    intros comps fl inputs points h SB HCd Hst R2 H1 H2.
    destruct (HU comps fl inputs points SB HCd Hst R2 H1 H2) as (T & HT). exists T.
    intros tol' TA TR. destruct (HT tol' TA TR) as (t0 & m & T0 & HT1). exists t0, m. split; [exact T0|].
    intros tol ta tr. destruct (HT1 tol ta tr) as (e0 & n & E0 & HT2).
    assert (H0 : 0 < H) by (pose proof (period_pos comps0 b rb Hd Hrb); pose proof eps_pos; unfold H; lra).
    destruct (euler_keeps H d L B e0 H0 D0 L0 B0 E0) as (N0 & HE). exists n, N0.
    intros N settings HN0 Hto Hti Hpt Hni Hou. apply (HT2 (euler_env N) settings Hto Hti Hpt); try assumption. apply HE, HN0.
  Qed.
End Runs.
