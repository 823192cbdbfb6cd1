(** * The outer loop converges for engines with effective heat exchangers *)
From Coq Require Import ZArith NArith List Reals Lra Lia.
From Verif Require Import Num ModelTypes ModelWs ModelHx ModelStateEq ModelEngine ModelApi RNum Spec SpecLoop SpecR SpecGas
  SpecKin SpecTraj SpecLaws SpecUnique SpecExist SpecDepend SpecSeries SpecQuad SpecReport SpecSpaces SpecBounds SpecSteady SpecContract
  SpecSample SpecGlobal SpecSearch SpecConverge SpecAccurate SpecApi SpecMeans SpecPush SpecEffective SpecMixed Fixture PolySolve PolyLoop PolyPanic PolyRun PolyReport RSolve RGauss RFluid RKin RPeriod RSeries
  RCase4 RDepend RBounds RSteady RSample RSampleReport RMotion RSampleCase RSearchCase RGlobal RGlobalReport RContractEngine RSettle RSearch RConverge RAccurate RMeans
  RReturned RApproach RConsistent RPush RFlowBound RFollow RMixed REffective.
Import ListNotations.
Local Open Scope R_scope.

(** ** Temperatures near each other are close *)
Lemma apart_close tol T_low : 0 < T_low -> 0 < ct_abs tol -> 0 < ct_rel tol -> exists w, 0 < w /\ forall T T',
  T_low <= te_chx T -> T_low <= te_hhx T -> T_low <= rt_cold (te_regen T) -> T_low <= rt_avg (te_regen T) -> T_low <= rt_hot (te_regen T) ->
  tdist T T' <= w -> temperatures_close tol T T'.
Proof.
  intros TL TA TR. exists (Rmin (ct_abs tol / 2) (ct_rel tol * T_low / 2)).
  assert (LM : 0 < ct_rel tol * T_low) by (apply Rmult_lt_0_compat; lra).
  split; [apply Rmin_pos; lra|]. intros T T' I1 I2 I3 I4 I5 H. pose proof (Rle_trans _ _ _ H (Rmin_l _ _)) as H1. pose proof (Rle_trans _ _ _ H (Rmin_r _ _)) as H2.
  destruct (tdist_parts T T') as (D1 & D2 & D3 & D4 & D5). set (d := tdist T T') in *.
  assert (Q : forall a a', T_low <= a -> Rabs (a - a') <= d -> close tol a a').
  { intros a a' Ha Hd'. rewrite Rabs_minus_sym in Hd'. split; apply R_lt_iff.
    - change (Rabs (a' - a) < ct_abs tol). lra.
    - change (Rabs ((a' - a) / a) < ct_rel tol). unfold Rdiv. rewrite Rabs_mult. rewrite (Rabs_pos_eq (/ a)) by (left; apply Rinv_0_lt_compat; lra).
      apply (Rmult_lt_reg_r a); [lra|]. rewrite Rmult_assoc, Rinv_l, Rmult_1_r by lra.
      apply Rle_lt_trans with (1 := Hd'). apply Rle_lt_trans with (1 := H2). apply Rlt_le_trans with (ct_rel tol * T_low); [lra|]. apply Rmult_le_compat_l; lra. }
  split; [apply Q; assumption|]. split; [apply Q; assumption|]. split; [apply Q; assumption|]. split; apply Q; assumption.
Qed.
(** the temperatures of perfect exchangers *)
Lemma perfect sink source : 0 < sink -> sink < source -> exists T, temperatures_follow sink source 0 0 0 0 T /\
  te_chx T = sink /\ te_hhx T = source /\ rt_cold (te_regen T) = sink /\ rt_hot (te_regen T) = source /\ 0 < rt_avg (te_regen T).
Proof.
  intros H0 H1. pose proof (temperatures_follow_intro sink source {| ap_chx := 0; ap_regen := 0; ap_hhx := 0 |} 0) as F. cbn [ap_chx ap_regen ap_hhx] in F.
  set (T := Temperatures_from_approach _ _ _ _) in F. exists T. split; [exact F|]. destruct F as (_ & _ & F1 & F2 & F3 & F4 & F5).
  assert (IM : n_le n0 (0 : R) = true) by (rewrite R_n0; cbn [n_le R_ops]; destruct (Rle_dec 0 0); [reflexivity|lra]).
  rewrite IM in F3, F4, F5. rewrite R_nhalf in F5. change (@n_add R R_ops) with Rplus in *. change (@n_sub R R_ops) with Rminus in *.
  change (@n_mul R R_ops) with Rmult in *. change (@n_div R R_ops) with Rdiv in *. change (@n_ln R R_ops) with ln in *.
  assert (E1 : te_chx T = sink) by lra. assert (E2 : te_hhx T = source) by lra. rewrite E1, E2 in *.
  split; [reflexivity|]. split; [reflexivity|]. split; [lra|]. split; [lra|]. rewrite F5.
  replace (source - / 2 * (0 + 0) - sink - / 2 * 0) with (source - sink) by field.
  replace (source - / 2 * (0 + 0)) with source by field. replace (sink + / 2 * 0) with sink by ring.
  apply Rdiv_lt_0_compat; [lra|]. rewrite <- ln_1. apply ln_increasing; [lra|]. apply (Rmult_lt_reg_r sink); [lra|].
  replace (source / sink * sink) with source by (field; lra). lra.
Qed.
Lemma same_run (comps comps' : Components R) (s : State R) : same_build comps comps' -> Run_new comps' s = Run_new comps s.
Proof. intros (E1 & E2 & E3 & E4). unfold Run_new. rewrite E1, E2, E3, E4. reflexivity. Qed.
Lemma run_volumes (comps : Components R) (s : State R) (r : Run R) (s' : State R) (r' : Run R) : Run_new comps s = Ret r -> Run_new comps s' = Ret r' ->
  ru_vol_chx r' = ru_vol_chx r /\ ru_vol_regen r' = ru_vol_regen r /\ ru_vol_hhx r' = ru_vol_hhx r.
Proof.
  unfold Run_new. intros H H'. destruct (ex_volume (co_chx comps)) as [v1|]; [|discriminate H]. destruct (ex_volume (co_regen comps)) as [v2|]; [|discriminate H].
  destruct (ex_volume (co_hhx comps)) as [v3|]; [|discriminate H]. cbn [obind] in H, H'.
  destruct (ws_frequency (co_ws comps) (State_ws s)); [|discriminate H]. cbn [obind] in H.
  destruct (ws_volumes (co_ws comps) (State_ws s)); [|discriminate H]. cbn [obind] in H.
  destruct (ws_parasitics (co_ws comps) (State_ws s)); [|discriminate H]. cbn [obind] in H. injection H as <-.
  destruct (ws_frequency (co_ws comps) (State_ws s')); [|discriminate H']. cbn [obind] in H'.
  destruct (ws_volumes (co_ws comps) (State_ws s')); [|discriminate H']. cbn [obind] in H'.
  destruct (ws_parasitics (co_ws comps) (State_ws s')); [|discriminate H']. cbn [obind] in H'. injection H' as <-. auto.
Qed.
Lemma run_temps (comps : Components R) (s : State R) (r : Run R) : Run_new comps s = Ret r -> ru_temp r = s_temp s.
Proof.
  unfold Run_new. intros H. destruct (ex_volume (co_chx comps)) as [v1|]; [|discriminate H]. destruct (ex_volume (co_regen comps)) as [v2|]; [|discriminate H].
  destruct (ex_volume (co_hhx comps)) as [v3|]; [|discriminate H]. cbn [obind] in H.
  destruct (ws_frequency (co_ws comps) (State_ws s)); [|discriminate H]. cbn [obind] in H.
  destruct (ws_volumes (co_ws comps) (State_ws s)); [|discriminate H]. cbn [obind] in H.
  destruct (ws_parasitics (co_ws comps) (State_ws s)); [|discriminate H]. cbn [obind] in H. injection H as <-. reflexivity.
Qed.
Lemma within_sym b A s : approaches_within b A s -> te_sink (s_temp s) = te_sink (s_temp b) /\ te_source (s_temp s) = te_source (s_temp b).
Proof. intros (_ & _ & _ & a_k & a_r & a_l & _ & _ & _ & E1 & E2 & _). auto. Qed.
Lemma near_from b A c_k c_r c_l w z s s' : approaches_within b A s -> approaches_near s c_k c_r c_l w z s' -> approaches_near b c_k c_r c_l w z s'.
Proof.
  intros H (H1 & H2 & H3 & H4). destruct (within_sym b A s H) as (E1 & E2). destruct H as (G1 & G2 & G3 & _). rewrite E1, E2, G3 in H4.
  split; [congruence|]. split; [congruence|]. split; [congruence|exact H4].
Qed.
Lemma near_within b A c_k c_r c_l w z s : z <= A -> approaches_near b c_k c_r c_l w z s -> approaches_within b A s.
Proof.
  intros L (H1 & H2 & H3 & a_k & a_r & a_l & (_ & B1) & (_ & B2) & (_ & B3) & H4). split; [exact H1|]. split; [exact H2|]. split; [exact H3|]. exists a_k, a_r, a_l.
  split; [lra|]. split; [lra|]. split; [lra|exact H4].
Qed.
Lemma within_less b A A' s : A <= A' -> approaches_within b A s -> approaches_within b A' s.
Proof.
  intros L (H1 & H2 & H3 & a_k & a_r & a_l & B1 & B2 & B3 & H4). split; [exact H1|]. split; [exact H2|]. split; [exact H3|]. exists a_k, a_r, a_l.
  split; [lra|]. split; [lra|]. split; [lra|exact H4].
Qed.

Section Family.
  Variables (comps0 : Components R) (b : State R) (D : Decomp R) (A kept cl ch el eh cl' ch' el' eh' T_low T_top V_hi v_hi rho rv q mg x y : R).
  Hypothesis Hfl : s_fluid b = IdealGas_Fluid he.
  Hypothesis Hd : driven (co_ws comps0).
  Let sink := te_sink (s_temp b).
  Let source := te_source (s_temp b).
  Hypothesis Hn : sink + source <> 500.
  Hypothesis Hss : 0 < sink < source.
  Hypothesis Him : s_regen_imbalance b = 0.
  Hypothesis HD : sound D.
  Hypothesis HC : complete D.
  Let P0 := pr_t_zero (s_pres b).
  Hypothesis HP0 : 0 < P0.
  Hypothesis HA : 0 < A.
  Hypothesis HK : small_approach kept sink source.
  Hypothesis HKA : kept <= A.
  Hypothesis O1 : 0 < cl' < cl.
  Hypothesis O2 : ch < ch'.
  Hypothesis O3 : 0 < el' < el.
  Hypothesis O4 : eh < eh'.
  Hypothesis HQ : q < 1.
  Hypothesis Hmg : 0 < mg.
  Hypothesis Hxy : 0 <= x < y.
  Hypothesis HB : forall s, approaches_within b A s -> exists r, Run_new comps0 s = Ret r /\
    settles_between r cl ch el eh cl' ch' el' eh' T_low T_top V_hi v_hi rho rv q mg /\
    y <= ru_period r /\ forall t, x < t < y -> pushes_at r t.
  Let outer r := within_levels r P0 cl' ch' el' eh'.
  (** one iteration of the outer loop *)
  Lemma iteration res s E settings comps e h n tol U w z g_k g_r g_l c_k c_r c_l Vf : approaches_within b A s -> same_build comps0 comps ->
    (forall p, ws_thermal_resistance (co_ws comps0) p = Ret res) -> (forall s' r, Run_new comps0 s' = Ret r -> ru_vol_chx r + ru_vol_regen r + ru_vol_hhx r = Vf) ->
    0 <= e <= accuracy cl ch el eh cl' ch' el' eh' T_low T_top q mg P0 ->
    (forall r, Run_new comps s = Ret r -> accurate E D r (outer r) (rs_ode_tol settings) 2 (ru_period r) e /\
      accurate E D r (outer r) (rs_ode_tol settings) (rs_resolution settings) h e) ->
    passes_test (lt_inner (rs_loop_tol settings)) T_top (change_after q (e / (T_low * T_low)) (2 / T_low) n) ->
    (n < N.to_nat (mi_inner (rs_max_iters settings)))%nat -> lt_outer (rs_loop_tol settings) = tol -> 0 <= h < (y - x) / 2 ->
    laws comps U kept g_k g_r g_l -> bases (approach_most cl' ch' el' eh' T_low T_top V_hi v_hi Vf P0 res) w z g_k g_r g_l c_k c_r c_l ->
    exists k vs r, Run_new comps s = Ret r /\ find_steady_state_counted E D (Run_Cycle r) (search_of s settings) = (k, Ret (Ok vs)) /\ (k <= n + 2)%nat /\
      (State_update s comps (Values_from vs) tol = Ret (Err s) \/
       exists s1, State_update s comps (Values_from vs) tol = Ret (Ok s1) /\
         approaches_near b c_k c_r c_l w z s1 /\ ~ temperatures_close tol (s_temp s) (s_temp s1)).
  Proof.
    intros Hs SB HR HV He HAc HP Hni Ht Hh HL HBs. destruct (HB s Hs) as (r & Hr & Hb & Hy & HU).
    rewrite <- (same_run comps0 comps s SB) in Hr. destruct (HAc r Hr) as (A2 & An). pose proof SB as (EW & _).
    assert (Hd' : driven (co_ws comps)) by (rewrite EW; exact Hd). pose proof Hs as (S1 & S2 & S3 & _). destruct (within_sym b A s Hs) as (S4 & S5).
    assert (Hfl' : s_fluid s = IdealGas_Fluid he) by congruence.
    assert (Hn' : te_sink (s_temp s) + te_source (s_temp s) <> 500) by (rewrite S4, S5; exact Hn).
    assert (HP0' : 0 < pr_t_zero (s_pres s)) by (rewrite S2; exact HP0).
    fold P0 in S2. unfold outer in A2, An. rewrite <- S2 in A2, An, He.
    destruct (search_at comps s r D cl ch el eh cl' ch' el' eh' T_low T_top V_hi v_hi rho rv q mg Hfl' Hd' Hr Hn' HD HC HP0' O1 O2 O3 O4 Hb HQ Hmg
      E settings e h n He A2 An HP Hni) as (k & vs & F1 & F2 & F3 & F4 & F5 & F6).
    exists k, vs, r. split; [exact Hr|]. split; [exact F1|]. split; [exact F2|].
    rewrite <- (HV s r ltac:(rewrite <- (same_run comps0 comps s SB); exact Hr)), <- S2 in HBs.
    destruct (updates comps s r D cl ch el eh cl' ch' el' eh' T_low T_top V_hi v_hi rho rv q mg Hfl' Hd' Hr Hn' HD HC HP0' O1 O2 O3 O4 Hb HQ Hmg
      vs tol x y h U kept w z g_k g_r g_l c_k c_r c_l res F3 F4 F5 F6 Hxy Hy Hh HU HL HBs ltac:(rewrite EW; apply HR)) as [Hu|(s1 & Hu & W & NC)]; [left; exact Hu|].
    right. exists s1. split; [exact Hu|]. split; [|exact NC].
    exact (near_from b A _ _ _ _ _ s s1 Hs W).
  Qed.
  (** runs of two outer iterations *)
  Theorem effective_run tol' : 0 < ct_abs tol' -> 0 < ct_rel tol' -> exists U, 0 < U /\
    forall tol, 0 < ct_abs tol -> 0 < ct_rel tol -> exists e0 n, 0 < e0 /\
    forall (E : Env R) (comps : Components R) (fl : Fluid R) (inputs : RunInputs R) (settings : RunSettings R) (h : R),
    same_build comps0 comps -> mixed comps U kept ->
    State_new_hint comps fl inputs = Ret b -> approaches_within b A b ->
    lt_outer (rs_loop_tol settings) = tol' -> lt_inner (rs_loop_tol settings) = tol ->
    (forall s r, approaches_within b A s -> Run_new comps s = Ret r ->
      accurate E D r (outer r) (rs_ode_tol settings) 2 (ru_period r) e0 /\ accurate E D r (outer r) (rs_ode_tol settings) (rs_resolution settings) h e0) ->
    0 <= h < (y - x) / 2 -> (n < N.to_nat (mi_inner (rs_max_iters settings)))%nat -> (2 <= mi_outer (rs_max_iters settings))%N ->
    exists k en, Engine_run_counted E D comps fl inputs settings = (k, Ret (Ok en)) /\ (k <= 2 * (n + 2))%nat /\ approaches_within b A (en_state en).
  Proof.
    intros TA TR. destruct Hss as (H0 & H1). destruct (perfect sink source H0 H1) as (T0 & F0 & Q1 & Q2 & Q3 & Q4 & Q5).
    assert (HR : exists res, forall p, ws_thermal_resistance (co_ws comps0) p = Ret res).
    { destruct Hd as [(dr & -> & _)|(dr & -> & _)]; eexists; intros p; reflexivity. }
    destruct HR as (res & HR).
    set (b0 := {| s_fluid := s_fluid b; s_temp := T0; s_pres := s_pres b; s_mass_flow := s_mass_flow b; s_heat_flow := s_heat_flow b; s_regen_imbalance := s_regen_imbalance b |}).
    assert (B0 : approaches_within b A b0).
    { unfold approaches_within, b0. cbn [s_fluid s_pres s_regen_imbalance s_temp]. rewrite Him. split; [reflexivity|]. split; [reflexivity|]. split; [reflexivity|].
      exists 0, 0, 0. rewrite Rabs_R0. split; [lra|]. split; [lra|]. split; [lra|exact F0]. }
    destruct (HB b0 B0) as (r0 & Hr0 & Hb0 & _).
    set (Vf := ru_vol_chx r0 + ru_vol_regen r0 + ru_vol_hhx r0).
    assert (HV : forall s' r, Run_new comps0 s' = Ret r -> ru_vol_chx r + ru_vol_regen r + ru_vol_hhx r = Vf).
    { intros s' r Hr. destruct (run_volumes comps0 b0 r0 s' r Hr0 Hr) as (-> & -> & ->). reflexivity. }
    set (cap := approach_most cl' ch' el' eh' T_low T_top V_hi v_hi Vf P0 res).
    assert (TP : 0 < T_low) by exact (low_T r0 cl ch el eh cl' ch' el' eh' T_low T_top V_hi v_hi rho rv q mg Hb0).
    destruct (apart_close tol' T_low TP TA TR) as (w & W0 & HW).
    destruct (follow_apart sink source Hss) as (K & Af & K0 & AF0 & EAf & HF).
    assert (KF : kept <= Af). { rewrite EAf. destruct HK as (_ & Z1 & Z2). apply Rmin_glb; lra. }
    set (m := Rmin (Rmin A Af) (w / (2 * (K + 1)))). assert (M0 : 0 < m) by (repeat apply Rmin_pos; try assumption; apply Rdiv_lt_0_compat; lra).
    pose proof (Rle_refl m) as M1. unfold m in M1 at 2. apply below_min in M1 as (M1 & M3). apply below_min in M1 as (M1 & M2).
    assert (M4 : K * (2 * m) <= w).
    { apply Rle_trans with (K * (2 * (w / (2 * (K + 1))))); [apply Rmult_le_compat_l; lra|].
      replace (K * (2 * (w / (2 * (K + 1))))) with (w * (K / (K + 1))) by (field; lra). rewrite <- (Rmult_1_r w) at 2. apply Rmult_le_compat_l; [lra|].
      apply (Rmult_le_reg_r (K + 1)); [lra|]. replace (K / (K + 1) * (K + 1)) with K by (field; lra). lra. }
    set (U := (Rabs cap + 1) / m). assert (C0 : 0 < Rabs cap + 1) by (pose proof (Rabs_pos cap); lra).
    assert (U0 : 0 < U) by (apply Rdiv_lt_0_compat; assumption).
    assert (CU : cap / U <= m).
    { apply (Rmult_le_reg_r U); [exact U0|]. replace (cap / U * U) with cap by (field; lra). unfold U.
      replace (m * ((Rabs cap + 1) / m)) with (Rabs cap + 1) by (field; lra). pose proof (Rle_abs cap). lra. }
    exists U. split; [exact U0|]. intros tol ta tr.
    assert (Hfl0 : s_fluid b0 = IdealGas_Fluid he) by exact Hfl.
    assert (Hn0 : te_sink (s_temp b0) + te_source (s_temp b0) <> 500).
    { destruct (within_sym b A b0 B0) as (E1 & E2). rewrite E1, E2. exact Hn. }
    assert (TT : 0 < T_top) by apply (tops r0 cl ch el eh cl' ch' el' eh' T_low T_top V_hi v_hi rho rv q mg O1 O2 O3 O4 Hb0 Hmg).
    assert (Q0 : 0 <= q).
    { destruct (steady comps0 b0 r0 D cl ch el eh cl' ch' el' eh' T_low T_top V_hi v_hi rho rv q mg Hfl0 Hd Hr0 Hn0 HD HC HP0 O1 O2 O3 O4 Hb0 Hmg) as (c' & _ & WT & _).
      pose proof Hb0 as (_ & _ & _ & HS & HQ0 & _). pose proof (q_pos D r0 T_low V_hi v_hi rho rv c' HS WT). lra. }
    set (acc := accuracy cl ch el eh cl' ch' el' eh' T_low T_top q mg P0).
    assert (AC : 0 < acc).
    { unfold acc, accuracy.
      destruct (P_bounds b0 r0 cl ch el eh cl' ch' el' eh' T_low T_top V_hi v_hi rho rv q mg HP0 O1 O2 O3 O4 Hb0 Hmg) as ((PL & _) & _).
      pose proof (rim_pos r0 cl ch el eh cl' ch' el' eh' T_low T_top V_hi v_hi rho rv q mg O1 O2 O3 O4 Hb0 Hmg) as RP.
      change (pr_t_zero (s_pres b0)) with P0 in PL. repeat apply Rmin_pos; [exact Hmg|lra|].
      apply Rmult_lt_0_compat; [apply Rmult_lt_0_compat; lra|apply Rmult_lt_0_compat; lra]. }
    (* an error that is small enough for the tolerance *)
    set (g := (1 + q) / (1 - q) + 1). assert (G0 : 0 < g) by (unfold g; assert (0 < (1 + q) / (1 - q)) by (apply Rdiv_lt_0_compat; lra); lra).
    set (ts := Rmin (ct_rel tol / (2 * T_top)) (ct_abs tol / (2 * (T_top * T_top)))).
    assert (TT2 : 0 < T_top * T_top) by (apply Rmult_lt_0_compat; assumption).
    assert (TS : 0 < ts) by (unfold ts; apply Rmin_pos; apply Rdiv_lt_0_compat; lra).
    set (e0 := Rmin acc (ts / g * (T_low * T_low))). assert (TL2 : 0 < T_low * T_low) by (apply Rmult_lt_0_compat; assumption).
    assert (TG : 0 < ts / g) by (apply Rdiv_lt_0_compat; assumption).
    assert (E0 : 0 < e0) by (unfold e0; apply Rmin_pos; [exact AC|apply Rmult_lt_0_compat; assumption]).
    pose proof (Rmin_l acc (ts / g * (T_low * T_low))) as E1. pose proof (Rmin_r acc (ts / g * (T_low * T_low))) as E2. fold e0 in E1, E2.
    assert (PT : passes_test tol T_top (change_after q (e0 / (T_low * T_low)) 0 0)).
    { unfold change_after. rewrite Rmult_0_r, Rplus_0_l. set (e := e0 / (T_low * T_low)).
      assert (Ee : e <= ts / g).
      { unfold e. apply (Rmult_le_reg_r (T_low * T_low)); [exact TL2|]. replace (e0 / (T_low * T_low) * (T_low * T_low)) with e0 by (field; lra). exact E2. }
      replace ((1 + q) * (e / (1 - q)) + e) with (g * e) by (unfold g; field; lra).
      assert (GE : g * e <= ts).
      { apply Rle_trans with (g * (ts / g)); [apply Rmult_le_compat_l; lra|right; field; lra]. }
      apply (passes_less tol T_top (g * e) ts ltac:(lra) GE). pose proof (Rle_refl ts) as Z. unfold ts in Z at 2. apply below_min in Z as (Z1 & Z2). split.
      - apply Rle_lt_trans with (T_top * (ct_rel tol / (2 * T_top))); [apply Rmult_le_compat_l; lra|].
        replace (T_top * (ct_rel tol / (2 * T_top))) with (ct_rel tol / 2) by (field; lra). lra.
      - apply Rle_lt_trans with (T_top * T_top * (ct_abs tol / (2 * (T_top * T_top)))); [apply Rmult_le_compat_l; lra|].
        replace (T_top * T_top * (ct_abs tol / (2 * (T_top * T_top)))) with (ct_abs tol / 2) by (field; lra). lra. }
    destruct (some_limit tol q (e0 / (T_low * T_low)) (2 / T_low) T_top (conj Q0 HQ) ltac:(left; apply Rdiv_lt_0_compat; lra) ltac:(lra) PT) as (n & Pn).
    exists e0, n. split; [exact E0|].
    intros E comps fl inputs settings h SB HCd Hst Hbb Hto Hti HAc Hh Hni Hou. rewrite <- Hti in Pn.
    destruct HK as (KP & _). destruct (mixed_laws comps U kept U0 HCd) as (g_k & g_r & g_l & HL). destruct (laws_bases comps U cap kept g_k g_r g_l U0 KP HL) as (c_k & c_r & c_l & HBs).
    set (z := Rmax kept (cap / U)) in *. assert (ZA : z <= A) by (apply Rmax_lub; lra). assert (ZF : z <= Af) by (apply Rmax_lub; lra).
    pose proof (fun s Hs => iteration res s E settings comps e0 h n tol' U (cap / U) z g_k g_r g_l c_k c_r c_l Vf Hs SB HR HV (conj (Rlt_le _ _ E0) E1) (fun r Hr => HAc s r Hs Hr) Pn Hni Hto Hh HL HBs) as IT.
    unfold Engine_run_counted. rewrite Hst.
    replace (N.to_nat (mi_outer (rs_max_iters settings))) with (S (S (pred (pred (N.to_nat (mi_outer (rs_max_iters settings))))))) by lia.
    set (n' := pred (pred (N.to_nat (mi_outer (rs_max_iters settings))))).
    destruct (IT b Hbb) as (k1 & vs1 & r1 & R1 & S1 & N1 & UP1).
    set (n1 := S n'). cbn [run_loop]. rewrite R1. unfold search_of in S1. cbv zeta in S1. rewrite S1, Hto.
    destruct UP1 as [UP1|(s1 & UP1 & WI1 & _)]; rewrite UP1.
    { exists k1, (mkEngine comps b (Values_from vs1)). split; [reflexivity|]. split; [lia|exact Hbb]. }
    assert (WA : approaches_within b A s1) by exact (near_within b A _ _ _ _ z s1 ZA WI1).
    destruct (IT s1 WA) as (k2 & vs2 & r2 & R2 & S2 & N2 & UP2).
    unfold n1. cbn [run_loop]. rewrite R2. unfold search_of in S2. cbv zeta in S2. rewrite S2, Hto.
    destruct UP2 as [UP2|(s2 & UP2 & WI2 & NC)].
    - rewrite UP2. exists (k1 + k2)%nat, (mkEngine comps s1 (Values_from vs2)). split; [reflexivity|]. split; [lia|exact WA].
    - exfalso. apply NC. clear HAc IT.
      destruct WI1 as (_ & _ & _ & a_k & a_r & a_l & (B1 & B1') & (B2 & B2') & (B3 & B3') & B4). destruct WI2 as (_ & _ & _ & a_k' & a_r' & a_l' & (C1 & C1') & (C2 & C2') & (C3 & C3') & C4).
      rewrite Him in B4, C4. apply abs_le_iff in B1, B2, B3, C1, C2, C3.
      destruct (HB s1 WA) as (r1' & Hr1 & Hb1 & _). pose proof Hb1 as (_ & _ & _ & _ & _ & _ & _ & _ & _ & I1 & I2 & I3 & I4 & I5).
      assert (ET : s_temp s1 = ru_temp r1') by (symmetry; exact (run_temps comps0 s1 r1' Hr1)). rewrite <- ET in I1, I2, I3, I4, I5.
      apply HW; try tauto. apply Rle_trans with (2 := M4).
      apply (HF a_k a_r a_l a_k' a_r' a_l'); try (apply Rle_trans with (2 := ZF); assumption); try assumption; apply abs_le_iff; lra.
  Qed.
End Family.
