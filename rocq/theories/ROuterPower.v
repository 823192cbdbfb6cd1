(** * Reports approach the powers and heats of the steady state *)
From Coq Require Import ZArith NArith List Reals Lra Lia.
From Verif Require Import Num ModelTypes ModelWs ModelHx ModelStateEq ModelEngine ModelApi RNum Spec SpecLoop SpecR SpecGas
  SpecKin SpecTraj SpecLaws SpecUnique SpecExist SpecDepend SpecSeries SpecQuad SpecReport SpecSpaces SpecBounds SpecSteady SpecContract
  SpecSample SpecGlobal SpecSearch SpecConverge SpecAccurate SpecSolver SpecApi SpecMeans SpecPush SpecEffective SpecMixed SpecOuter Fixture PolySolve PolyLoop PolyPanic PolyRun PolyReport RSolve RGauss RFluid RKin RPeriod RSeries
  RPicard RLocal RExist RStart RCase4 RDepend RBounds RSteady RQuad RSample RSampleReport RMotion RSampleCase RSearchCase RGlobal RGlobalReport RContract RContractEngine RSettle RSearch RConverge RAccurate RMeans
  RReturned RApproach RConsistent RPush RFlowBound RFollow REffective RFamily REuler RSolver RSolverRun RTame RUniform RVaryRun RShadow RApart RMixed ROuter RClosing ROuterLimit ROuterExact ROuterMean ROuterSteady ROuterReport.
Import ListNotations.
Local Open Scope R_scope.


(** the efficiency is a quotient of two of the figures *)
Lemma efficiency_near (en : Engine R) rep a X e : RunResults_from en = Ret rep -> report_within a X e rep -> e < Rabs (true_input a X) ->
  Rabs (rre_mechanical (rr_efficiency rep) - true_net a X / true_input a X) <=
    e * (Rabs (true_input a X) + Rabs (true_net a X)) / (Rabs (true_input a X) * (Rabs (true_input a X) - e)).
Proof.
  intros HR (_ & _ & _ & HN & HI & _) He.
  assert (EQ : rre_mechanical (rr_efficiency rep) = rrp_net (rr_power rep) / rrh_input (rr_heat_flow rep)).
  { unfold RunResults_from in HR. destruct (Performance_from en) as [p|] eqn:HP; cbn [obind] in HR; [|discriminate]. injection HR as <-. cbn [rr_efficiency rre_mechanical rr_power rrp_net rr_heat_flow rrh_input].
    unfold Performance_from in HP. repeat (match type of HP with obind ?o _ = _ => destruct o; cbn [obind] in HP; [|discriminate] end). injection HP as <-. reflexivity. }
  rewrite EQ. set (n := rrp_net (rr_power rep)) in *. set (i := rrh_input (rr_heat_flow rep)) in *. set (N := true_net a X) in *. set (I := true_input a X) in *.
  assert (I0 : I <> 0) by (intros E; rewrite E, Rabs_R0 in He; pose proof (Rabs_pos (n - N)); lra).
  pose proof (Rabs_pos (n - N)) as P0. pose proof (Rabs_pos_lt I I0) as PI.
  assert (LI : Rabs I - e <= Rabs i) by (pose proof (Rabs_triang_inv I (I - i)) as T; replace (I - (I - i)) with i in T by ring; rewrite (Rabs_minus_sym I i) in T; lra).
  assert (i0 : i <> 0) by (intros E; rewrite E, Rabs_R0 in LI; lra). pose proof (Rabs_pos_lt i i0) as Pi.
  replace (n / i - N / I) with (((n - N) * I + N * (I - i)) / (I * i)) by (field; split; assumption).
  unfold Rdiv at 1. rewrite Rabs_mult, Rabs_inv, Rabs_mult.
  apply Rle_trans with (e * (Rabs I + Rabs N) * / (Rabs I * Rabs i)).
  - apply Rmult_le_compat_r; [apply Rlt_le, Rinv_0_lt_compat, Rmult_lt_0_compat; assumption|].
    eapply Rle_trans; [apply Rabs_triang|]. rewrite !Rabs_mult, (Rabs_minus_sym I i). pose proof (Rabs_pos N) as PN. nra.
  - apply Rmult_le_compat_l; [pose proof (Rabs_pos N); nra|]. apply Rinv_le_contravar; [nra|]. apply Rmult_le_compat_l; lra.
Qed.

(** engines with such exchangers always answer alike *)
Lemma mixed_replies comps U kept : driven (co_ws comps) -> mixed comps U kept -> exists a, forall s v, replies (mkEngine comps s v) a.
Proof.
  intros Hd (K & G & L).
  assert (HW : exists fr vo pa re, forall p, ws_frequency (co_ws comps) p = Ret fr /\ ws_volumes (co_ws comps) p = Ret vo /\ ws_parasitics (co_ws comps) p = Ret pa /\ ws_thermal_resistance (co_ws comps) p = Ret re).
  { destruct Hd as [(d & -> & _)|(d & -> & _)]; do 4 eexists; intros p; repeat split. }
  destruct HW as (fr & vo & pa & re & HW).
  assert (HK : exists h p, forall s, ex_hydraulic_resistance (co_chx comps) s = Ret h /\ ex_parasitics (co_chx comps) s = Ret p) by (destruct K as [(f & -> & _)|(f & -> & _)]; do 2 eexists; intros s; repeat split).
  assert (HG : exists h p, forall s, ex_hydraulic_resistance (co_regen comps) s = Ret h /\ ex_parasitics (co_regen comps) s = Ret p) by (destruct G as [(f & -> & _)|(f & -> & _)]; do 2 eexists; intros s; repeat split).
  assert (HL : exists h p, forall s, ex_hydraulic_resistance (co_hhx comps) s = Ret h /\ ex_parasitics (co_hhx comps) s = Ret p) by (destruct L as [(f & -> & _)|(f & -> & _)]; do 2 eexists; intros s; repeat split).
  destruct HK as (kh & kp & HK), HG as (gh & gp & HG), HL as (lh & lp & HL).
  exists (mkReplies fr vo pa re kh gh lh kp gp lp).
  intros s v. unfold replies. cbv zeta. cbn [en_components en_state rp_freq rp_vols rp_par rp_res rp_R_chx rp_R_regen rp_R_hhx rp_chx rp_regen rp_hhx].
  destruct (HW (mkWsState (s_pres s))) as (-> & -> & -> & ->). repeat split; first [apply HK|apply HG|apply HL].
Qed.

Section Runs.
  Variables (comps0 : Components R) (b : State R) (rb : Run R) (D : Decomp R) (A cl ch el eh cl' ch' el' eh' T_low T_top V_hi v_hi rho rv q mg x y : R).
  Hypothesis Hfl : s_fluid b = IdealGas_Fluid he.
  Hypothesis Hd : driven (co_ws comps0).
  Hypothesis Hrb : Run_new comps0 b = Ret rb.
  Hypothesis Hn : te_sink (s_temp b) + te_source (s_temp b) <> 500.
  Hypothesis Hss : 0 < te_sink (s_temp b) < te_source (s_temp b).
  Hypothesis Him : s_regen_imbalance b = 0.
  Hypothesis HD : sound D.
  Hypothesis HC : complete D.
  Hypothesis HP0 : 0 < pr_t_zero (s_pres b).
  Hypothesis HA : 0 < A.
  Hypothesis O1 : 0 < cl' < cl.
  Hypothesis O2 : ch < ch'.
  Hypothesis O3 : 0 < el' < el.
  Hypothesis O4 : eh < eh'.
  Hypothesis HQ : q < 1.
  Hypothesis Hmg : 0 < mg.
  Hypothesis Hxy : 0 <= x < y.
  Hypothesis Hbb : approaches_within b A b.
  Hypothesis HB : forall s, approaches_within b A s -> exists r, Run_new comps0 s = Ret r /\
    settles_between r cl ch el eh cl' ch' el' eh' T_low T_top V_hi v_hi rho rv q mg /\
    y <= ru_period r /\ forall t, x < t < y -> pushes_at r t.
  Variable kept : R.
  Hypothesis Hk : small_approach kept (te_sink (s_temp b)) (te_source (s_temp b)).
  Hypothesis HkA : kept <= A.
  Let H := ru_period rb + / 10 ^ 14.
  Let tau := ru_period rb.
  Let per_of s r (M : member comps0 b cl ch el eh cl' ch' el' eh' T_low T_top V_hi v_hi rho rv q mg s r) : ru_period r = ru_period rb :=
    member_period comps0 b rb cl ch el eh cl' ch' el' eh' T_low T_top V_hi v_hi rho rv q mg Hd (member_b comps0 b rb A cl ch el eh cl' ch' el' eh' T_low T_top V_hi v_hi rho rv q mg x y Hfl Hd Hrb Hn Hbb HB) s r M.
  Let smp := ROuter.sampled comps0 b rb D cl ch el eh cl' ch' el' eh' T_low T_top V_hi v_hi rho rv q mg.
  (** the totals of a state, and what samples of its exact cycle report *)
  Lemma totals_reported comps a s X : approaches_within b A s -> same_build comps0 comps -> (forall s v, replies (mkEngine comps s v) a) -> steady_totals D comps T_low s a X ->
    exists K, 0 <= K /\ forall ts h, grid_to ts tau -> steps_within h ts -> 0 <= h ->
      exists r vs rep, smp 0 0 ts s r vs /\ RunResults_from (mkEngine comps s (Values_from vs)) = Ret rep /\ report_within a X (K * h) rep.
  Proof.
    intros W SB HRp (r & c & sol & Hrc & SC & WT & CP & HS & _ & HX).
    destruct (member_of comps0 b rb A cl ch el eh cl' ch' el' eh' T_low T_top V_hi v_hi rho rv q mg x y Hfl Hd Hrb Hn HB s W) as (r' & Mr & _).
    assert (r' = r) as -> by (pose proof Mr as (_ & Hr & _); rewrite (same_run comps0 comps s SB) in Hrc; congruence).
    pose proof Mr as (Hf & Hr & _ & HP & HSet). rewrite HP in CP. rewrite Hf in HX.
    pose proof (cycle_inner comps0 b rb D A cl ch el eh cl' ch' el' eh' T_low T_top V_hi v_hi rho rv q mg x y Hfl Hd Hrb Hn HD HC HP0 O1 O2 O3 O4 HQ Hmg Hbb HB s r c Mr SC WT CP) as HI.
    destruct (cycle_turn comps0 b rb D A cl ch el eh cl' ch' el' eh' T_low T_top V_hi v_hi rho rv q mg x y Hfl Hd Hrb Hn HD HC HP0 O1 O2 O3 O4 Hmg Hbb HB s r c Mr HI SC) as (TC & _).
    pose proof (per_of s r Mr) as EP. pose proof (period_pos comps0 s r Hd Hr) as TP.
    pose proof SC as (HT & _). assert (HT' : forall t, 0 <= t <= ru_period r -> physical_trajectory D r c t) by (intros t Ht; apply HT; lra).
    assert (HW : steady_motion (ru_ws_vol_fn r) 0 (ru_period r)) by exact (driven_motion comps0 s r 0 (ru_period r) Hd Hr).
    assert (Hrf : ru_fluid r = IdealGas_Fluid he) by apply HSet.
    assert (Hdc : driven (co_ws comps)) by (destruct SB as (EW & _); rewrite EW; exact Hd).
    destruct (reply_volumes (mkEngine comps s (Values_from [])) a s r Hdc Hrc (HRp s _)) as (EV & _).
    assert (HV : forall t, 0 <= t <= ru_period r -> rp_vols a t = ru_ws_vol_fn r t) by (intros t _; rewrite EV; reflexivity).
    destruct (report_near he he_pos r Hrf D c (ru_period r) HD ltac:(lra) HT' HW (s_temp s) a HV) as (K & d & D0 & RN).
    exists (Rabs K). split; [apply Rabs_pos|].
    intros ts h HG HStp Hh.
    destruct (exact_exists comps0 b rb D cl ch el eh cl' ch' el' eh' T_low T_top V_hi v_hi rho rv q mg s r c ts Mr TC) as (vs & ES).
    { apply Forall_forall. exact (grid_range _ _ HG). }
    pose proof (exact_sampled comps0 b rb D A cl ch el eh cl' ch' el' eh' T_low T_top V_hi v_hi rho rv q mg x y Hfl Hd Hrb Hn HD HC HP0 O1 O2 O3 O4 Hmg Hbb HB s r c ts vs Mr HI SC HG ES) as SM.
    exists r, vs. destruct ES as (TS & ES).
    destruct (RN sol X (mkEngine comps s (Values_from vs)) vs h 0 D HS HX Hf eq_refl (HRp s _) (values_series vs) HD) as (rep & ER & RW).
    - rewrite TS, EP. exact HG.
    - rewrite TS. exact HStp.
    - unfold SpecSample.sampled. revert ES. apply Forall_impl. intros v (-> & HSv). split; [|exact HSv]. unfold gap. rewrite !Rminus_diag_eq, Rabs_R0 by reflexivity. lra.
    - lra.
    - exists rep. split; [exact SM|]. split; [exact ER|]. apply (report_more a X (K * (h + 0))); [|exact RW]. rewrite Rplus_0_r. apply Rmult_le_compat_r; [exact Hh|apply Rle_abs].
  Qed.
  Lemma totals_of comps a s : approaches_within b A s -> same_build comps0 comps -> (forall s v, replies (mkEngine comps s v) a) -> exists X, steady_totals D comps T_low s a X.
  Proof.
    intros W SB HRp. destruct (member_of comps0 b rb A cl ch el eh cl' ch' el' eh' T_low T_top V_hi v_hi rho rv q mg x y Hfl Hd Hrb Hn HB s W) as (r & Mr & _).
    destruct (warm_cycle comps0 b rb D A cl ch el eh cl' ch' el' eh' T_low T_top V_hi v_hi rho rv q mg x y Hfl Hd Hrb Hn HD HC HP0 O1 O2 O3 O4 HQ Hmg Hbb HB s r Mr) as (c & _ & SC & WT & CP).
    pose proof Mr as (Hf & Hr & _ & HP & HSet). pose proof (period_pos comps0 s r Hd Hr) as TP.
    pose proof SC as (HT & _). assert (HT' : forall t, 0 <= t <= ru_period r -> physical_trajectory D r c t) by (intros t Ht; apply HT; lra).
    assert (HW : steady_motion (ru_ws_vol_fn r) 0 (ru_period r)) by exact (driven_motion comps0 s r 0 (ru_period r) Hd Hr).
    assert (Hrf : ru_fluid r = IdealGas_Fluid he) by apply HSet.
    assert (Hrc : Run_new comps s = Ret r) by (rewrite (same_run comps0 comps s SB); exact Hr).
    assert (Hdc : driven (co_ws comps)) by (destruct SB as (EW & _); rewrite EW; exact Hd).
    destruct (reply_volumes (mkEngine comps s (Values_from [])) a s r Hdc Hrc (HRp s _)) as (EV & _).
    assert (HV : forall t, 0 <= t <= ru_period r -> rp_vols a t = ru_ws_vol_fn r t) by (intros t _; rewrite EV; reflexivity).
    destruct (sol_exists r D c (ru_period r) HD HT') as (sol & HS).
    destruct (totals_exist he he_pos r Hrf D c (ru_period r) HD ltac:(lra) HT' HW (s_temp s) a HV sol HS) as (X & HX).
    exists X, r, c, sol. split; [exact Hrc|]. split; [exact SC|]. split; [exact WT|]. split; [rewrite HP; exact CP|]. split; [exact HS|]. split; [intros v; apply HRp|]. rewrite Hf. exact HX.
  Qed.
  Theorem powers_solver : exists U t1 d L B, 0 < U /\ 0 < t1 /\ 0 < d /\ 0 <= L /\ 0 <= B /\
    forall (comps : Components R) (fl : Fluid R) (inputs : RunInputs R),
    same_build comps0 comps -> mixed comps U kept -> State_new_hint comps fl inputs = Ret b ->
    exists s a K, approaches_within b A s /\ steady_state D comps T_low s /\ (exists X, steady_totals D comps T_low s a X) /\ 0 <= K /\
    (forall s', approaches_within b A s' -> steady_state D comps T_low s' -> s_temp s' = s_temp s) /\
    forall X eps, steady_totals D comps T_low s a X -> 0 < eps -> exists h0, 0 < h0 /\ forall points : N, let h := ru_period rb / IZR (Z.of_N (N.pred points)) in
    (2 <= points)%N -> / 10 ^ 14 < h -> h <= h0 ->
    forall tol', 0 < ct_abs tol' <= t1 -> 0 < ct_rel tol' -> exists t0 m, 0 < t0 /\
    forall tol, 0 < ct_abs tol <= t0 -> 0 < ct_rel tol -> exists e0 n, 0 < e0 /\
    forall (E : Env R) (settings : RunSettings R), let ode := rs_ode_tol settings in
    lt_outer (rs_loop_tol settings) = tol' -> lt_inner (rs_loop_tol settings) = tol -> rs_resolution settings = points ->
    solver_within E (ot_rel ode) (ot_abs ode) H d L B e0 ->
    (n < N.to_nat (mi_inner (rs_max_iters settings)))%nat -> (m <= N.to_nat (mi_outer (rs_max_iters settings)))%nat ->
    exists en rep, Engine_run E D comps fl inputs settings = Ret (Ok en) /\ RunResults_from en = Ret rep /\
      report_within a X (K * ct_abs tol' + eps) rep.
  Proof.
    assert (HR : exists res, forall p, ws_thermal_resistance (co_ws comps0) p = Ret res).
    { pose proof Hd as [(dr & E & _)|(dr & E & _)]; rewrite E; eexists; intros p; reflexivity. }
    destruct HR as (res & HR).
    destruct (contracting_run comps0 b rb D A cl ch el eh cl' ch' el' eh' T_low T_top V_hi v_hi rho rv q mg x y Hfl Hd Hrb Hn Hss Him HD HC HP0 HA O1 O2 O3 O4 HQ Hmg Hxy Hbb HB res HR kept Hk HkA) as (Ua & d1 & Ua0 & D1 & RUN & AGR).
    destruct (consistent_one comps0 b rb D A cl ch el eh cl' ch' el' eh' T_low T_top V_hi v_hi rho rv q mg x y Hfl Hd Hrb Hn Hss Him HD HC HP0 HA O1 O2 O3 O4 HQ Hmg Hxy Hbb HB res HR kept Hk HkA) as (Ub & Ub0 & ONE).
    destruct (mean_one comps0 b rb D A cl ch el eh cl' ch' el' eh' T_low T_top V_hi v_hi rho rv q mg x y Hfl Hd Hrb Hn Hss Him HD HC HP0 HA O1 O2 O3 O4 HQ Hmg Hxy Hbb HB res HR kept Hk HkA) as (Uc & Uc0 & MO).
    destruct (solver_serves comps0 b rb D A cl ch el eh cl' ch' el' eh' T_low T_top V_hi v_hi rho rv q mg x y Hfl Hd Hrb Hn HD HC HP0 O1 O2 O3 O4 Hmg Hbb HB) as (d & L & B & D0 & L0 & B0 & SV).
    destruct (reports_near comps0 b rb D A cl ch el eh cl' ch' el' eh' T_low T_top V_hi v_hi rho rv q mg x y Hfl Hd Hrb Hn Hss HD HC HP0 O1 O2 O3 O4 HQ Hmg Hxy Hbb HB) as (dr & DR & RN).
    set (U := Ua + Ub + Uc). set (t1 := Rmin d1 (dr / 48)). pose proof (Rmin_l d1 (dr / 48)) as TM1. pose proof (Rmin_r d1 (dr / 48)) as TM2. fold t1 in TM1, TM2.
    exists U, t1, d, L, B. split; [unfold U; lra|]. split; [apply Rmin_pos; lra|]. split; [exact D0|]. split; [exact L0|]. split; [exact B0|].
    intros comps fl inputs SB HCd Hst. assert (UU : Ua <= U /\ Ub <= U /\ Uc <= U /\ 0 < U) by (unfold U; lra).
    destruct (MO comps SB (mixed_less _ _ Uc _ HCd ltac:(lra))) as (s & W & MS & UQ & LIM).
    assert (Hdc : driven (co_ws comps)) by (destruct SB as (EW & _); rewrite EW; exact Hd).
    destruct (mixed_replies comps U kept Hdc HCd) as (a & HRp).
    assert (Hrc : Run_new comps b = Ret rb) by (rewrite (same_run comps0 comps b SB); exact Hrb).
    destruct (reply_volumes (mkEngine comps b (Values_from [])) a b rb Hdc Hrc (HRp b _)) as (EV & _).
    destruct (RN a EV) as (Kn & Kn0 & NEAR). 
    exists s, a, (12 * Kn). split; [exact W|]. split; [exact (step_steady comps0 b rb D A cl ch el eh cl' ch' el' eh' T_low T_top V_hi v_hi rho rv q mg x y Hfl Hd Hrb Hn Him Hbb HB comps res s HR SB W MS)|].
    split; [exact (totals_of comps a s W SB HRp)|]. split; [lra|]. split.
    { intros s' W' SS. apply (UQ s' W'). exact (steady_step comps0 b rb D A cl ch el eh cl' ch' el' eh' T_low T_top V_hi v_hi rho rv q mg x y Hfl Hd Hrb Hn Him HD Hxy Hbb HB kept comps U res s' HR SB ltac:(lra) HCd W' SS). }
    intros X eps ST He. destruct (totals_reported comps a s X W SB HRp ST) as (Kt & Kt0 & TR).
    assert (E1 : 0 < eps / (2 * (Kn + 1))) by (apply Rdiv_lt_0_compat; lra). assert (E2 : 0 < eps / (2 * (Kt + 1))) by (apply Rdiv_lt_0_compat; lra).
    set (eps1 := Rmin (eps / (2 * (Kn + 1))) (dr / 4)). assert (EE : 0 < eps1) by (apply Rmin_pos; lra).
    pose proof (Rmin_l (eps / (2 * (Kn + 1))) (dr / 4)) as EM1. pose proof (Rmin_r (eps / (2 * (Kn + 1))) (dr / 4)) as EM2. fold eps1 in EM1, EM2.
    destruct (LIM eps1 EE) as (h1 & H1 & LI).
    exists (Rmin h1 (Rmin ((y - x) / 4) (eps / (2 * (Kt + 1))))). split; [repeat apply Rmin_pos; lra|]. intros points h R2 HL HU. pose proof eps_pos as EP.
    apply below_min in HU as (HU1 & HU). apply below_min in HU as (HU2 & HU3).
    assert (Hh : 0 <= h < (y - x) / 2) by lra.
    pose proof (grid_of comps0 b rb Hd Hrb points R2) as (HG & HStp). fold h in HStp.
    assert (ET : sample_times tau points = even_times tau points) by (apply even_is; exact R2). fold tau in HG, HStp. set (ts := even_times tau points) in *.
    destruct (ONE comps h ts SB (mixed_less _ _ Ub _ HCd ltac:(lra)) HG HStp Hh) as (T & W' & CS). set (s' := at_temps b T) in *.
    assert (Z1 : tdist (s_temp s') (s_temp s) <= eps1) by exact (LI ts h s' HG HStp Hh HU1 W' CS).
    destruct (TR ts h HG HStp (proj1 Hh)) as (rs & vss & reps & SMs & ERs & RWs).
    intros tol' TA TR'. set (bt := Rmin (ct_abs tol') (dr / 4)). assert (BT : 0 < bt) by (apply Rmin_pos; lra).
    pose proof (Rmin_l (ct_abs tol') (dr / 4)) as BM1. pose proof (Rmin_r (ct_abs tol') (dr / 4)) as BM2. fold bt in BM1, BM2.
    destruct (RUN tol' bt (proj1 TA) TR' BT) as (t0 & m & T0 & RUN1). exists t0, m. split; [exact T0|]. intros tol ta tr.
    destruct (RUN1 tol ta tr) as (e0 & n & E0 & W0 & EW & RUN2). exists e0, n. split; [exact E0|].
    intros E settings ode Hto Hti Hpt HSv Hni Hou.
    assert (Sv : serves comps0 b rb D A cl' ch' el' eh' E settings h e0).
    { unfold h. rewrite <- Hpt. apply SV; [exact HSv|rewrite Hpt; exact R2|rewrite Hpt; exact HL]. }
    destruct (RUN2 E comps fl inputs settings h SB (mixed_less _ _ Ua _ HCd ltac:(lra)) Hst Hto Hti Sv Hh Hni Hou) as (_ & k & en & K1 & _ & K3).
    rewrite Hpt in K3. fold tau in K3. rewrite ET in K3. set (w := unsteady T_low q e0 tol) in *.
    assert (Z2 : tdist (s_temp (en_state en)) (s_temp s') <= 10 * ct_abs tol' + (e0 + w)).
    { apply le_epsilon. intros ep He'.
      pose proof (Rmin_l d1 (ep / 10)) as M1. pose proof (Rmin_r d1 (ep / 10)) as M2. assert (M0 : 0 < Rmin d1 (ep / 10)) by (apply Rmin_pos; lra). set (z := Rmin d1 (ep / 10)) in *.
      destruct (consistent_rests comps0 b rb D A cl ch el eh cl' ch' el' eh' T_low T_top V_hi v_hi rho rv q mg x y Hfl Hd Hrb Hn Hss HD HC HP0 O1 O2 O3 O4 HQ Hmg Hxy Hbb HB res kept comps (mkConvTol z z) ts s' ltac:(cbn; lra) ltac:(cbn; lra) W' HG CS) as (vs & RS).
      pose proof (AGR comps SB (mixed_less _ _ Ua _ HCd ltac:(lra)) tol' (mkConvTol z z) e0 w 0 0 ts h en _ ltac:(lra) ltac:(cbn; lra) ltac:(lra) W0 ltac:(lra) ltac:(lra) HStp Hh K3 RS) as Z.
      cbn [en_state ct_abs] in Z. lra. }
    pose proof (tdist_tri (s_temp (en_state en)) (s_temp s') (s_temp s)) as Z3.
    destruct K3 as (WE & r1 & vs1 & S1 & EVs & _).
    assert (RE : Engine_run E D comps fl inputs settings = Ret (Ok en)) by (unfold Engine_run; rewrite K1; reflexivity).
    destruct (run_boundary E D comps fl inputs settings en RE) as (EC & _).
    assert (EN : en = mkEngine comps (en_state en) (Values_from vs1)) by (destruct en; cbn in *; congruence).
    assert (SM0 : smp e0 w ts s rs vss) by (apply (sampled_more comps0 b rb D cl ch el eh cl' ch' el' eh' T_low T_top V_hi v_hi rho rv q mg 0 0); [lra|exact W0|exact SMs]).
    destruct (NEAR e0 w ts comps (en_state en) r1 vs1 s rs vss ltac:(lra) W0 S1 SM0 ltac:(lra) (HRp _ _) (HRp _ _)) as (Y & rep1 & rep2 & ER1 & ER2 & RW1 & RW2).
    exists en, rep1. split; [exact RE|]. split; [rewrite EN; exact ER1|].
    assert (rep2 = reps) as -> by congruence.
    pose proof (report_tri a X Y _ _ rep1 reps RW1 RW2 RWs) as RW.
    apply (report_more a X _ _ rep1) with (2 := RW).
    assert (F1 : Kn * (e0 + w + tdist (s_temp (en_state en)) (s_temp s)) <= Kn * (12 * ct_abs tol' + eps / (2 * (Kn + 1)))) by (apply Rmult_le_compat_l; lra).
    assert (F2 : Kn * (eps / (2 * (Kn + 1))) <= eps / 2).
    { replace (eps / 2) with ((Kn + 1) * (eps / (2 * (Kn + 1)))) by (field; lra). apply Rmult_le_compat_r; lra. }
    assert (F3 : Kt * h <= eps / 2).
    { apply Rle_trans with (Kt * (eps / (2 * (Kt + 1)))); [apply Rmult_le_compat_l; lra|]. replace (eps / 2) with ((Kt + 1) * (eps / (2 * (Kt + 1)))) by (field; lra). apply Rmult_le_compat_r; lra. }
    lra.
  Qed.
  (** Euler's method with enough steps *)
  Theorem powers_euler : exists U t1, 0 < U /\ 0 < t1 /\
    forall (comps : Components R) (fl : Fluid R) (inputs : RunInputs R),
    same_build comps0 comps -> mixed comps U kept -> State_new_hint comps fl inputs = Ret b ->
    exists s a K, approaches_within b A s /\ steady_state D comps T_low s /\ (exists X, steady_totals D comps T_low s a X) /\ 0 <= K /\
    (forall s', approaches_within b A s' -> steady_state D comps T_low s' -> s_temp s' = s_temp s) /\
    forall X eps, steady_totals D comps T_low s a X -> 0 < eps -> exists h0, 0 < h0 /\ forall points : N, let h := ru_period rb / IZR (Z.of_N (N.pred points)) in
    (2 <= points)%N -> / 10 ^ 14 < h -> h <= h0 ->
    forall tol', 0 < ct_abs tol' <= t1 -> 0 < ct_rel tol' -> exists t0 m, 0 < t0 /\
    forall tol, 0 < ct_abs tol <= t0 -> 0 < ct_rel tol -> exists n N0,
    forall (N : nat) (settings : RunSettings R), (N0 <= N)%nat ->
    lt_outer (rs_loop_tol settings) = tol' -> lt_inner (rs_loop_tol settings) = tol -> rs_resolution settings = points ->
    (n < N.to_nat (mi_inner (rs_max_iters settings)))%nat -> (m <= N.to_nat (mi_outer (rs_max_iters settings)))%nat ->
    exists en rep, Engine_run (euler_env N) D comps fl inputs settings = Ret (Ok en) /\ RunResults_from en = Ret rep /\
      report_within a X (K * ct_abs tol' + eps) rep.
  Proof.
    destruct powers_solver as (U & t1 & d & L & B & U0 & T1 & D0 & L0 & B0 & HU). exists U, t1. split; [exact U0|]. split; [exact T1|].
    intros comps fl inputs SB HCd Hst.
    destruct (HU comps fl inputs SB HCd Hst) as (s & a & K & W & SC & TO & K0 & UQ & HT). exists s, a, K. split; [exact W|]. split; [exact SC|]. split; [exact TO|]. split; [exact K0|]. split; [exact UQ|].
    intros X eps ST He. destruct (HT X eps ST He) as (h0 & H0' & HT0). exists h0. split; [exact H0'|]. intros points h R2 H1 H2 tol' TA TR.
    destruct (HT0 points R2 H1 H2 tol' TA TR) as (t0 & m & T0 & HT1). exists t0, m. split; [exact T0|].
    intros tol ta tr. destruct (HT1 tol ta tr) as (e0 & n & E0 & HT2).
    assert (H0 : 0 < H) by (pose proof (period_pos comps0 b rb Hd Hrb); pose proof eps_pos; unfold H; lra).
    destruct (euler_keeps H d L B e0 H0 D0 L0 B0 E0) as (N0 & HE). exists n, N0.
    intros N settings HN0 Hto Hti Hpt Hni Hou. apply (HT2 (euler_env N) settings Hto Hti Hpt); try assumption. apply HE, HN0.
  Qed.
End Runs.
