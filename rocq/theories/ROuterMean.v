(** * The state that an engine with exact means would keep *)
From Coq Require Import ZArith NArith List Reals Lra Lia.
From Verif Require Import Num ModelTypes ModelWs ModelHx ModelStateEq ModelEngine ModelApi RNum Spec SpecLoop SpecR SpecGas
  SpecKin SpecTraj SpecLaws SpecUnique SpecExist SpecDepend SpecSeries SpecQuad SpecReport SpecSpaces SpecBounds SpecSteady SpecContract
  SpecSample SpecGlobal SpecSearch SpecConverge SpecAccurate SpecSolver SpecApi SpecMeans SpecPush SpecEffective SpecMixed SpecOuter Fixture PolySolve PolyLoop PolyPanic PolyRun PolyReport RSolve RGauss RFluid RKin RPeriod RSeries
  RPicard RLocal RExist RStart RCase4 RDepend RBounds RSteady RQuad RSample RSampleReport RMotion RSampleCase RSearchCase RGlobal RGlobalReport RContract RContractEngine RSettle RSearch RConverge RAccurate RMeans
  RReturned RApproach RConsistent RPush RFlowBound RFollow REffective RFamily REuler RSolver RSolverRun RTame RUniform RVaryRun RShadow RApart RClosing RInside RMixed ROuter.
Import ListNotations.
Local Open Scope R_scope.

Section Mean.
  Variables (comps0 : Components R) (b : State R) (rb : Run R) (D : Decomp R) (A cl ch el eh cl' ch' el' eh' T_low T_top V_hi v_hi rho rv q mg x y : R).
  Hypothesis Hfl : s_fluid b = IdealGas_Fluid he.
  Hypothesis Hd : driven (co_ws comps0).
  Hypothesis Hrb : Run_new comps0 b = Ret rb.
  Let sink := te_sink (s_temp b).
  Let source := te_source (s_temp b).
  Hypothesis Hn : sink + source <> 500.
  Hypothesis Hss : 0 < sink < source.
  Hypothesis Him : s_regen_imbalance b = 0.
  Hypothesis HD : sound D.
  Hypothesis HC : complete D.
  Let P0 := pr_t_zero (s_pres b).
  Hypothesis HP0 : 0 < P0.
  Hypothesis HA : 0 < A.
  Hypothesis O1 : 0 < cl' < cl.
  Hypothesis O2 : ch < ch'.
  Hypothesis O3 : 0 < el' < el.
  Hypothesis O4 : eh < eh'.
  Hypothesis HQ : q < 1.
  Hypothesis Hmg : 0 < mg.
  Hypothesis Hxy : 0 <= x < y.
  Hypothesis Hbb : approaches_within b A b.
  Hypothesis HB : forall s, approaches_within b A s -> exists r, Run_new comps0 s = Ret r /\
    settles_between r cl ch el eh cl' ch' el' eh' T_low T_top V_hi v_hi rho rv q mg /\
    y <= ru_period r /\ forall t, x < t < y -> pushes_at r t.
  Let tau := ru_period rb.
  Let mem := member comps0 b cl ch el eh cl' ch' el' eh' T_low T_top V_hi v_hi rho rv q mg.
  Let rounds := turn b rb D cl' ch' el' eh' T_low T_top mg.
  Let outer r := within_levels r P0 cl' ch' el' eh'.
  Let inner r := within_levels r P0 cl ch el eh.
  Let mP := most_P cl' ch' el' eh' T_low T_top P0.
  Let rim := rim_width cl ch el eh cl' ch' el' eh' T_top.
  Let Vf := ru_vol_chx rb + ru_vol_regen rb + ru_vol_hhx rb.
  Variable res : ThermalResistance R.
  Hypothesis Hres : forall p, ws_thermal_resistance (co_ws comps0) p = Ret res.
  Let cap := approach_most cl' ch' el' eh' T_low T_top V_hi v_hi Vf P0 res.
  Variable kept : R.
  Hypothesis Hk : small_approach kept sink source.
  Hypothesis HkA : kept <= A.
  Let capp U := Rmax kept (cap / U).
  Let per s r (M : mem s r) : ru_period r = tau := member_period comps0 b rb cl ch el eh cl' ch' el' eh' T_low T_top V_hi v_hi rho rv q mg Hd (member_b comps0 b rb A cl ch el eh cl' ch' el' eh' T_low T_top V_hi v_hi rho rv q mg x y Hfl Hd Hrb Hn Hbb HB) s r M.
  Lemma fine_grid h0 : 0 < h0 -> exists ts h, grid_to ts tau /\ steps_within h ts /\ 0 <= h < (y - x) / 2 /\ h <= h0.
  Proof.
    intros H0. assert (TP : 0 < tau) by exact (period_pos comps0 b rb Hd Hrb). set (m := Rmin h0 ((y - x) / 4)). assert (M0 : 0 < m) by (apply Rmin_pos; lra).
    pose proof (Rmin_l h0 ((y - x) / 4)) as M1. pose proof (Rmin_r h0 ((y - x) / 4)) as M2. fold m in M1, M2.
    destruct (archimed_cor1 (m / tau) ltac:(apply Rdiv_lt_0_compat; lra)) as (n & N1 & N2). assert (N3 : 0 < INR n) by (apply lt_0_INR; exact N2).
    assert (N4 : tau / INR n <= m).
    { apply Rle_trans with (tau * (m / tau)); [apply Rmult_le_compat_l; lra|right; field; lra]. }
    assert (N5 : 0 < tau / INR n) by (apply Rdiv_lt_0_compat; lra).
    exists (even (tau / INR n) 0 (S n)), (tau / INR n). split; [apply even_grid; assumption|]. split; [apply even_steps; lra|]. lra.
  Qed.
  Lemma exact_approaches a_k a_r a_l b_k b_r b_l T : temperatures_follow sink source a_k a_r a_l 0 T -> temperatures_follow sink source b_k b_r b_l 0 T -> a_k = b_k /\ a_r = b_r /\ a_l = b_l.
  Proof.
    intros (_ & _ & F1 & F2 & F3 & _) (_ & _ & G1 & G2 & G3 & _).
    assert (IM : n_le n0 (0 : R) = true) by (rewrite R_n0; cbn [n_le R_ops]; destruct (Rle_dec 0 0); [reflexivity|lra]). rewrite IM in F3, G3.
    change (@n_add R R_ops) with Rplus in *. change (@n_sub R R_ops) with Rminus in *. repeat split; lra.
  Qed.
  Section Engine.
    Variables (comps : Components R).
    Hypothesis SB : same_build comps0 comps.
    Variable U : R.
    Hypothesis U0 : 0 < U.
    Hypothesis HMx : mixed comps U kept.
    Let cstep := consistent_step comps0 b D cl ch el eh cl' ch' el' eh' T_low T_top V_hi v_hi rho rv q mg comps.
    Let within := approaches_within b A.
    (** the temperatures [T'] that the exact means of the steady cycle of [s] lead to *)
    Definition mean_data (s : State R) r c sol M a_k a_r a_l : Prop :=
      mem s r /\ steady_cycle D r c /\ warm_trajectory D r T_low c /\ cd_P (c 0) = P0 /\ (forall t, 0 <= t <= tau -> solved_at D r t (c t) (sol t)) /\
      means (s_temp s) res c sol tau M /\ steady_approaches comps s M a_k a_r a_l.
    Definition mean_step (s : State R) (T' : Temperatures R) : Prop :=
      exists r c sol M a_k a_r a_l, mean_data s r c sol M a_k a_r a_l /\ temperatures_follow sink source a_k a_r a_l 0 T'.
    Lemma mean_flows s r c sol M : within s -> mem s r -> steady_cycle D r c -> (forall t, 0 <= t <= tau -> solved_at D r t (c t) (sol t)) ->
      means (s_temp s) res c sol tau M -> 0 < mn_flow_k M /\ 0 < mn_flow_r M /\ 0 < mn_flow_l M.
    Proof.
      intros W Mr (HT & _) HS HM. destruct (member_of comps0 b rb A cl ch el eh cl' ch' el' eh' T_low T_top V_hi v_hi rho rv q mg x y Hfl Hd Hrb Hn HB s W) as (r' & M' & Hy & HU). fold tau in Hy. pose proof Mr as (Hf & Hr & _ & _ & HSet).
      assert (r' = r) as -> by (destruct M' as (_ & Hr' & _); congruence). pose proof HSet as (_ & _ & _ & HSt & _). pose proof HSt as (_ & L1 & L2 & _).
      apply (flows_positive (s_temp s) res Helium D r c sol tau M ((x + y) / 2)); try assumption.
      - exact (eng_fluid Helium comps0 s r Hf Hd Hr).
      - intros u Hu. apply HT. lra.
      - lra.
      - apply HU. lra.
    Qed.
    Lemma mean_total s : within s -> exists T', mean_step s T'.
    Proof.
      intros W. destruct (member_of comps0 b rb A cl ch el eh cl' ch' el' eh' T_low T_top V_hi v_hi rho rv q mg x y Hfl Hd Hrb Hn HB s W) as (r & Mr & Hy & HU). fold tau in Hy. pose proof Mr as (Hf & Hr & _). destruct (warm_cycle comps0 b rb D A cl ch el eh cl' ch' el' eh' T_low T_top V_hi v_hi rho rv q mg x y Hfl Hd Hrb Hn HD HC HP0 O1 O2 O3 O4 HQ Hmg Hbb HB s r Mr) as (c & HI & SC & WT & CP).
      pose proof SC as (HT & _). pose proof (per s r Mr) as EP. assert (TP : 0 < tau) by exact (period_pos comps0 b rb Hd Hrb).
      pose proof (eng_fluid Helium comps0 s r Hf Hd Hr) as HF.
      destruct (sol_exists r D c tau HD (fun t Ht => HT t (proj1 Ht))) as (sol & HS).
      pose proof (eng_motion comps0 s r Hd Hr) as HMo. rewrite EP in HMo.
      destruct (means_exist he (gas_R_pos Helium) r HF D c tau HD TP (fun t Ht => HT t (proj1 Ht)) HMo (s_temp s) res sol HS) as (M & HM).
      destruct (mean_flows s r c sol M W Mr SC HS HM) as (M1 & M2 & M3).
      destruct (mixed_laws comps U kept U0 HMx) as (g_k & g_r & g_l & HCd).
      pose proof (steady_mixed comps s M U kept g_k g_r g_l Hf M1 M2 M3 HCd) as SA.
      match type of SA with steady_approaches _ _ _ ?k ?r ?l => set (a_k := k) in *; set (a_r := r) in *; set (a_l := l) in * end.
      pose proof (temperatures_follow_intro sink source {| ap_chx := a_k; ap_regen := a_r; ap_hhx := a_l |} 0) as F. cbn [ap_chx ap_regen ap_hhx] in F.
      eexists. exists r, c, sol, M, a_k, a_r, a_l. split; [|exact F]. repeat (split; [assumption|]). exact SA.
    Qed.
    Lemma mean_approach s r c sol M a_k a_r a_l : within s -> mean_data s r c sol M a_k a_r a_l -> forall eps, 0 < eps -> exists h0, 0 < h0 /\
      forall ts h T', grid_to ts tau -> steps_within h ts -> 0 <= h < (y - x) / 2 -> h <= h0 -> cstep ts s T' ->
      exists b_k b_r b_l, Rabs (b_k - a_k) <= eps /\ Rabs (b_r - a_r) <= eps /\ Rabs (b_l - a_l) <= eps /\
        Rabs b_k <= capp U /\ Rabs b_r <= capp U /\ Rabs b_l <= capp U /\ temperatures_follow sink source b_k b_r b_l 0 T'.
    Proof.
      intros W (Mr & SC & WT & CP & HS & HM & ((K1 & K2) & (R1 & R2) & (L1 & L2))) eps He. pose proof Mr as (Hf & Hr & _). pose proof SC as (HT & _).
      pose proof (per s r Mr) as EP. assert (TP : 0 < tau) by exact (period_pos comps0 b rb Hd Hrb).
      pose proof (eng_fluid Helium comps0 s r Hf Hd Hr) as HF. pose proof (eng_motion comps0 s r Hd Hr) as HMo. rewrite EP in HMo.
      destruct (means_near he (gas_R_pos Helium) r HF D c tau HD TP (fun t Ht => HT t (proj1 Ht)) HMo (s_temp s) res) as (K & d & K0 & D0 & NR).
      destruct (K2 eps He) as (d1 & D1 & C1). destruct (R2 eps He) as (d2 & D2 & C2). destruct (L2 eps He) as (d3 & D3 & C3).
      set (w := Rmin d1 (Rmin d2 d3)). assert (W0 : 0 < w) by (unfold w; repeat apply Rmin_pos; assumption).
      assert (WL : w <= d1 /\ w <= d2 /\ w <= d3).
      { pose proof (Rle_refl w) as X. unfold w in X at 2. apply below_min in X as (X & Y). apply below_min in Y. tauto. }
      exists (w / (K + 1)). split; [apply Rdiv_lt_0_compat; lra|]. intros ts h T' HG HStp Hh Hh0 CS.
      pose proof (consistent_sampled comps0 b rb D A cl ch el eh cl' ch' el' eh' T_low T_top V_hi v_hi rho rv q mg x y Hfl Hd Hrb Hn HD HC HP0 O1 O2 O3 O4 HQ Hmg Hbb HB comps ts s T' HG CS) as (r1 & vs1 & P1 & m1 & Q1 & SA1 & RC1).
      destruct CS as (r' & c' & vs & P & m & Q & Mr' & SC' & WT' & CP' & (TS & EX) & RC).
      assert (r' = r) as -> by (destruct Mr' as (_ & Hr' & _); congruence).
      assert (HG' : grid_to (map (@sv_time R) vs) tau) by (rewrite TS; exact HG).
      assert (SA : SpecSample.sampled D r c 0 vs).
      { apply Forall_forall. intros v Hv. pose proof (proj1 (Forall_forall _ _) EX v Hv) as (E1 & E2). split; [|exact E2].
        assert (Hvt : 0 <= sv_time v <= tau) by (apply (grid_range _ _ HG'), in_map, Hv).
        rewrite E1, (cycles_same comps0 b rb D A cl ch el eh cl' ch' el' eh' T_low T_top V_hi v_hi rho rv q mg x y Hfl Hd Hrb Hn HD HC HP0 O1 O2 O3 O4 HQ Hmg Hbb HB s r c c' (sv_time v) Mr SC WT CP SC' WT' CP' Hvt), gap_refl. lra. }
      pose proof (exact_sampled comps0 b rb D A cl ch el eh cl' ch' el' eh' T_low T_top V_hi v_hi rho rv q mg x y Hfl Hd Hrb Hn HD HC HP0 O1 O2 O3 O4 Hmg Hbb HB s r c' ts vs Mr (cycle_inner comps0 b rb D A cl ch el eh cl' ch' el' eh' T_low T_top V_hi v_hi rho rv q mg x y Hfl Hd Hrb Hn HD HC HP0 O1 O2 O3 O4 HQ Hmg Hbb HB s r c' Mr SC' WT' CP') SC' HG (conj TS EX)) as SO.
      destruct (mixed_laws comps U kept U0 HMx) as (g_k & g_r & g_l & HCd).
      destruct (recomputed_is comps0 b rb D A cl ch el eh cl' ch' el' eh' T_low T_top V_hi v_hi rho rv q mg x y Hfl Hd Hrb Hn Him HD HC HP0 O1 O2 O3 O4 HQ Hmg Hxy Hbb HB res Hres kept comps U g_k g_r g_l 0 0 ts h s r vs P m Q T' SB HCd W SO HStp Hh RC) as (_ & _ & B1 & B2 & B3 & N1 & N2 & FT).
      destruct (approaches_small comps0 b rb A cl ch el eh cl' ch' el' eh' T_low T_top V_hi v_hi rho rv q mg x y Hfl Hd Hrb Hn O1 O2 O3 O4 HQ Hmg Hbb HB res kept comps U g_k g_r g_l s r m Q Mr U0 HCd B1 B2 B3 N1 N2) as (X1 & X2 & X3).
      pose proof RC as (res' & b_k & b_r & b_l & A1 & A2 & A3 & A4 & A5 & A6 & A7 & A8).
      pose proof SB as (EW & _). rewrite EW, Hres in A3. injection A3 as <-.
      destruct (within_sym b A s W) as (E1 & E2). pose proof W as (_ & _ & E3 & _). rewrite E1, E2, E3, Him in A8. fold sink source in A8.
      destruct (exact_approaches _ _ _ _ _ _ _ A8 FT) as (Y1 & Y2 & Y3). rewrite <- Y1 in X1. rewrite <- Y2 in X2. rewrite <- Y3 in X3.
      destruct (NR sol M vs (Values_from vs) h 0 D P m Q HS HM (Values_from_series vs) HD HG' ltac:(rewrite TS; exact HStp) SA ltac:(lra) A1 A2 A4) as (Z1 & Z2 & Z3 & Z4 & Z5 & Z6 & Z7).
      assert (KW : K * (h + 0) <= w).
      { rewrite Rplus_0_r. apply Rle_trans with ((K + 1) * (w / (K + 1))); [|right; field; lra]. apply Rmult_le_compat; lra. }
      exists b_k, b_r, b_l. split; [apply (C1 P (mf_chx m) (hf_chx Q)); try assumption; lra|]. split; [apply (C2 P (mf_regen m) (hf_regen Q)); try assumption; lra|].
      split; [apply (C3 P (mf_hhx m) (hf_hhx Q)); try assumption; lra|]. auto.
    Qed.
    Lemma mean_bound s r c sol M a_k a_r a_l : within s -> mean_data s r c sol M a_k a_r a_l -> Rabs a_k <= capp U /\ Rabs a_r <= capp U /\ Rabs a_l <= capp U.
    Proof.
      intros W MD. assert (X : forall eps, 0 < eps -> Rabs a_k <= capp U + eps /\ Rabs a_r <= capp U + eps /\ Rabs a_l <= capp U + eps).
      { intros eps He. destruct (mean_approach s r c sol M a_k a_r a_l W MD eps He) as (h0 & H0 & MA). destruct (fine_grid h0 H0) as (ts & h & HG & HStp & Hh & Hh0).
        destruct (step_total comps0 b rb D A cl ch el eh cl' ch' el' eh' T_low T_top V_hi v_hi rho rv q mg x y Hfl Hd Hrb Hn Him HD HC HP0 O1 O2 O3 O4 HQ Hmg Hxy Hbb HB res Hres kept comps U h ts SB HMx U0 HG HStp Hh s W) as (T' & CS & _).
        destruct (MA ts h T' HG HStp Hh Hh0 CS) as (b_k & b_r & b_l & X1 & X2 & X3 & Y1 & Y2 & Y3 & _).
        apply abs_le_iff in X1, X2, X3, Y1, Y2, Y3. split; [|split]; apply abs_le_iff; lra. }
      split; [|split]; apply le_epsilon; intros eps He; apply X, He.
    Qed.
    Variables (K d0 Kf : R).
    Hypothesis D0 : 0 < d0.
    Hypothesis Kf0 : 0 <= Kf.
    Hypothesis KU : K / U <= / 2.
    Hypothesis KUd : K / U <= d0 / 2.
    Hypothesis CU : capp U <= A.
    Hypothesis HNr : forall ts h, grid_to ts tau -> steps_within h ts -> 0 <= h < (y - x) / 2 -> forall s1 s2 T1 T2, within s1 -> within s2 -> cstep ts s1 T1 -> cstep ts s2 T2 ->
      tdist T1 T2 <= K / U /\ (tdist (s_temp s1) (s_temp s2) <= d0 -> tdist T1 T2 <= K / U * tdist (s_temp s1) (s_temp s2)).
    Hypothesis HFA : forall a_k a_r a_l b_k b_r b_l T T' w,
      Rabs a_k <= capp U -> Rabs a_r <= capp U -> Rabs a_l <= capp U -> Rabs b_k <= capp U -> Rabs b_r <= capp U -> Rabs b_l <= capp U ->
      temperatures_follow sink source a_k a_r a_l 0 T -> temperatures_follow sink source b_k b_r b_l 0 T' ->
      Rabs (a_k - b_k) <= w -> Rabs (a_r - b_r) <= w -> Rabs (a_l - b_l) <= w -> tdist T T' <= Kf * w.
    (** finer and finer samples lead to the same temperatures as the means *)
    Lemma mean_near s T : within s -> mean_step s T -> forall eps, 0 < eps -> exists h0, 0 < h0 /\
      forall ts h T', grid_to ts tau -> steps_within h ts -> 0 <= h < (y - x) / 2 -> h <= h0 -> cstep ts s T' -> tdist T T' <= eps.
    Proof.
      intros W (r & c & sol & M & a_k & a_r & a_l & MD & FT) eps He. destruct (mean_bound s r c sol M a_k a_r a_l W MD) as (Y1 & Y2 & Y3).
      destruct (mean_approach s r c sol M a_k a_r a_l W MD (eps / (Kf + 1)) ltac:(apply Rdiv_lt_0_compat; lra)) as (h0 & H0 & MA). exists h0. split; [exact H0|].
      intros ts h T' HG HStp Hh Hh0 CS. destruct (MA ts h T' HG HStp Hh Hh0 CS) as (b_k & b_r & b_l & X1 & X2 & X3 & Z1 & Z2 & Z3 & FT').
      rewrite Rabs_minus_sym in X1, X2, X3. apply Rle_trans with (Kf * (eps / (Kf + 1))); [exact (HFA _ _ _ _ _ _ T T' _ Y1 Y2 Y3 Z1 Z2 Z3 FT FT' X1 X2 X3)|].
      apply Rle_trans with ((Kf + 1) * (eps / (Kf + 1))); [|right; field; lra]. apply Rmult_le_compat_r; [|lra]. left. apply Rdiv_lt_0_compat; lra.
    Qed.
    Lemma mean_contracts s1 s2 T1 T2 : within s1 -> within s2 -> mean_step s1 T1 -> mean_step s2 T2 ->
      tdist T1 T2 <= K / U /\ (tdist (s_temp s1) (s_temp s2) <= d0 -> tdist T1 T2 <= K / U * tdist (s_temp s1) (s_temp s2)).
    Proof.
      intros W1 W2 M1 M2.
      assert (X : forall eps, 0 < eps -> exists T1' T2', tdist T1 T2 <= tdist T1' T2' + eps /\
        tdist T1' T2' <= K / U /\ (tdist (s_temp s1) (s_temp s2) <= d0 -> tdist T1' T2' <= K / U * tdist (s_temp s1) (s_temp s2))).
      { intros eps He. destruct (mean_near s1 T1 W1 M1 (eps / 2) ltac:(lra)) as (h1 & H1 & N1). destruct (mean_near s2 T2 W2 M2 (eps / 2) ltac:(lra)) as (h2 & H2 & N2).
        pose proof (Rmin_l h1 h2) as L1. pose proof (Rmin_r h1 h2) as L2. destruct (fine_grid (Rmin h1 h2) ltac:(apply Rmin_pos; assumption)) as (ts & h & HG & HStp & Hh & Hh0).
        destruct (step_total comps0 b rb D A cl ch el eh cl' ch' el' eh' T_low T_top V_hi v_hi rho rv q mg x y Hfl Hd Hrb Hn Him HD HC HP0 O1 O2 O3 O4 HQ Hmg Hxy Hbb HB res Hres kept comps U h ts SB HMx U0 HG HStp Hh s1 W1) as (T1' & C1 & _).
        destruct (step_total comps0 b rb D A cl ch el eh cl' ch' el' eh' T_low T_top V_hi v_hi rho rv q mg x y Hfl Hd Hrb Hn Him HD HC HP0 O1 O2 O3 O4 HQ Hmg Hxy Hbb HB res Hres kept comps U h ts SB HMx U0 HG HStp Hh s2 W2) as (T2' & C2 & _).
        exists T1', T2'. split; [|exact (HNr ts h HG HStp Hh s1 s2 T1' T2' W1 W2 C1 C2)].
        specialize (N1 ts h T1' HG HStp Hh ltac:(lra) C1). specialize (N2 ts h T2' HG HStp Hh ltac:(lra) C2).
        pose proof (tdist_tri T1 T1' T2) as G1. pose proof (tdist_tri T1' T2' T2) as G2. rewrite (tdist_sym T2' T2) in G2. lra. }
      split; [|intros Hd0]; apply le_epsilon; intros eps He; destruct (X eps He) as (T1' & T2' & X1 & X2 & X3); [lra|]. specialize (X3 Hd0). lra.
    Qed.
    Theorem mean_exists : exists T, within (at_temps b T) /\ mean_step (at_temps b T) T.
    Proof.
      apply (fixed_exists b rb A cl' ch' el' eh' T_low T_top V_hi v_hi Him Hbb res kept mean_step U K d0 Kf); try assumption.
      - intros s W. destruct (mean_total s W) as (T & MS). exists T. split; [exact MS|]. destruct MS as (r & c & sol & M & a_k & a_r & a_l & MD & FT).
        destruct (mean_bound s r c sol M a_k a_r a_l W MD) as (Y1 & Y2 & Y3). exists a_k, a_r, a_l. auto.
      - exact mean_contracts.
    Qed.
    Lemma mean_unique s s' : within s -> within s' -> mean_step s (s_temp s) -> mean_step s' (s_temp s') -> s_temp s' = s_temp s.
    Proof.
      intros W W' M M'. destruct (mean_contracts s' s _ _ W' W M' M) as (X1 & X2). specialize (X2 ltac:(lra)). set (d := tdist (s_temp s') (s_temp s)) in *.
      assert (Dn : 0 <= d) by apply tdist_nonneg. assert (K / U * d <= / 2 * d) by (apply Rmult_le_compat_r; assumption).
      destruct (within_sym b A s' W') as (Z1 & Z2). destruct (within_sym b A s W) as (Y1 & Y2). destruct (tdist_parts (s_temp s') (s_temp s)) as (P1 & P2 & P3 & P4 & P5). fold d in P1, P2, P3, P4, P5.
      assert (ZE : forall u v, Rabs (u - v) <= d -> u = v) by (intros u v Huv; assert (Q : Rabs (u - v) <= 0) by lra; apply abs_le_iff in Q; lra).
      apply ZE in P1, P2, P3, P4, P5. clear - Z1 Z2 Y1 Y2 P1 P2 P3 P4 P5.
      destruct (s_temp s') as [t1 t2 [t3 t4 t5] t6 t7], (s_temp s) as [v1 v2 [v3 v4 v5] v6 v7]. cbn in *. congruence.
    Qed.
    Lemma mean_limit s : within s -> mean_step s (s_temp s) -> forall eps, 0 < eps -> exists h0, 0 < h0 /\
      forall ts h s', grid_to ts tau -> steps_within h ts -> 0 <= h < (y - x) / 2 -> h <= h0 -> within s' -> cstep ts s' (s_temp s') -> tdist (s_temp s') (s_temp s) <= eps.
    Proof.
      intros W M eps He. pose proof (Rmin_l eps d0) as E1. pose proof (Rmin_r eps d0) as E2. set (e := Rmin eps d0) in *. assert (E0 : 0 < e) by (apply Rmin_pos; assumption).
      destruct (mean_near s _ W M (e / 2) ltac:(lra)) as (h0 & H0 & MN). exists h0. split; [exact H0|]. intros ts h s' HG HStp Hh Hh0 W' CS'.
      destruct (step_total comps0 b rb D A cl ch el eh cl' ch' el' eh' T_low T_top V_hi v_hi rho rv q mg x y Hfl Hd Hrb Hn Him HD HC HP0 O1 O2 O3 O4 HQ Hmg Hxy Hbb HB res Hres kept comps U h ts SB HMx U0 HG HStp Hh s W) as (T' & CS & _).
      specialize (MN ts h T' HG HStp Hh Hh0 CS). destruct (HNr ts h HG HStp Hh s' s _ _ W' W CS' CS) as (X1 & X2).
      pose proof (tdist_tri (s_temp s') T' (s_temp s)) as X3. rewrite (tdist_sym T' (s_temp s)) in X3. specialize (X2 ltac:(lra)).
      set (d := tdist (s_temp s') (s_temp s)) in *. assert (Dn : 0 <= d) by apply tdist_nonneg. assert (K / U * d <= / 2 * d) by (apply Rmult_le_compat_r; assumption). lra.
    Qed.
  End Engine.
  Theorem mean_one : exists U, 0 < U /\ forall (comps : Components R),
    same_build comps0 comps -> mixed comps U kept ->
    exists s, approaches_within b A s /\ mean_step comps s (s_temp s) /\
      (forall s', approaches_within b A s' -> mean_step comps s' (s_temp s') -> s_temp s' = s_temp s) /\
      forall eps, 0 < eps -> exists h0, 0 < h0 /\ forall ts h s', grid_to ts tau -> steps_within h ts -> 0 <= h < (y - x) / 2 -> h <= h0 -> approaches_within b A s' ->
        consistent_step comps0 b D cl ch el eh cl' ch' el' eh' T_low T_top V_hi v_hi rho rv q mg comps ts s' (s_temp s') -> tdist (s_temp s') (s_temp s) <= eps.
  Proof.
    destruct (recomputed_near comps0 b rb D A cl ch el eh cl' ch' el' eh' T_low T_top V_hi v_hi rho rv q mg x y Hfl Hd Hrb Hn Hss Him HD HC HP0 O1 O2 O3 O4 HQ Hmg Hxy Hbb HB res Hres kept Hk) as (K & U0 & d0 & K0 & U01 & D0 & RN). destruct (follow_apart sink source Hss) as (Kf & Af & Kfp & Af0 & AfE & FA). pose proof (kept_below b kept Hk Af AfE) as HkF.
    set (U := U0 + 2 * K + 2 * (K / d0) + Rabs cap / A + Rabs cap / Af).
    assert (KD : 0 <= K / d0) by (apply Rle_mult_inv_pos; lra). assert (CAA : 0 <= Rabs cap / A) by (apply Rle_mult_inv_pos; [apply Rabs_pos|exact HA]).
    assert (CAF : 0 <= Rabs cap / Af) by (apply Rle_mult_inv_pos; [apply Rabs_pos|exact Af0]).
    assert (UU : 1 <= U /\ U0 <= U /\ 2 * K <= U /\ 2 * (K / d0) <= U /\ Rabs cap / A <= U /\ Rabs cap / Af <= U) by (unfold U; lra). destruct UU as (UU1 & UU2 & UU3 & UU4 & UU5 & UU6).
    assert (KU : K / U <= / 2) by (apply (Rmult_le_reg_r U); [lra|]; replace (K / U * U) with K by (field; lra); lra).
    assert (KUd : K / U <= d0 / 2).
    { apply (Rmult_le_reg_r U); [lra|]. replace (K / U * U) with K by (field; lra). apply Rle_trans with (d0 / 2 * (2 * (K / d0))); [right; field; lra|]. apply Rmult_le_compat_l; lra. }
    assert (CUa : forall a, 0 < a -> Rabs cap / a <= U -> kept <= a -> capp U <= a).
    { intros a Ha Hu Hka. apply Rmax_lub; [exact Hka|]. apply (Rmult_le_reg_r U); [lra|]. replace (cap / U * U) with cap by (field; lra). apply Rle_trans with (1 := Rle_abs cap).
      apply Rle_trans with (a * (Rabs cap / a)); [right; field; lra|]. apply Rmult_le_compat_l; lra. }
    pose proof (CUa A HA UU5 HkA) as CU. pose proof (CUa Af Af0 UU6 HkF) as CF.
    exists U. split; [lra|]. intros comps SB HCd.
    assert (NR : forall ts h, grid_to ts tau -> steps_within h ts -> 0 <= h < (y - x) / 2 -> forall s1 s2 T1 T2, approaches_within b A s1 -> approaches_within b A s2 ->
      consistent_step comps0 b D cl ch el eh cl' ch' el' eh' T_low T_top V_hi v_hi rho rv q mg comps ts s1 T1 ->
      consistent_step comps0 b D cl ch el eh cl' ch' el' eh' T_low T_top V_hi v_hi rho rv q mg comps ts s2 T2 ->
      tdist T1 T2 <= K / U /\ (tdist (s_temp s1) (s_temp s2) <= d0 -> tdist T1 T2 <= K / U * tdist (s_temp s1) (s_temp s2))).
    { intros ts h HG HStp Hh s1 s2 T1 T2 W1 W2 S1 S2. apply (consistent_sampled comps0 b rb D A cl ch el eh cl' ch' el' eh' T_low T_top V_hi v_hi rho rv q mg x y Hfl Hd Hrb Hn HD HC HP0 O1 O2 O3 O4 HQ Hmg Hbb HB comps ts _ _ HG) in S1 as (r1 & vs1 & P1 & m1 & Q1 & SA1 & RC1). apply (consistent_sampled comps0 b rb D A cl ch el eh cl' ch' el' eh' T_low T_top V_hi v_hi rho rv q mg x y Hfl Hd Hrb Hn HD HC HP0 O1 O2 O3 O4 HQ Hmg Hbb HB comps ts _ _ HG) in S2 as (r2 & vs2 & P2 & m2 & Q2 & SA2 & RC2).
      destruct (RN U UU2 comps SB HCd 0 0 ts h s1 r1 vs1 s2 r2 vs2 P1 m1 Q1 T1 P2 m2 Q2 T2 ltac:(lra) ltac:(lra) W1 W2 SA1 SA2 HStp Hh RC1 RC2) as (N1 & N2).
      split; [exact N1|]. rewrite !Rplus_0_l in N2. exact N2. }
    assert (FAU : forall a_k a_r a_l b_k b_r b_l T T' w,
      Rabs a_k <= capp U -> Rabs a_r <= capp U -> Rabs a_l <= capp U -> Rabs b_k <= capp U -> Rabs b_r <= capp U -> Rabs b_l <= capp U ->
      temperatures_follow sink source a_k a_r a_l 0 T -> temperatures_follow sink source b_k b_r b_l 0 T' ->
      Rabs (a_k - b_k) <= w -> Rabs (a_r - b_r) <= w -> Rabs (a_l - b_l) <= w -> tdist T T' <= Kf * w).
    { intros a_k a_r a_l b_k b_r b_l T T' w H1 H2 H3 H4 H5 H6. apply FA; lra. }
    assert (UP : 0 < U) by lra.
    destruct (mean_exists comps SB U UP HCd K d0 Kf D0 Kfp KU KUd CU NR FAU) as (T & W & MS).
    exists (at_temps b T). split; [exact W|]. split; [exact MS|]. split.
    - intros s' W' MS'. exact (mean_unique comps SB U UP HCd K d0 Kf D0 Kfp KU KUd NR FAU (at_temps b T) s' W W' MS MS').
    - exact (mean_limit comps SB U UP HCd K d0 Kf D0 Kfp KU KUd NR FAU (at_temps b T) W MS).
  Qed.
End Mean.
