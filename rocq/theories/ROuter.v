(** * The outer loop contracts when the exchangers conduct well *)
From Coq Require Import ZArith NArith List Reals Lra Lia.
From Verif Require Import Num ModelTypes ModelWs ModelHx ModelStateEq ModelEngine ModelApi RNum Spec SpecLoop SpecR SpecGas
  SpecKin SpecTraj SpecLaws SpecUnique SpecExist SpecDepend SpecSeries SpecQuad SpecReport SpecSpaces SpecBounds SpecSteady SpecContract
  SpecSample SpecGlobal SpecSearch SpecConverge SpecAccurate SpecSolver SpecApi SpecMeans SpecPush SpecEffective SpecMixed Fixture PolySolve PolyLoop PolyPanic PolyRun PolyReport RSolve RGauss RFluid RKin RPeriod RSeries
  RPicard RLocal RExist RStart RCase4 RDepend RBounds RSteady RQuad RSample RSampleReport RMotion RSampleCase RSearchCase RGlobal RGlobalReport RContract RContractEngine RSettle RSearch RConverge RAccurate RMeans
  RReturned RApproach RConsistent RPush RFlowBound RFollow REffective RFamily REuler RSolver RSolverRun RTame RUniform RVaryRun RShadow RApart RClosing RInside RMixed.
Import ListNotations.
Local Open Scope R_scope.

Lemma two_maps {X} (f g : X -> R) (P : X -> X -> Prop) w : forall (l l' : list X), Forall2 P l l' -> (forall a b, P a b -> Rabs (f a - g b) <= w) ->
  Forall2 (fun a b => Rabs (a - b) <= w) (map f l) (map g l').
Proof. induction 1 as [|a b l l' H _ IH]; intros HP; cbn [map]; constructor; [apply HP, H|apply IH, HP]. Qed.
Lemma half_sum_near a b a' b' w : Rabs (a - a') <= w -> Rabs (b - b') <= w -> Rabs (/ 2 * Rabs (a + b) - / 2 * Rabs (a' + b')) <= w.
Proof.
  intros H1 H2. replace (/ 2 * Rabs (a + b) - / 2 * Rabs (a' + b')) with (/ 2 * (Rabs (a + b) - Rabs (a' + b'))) by ring.
  rewrite Rabs_mult, (Rabs_pos_eq (/ 2)) by lra. pose proof (Rabs_triang_inv2 (a + b) (a' + b')) as T.
  assert (Rabs (a + b - (a' + b')) <= 2 * w) by (apply abs_le_iff; apply abs_le_iff in H1, H2; lra). lra.
Qed.

Section Outer.
  Variables (comps0 : Components R) (b : State R) (rb : Run R) (D : Decomp R) (A cl ch el eh cl' ch' el' eh' T_low T_top V_hi v_hi rho rv q mg x y : R).
  Hypothesis Hfl : s_fluid b = IdealGas_Fluid he.
  Hypothesis Hd : driven (co_ws comps0).
  Hypothesis Hrb : Run_new comps0 b = Ret rb.
  Let sink := te_sink (s_temp b).
  Let source := te_source (s_temp b).
  Hypothesis Hn : sink + source <> 500.
  Hypothesis Hss : 0 < sink < source.
  Hypothesis Him : s_regen_imbalance b = 0.
  Hypothesis HD : sound D.
  Hypothesis HC : complete D.
  Let P0 := pr_t_zero (s_pres b).
  Hypothesis HP0 : 0 < P0.
  Hypothesis HA : 0 < A.
  Hypothesis O1 : 0 < cl' < cl.
  Hypothesis O2 : ch < ch'.
  Hypothesis O3 : 0 < el' < el.
  Hypothesis O4 : eh < eh'.
  Hypothesis HQ : q < 1.
  Hypothesis Hmg : 0 < mg.
  Hypothesis Hxy : 0 <= x < y.
  Hypothesis Hbb : approaches_within b A b.
  Hypothesis HB : forall s, approaches_within b A s -> exists r, Run_new comps0 s = Ret r /\
    settles_between r cl ch el eh cl' ch' el' eh' T_low T_top V_hi v_hi rho rv q mg /\
    y <= ru_period r /\ forall t, x < t < y -> pushes_at r t.
  Let tau := ru_period rb.
  Let mem := member comps0 b cl ch el eh cl' ch' el' eh' T_low T_top V_hi v_hi rho rv q mg.
  Let rounds := turn b rb D cl' ch' el' eh' T_low T_top mg.
  Let outer r := within_levels r P0 cl' ch' el' eh'.
  Let inner r := within_levels r P0 cl ch el eh.
  Let mP := most_P cl' ch' el' eh' T_low T_top P0.
  Let rim := rim_width cl ch el eh cl' ch' el' eh' T_top.
  Lemma member_of s : approaches_within b A s -> exists r, mem s r /\ y <= tau /\ forall t, x < t < y -> pushes_at r t.
  Proof.
    intros Hs. destruct (HB s Hs) as (r & Hr & Hb & Hy & HU). exists r. pose proof Hs as (S1 & S2 & _). destruct (within_sym b A s Hs) as (S4 & S5).
    destruct (same_motion comps0 b rb s r Hd Hrb Hr) as (EP & _). unfold tau. rewrite <- EP.
    split; [|split; [exact Hy|exact HU]]. split; [congruence|]. split; [exact Hr|]. split; [rewrite S4, S5; exact Hn|]. split; [exact S2|exact Hb].
  Qed.
  Lemma member_b : mem b rb.
  Proof. destruct (member_of b Hbb) as (r & H & _). pose proof H as (_ & Hr & _). assert (r = rb) by congruence. subst r. exact H. Qed.
  Lemma member_temps s r : mem s r -> s_temp s = ru_temp r.
  Proof.
    intros (_ & Hr & _ & _ & HS). pose proof HS as (HX & VC & VE & HT & HL & M1 & M2 & _).
    apply (same_temps comps0 s r cl ch el eh cl' ch' el' eh' T_low V_hi v_hi rho rv Hr HX VC VE HT); lra.
  Qed.
  Lemma temps_pos : 0 < T_low /\ 0 < T_top.
  Proof.
    pose proof member_b as (_ & _ & _ & _ & HS). split.
    - exact (low_T rb cl ch el eh cl' ch' el' eh' T_low T_top V_hi v_hi rho rv q mg HS).
    - apply (tops rb cl ch el eh cl' ch' el' eh' T_low T_top V_hi v_hi rho rv q mg O1 O2 O3 O4 HS Hmg).
  Qed.

  (** the samples [vs] of a nearly steady revolution at the instants [ts] *)
  Definition sampled (e w : R) (ts : list R) (s : State R) (r : Run R) (vs : list (SeValues R)) : Prop :=
    mem s r /\ map (@sv_time R) vs = ts /\ grid_to ts tau /\ Forall (found_sample s r D cl' ch' el' eh' T_low T_top) vs /\
    exists ic i z, outer r ic /\ inner r i /\ spread ic i <= rim / 2 /\ z 0 = ic /\ rounds r z /\ spread (z tau) ic <= w /\
      Forall (fun v => gap (sv_conditions v) (z (sv_time v)) <= e) vs.
  Definition near_samples (w : R) (v1 v2 : SeValues R) : Prop :=
    let o1 := sv_solution v1 in let o2 := sv_solution v2 in
    Rabs (cd_P (sv_conditions v1) - cd_P (sv_conditions v2)) <= w /\
    Rabs (cd_T_c (sv_conditions v1) - cd_T_c (sv_conditions v2)) <= w /\ Rabs (cd_T_e (sv_conditions v1) - cd_T_e (sv_conditions v2)) <= w /\
    Rabs (so_m_dot_ck o1 - so_m_dot_ck o2) <= w /\ Rabs (so_m_dot_kr o1 - so_m_dot_kr o2) <= w /\
    Rabs (so_m_dot_rl o1 - so_m_dot_rl o2) <= w /\ Rabs (so_m_dot_le o1 - so_m_dot_le o2) <= w /\
    Rabs (so_Q_dot_k o1 - so_Q_dot_k o2) <= w /\ Rabs (so_Q_dot_l o1 - so_Q_dot_l o2) <= w.
  Lemma samples_near : exists K d0, 0 <= K /\ 0 < d0 /\ forall e w ts s1 r1 vs1 s2 r2 vs2, 0 <= e -> 0 <= w ->
    sampled e w ts s1 r1 vs1 -> sampled e w ts s2 r2 vs2 -> tdist (s_temp s1) (s_temp s2) <= d0 ->
    Forall2 (near_samples (K * (e + w + tdist (s_temp s1) (s_temp s2)))) vs1 vs2.
  Proof.
    pose proof member_b as MB. pose proof MB as (_ & _ & _ & _ & SB).
    destruct (turns_close comps0 b rb D cl ch el eh cl' ch' el' eh' T_low T_top V_hi v_hi rho rv q mg Hd HD HC HP0 O1 O2 O3 O4 HQ Hmg MB) as (K1 & d0 & K1p & D0 & TC).
    destruct (vary_runs comps0 b rb D cl ch el eh cl' ch' el' eh' T_low T_top V_hi v_hi rho rv q mg Hd HD O1 O3 Hrb SB (2 * mP)) as (B & L & B0 & L0 & VR).
    exists ((L + 1) * (3 + K1)), d0. split; [apply Rmult_le_pos; lra|]. split; [exact D0|].
    intros e w ts s1 r1 vs1 s2 r2 vs2 E0 W0 (M1 & TS1 & G1 & F1 & i1 & j1 & z1 & A1 & A2 & A3 & A4 & A5 & A6 & A7) (M2 & TS2 & G2 & F2 & i2 & j2 & z2 & B1 & B2 & B3 & B4 & B5 & B6 & B7) HT.
    rewrite (member_temps s1 r1 M1), (member_temps s2 r2 M2) in *.
    set (d := tdist (ru_temp r1) (ru_temp r2)) in *. pose proof (tdist_nonneg (ru_temp r1) (ru_temp r2)) as DN. fold d in DN.
    pose proof (TC s1 r1 s2 r2 i1 i2 j1 z1 z2 w M1 M2 A2 A3 A1 B1 A4 B4 A5 B5 W0 A6 B6 HT) as GZ. fold d in GZ.
    assert (KW : 0 <= K1 * e) by (apply Rmult_le_pos; lra). assert (KL : 0 <= (L + 1) * (3 + K1)) by (apply Rmult_le_pos; lra).
    pose proof M1 as (_ & R1 & _ & P1 & S1). pose proof M2 as (_ & R2 & _ & P2 & S2).
    assert (GR := grid_range _ _ G1). rewrite <- TS1 in GR. clear G1 G2.
    assert (ET : map (@sv_time R) vs1 = map (@sv_time R) vs2) by congruence. clear TS1 TS2.
    revert vs2 F1 F2 A7 B7 GR ET. induction vs1 as [|v1 vs1 IH]; intros [|v2 vs2] F1 F2 A7 B7 GR ET; try discriminate ET; [constructor|]. injection ET as ET0 ET.
    constructor.
    - apply Forall_inv in F1, F2, A7, B7. pose proof (GR _ (or_introl eq_refl)) as Ht.
      destruct F1 as (_ & F11 & F12 & F13 & F14 & (h1 & F15)). destruct F2 as (_ & F21 & F22 & F23 & F24 & (h2 & F25)). rewrite P1 in F11. rewrite P2 in F21.
      rewrite <- ET0 in F24, F25, B7. specialize (GZ _ Ht).
      set (c1 := sv_conditions v1) in *. set (c2 := sv_conditions v2) in *.
      assert (GG : gap c1 c2 <= 2 * e + K1 * (w + d)).
      { pose proof (gap_tri c1 (z1 (sv_time v1)) c2) as T1. pose proof (gap_tri (z1 (sv_time v1)) (z2 (sv_time v1)) c2) as T2. rewrite (gap_sym (z2 _) c2) in T2. lra. }
      destruct (VR s1 r1 s2 r2 (sv_time v1) c1 c2 h1 h2 _ _ R1 R2 S1 S2 (proj1 Ht) F14 F24 F15 F25 F12 F13 F22 F23 (proj2 F11) (proj2 F21)) as (_ & (V1 & V2 & V3 & V4) & V5 & V6).
      cbv zeta in *. fold d in V1, V2, V3, V4, V5, V6.
      assert (DD : gap c1 c2 + d <= (3 + K1) * (e + w + d)).
      { replace ((3 + K1) * (e + w + d)) with (3 * (e + w + d) + K1 * e + K1 * (w + d)) by ring. lra. }
      assert (LD : forall u, u <= L * (gap c1 c2 + d) -> u <= (L + 1) * (3 + K1) * (e + w + d)).
      { intros u Hu. apply Rle_trans with (1 := Hu). rewrite Rmult_assoc. apply Rmult_le_compat; try lra. pose proof (gap_nonneg c1 c2). lra. }
      assert (LG : gap c1 c2 <= (L + 1) * (3 + K1) * (e + w + d)).
      { rewrite Rmult_assoc. apply Rle_trans with (1 * ((3 + K1) * (e + w + d))); [lra|]. apply Rmult_le_compat_r; [|lra]. apply Rmult_le_pos; lra. }
      destruct (gap_parts c1 c2 _ LG) as (GP & GC & GE). unfold near_samples. fold c1 c2.
      split; [exact GP|]. split; [exact GC|]. split; [exact GE|]. repeat split; apply LD; [apply V1|apply V2|apply V3|apply V4|apply V5|apply V6].
    - apply IH; try assumption; try exact (Forall_inv_tail F1); try exact (Forall_inv_tail F2); try exact (Forall_inv_tail A7); try exact (Forall_inv_tail B7).
      intros t Ht. apply GR. right. exact Ht.
  Qed.
  (** ** What the outer loop makes of them *)
  Let Vf := ru_vol_chx rb + ru_vol_regen rb + ru_vol_hhx rb.
  Let FM := flow_most cl' ch' el' eh' T_low T_top V_hi v_hi Vf P0.
  Let HM := heat_most cl' ch' el' eh' T_low T_top V_hi v_hi Vf P0.
  Variable res : ThermalResistance R.
  Hypothesis Hres : forall p, ws_thermal_resistance (co_ws comps0) p = Ret res.
  Variable kept : R.
  Hypothesis Hk : small_approach kept sink source.
  Hypothesis HkA : kept <= A.
  Let HQm := HM + T_top * (Rabs (/ tr_comp res) + Rabs (/ tr_exp res)).
  (** the averages *)
  Lemma averages_near K e w ts s1 r1 vs1 s2 r2 vs2 m1 Q1 m2 Q2 : 0 <= K -> 0 <= e -> 0 <= w ->
    let d := tdist (s_temp s1) (s_temp s2) in let N := e + w + d in
    sampled e w ts s1 r1 vs1 -> sampled e w ts s2 r2 vs2 -> Forall2 (near_samples (K * N)) vs1 vs2 ->
    mass_flow_averages (Values_from vs1) m1 -> heat_flow_averages (Values_from vs1) (te_chx (s_temp s1)) (te_hhx (s_temp s1)) res Q1 ->
    mass_flow_averages (Values_from vs2) m2 -> heat_flow_averages (Values_from vs2) (te_chx (s_temp s2)) (te_hhx (s_temp s2)) res Q2 ->
    let KQ := K + (K + 1) * (Rabs (/ tr_comp res) + Rabs (/ tr_exp res)) in
    Rabs (mf_chx m1 - mf_chx m2) <= K * N /\ Rabs (mf_regen m1 - mf_regen m2) <= K * N /\ Rabs (mf_hhx m1 - mf_hhx m2) <= K * N /\
    Rabs (hf_chx Q1 - hf_chx Q2) <= KQ * N /\ Rabs (hf_hhx Q1 - hf_hhx Q2) <= KQ * N.
  Proof.
    intros K0 E0 W0 d N (_ & TS1 & G1 & _) (_ & TS2 & G2 & _) HN (A1 & A2 & A3) (q_c & q_k & q_e & q_l & (_ & A4) & (_ & A5) & A6 & A7 & _ & -> & ->)
      (B1 & B2 & B3) (p_c & p_k & p_e & p_l & (_ & B4) & (_ & B5) & B6 & B7 & _ & -> & ->) KQ.
    specialize (A4 eq_refl). specialize (A5 eq_refl). specialize (B4 eq_refl). specialize (B5 eq_refl).
    unfold Values_from in A1, A2, A3, A4, A5, A6, A7, B1, B2, B3, B4, B5, B6, B7. cbn [vs_time vs_m_dot_ck vs_m_dot_kr vs_m_dot_rl vs_m_dot_le vs_Q_dot_k vs_Q_dot_l vs_T_c vs_T_e] in *.
    change (map (fun v : SeValues R => sv_time v) vs1) with (map (@sv_time R) vs1) in *. change (map (fun v : SeValues R => sv_time v) vs2) with (map (@sv_time R) vs2) in *.
    assert (MG : forall vs, mean_magnitudes (map (fun v => so_m_dot_ck (sv_solution v)) vs) (map (fun v => so_m_dot_kr (sv_solution v)) vs) = map (fun v : SeValues R => / 2 * Rabs (so_m_dot_ck (sv_solution v) + so_m_dot_kr (sv_solution v))) vs /\
      mean_magnitudes (map (fun v => so_m_dot_kr (sv_solution v)) vs) (map (fun v => so_m_dot_rl (sv_solution v)) vs) = map (fun v : SeValues R => / 2 * Rabs (so_m_dot_kr (sv_solution v) + so_m_dot_rl (sv_solution v))) vs /\
      mean_magnitudes (map (fun v => so_m_dot_rl (sv_solution v)) vs) (map (fun v => so_m_dot_le (sv_solution v)) vs) = map (fun v : SeValues R => / 2 * Rabs (so_m_dot_rl (sv_solution v) + so_m_dot_le (sv_solution v))) vs).
    { intros vs. split; [exact (magnitudes_map (fun v => so_m_dot_ck (sv_solution v)) (fun v => so_m_dot_kr (sv_solution v)) vs)|].
      split; [exact (magnitudes_map (fun v => so_m_dot_kr (sv_solution v)) (fun v => so_m_dot_rl (sv_solution v)) vs)|].
      exact (magnitudes_map (fun v => so_m_dot_rl (sv_solution v)) (fun v => so_m_dot_le (sv_solution v)) vs). }
    destruct (MG vs1) as (X1 & X2 & X3). rewrite X1 in A1. rewrite X2 in A2. rewrite X3 in A3.
    destruct (MG vs2) as (Y1 & Y2 & Y3). rewrite Y1 in B1. rewrite Y2 in B2. rewrite Y3 in B3. clear MG X1 X2 X3 Y1 Y2 Y3.
    rewrite !map_map in A4, A5, B4, B5. rewrite TS1 in A1, A2, A3, A4, A5, A6, A7. rewrite TS2 in B1, B2, B3, B4, B5, B6, B7.
    apply (average_is _ _ _ tau) in A1, A2, A3, A4, A5, A6, A7, B1, B2, B3, B4, B5, B6, B7; try exact G1.
    assert (LL : length vs1 = length ts) by (rewrite <- TS1, map_length; reflexivity).
    assert (AP : forall (f g : SeValues R -> R) u, (forall v1 v2, near_samples (K * N) v1 v2 -> Rabs (f v1 - g v2) <= u) ->
      Rabs (integrate ts (map f vs1) / tau - integrate ts (map g vs2) / tau) <= u).
    { intros f g u H. apply (means_apart ts tau u _ _ G1); [|rewrite map_length; exact LL]. exact (two_maps f g _ u vs1 vs2 HN H). }
    pose proof (tdist_parts (s_temp s1) (s_temp s2)) as (T1 & T2 & _). fold d in T1, T2.
    pose proof (tdist_nonneg (s_temp s1) (s_temp s2)) as D0. fold d in D0.
    assert (DN : d <= N) by (unfold N; lra).
    pose proof (Rabs_pos (/ tr_comp res)) as Z1. pose proof (Rabs_pos (/ tr_exp res)) as Z2.
    assert (N0 : 0 <= N) by lra.
    assert (KN : 0 <= (K + 1) * N) by (apply Rmult_le_pos; lra).
    assert (W1 : 0 <= (K + 1) * N * Rabs (/ tr_comp res)) by (apply Rmult_le_pos; lra). assert (W2 : 0 <= (K + 1) * N * Rabs (/ tr_exp res)) by (apply Rmult_le_pos; lra).
    assert (EQ : KQ * N = K * N + ((K + 1) * N * Rabs (/ tr_comp res) + (K + 1) * N * Rabs (/ tr_exp res))) by (unfold KQ; ring).
    split; [rewrite A1, B1; apply AP; intros v1 v2 (_ & _ & _ & H1 & H2 & _); apply half_sum_near; assumption|].
    split; [rewrite A2, B2; apply AP; intros v1 v2 (_ & _ & _ & _ & H1 & H2 & _); apply half_sum_near; assumption|].
    split; [rewrite A3, B3; apply AP; intros v1 v2 (_ & _ & _ & _ & _ & H1 & H2 & _); apply half_sum_near; assumption|].
    assert (C1 : Rabs (q_c - p_c) <= (K + 1) * N * Rabs (/ tr_comp res)).
    { rewrite A4, B4. apply AP. intros v1 v2 (_ & H & _). change (@n_sub R R_ops) with Rminus. change (@n_div R R_ops) with Rdiv. cbv beta.
      replace ((cd_T_c (sv_conditions v1) - te_chx (s_temp s1)) / tr_comp res - (cd_T_c (sv_conditions v2) - te_chx (s_temp s2)) / tr_comp res) with
        ((cd_T_c (sv_conditions v1) - cd_T_c (sv_conditions v2) - (te_chx (s_temp s1) - te_chx (s_temp s2))) * / tr_comp res) by (unfold Rdiv; ring).
      apply abs_le_mul; [|lra]. replace ((K + 1) * N) with (K * N + N) by ring. apply abs_le_sub; [exact H|lra]. }
    assert (C2 : Rabs (q_e - p_e) <= (K + 1) * N * Rabs (/ tr_exp res)).
    { rewrite A5, B5. apply AP. intros v1 v2 (_ & _ & H & _). change (@n_sub R R_ops) with Rminus. change (@n_div R R_ops) with Rdiv. cbv beta.
      replace ((te_hhx (s_temp s1) - cd_T_e (sv_conditions v1)) / tr_exp res - (te_hhx (s_temp s2) - cd_T_e (sv_conditions v2)) / tr_exp res) with
        ((te_hhx (s_temp s1) - te_hhx (s_temp s2) - (cd_T_e (sv_conditions v1) - cd_T_e (sv_conditions v2))) * / tr_exp res) by (unfold Rdiv; ring).
      apply abs_le_mul; [|lra]. replace ((K + 1) * N) with (N + K * N) by ring. apply abs_le_sub; [lra|exact H]. }
    assert (C3 : Rabs (q_k - p_k) <= K * N) by (rewrite A6, B6; apply (AP (fun v => so_Q_dot_k (sv_solution v)) (fun v => so_Q_dot_k (sv_solution v))); intros v1 v2 H; apply H).
    assert (C4 : Rabs (q_l - p_l) <= K * N) by (rewrite A7, B7; apply (AP (fun v => so_Q_dot_l (sv_solution v)) (fun v => so_Q_dot_l (sv_solution v))); intros v1 v2 H; apply H).
    rewrite EQ. apply abs_le_iff in C1, C2, C3, C4. change (@n_add R R_ops) with Rplus. split; apply abs_le_iff; lra.
  Qed.
  Let cap := approach_most cl' ch' el' eh' T_low T_top V_hi v_hi Vf P0 res.
  (** the approaches are computed from the averages *)
  Let capp U := Rmax kept (cap / U).
  Lemma recomputed_is comps U g_k g_r g_l e w ts h s r vs P m Q T' : same_build comps0 comps -> laws comps U kept g_k g_r g_l ->
    approaches_within b A s -> sampled e w ts s r vs -> steps_within h ts -> 0 <= h < (y - x) / 2 ->
    recomputed comps (s_fluid s) (s_pres s) (s_temp s) (s_regen_imbalance s) (Values_from vs) P m Q T' ->
    mass_flow_averages (Values_from vs) m /\ heat_flow_averages (Values_from vs) (te_chx (s_temp s)) (te_hhx (s_temp s)) res Q /\
    0 < mf_chx m <= FM /\ 0 < mf_regen m <= FM /\ 0 < mf_hhx m <= FM /\ Rabs (hf_chx Q) <= HQm /\ Rabs (hf_hhx Q) <= HQm /\
    temperatures_follow sink source (g_k (hf_chx Q) (mf_chx m)) (g_r (te_hhx (s_temp s) - te_chx (s_temp s)) (mf_regen m)) (g_l (hf_hhx Q) (mf_hhx m)) 0 T'.
  Proof.
    intros SB (_ & _ & _ & C1 & C2 & C3 & _) Hs (M & TS & G & F & _) HSt Hh (res' & b_k & b_r & b_l & _ & Q2 & Q3 & Q4 & Q5 & Q6 & Q7 & Q8).
    destruct (member_of s Hs) as (r' & M' & Hy & HU). pose proof M as (Hf & Hr & Hn' & HP & HSet). pose proof M' as (_ & Hr' & _). assert (r' = r) by congruence. subst r'.
    pose proof SB as (EW & _). rewrite EW, Hres in Q3. injection Q3 as <-.
    pose proof (member_period comps0 b rb cl ch el eh cl' ch' el' eh' T_low T_top V_hi v_hi rho rv q mg Hd member_b s r M) as EP. fold tau in EP.
    destruct (run_volumes comps0 b rb s r Hrb Hr) as (V1 & V2 & V3).
    assert (NE : vs <> []) by (intros ->; cbn in TS; subst ts; destruct G as (_ & (? & G) & _); discriminate G).
    destruct (averages_sizes comps0 s r D cl ch el eh cl' ch' el' eh' T_low T_top V_hi v_hi rho rv q mg Hf Hd Hr Hn' HD HC
      ltac:(rewrite HP; exact HP0) O1 O2 O3 O4 HSet HQ Hmg vs x y h m Q res NE ltac:(rewrite TS, EP; exact G) ltac:(rewrite TS; exact HSt) F Hxy ltac:(rewrite EP; exact Hy) Hh HU Q2 Q4)
      as (M1 & M2 & M3 & N1 & N2).
    rewrite V1, V2, V3, HP in *. fold P0 in M1, M2, M3, N1, N2. fold Vf in M1, M2, M3, N1, N2. fold FM in M1, M2, M3. fold HM in N1, N2. fold HQm in N1, N2.
    split; [exact Q2|]. split; [exact Q4|]. split; [exact M1|]. split; [exact M2|]. split; [exact M3|]. split; [exact N1|]. split; [exact N2|].
    pose proof (proj1 (C1 (s_fluid s) (te_chx (s_temp s)) (te_sink (s_temp s)) P _ (hf_chx Q) Hf (proj1 M1))) as E1.
    pose proof (proj1 (C2 (s_fluid s) (rt_avg (te_regen (s_temp s))) (te_chx (s_temp s)) (te_hhx (s_temp s)) P _ (hf_regen Q) Hf (proj1 M2))) as E2.
    pose proof (proj1 (C3 (s_fluid s) (te_hhx (s_temp s)) (te_source (s_temp s)) P _ (hf_hhx Q) Hf (proj1 M3))) as E3.
    cbv beta in E1, E2, E3. rewrite Q5 in E1. rewrite Q6 in E2. rewrite Q7 in E3. injection E1 as E1. injection E2 as E2. injection E3 as E3.
    rewrite E1, E2, E3 in Q8. destruct (within_sym b A s Hs) as (S4 & S5). pose proof Hs as (_ & _ & S6 & _). rewrite S4, S5, S6, Him in Q8. exact Q8.
  Qed.
  Lemma sizes : 0 <= FM -> 0 <= HQm -> 0 <= cap /\ HQm <= cap /\ T_top * (2 * cp_he * FM) <= cap.
  Proof.
    intros F H. destruct temps_pos as (T0 & T1). pose proof cp_pos. unfold HQm in H. unfold cap, approach_most. fold FM HM. unfold HQm.
    assert (0 <= T_top * (2 * cp_he * FM)) by (apply Rmult_le_pos; [lra|]; apply Rmult_le_pos; lra). lra.
  Qed.
  Lemma inv_small U u : 0 < U -> U <= u -> 0 < / u <= / U.
  Proof. intros. split; [apply Rinv_0_lt_compat; lra|apply Rinv_le_contravar; lra]. Qed.
  Lemma span_inside s r : mem s r -> Rabs (te_hhx (s_temp s) - te_chx (s_temp s)) <= T_top.
  Proof.
    intros M. pose proof M as (_ & _ & _ & _ & HS). rewrite (member_temps s r M). pose proof HS as (_ & _ & _ & _ & _ & _ & _ & _ & _ & I1 & I2 & _).
    destruct temps_pos. apply abs_le_iff. lra.
  Qed.
  Lemma approaches_small comps U g_k g_r g_l s r (m : MassFlows R) (Q : HeatFlows R) : mem s r -> 0 < U -> laws comps U kept g_k g_r g_l ->
    0 < mf_chx m <= FM -> 0 < mf_regen m <= FM -> 0 < mf_hhx m <= FM -> Rabs (hf_chx Q) <= HQm -> Rabs (hf_hhx Q) <= HQm ->
    Rabs (g_k (hf_chx Q) (mf_chx m)) <= capp U /\ Rabs (g_r (te_hhx (s_temp s) - te_chx (s_temp s)) (mf_regen m)) <= capp U /\ Rabs (g_l (hf_hhx Q) (mf_hhx m)) <= capp U.
  Proof.
    intros M U0 (L1 & L2 & L3 & _) M1 M2 M3 N1 N2. destruct sizes as (C0 & C1 & C2); [lra|apply Rle_trans with (2 := N1), Rabs_pos|].
    split; [apply heat_law_small; try assumption; lra|]. split; [|apply heat_law_small; try assumption; lra].
    apply (span_law_small U kept cap U0 g_r FM T_top); try assumption. exact (span_inside s r M).
  Qed.
  Lemma product_near P P' f f' B w v z : Rabs P <= B -> Rabs f' <= z -> Rabs (f - f') <= v -> Rabs (P - P') <= w -> Rabs (P * f - P' * f') <= B * v + w * z.
  Proof.
    intros H1 H2 H3 H4. replace (P * f - P' * f') with (P * (f - f') + (P - P') * f') by ring. apply abs_le_add; apply abs_le_mul; assumption.
  Qed.
  Lemma kept_below Af : Af = Rmin (sink / 4) ((source - sink) / 8) -> kept <= Af.
  Proof. intros ->. destruct Hk as (_ & K1 & K2). apply Rmin_glb; lra. Qed.
  (** the state updated from samples *)
  Lemma updated comps U e w ts h s r vs tol : same_build comps0 comps -> mixed comps U kept -> 0 < U -> approaches_within b A s -> sampled e w ts s r vs ->
    (exists v rest, vs = v :: rest /\ cd_P (sv_conditions v) = pr_t_zero (s_pres s)) -> steps_within h ts -> 0 <= h < (y - x) / 2 ->
    State_update s comps (Values_from vs) tol = Ret (Err s) \/
    exists s1, State_update s comps (Values_from vs) tol = Ret (Ok s1) /\ approaches_within b (capp U) s1 /\ ~ temperatures_close tol (s_temp s) (s_temp s1).
  Proof.
    intros SB HMx U0 Hs SA HV HSt Hh. destruct (mixed_laws comps U kept U0 HMx) as (g_k & g_r & g_l & HCd). pose proof Hs as (S1 & S2 & S3 & _).
    destruct (State_update s comps (Values_from vs) tol) as [[s'|s']|p] eqn:Hu.
    - right. exists s'. split; [reflexivity|]. apply State_update_spec in Hu as ((_ & (P' & HP') & _) & Hrec & Hnc & F1 & F2). split; [|exact Hnc].
      split; [congruence|]. split.
      { destruct HV as (v & rest & -> & HV). unfold Values_from in HP'. cbn [vs_P map] in HP'. injection HP' as HP' _. rewrite <- HP', HV. exact S2. }
      split; [congruence|].
      destruct (recomputed_is comps U g_k g_r g_l e w ts h s r vs _ _ _ _ SB HCd Hs SA HSt Hh Hrec) as (_ & _ & M1 & M2 & M3 & N1 & N2 & FT).
      destruct (approaches_small comps U g_k g_r g_l s r _ _ (proj1 SA) U0 HCd M1 M2 M3 N1 N2) as (B1 & B2 & B3). rewrite Him.
      eexists _, _, _. split; [exact B1|]. split; [exact B2|]. split; [exact B3|exact FT].
    - left. apply State_update_spec in Hu as (-> & _). reflexivity.
    - exfalso. pose proof SB as (EW & _). pose proof HCd as (_ & _ & _ & _ & _ & _ & T1 & T2 & T3).
      apply (State_update_panic _ _ _ _ _ _ (Values_from_series vs)) in Hu as [[_ Hu]|[Hu|Hu]].
      + destruct HV as (v & rest & -> & _). discriminate Hu.
      + rewrite EW, Hres in Hu. discriminate Hu.
      + destruct Hu as [(z & Hz)|[(z & Hz)|(z & Hz)]]; [destruct (T1 z) as (? & E)|destruct (T2 z) as (? & E)|destruct (T3 z) as (? & E)]; congruence.
  Qed.
  (** ** The temperatures recomputed from the samples of two states are nearer than those of the states *)
  Theorem recomputed_near : exists K U0 d0, 0 <= K /\ 1 <= U0 /\ 0 < d0 /\ forall U, U0 <= U ->
    forall comps, same_build comps0 comps -> mixed comps U kept ->
    forall e w ts h s1 r1 vs1 s2 r2 vs2 P1 m1 Q1 T1 P2 m2 Q2 T2, 0 <= e -> 0 <= w -> approaches_within b A s1 -> approaches_within b A s2 ->
    sampled e w ts s1 r1 vs1 -> sampled e w ts s2 r2 vs2 -> steps_within h ts -> 0 <= h < (y - x) / 2 ->
    recomputed comps (s_fluid s1) (s_pres s1) (s_temp s1) (s_regen_imbalance s1) (Values_from vs1) P1 m1 Q1 T1 ->
    recomputed comps (s_fluid s2) (s_pres s2) (s_temp s2) (s_regen_imbalance s2) (Values_from vs2) P2 m2 Q2 T2 ->
    tdist T1 T2 <= K / U /\ (tdist (s_temp s1) (s_temp s2) <= d0 -> tdist T1 T2 <= K / U * (e + w + tdist (s_temp s1) (s_temp s2))).
  Proof.
    destruct samples_near as (K1 & d0 & K1p & D0 & SN). destruct (follow_apart sink source Hss) as (Kf & Af & Kfp & Af0 & AfE & FA). pose proof (kept_below Af AfE) as HkF.
    pose proof cp_pos as CP. destruct temps_pos as (TL & TT).
    set (KQ := K1 + (K1 + 1) * (Rabs (/ tr_comp res) + Rabs (/ tr_exp res))).
    set (Ka := Rabs HQm * (16 * (cp_he * K1)) + KQ). set (Kr := T_top * (2 * (cp_he * K1)) + 2 * (2 * (cp_he * Rabs FM))).
    assert (Z0 : 0 <= Rabs (/ tr_comp res) + Rabs (/ tr_exp res)) by (pose proof (Rabs_pos (/ tr_comp res)); pose proof (Rabs_pos (/ tr_exp res)); lra).
    assert (KQ0 : 0 <= KQ) by (unfold KQ; assert (0 <= (K1 + 1) * (Rabs (/ tr_comp res) + Rabs (/ tr_exp res))) by (apply Rmult_le_pos; lra); lra).
    assert (CK : 0 <= cp_he * K1) by (apply Rmult_le_pos; lra). pose proof (Rabs_pos HQm) as HQ0. pose proof (Rabs_pos FM) as FM0.
    assert (CF : 0 <= cp_he * Rabs FM) by (apply Rmult_le_pos; lra).
    assert (Ka0 : 0 <= Ka) by (unfold Ka; assert (0 <= Rabs HQm * (16 * (cp_he * K1))) by (apply Rmult_le_pos; lra); lra).
    assert (Kr0 : 0 <= Kr) by (unfold Kr; assert (0 <= T_top * (2 * (cp_he * K1))) by (apply Rmult_le_pos; lra); lra).
    pose proof (Rabs_pos cap) as CA. pose proof (Rle_abs cap) as CA'.
    set (K := Kf * (Ka + Kr + 2 * Rabs cap)). set (U0 := 1 + Rabs cap / Af).
    assert (CAf : 0 <= Rabs cap / Af) by (apply Rle_mult_inv_pos; lra).
    exists K, U0, d0. split; [apply Rmult_le_pos; lra|]. split; [unfold U0; lra|]. split; [exact D0|].
    intros U HU comps SB HMx e w ts h s1 r1 vs1 s2 r2 vs2 P1 m1 Q1 T1 P2 m2 Q2 T2 E0 W0 A1 A2 S1 S2 HSt Hh R1 R2.
    assert (Up : 1 <= U) by (unfold U0 in HU; lra).
    destruct (mixed_laws comps U kept ltac:(lra) HMx) as (g_k & g_r & g_l & HCd). pose proof HCd as (LWk & LWr & LWl & _).
    destruct (recomputed_is comps U g_k g_r g_l e w ts h s1 r1 vs1 P1 m1 Q1 T1 SB HCd A1 S1 HSt Hh R1) as (MA1 & HA1 & F11 & F12 & F13 & F14 & F15 & F16).
    destruct (recomputed_is comps U g_k g_r g_l e w ts h s2 r2 vs2 P2 m2 Q2 T2 SB HCd A2 S2 HSt Hh R2) as (MA2 & HA2 & F21 & F22 & F23 & F24 & F25 & F26).
    destruct (approaches_small comps U g_k g_r g_l s1 r1 m1 Q1 (proj1 S1) ltac:(lra) HCd F11 F12 F13 F14 F15) as (B1 & B2 & B3).
    destruct (approaches_small comps U g_k g_r g_l s2 r2 m2 Q2 (proj1 S2) ltac:(lra) HCd F21 F22 F23 F24 F25) as (B4 & B5 & B6).
    assert (IU : 0 < / U) by (apply Rinv_0_lt_compat; lra).
    assert (CU : capp U <= Af).
    { apply Rmax_lub; [exact HkF|]. apply (Rmult_le_reg_r U); [lra|]. replace (cap / U * U) with cap by (field; lra). apply Rle_trans with (Af * U0); [|apply Rmult_le_compat_l; lra].
      unfold U0. replace (Af * (1 + Rabs cap / Af)) with (Af + Rabs cap) by (field; lra). lra. }
    pose proof (fun w' => FA _ _ _ _ _ _ T1 T2 w' (Rle_trans _ _ _ B1 CU) (Rle_trans _ _ _ B2 CU) (Rle_trans _ _ _ B3 CU) (Rle_trans _ _ _ B4 CU) (Rle_trans _ _ _ B5 CU) (Rle_trans _ _ _ B6 CU) F16 F26) as FAw. clear FA.
    split.
    - apply Rle_trans with (Kf * (2 * Rabs cap / U)).
      + assert (CC : cap / U <= Rabs cap / U) by (unfold Rdiv; apply Rmult_le_compat_r; lra). replace (2 * Rabs cap / U) with (2 * (Rabs cap / U)) by (unfold Rdiv; ring).
        destruct sizes as (C0 & C1 & C2); [lra|apply Rle_trans with (2 := F14), Rabs_pos|].
        apply FAw; (eapply Rle_trans; [|apply Rmult_le_compat_l; [lra|exact CC]]).
        * apply (heat_law_far U kept cap); try assumption; lra.
        * apply (span_law_far U kept cap ltac:(lra) g_r FM T_top); try assumption; [exact (span_inside s1 r1 (proj1 S1))|exact (span_inside s2 r2 (proj1 S2))].
        * apply (heat_law_far U kept cap); try assumption; lra.
      + unfold K, Rdiv. rewrite <- Rmult_assoc. apply Rmult_le_compat_r; [lra|]. apply Rmult_le_compat_l; lra.
    - intros HT. pose proof (SN e w ts s1 r1 vs1 s2 r2 vs2 E0 W0 S1 S2 HT) as NS.
      set (d := tdist (s_temp s1) (s_temp s2)) in *. set (N := e + w + d) in *.
      pose proof (tdist_nonneg (s_temp s1) (s_temp s2)) as DN. fold d in DN. assert (N0 : 0 <= N) by (unfold N; lra). assert (dN : d <= N) by (unfold N; lra).
      destruct (averages_near K1 e w ts s1 r1 vs1 s2 r2 vs2 m1 Q1 m2 Q2 K1p E0 W0 S1 S2 NS MA1 HA1 MA2 HA2) as (C1 & C2 & C3 & C4 & C5).
      fold d in C1, C2, C3, C4, C5. fold N in C1, C2, C3, C4, C5. fold KQ in C4, C5.
      assert (KN : 0 <= K1 * N) by (apply Rmult_le_pos; lra). assert (KQN : 0 <= KQ * N) by (apply Rmult_le_pos; lra).
      assert (CM : forall m m', 0 < m -> 0 < m' -> Rabs (m - m') <= K1 * N -> Rabs (cp_he * m - cp_he * m') <= cp_he * K1 * N).
      { intros m m' _ _ H. replace (cp_he * m - cp_he * m') with (cp_he * (m - m')) by ring. rewrite Rabs_mult, (Rabs_pos_eq cp_he) by lra.
        rewrite Rmult_assoc. apply Rmult_le_compat_l; lra. }
      assert (LK : forall p p' m m' u, Rabs p <= HQm -> 0 < m -> 0 < m' -> Rabs (m - m') <= K1 * N -> Rabs (p - p') <= KQ * N -> U <= u ->
        Rabs (p * per_heat (cp_he * m) u - p' * per_heat (cp_he * m') u) <= Ka / U * N).
      { intros p p' m m' u Hp Hm Hm' Hmm Hpp Hu. destruct (inv_small U u ltac:(lra) Hu) as (I1 & I2).
        assert (I3 : / u <= 1) by (rewrite <- Rinv_1; apply Rinv_le_contravar; lra).
        assert (PM : 0 < cp_he * m) by (apply Rmult_lt_0_compat; lra). assert (PM' : 0 < cp_he * m') by (apply Rmult_lt_0_compat; lra).
        destruct (per_heat_small (cp_he * m') u PM' ltac:(lra)) as (P3 & P4).
        pose proof (per_heat_near u (cp_he * m) (cp_he * m') ltac:(lra) PM PM') as PN. pose proof (CM m m' Hm Hm' Hmm) as HC1.
        assert (V : Rabs (per_heat (cp_he * m) u - per_heat (cp_he * m') u) <= 16 * (cp_he * K1) * / U * N).
        { apply Rle_trans with (1 := PN). replace (16 * (cp_he * K1) * / U * N) with (16 * / U * 1 * (cp_he * K1 * N)) by ring.
          apply Rmult_le_compat; [|apply Rabs_pos| |exact HC1].
          - apply Rmult_le_pos; [|lra]. lra.
          - apply Rmult_le_compat; lra. }
        assert (Hp' : Rabs p <= Rabs HQm) by (pose proof (Rle_abs HQm); lra).
        assert (Hf' : Rabs (per_heat (cp_he * m') u) <= / U) by (rewrite Rabs_pos_eq; lra).
        apply Rle_trans with (1 := product_near p p' _ _ (Rabs HQm) _ _ (/ U) Hp' Hf' V Hpp).
        right. unfold Ka, Rdiv. ring. }
      assert (LR : forall u_r, U <= u_r -> Rabs ((te_hhx (s_temp s1) - te_chx (s_temp s1)) * per_span (cp_he * mf_regen m1) u_r - (te_hhx (s_temp s2) - te_chx (s_temp s2)) * per_span (cp_he * mf_regen m2) u_r) <= Kr / U * N).
      { intros u_r U2. destruct (inv_small U u_r ltac:(lra) U2) as (I1 & I2).
        assert (PM : 0 < cp_he * mf_regen m1) by (apply Rmult_lt_0_compat; lra). assert (PM' : 0 < cp_he * mf_regen m2) by (apply Rmult_lt_0_compat; lra).
        destruct (per_span_small (cp_he * mf_regen m2) u_r PM' ltac:(lra)) as (P3 & P4).
        pose proof (per_span_near u_r (cp_he * mf_regen m1) (cp_he * mf_regen m2) ltac:(lra) PM PM') as PN.
        pose proof (CM _ _ (proj1 F12) (proj1 F22) C2) as HC1.
        assert (V : Rabs (per_span (cp_he * mf_regen m1) u_r - per_span (cp_he * mf_regen m2) u_r) <= 2 * (cp_he * K1) * / U * N).
        { apply Rle_trans with (1 := PN). replace (2 * (cp_he * K1) * / U * N) with (2 * / U * (cp_he * K1 * N)) by ring.
          apply Rmult_le_compat; [lra|apply Rabs_pos|lra|exact HC1]. }
        assert (Z : Rabs (per_span (cp_he * mf_regen m2) u_r) <= 2 * (cp_he * Rabs FM) * / U).
        { rewrite Rabs_pos_eq by exact P3. apply Rle_trans with (1 := P4). unfold Rdiv. apply Rmult_le_compat; [lra|lra| |exact I2].
          apply Rmult_le_compat_l; [lra|]. apply Rmult_le_compat_l; [lra|]. pose proof (Rle_abs FM). lra. }
        pose proof (tdist_parts (s_temp s1) (s_temp s2)) as (D1 & D2 & _). fold d in D1, D2.
        assert (DS : Rabs (te_hhx (s_temp s1) - te_chx (s_temp s1) - (te_hhx (s_temp s2) - te_chx (s_temp s2))) <= 2 * N) by (apply abs_le_iff in D1, D2; apply abs_le_iff; lra).
        apply Rle_trans with (1 := product_near _ _ _ _ T_top (2 * N) _ _ (span_inside s1 r1 (proj1 S1)) Z V DS).
        right. unfold Kr, Rdiv. ring. }
      assert (KU : forall k k', 0 <= k -> k <= k' -> k / U * N <= k' / U * N).
      { intros k k' _ H. apply Rmult_le_compat_r; [exact N0|]. unfold Rdiv. apply Rmult_le_compat_r; lra. }
      assert (KU0 : forall k, 0 <= k -> 0 <= k / U * N) by (intros k Hk0; apply Rmult_le_pos; [apply Rle_mult_inv_pos; lra|exact N0]).
      pose proof (KU Ka (Ka + Kr) Ka0 ltac:(lra)) as KU1. pose proof (KU Kr (Ka + Kr) Kr0 ltac:(lra)) as KU2.
      apply Rle_trans with (Kf * ((Ka + Kr) / U * N)).
      + apply FAw.
        * eapply Rle_trans; [|exact KU1]. destruct LWk as [(u & Hu & E)|(c & _ & E)]; rewrite !E; [apply LK; try eassumption; tauto|].
          rewrite Rminus_diag_eq, Rabs_R0 by reflexivity. apply KU0, Ka0.
        * eapply Rle_trans; [|exact KU2]. destruct LWr as [(u & Hu & E)|(c & _ & E)]; rewrite !E; [apply LR, Hu|].
          rewrite Rminus_diag_eq, Rabs_R0 by reflexivity. apply KU0, Kr0.
        * eapply Rle_trans; [|exact KU1]. destruct LWl as [(u & Hu & E)|(c & _ & E)]; rewrite !E; [apply LK; try eassumption; tauto|].
          rewrite Rminus_diag_eq, Rabs_R0 by reflexivity. apply KU0, Ka0.
      + unfold K, Rdiv. rewrite <- !Rmult_assoc. apply Rmult_le_compat_r; [lra|]. apply Rmult_le_compat_r; [lra|]. apply Rmult_le_compat_l; lra.
  Qed.

  (** ** Temperatures within the tolerance of the outer loop *)
  Lemma close_by tol : 0 < ct_abs tol -> 0 < ct_rel tol -> exists w, 0 < w /\ forall s r T, mem s r -> tdist (s_temp s) T <= w -> temperatures_close tol (s_temp s) T.
  Proof.
    intros TA TR. destruct temps_pos as (TL & _). exists (Rmin (ct_abs tol / 2) (ct_rel tol * T_low / 2)).
    assert (LM : 0 < ct_rel tol * T_low) by (apply Rmult_lt_0_compat; lra).
    split; [apply Rmin_pos; lra|]. intros s r T M H. pose proof (Rle_trans _ _ _ H (Rmin_l _ _)) as H1. pose proof (Rle_trans _ _ _ H (Rmin_r _ _)) as H2.
    pose proof M as (_ & _ & _ & _ & HS). pose proof HS as (_ & _ & _ & _ & _ & _ & _ & _ & _ & I1 & I2 & I3 & I4 & I5). rewrite <- (member_temps s r M) in I1, I2, I3, I4, I5.
    destruct (tdist_parts (s_temp s) T) as (D1 & D2 & D3 & D4 & D5). set (d := tdist (s_temp s) T) in *.
    assert (Q : forall a a', T_low <= a -> Rabs (a - a') <= d -> close tol a a').
    { intros a a' Ha Hd'. rewrite Rabs_minus_sym in Hd'. split; apply R_lt_iff.
      - change (Rabs (a' - a) < ct_abs tol). lra.
      - change (Rabs ((a' - a) / a) < ct_rel tol). unfold Rdiv. rewrite Rabs_mult. rewrite (Rabs_pos_eq (/ a)) by (left; apply Rinv_0_lt_compat; lra).
        apply (Rmult_lt_reg_r a); [lra|]. rewrite Rmult_assoc, Rinv_l, Rmult_1_r by lra.
        apply Rle_lt_trans with (1 := Hd'). apply Rle_lt_trans with (1 := H2). apply Rlt_le_trans with (ct_rel tol * T_low); [lra|]. apply Rmult_le_compat_l; lra. }
    split; [apply Q; tauto|]. split; [apply Q; tauto|]. split; [apply Q; tauto|]. split; apply Q; tauto.
  Qed.
  Lemma close_apart tol T T' : temperatures_close tol T T' -> tdist T T' <= 5 * ct_abs tol.
  Proof.
    assert (Q : forall a a', close tol a a' -> Rabs (a - a') <= ct_abs tol).
    { intros a a' (H & _). apply R_lt_iff in H. change (Rabs (a' - a) < ct_abs tol) in H. rewrite Rabs_minus_sym. lra. }
    intros (A1 & A2 & A3 & A4 & A5). apply Q in A1, A2, A3, A4, A5. unfold tdist. lra.
  Qed.
  Lemma tdist_tri T1 T2 T3 : tdist T1 T3 <= tdist T1 T2 + tdist T2 T3.
  Proof.
    assert (Q : forall a a' a'', Rabs (a - a'') <= Rabs (a - a') + Rabs (a' - a'')) by (intros a a' a''; replace (a - a'') with (a - a' + (a' - a'')) by ring; apply Rabs_triang).
    unfold tdist. pose proof (Q (te_chx T1) (te_chx T2) (te_chx T3)). pose proof (Q (te_hhx T1) (te_hhx T2) (te_hhx T3)).
    pose proof (Q (rt_cold (te_regen T1)) (rt_cold (te_regen T2)) (rt_cold (te_regen T3))). pose proof (Q (rt_avg (te_regen T1)) (rt_avg (te_regen T2)) (rt_avg (te_regen T3))).
    pose proof (Q (rt_hot (te_regen T1)) (rt_hot (te_regen T2)) (rt_hot (te_regen T3))). lra.
  Qed.

  (** ** Searches *)
  Let acc := accuracy cl ch el eh cl' ch' el' eh' T_low T_top q mg P0.
  (** the solver serves the states of the family to within [e] *)
  Definition serves (E : Env R) (settings : RunSettings R) (h e : R) : Prop :=
    forall s r, approaches_within b A s -> Run_new comps0 s = Ret r ->
      accurate E D r (outer r) (rs_ode_tol settings) 2 (ru_period r) e /\
      accurate E D r (outer r) (rs_ode_tol settings) (rs_resolution settings) h e /\
      forall ic pts, outer r ic -> try_from E D (Run_Cycle r) ic (rs_resolution settings) (rs_ode_tol settings) = Ret (Ok pts) ->
        map (@pt_time R) pts = sample_times tau (rs_resolution settings).
  Definition unsteady (e : R) (tol : ConvergenceTolerance R) : R := 2 * test_error T_low q (e / (T_low * T_low)) tol.
  (** the state that a run returns *)
  Definition rests (comps : Components R) (tol : ConvergenceTolerance R) (e w : R) (ts : list R) (en : Engine R) : Prop :=
    approaches_within b A (en_state en) /\ exists r vs, sampled e w ts (en_state en) r vs /\ en_values en = Values_from vs /\ outer_converged comps tol (en_state en) (Values_from vs).
  Lemma q_nonneg : 0 <= q.
  Proof.
    pose proof member_b as (Hf & Hr & Hn' & HP & HS).
    destruct (steady comps0 b rb D cl ch el eh cl' ch' el' eh' T_low T_top V_hi v_hi rho rv q mg Hf Hd Hr Hn' HD HC HP0 O1 O2 O3 O4 HS Hmg) as (c' & _ & WT & _).
    pose proof HS as (_ & _ & _ & HT & HL & _). pose proof (q_pos D rb T_low V_hi v_hi rho rv c' HT WT). lra.
  Qed.
  Lemma once E settings comps e h n U s : approaches_within b A s -> same_build comps0 comps -> serves E settings h e -> 0 <= e <= acc / 2 ->
    0 < ct_abs (lt_inner (rs_loop_tol settings)) -> 0 < ct_rel (lt_inner (rs_loop_tol settings)) ->
    passes_test (lt_inner (rs_loop_tol settings)) T_top (change_after q (e / (T_low * T_low)) (2 / T_low) n) ->
    (n < N.to_nat (mi_inner (rs_max_iters settings)))%nat -> 0 <= h < (y - x) / 2 ->
    mixed comps U kept -> 0 < U ->
    let ts := sample_times tau (rs_resolution settings) in let w := unsteady e (lt_inner (rs_loop_tol settings)) in let tol := lt_outer (rs_loop_tol settings) in
    steps_within h ts /\
    exists k vs r, Run_new comps s = Ret r /\ find_steady_state_counted E D (Run_Cycle r) (search_of s settings) = (k, Ret (Ok vs)) /\ (k <= n + 2)%nat /\
      sampled e w ts s r vs /\
      ((State_update s comps (Values_from vs) tol = Ret (Err s) /\ outer_converged comps tol s (Values_from vs)) \/
       exists s1, State_update s comps (Values_from vs) tol = Ret (Ok s1) /\ approaches_within b (capp U) s1 /\ ~ temperatures_close tol (s_temp s) (s_temp s1) /\
         exists P m Q, recomputed comps (s_fluid s) (s_pres s) (s_temp s) (s_regen_imbalance s) (Values_from vs) P m Q (s_temp s1)).
  Proof.
    intros Hs SB HSv He TA TR HP Hni Hh HCd U0 ts w tol.
    destruct (member_of s Hs) as (r & M & Hy & HU). pose proof M as (Hf & Hr & Hn' & HPz & HSet). destruct (HSv s r Hs Hr) as (A2 & An & HTm).
    pose proof SB as (EW & _). assert (Hd' : driven (co_ws comps)) by (rewrite EW; exact Hd).
    assert (Hr' : Run_new comps s = Ret r) by (rewrite (same_run comps0 comps s SB); exact Hr).
    assert (HP0' : 0 < pr_t_zero (s_pres s)) by (rewrite HPz; exact HP0).
    assert (AC0 : 0 <= acc) by lra.
    assert (He' : 0 <= e <= accuracy cl ch el eh cl' ch' el' eh' T_low T_top q mg (pr_t_zero (s_pres s))) by (rewrite HPz; change (0 <= e <= acc); lra).
    pose proof A2 as A2'. pose proof An as An'. unfold outer, P0 in A2', An'. rewrite <- HPz in A2', An'.
    destruct (search_details comps s r D cl ch el eh cl' ch' el' eh' T_low T_top V_hi v_hi rho rv q mg Hf Hd' Hr' Hn' HD HC HP0' O1 O2 O3 O4 HSet HQ Hmg
      E settings e h n He' A2' An' HP Hni) as (k & vs & ic & pts & z & S1 & S2 & (HO & i & HI & HIs) & T1 & T2 & HV & Z0 & Z1 & ZB & ZS & G4).
    destruct (search_at comps s r D cl ch el eh cl' ch' el' eh' T_low T_top V_hi v_hi rho rv q mg Hf Hd' Hr' Hn' HD HC HP0' O1 O2 O3 O4 HSet HQ Hmg
      E settings e h n He' A2' An' HP Hni) as (k' & vs' & F1 & F2 & F3 & F4 & F5 & F6).
    rewrite S1 in F1. injection F1 as <- <-.
    rewrite HPz in HO, HI, ZB.
    pose proof (member_period comps0 b rb cl ch el eh cl' ch' el' eh' T_low T_top V_hi v_hi rho rv q mg Hd member_b s r M) as EP. fold tau in EP.
    assert (TS : map (@sv_time R) vs = ts) by (rewrite (values_times D r pts vs T2); exact (HTm ic pts HO T1)).
    rewrite TS in F4, F5. split; [exact F5|]. exists k, vs, r. split; [exact Hr'|]. split; [exact S1|]. split; [exact S2|].
    pose proof HSet as (_ & _ & _ & HSt & HL & _). destruct temps_pos as (TL & TT). assert (TT2 : 0 < T_low * T_low) by (apply Rmult_lt_0_compat; lra).
    set (qr := left_over r T_low V_hi v_hi rho rv) in *.
    assert (RE : 0 <= e / (T_low * T_low)) by (apply Rle_mult_inv_pos; lra).
    assert (IQ : 0 < / (1 - qr) <= / (1 - q)) by (split; [apply Rinv_0_lt_compat|apply Rinv_le_contravar]; lra).
    assert (SA : sampled e w ts s r vs).
    { split; [exact M|]. split; [exact TS|]. split; [rewrite <- EP; exact F4|]. split; [exact F6|]. exists ic, i, z. split; [exact HO|]. split; [exact HI|]. split.
      - apply Rle_trans with (1 := HIs). apply Rle_trans with (e / (T_low * T_low) * / (1 - q)); [unfold Rdiv at 1; apply Rmult_le_compat_l; lra|].
        apply (Rmult_le_reg_r (1 - q)); [lra|]. apply (Rmult_le_reg_r (T_low * T_low)); [exact TT2|].
        replace (e / (T_low * T_low) * / (1 - q) * (1 - q) * (T_low * T_low)) with e by (field; lra).
        destruct He as (_ & He). apply Rle_trans with (1 := He). replace (rim / 2 * (1 - q) * (T_low * T_low)) with (rim * (1 - q) * (T_low * T_low) / 2) by field.
        assert (acc <= rim * (1 - q) * (T_low * T_low)) by apply Rmin_r. lra.
      - split; [exact Z0|]. split; [|split; [|exact G4]].
        + intros t Ht. fold tau in Ht. rewrite <- EP in Ht. destruct (ZB t Ht) as (B1 & B2 & B3). split; [exact (Z1 t Ht)|]. split; [exact B1|]. split; [exact B2|exact B3].
        + rewrite EP in ZS. apply Rle_trans with (1 := ZS). unfold w, unsteady. apply Rmult_le_compat_l; [lra|]. unfold test_error, Rdiv at 1 4.
          apply Rmult_le_compat_l; [|lra].
          assert (0 <= Rmin (ct_rel (lt_inner (rs_loop_tol settings))) (ct_abs (lt_inner (rs_loop_tol settings)) / T_low) / T_low).
          { apply Rle_mult_inv_pos; [|exact TL]. left. apply Rmin_pos; [exact TR|apply Rdiv_lt_0_compat; assumption]. }
          lra. }
    split; [exact SA|].
    destruct (updated comps U e w ts h s r vs tol SB HCd U0 Hs SA F3 F5 Hh) as [Hu|(s1 & Hu & W & NC)].
    - left. split; [exact Hu|]. apply State_update_spec in Hu as (_ & Hu). exact Hu.
    - right. exists s1. split; [exact Hu|]. split; [exact W|]. split; [exact NC|].
      apply State_update_spec in Hu as (_ & Hu & _). eexists _, _, _. exact Hu.
  Qed.

  (** ** The loop *)
  Lemma countdown E settings comps e n U K d0 wc :
    let ts := sample_times tau (rs_resolution settings) in let w := unsteady e (lt_inner (rs_loop_tol settings)) in let tol := lt_outer (rs_loop_tol settings) in
    0 <= e -> 0 <= w -> e + w <= d0 -> capp U <= A -> K / U <= / 2 ->
    (forall s r T, mem s r -> tdist (s_temp s) T <= wc -> temperatures_close tol (s_temp s) T) ->
    (forall s, approaches_within b A s -> exists k vs r, Run_new comps s = Ret r /\ find_steady_state_counted E D (Run_Cycle r) (search_of s settings) = (k, Ret (Ok vs)) /\ (k <= n + 2)%nat /\
      sampled e w ts s r vs /\
      ((State_update s comps (Values_from vs) tol = Ret (Err s) /\ outer_converged comps tol s (Values_from vs)) \/
       exists s1, State_update s comps (Values_from vs) tol = Ret (Ok s1) /\ approaches_within b (capp U) s1 /\ ~ temperatures_close tol (s_temp s) (s_temp s1) /\
         exists P m Q, recomputed comps (s_fluid s) (s_pres s) (s_temp s) (s_regen_imbalance s) (Values_from vs) P m Q (s_temp s1))) ->
    (forall s1 r1 vs1 s2 r2 vs2 P1 m1 Q1 T1 P2 m2 Q2 T2, approaches_within b A s1 -> approaches_within b A s2 ->
      sampled e w ts s1 r1 vs1 -> sampled e w ts s2 r2 vs2 ->
      recomputed comps (s_fluid s1) (s_pres s1) (s_temp s1) (s_regen_imbalance s1) (Values_from vs1) P1 m1 Q1 T1 ->
      recomputed comps (s_fluid s2) (s_pres s2) (s_temp s2) (s_regen_imbalance s2) (Values_from vs2) P2 m2 Q2 T2 ->
      tdist T1 T2 <= K / U /\ (tdist (s_temp s1) (s_temp s2) <= d0 -> tdist T1 T2 <= K / U * (e + w + tdist (s_temp s1) (s_temp s2)))) ->
    forall m p rp vp s P M Q, approaches_within b A p -> sampled e w ts p rp vp ->
      recomputed comps (s_fluid p) (s_pres p) (s_temp p) (s_regen_imbalance p) (Values_from vp) P M Q (s_temp s) ->
      approaches_within b (capp U) s -> ~ temperatures_close tol (s_temp p) (s_temp s) -> tdist (s_temp p) (s_temp s) <= d0 ->
      tdist (s_temp p) (s_temp s) - (e + w) <= 2 ^ m * (wc - (e + w)) -> forall fuel, (m <= fuel)%nat ->
      exists k en, run_loop E D comps settings fuel s = (k, Ret (Ok en)) /\ (k <= m * (n + 2))%nat /\ rests comps tol e w ts en.
  Proof.
    intros ts w tol E0 W0 EW CA KU HCl HIt HNr. induction m as [|m IH]; intros p rp vp s P M Q Ap Sp Rp As NC HT HD0 fuel Hf.
    - exfalso. apply NC. apply (HCl p rp _ (proj1 Sp)). cbn [pow] in HD0. lra.
    - destruct fuel as [|fuel]; [lia|].
      assert (As' : approaches_within b A s) by (apply (within_less b (capp U)); assumption).
      destruct (HIt s As') as (k1 & vs1 & r1 & R1 & S1 & N1 & SA1 & UP).
      cbn [run_loop]. rewrite R1. unfold search_of in S1. cbv zeta in S1. rewrite S1. fold tol.
      destruct UP as [(UP & OC)|(s1 & UP & WI & NC1 & P' & M' & Q' & RC)]; rewrite UP.
      + exists k1, (mkEngine comps s (Values_from vs1)). split; [reflexivity|]. split; [cbn; lia|]. split; [exact As'|]. exists r1, vs1. cbn [en_state en_values]. auto.
      + destruct (HNr p rp vp s r1 vs1 P M Q _ P' M' Q' _ Ap As' Sp SA1 Rp RC) as (_ & NR). specialize (NR HT).
        pose proof (tdist_nonneg (s_temp p) (s_temp s)) as DN.
        assert (NR' : tdist (s_temp s) (s_temp s1) <= / 2 * (e + w + tdist (s_temp p) (s_temp s))).
        { apply Rle_trans with (1 := NR). apply Rmult_le_compat_r; lra. }
        assert (PW : 2 ^ S m * (wc - (e + w)) = 2 * (2 ^ m * (wc - (e + w)))) by (cbn [pow]; ring). rewrite PW in HD0.
        destruct (IH s r1 vs1 s1 P' M' Q' As' SA1 RC WI NC1 ltac:(lra) ltac:(lra) fuel ltac:(lia)) as (k & en & H1 & H2 & H3).
        rewrite H1. exists (k1 + k)%nat, en. split; [reflexivity|]. split; [cbn; lia|exact H3].
  Qed.
  (** errors that are small enough *)
  Lemma small_error tol eta : 0 < ct_abs tol -> 0 < ct_rel tol -> 0 < eta -> exists e0 n, 0 < e0 <= acc / 2 /\ e0 / (T_low * T_low) <= eta /\ e0 <= eta /\
    passes_test tol T_top (change_after q (e0 / (T_low * T_low)) (2 / T_low) n).
  Proof.
    intros ta tr Ht. destruct temps_pos as (TP & TT). pose proof q_nonneg as Q0.
    assert (AC : 0 < acc).
    { pose proof member_b as (_ & _ & _ & _ & Hb0). unfold acc, accuracy.
      destruct (P_bounds b rb cl ch el eh cl' ch' el' eh' T_low T_top V_hi v_hi rho rv q mg HP0 O1 O2 O3 O4 Hb0 Hmg) as ((PL & _) & _).
      pose proof (rim_pos rb cl ch el eh cl' ch' el' eh' T_low T_top V_hi v_hi rho rv q mg O1 O2 O3 O4 Hb0 Hmg) as RP.
      fold P0 in PL. repeat apply Rmin_pos; [exact Hmg|lra|].
      apply Rmult_lt_0_compat; [apply Rmult_lt_0_compat; lra|apply Rmult_lt_0_compat; lra]. }
    set (g := (1 + q) / (1 - q) + 1). assert (G0 : 0 < g) by (unfold g; assert (0 < (1 + q) / (1 - q)) by (apply Rdiv_lt_0_compat; lra); lra).
    set (ts := Rmin (ct_rel tol / (2 * T_top)) (ct_abs tol / (2 * (T_top * T_top)))).
    assert (TT2 : 0 < T_top * T_top) by (apply Rmult_lt_0_compat; assumption).
    assert (TS : 0 < ts) by (unfold ts; apply Rmin_pos; apply Rdiv_lt_0_compat; lra).
    assert (TL2 : 0 < T_low * T_low) by (apply Rmult_lt_0_compat; assumption).
    assert (TG : 0 < ts / g) by (apply Rdiv_lt_0_compat; assumption).
    set (e0 := Rmin (Rmin (acc / 2) eta) (Rmin (ts / g * (T_low * T_low)) (eta * (T_low * T_low)))).
    assert (E0 : 0 < e0) by (unfold e0; repeat apply Rmin_pos; try lra; apply Rmult_lt_0_compat; lra).
    pose proof (Rle_refl e0) as Z. unfold e0 in Z at 2. apply below_min in Z as (Z1 & Z2). apply below_min in Z1 as (Z1 & Z3). apply below_min in Z2 as (Z2 & Z4).
    assert (DV : forall u, e0 <= u * (T_low * T_low) -> e0 / (T_low * T_low) <= u).
    { intros u Hu. apply (Rmult_le_reg_r (T_low * T_low)); [exact TL2|]. replace (e0 / (T_low * T_low) * (T_low * T_low)) with e0 by (field; lra). exact Hu. }
    assert (PT : passes_test tol T_top (change_after q (e0 / (T_low * T_low)) 0 0)).
    { unfold change_after. rewrite Rmult_0_r, Rplus_0_l. set (e := e0 / (T_low * T_low)). pose proof (DV _ Z2) as Ee. fold e in Ee.
      replace ((1 + q) * (e / (1 - q)) + e) with (g * e) by (unfold g; field; lra).
      assert (GE : g * e <= ts).
      { apply Rle_trans with (g * (ts / g)); [apply Rmult_le_compat_l; lra|right; field; lra]. }
      apply (passes_less tol T_top (g * e) ts ltac:(lra) GE). pose proof (Rle_refl ts) as Z. unfold ts in Z at 2. apply below_min in Z as (Z5 & Z6). split.
      - apply Rle_lt_trans with (T_top * (ct_rel tol / (2 * T_top))); [apply Rmult_le_compat_l; lra|].
        replace (T_top * (ct_rel tol / (2 * T_top))) with (ct_rel tol / 2) by (field; lra). lra.
      - apply Rle_lt_trans with (T_top * T_top * (ct_abs tol / (2 * (T_top * T_top)))); [apply Rmult_le_compat_l; lra|].
        replace (T_top * T_top * (ct_abs tol / (2 * (T_top * T_top)))) with (ct_abs tol / 2) by (field; lra). lra. }
    destruct (some_limit tol q (e0 / (T_low * T_low)) (2 / T_low) T_top (conj Q0 HQ) ltac:(left; apply Rdiv_lt_0_compat; lra) ltac:(lra) PT) as (n & Pn).
    exists e0, n. split; [lra|]. split; [apply DV; exact Z4|]. split; [exact Z3|exact Pn].
  Qed.
  (** inner tolerances that are small enough *)
  Lemma small_tolerance eta : 0 < eta -> exists t0 e1, 0 < t0 /\ 0 < e1 /\ forall tol e, 0 < ct_abs tol <= t0 -> 0 < ct_rel tol -> 0 <= e -> e / (T_low * T_low) <= e1 -> e <= e1 ->
    0 <= unsteady e tol /\ e + unsteady e tol <= eta.
  Proof.
    intros Ht. destruct temps_pos as (TP & TT). assert (TL2 : 0 < T_low * T_low) by (apply Rmult_lt_0_compat; assumption).
    set (e1 := Rmin (eta / 4) (eta * (1 - q) / 8)). set (t0 := eta * (1 - q) * (T_low * T_low) / 16).
    assert (EQ : 0 < eta * (1 - q)) by (apply Rmult_lt_0_compat; lra). assert (ETQ : 0 < eta * (1 - q) * (T_low * T_low)) by (apply Rmult_lt_0_compat; lra).
    exists t0, e1. split; [unfold t0; lra|]. split; [apply Rmin_pos; lra|].
    intros tol e (ta & ta') tr E0 He1 He2. pose proof (Rle_trans _ _ _ He2 (Rmin_l _ _)) as H1. pose proof (Rle_trans _ _ _ He1 (Rmin_r _ _)) as H2.
    unfold unsteady, test_error. set (rv' := e / (T_low * T_low)) in *. assert (RV : 0 <= rv') by (apply Rle_mult_inv_pos; lra).
    set (mn := Rmin (ct_rel tol) (ct_abs tol / T_low)). assert (MN : 0 < mn) by (apply Rmin_pos; [exact tr|apply Rdiv_lt_0_compat; lra]).
    assert (MT : mn / T_low <= eta * (1 - q) / 16).
    { apply (Rmult_le_reg_r (T_low * T_low)); [exact TL2|]. replace (mn / T_low * (T_low * T_low)) with (mn * T_low) by (field; lra).
      apply Rle_trans with (ct_abs tol / T_low * T_low); [apply Rmult_le_compat_r; [lra|apply Rmin_r]|].
      replace (ct_abs tol / T_low * T_low) with (ct_abs tol) by (field; lra). unfold t0 in ta'. lra. }
    assert (M0 : 0 < mn / T_low) by (apply Rdiv_lt_0_compat; lra).
    assert (TE : 0 <= (rv' + 2 * (mn / T_low)) / (1 - q) <= eta / 4).
    { split; [apply Rle_mult_inv_pos; lra|]. apply (Rmult_le_reg_r (1 - q)); [lra|]. replace ((rv' + 2 * (mn / T_low)) / (1 - q) * (1 - q)) with (rv' + 2 * (mn / T_low)) by (field; lra). lra. }
    lra.
  Qed.
  Lemma sampled_more e w e' w' ts s r vs : e <= e' -> w <= w' -> sampled e w ts s r vs -> sampled e' w' ts s r vs.
  Proof.
    intros He Hw (A1 & A2 & A3 & A4 & ic & i & z & B1 & B2 & B3 & B4 & B5 & B6 & B7). split; [exact A1|]. split; [exact A2|]. split; [exact A3|]. split; [exact A4|].
    exists ic, i, z. repeat (split; [assumption|]). split; [lra|]. revert B7. apply Forall_impl. intros v Hv. lra.
  Qed.
  Theorem contracting_run : exists U d1, 0 < U /\ 0 < d1 /\
    (forall tol' beta, 0 < ct_abs tol' -> 0 < ct_rel tol' -> 0 < beta -> exists t0 m, 0 < t0 /\
    forall tol, 0 < ct_abs tol <= t0 -> 0 < ct_rel tol -> exists e0 n, 0 < e0 /\ 0 <= unsteady e0 tol /\ e0 + unsteady e0 tol <= beta /\
    forall (E : Env R) (comps : Components R) (fl : Fluid R) (inputs : RunInputs R) (settings : RunSettings R) (h : R),
    same_build comps0 comps -> mixed comps U kept ->
    State_new_hint comps fl inputs = Ret b ->
    lt_outer (rs_loop_tol settings) = tol' -> lt_inner (rs_loop_tol settings) = tol ->
    serves E settings h e0 -> 0 <= h < (y - x) / 2 ->
    (n < N.to_nat (mi_inner (rs_max_iters settings)))%nat -> (m <= N.to_nat (mi_outer (rs_max_iters settings)))%nat ->
    steps_within h (sample_times tau (rs_resolution settings)) /\
    exists k en, Engine_run_counted E D comps fl inputs settings = (k, Ret (Ok en)) /\ (k <= m * (n + 2))%nat /\
      rests comps tol' e0 (unsteady e0 tol) (sample_times tau (rs_resolution settings)) en) /\
    (forall (comps : Components R), same_build comps0 comps -> mixed comps U kept ->
     forall tol1 tol2 e1 w1 e2 w2 ts h en1 en2, 0 < ct_abs tol1 <= d1 -> 0 < ct_abs tol2 <= d1 -> 0 <= e1 -> 0 <= w1 -> 0 <= e2 -> 0 <= w2 -> steps_within h ts -> 0 <= h < (y - x) / 2 ->
     rests comps tol1 e1 w1 ts en1 -> rests comps tol2 e2 w2 ts en2 ->
     tdist (s_temp (en_state en1)) (s_temp (en_state en2)) <= 10 * (ct_abs tol1 + ct_abs tol2) + (e1 + w1) + (e2 + w2)).
  Proof.
    destruct recomputed_near as (K & U0 & d0 & K0 & U01 & D0 & RN).
    set (U := U0 + 2 * K + 2 * (K / d0) + Rabs cap / A).
    assert (KD : 0 <= K / d0) by (apply Rle_mult_inv_pos; lra). assert (CAA : 0 <= Rabs cap / A) by (apply Rle_mult_inv_pos; [apply Rabs_pos|exact HA]).
    assert (UU : 1 <= U /\ U0 <= U /\ 2 * K <= U /\ 2 * (K / d0) <= U /\ Rabs cap / A <= U) by (unfold U; lra). destruct UU as (UU1 & UU2 & UU3 & UU4 & UU5).
    assert (KU : K / U <= / 2) by (apply (Rmult_le_reg_r U); [lra|]; replace (K / U * U) with K by (field; lra); lra).
    assert (KUd : K / U <= d0 / 2).
    { apply (Rmult_le_reg_r U); [lra|]. replace (K / U * U) with K by (field; lra). apply Rle_trans with (d0 / 2 * (2 * (K / d0))); [right; field; lra|]. apply Rmult_le_compat_l; lra. }
    assert (CU : capp U <= A).
    { apply Rmax_lub; [exact HkA|]. apply (Rmult_le_reg_r U); [lra|]. replace (cap / U * U) with cap by (field; lra). apply Rle_trans with (1 := Rle_abs cap).
      apply Rle_trans with (A * (Rabs cap / A)); [right; field; lra|]. apply Rmult_le_compat_l; lra. }
    exists U, (d0 / 20). split; [lra|]. split; [lra|]. split.
    2:{ intros comps SB HCd tol1 tol2 e1 w1 e2 w2 ts h en1 en2 A1 A2 E1 W1 E2 W2 HStp Hh
          (Q1 & r1 & vs1 & S1 & _ & P1 & m1 & q1 & T1 & RC1 & C1) (Q2 & r2 & vs2 & S2 & _ & P2 & m2 & q2 & T2 & RC2 & C2).
        apply close_apart in C1, C2.
        pose proof (Rmax_l e1 e2) as EL. pose proof (Rmax_r e1 e2) as ER. pose proof (Rmax_l w1 w2) as WL. pose proof (Rmax_r w1 w2) as WR.
        assert (EM : Rmax e1 e2 <= e1 + e2) by (apply Rmax_lub; lra). assert (WM : Rmax w1 w2 <= w1 + w2) by (apply Rmax_lub; lra).
        set (e := Rmax e1 e2) in *. set (w := Rmax w1 w2) in *.
        apply (sampled_more _ _ e w _ _ _ _ EL WL) in S1. apply (sampled_more _ _ e w _ _ _ _ ER WR) in S2.
        destruct (RN U UU2 comps SB HCd e w ts h _ r1 vs1 _ r2 vs2 P1 m1 q1 T1 P2 m2 q2 T2 ltac:(lra) ltac:(lra) Q1 Q2 S1 S2 HStp Hh RC1 RC2) as (N1 & N2).
        set (X1 := s_temp (en_state en1)) in *. set (X2 := s_temp (en_state en2)) in *.
        pose proof (tdist_tri X1 T1 X2) as D1. pose proof (tdist_tri T1 T2 X2) as D2. rewrite (tdist_sym X2 T2) in C2.
        assert (DD : tdist X1 X2 <= d0) by lra. specialize (N2 DD). pose proof (tdist_nonneg X1 X2) as DN.
        assert (N3 : K / U * (e + w + tdist X1 X2) <= / 2 * (e + w + tdist X1 X2)) by (apply Rmult_le_compat_r; lra). lra. }
    intros tol' beta TA TR TB. destruct (close_by tol' TA TR) as (wc & WC & HCl).
    set (eta := Rmin (Rmin (wc / 2) d0) beta). assert (EP : 0 < eta) by (repeat apply Rmin_pos; lra).
    pose proof (Rle_refl eta) as EL. unfold eta in EL at 2. apply below_min in EL as (EL & EL3). apply below_min in EL as (EL1 & EL2).
    destruct (small_tolerance eta EP) as (t0 & e1 & T0 & E1 & ST).
    assert (HPw : exists m, d0 <= 2 ^ m * (wc / 2)).
    { destruct (Pow_x_infinity 2 ltac:(rewrite Rabs_pos_eq; lra) (d0 / (wc / 2))) as (m & Hm). exists m. specialize (Hm m ltac:(lia)).
      rewrite Rabs_pos_eq in Hm by (left; apply pow_lt; lra). apply Rle_trans with (d0 / (wc / 2) * (wc / 2)); [right; field; lra|]. apply Rmult_le_compat_r; lra. }
    destruct HPw as (m & HPw').
    exists t0, (m + 2)%nat. split; [exact T0|]. intros tol ta tr. destruct (small_error tol e1 (proj1 ta) tr E1) as (e0 & n & Ee & Ee1 & Ee2 & PT).
    destruct (ST tol e0 ta tr ltac:(lra) Ee1 Ee2) as (W0 & EW).
    exists e0, n. split; [lra|]. split; [exact W0|]. split; [lra|].
    intros E comps fl inputs settings h SB HCd Hst Hto Hti HSv Hh Hni Hou.
    set (w := unsteady e0 tol) in *. set (ts := sample_times tau (rs_resolution settings)).
    pose proof (fun s Hs => once E settings comps e0 h n U s Hs SB HSv ltac:(lra) ltac:(rewrite Hti; apply ta) ltac:(rewrite Hti; exact tr) ltac:(rewrite Hti; exact PT) Hni Hh HCd
      ltac:(lra)) as IT. cbv zeta in IT. rewrite Hti, Hto in IT. fold w ts in IT.
    destruct (IT b Hbb) as (HStp & _). split; [exact HStp|].
    assert (IT' := fun s Hs => proj2 (IT s Hs)). clear IT.
    pose proof (fun s1 r1 vs1 s2 r2 vs2 P1 m1 Q1 T1 P2 m2 Q2 T2 A1 A2 S1 S2 => RN U UU2 comps SB HCd e0 w ts h s1 r1 vs1 s2 r2 vs2 P1 m1 Q1 T1 P2 m2 Q2 T2
      ltac:(lra) W0 A1 A2 S1 S2 HStp Hh) as NR.
    pose proof (countdown E settings comps e0 n U K d0 wc) as CD. cbv zeta in CD. rewrite Hti, Hto in CD. fold w ts in CD.
    specialize (CD ltac:(lra) W0 ltac:(lra) CU KU HCl IT' NR m).
    unfold Engine_run_counted. rewrite Hst.
    replace (N.to_nat (mi_outer (rs_max_iters settings))) with (S (S (pred (pred (N.to_nat (mi_outer (rs_max_iters settings))))))) by lia.
    set (n' := pred (pred (N.to_nat (mi_outer (rs_max_iters settings))))). assert (Hn1 : (m <= n')%nat) by (unfold n'; lia). clearbody n'.
    destruct (IT' b Hbb) as (k1 & vs1 & r1 & R1 & S1 & N1 & SA1 & UP1).
    set (n1 := S n'). cbn [run_loop]. rewrite R1. unfold search_of in S1. cbv zeta in S1. rewrite S1, Hto.
    destruct UP1 as [(UP1 & OC)|(s1 & UP1 & WI1 & _ & P1 & M1 & Q1 & RC1)]; rewrite UP1.
    { exists k1, (mkEngine comps b (Values_from vs1)). split; [reflexivity|]. split; [lia|]. split; [exact Hbb|]. exists r1, vs1. cbn [en_state en_values]. auto. }
    assert (WA : approaches_within b A s1) by (apply (within_less b (capp U)); assumption).
    destruct (IT' s1 WA) as (k2 & vs2 & r2 & R2 & S2 & N2 & SA2 & UP2).
    unfold n1. cbn [run_loop]. rewrite R2. unfold search_of in S2. cbv zeta in S2. rewrite S2, Hto.
    destruct UP2 as [(UP2 & OC)|(s2 & UP2 & WI2 & NC & P2 & M2 & Q2 & RC2)]; rewrite UP2.
    { exists (k1 + k2)%nat, (mkEngine comps s1 (Values_from vs2)). split; [reflexivity|]. split; [lia|]. split; [exact WA|]. exists r2, vs2. cbn [en_state en_values]. auto. }
    destruct (NR b r1 vs1 s1 r2 vs2 P1 M1 Q1 _ P2 M2 Q2 _ Hbb WA SA1 SA2 RC1 RC2) as (NR1 & _).
    assert (T12 : tdist (s_temp s1) (s_temp s2) <= d0) by lra.
    destruct (CD s1 r2 vs2 s2 P2 M2 Q2 WA SA2 RC2 WI2 NC T12) with (fuel := n') as (k & en & H1 & H2 & H3).
    - apply Rle_trans with (2 ^ m * (wc / 2)); [lra|]. apply Rmult_le_compat_l; [left; apply pow_lt; lra|lra].
    - exact Hn1.
    - rewrite H1. exists (k1 + (k2 + k))%nat, en. split; [reflexivity|]. split; [lia|exact H3].
  Qed.

  (** ** The exact cycle of a state *)
  Lemma inner_cycle s r : mem s r -> exists c, inner r (c 0) /\ steady_cycle D r c.
  Proof.
    intros (Hf & Hr & Hn' & HP & HS). pose proof HS as (HX & VC & VE & HSt & _ & N1 & N2 & _). pose proof HSt as (_ & L1 & L2 & _).
    destruct (fills_pos r HX) as (F1 & _ & F3 & _). destruct (VC 0) as (A1 & A2), (VE 0) as (B1 & B2). specialize (A2 0 ltac:(lra)). specialize (B2 0 ltac:(lra)).
    pose proof (low_warm r T_low V_hi v_hi rho rv HSt) as LW.
    apply (steady_inside comps0 s r D P0 cl ch el eh Hf Hd Hr Hn' HD HC VC VE L1 L2 HX HP0).
    - apply (warm_le T_low); [exact LW|]. pose proof (expanded_wider cl cl' ch ch' (te_chx (ru_temp r)) F1 ltac:(lra) ltac:(lra) ltac:(lra) O2). lra.
    - apply (warm_le T_low); [exact LW|]. pose proof (expanded_wider el el' eh eh' (te_hhx (ru_temp r)) F3 ltac:(lra) ltac:(lra) ltac:(lra) O4). lra.
  Qed.
  Let per s r (M : mem s r) : ru_period r = tau := member_period comps0 b rb cl ch el eh cl' ch' el' eh' T_low T_top V_hi v_hi rho rv q mg Hd member_b s r M.
  Lemma cycle_turn s r c : mem s r -> inner r (c 0) -> steady_cycle D r c -> rounds r c /\ c tau = c 0.
  Proof.
    intros M HI (HT & HR). pose proof (per s r M) as EP. pose proof M as (Hf & Hr & _).
    assert (TP : 0 < tau) by exact (period_pos comps0 b rb Hd Hrb).
    assert (HF : ru_fluid r = IdealGas_Fluid he) by (rewrite <- Hf; apply (driven_run comps0 s r Hd Hr)).
    split; [|rewrite <- (HR 0) by lra; rewrite EP; f_equal; ring].
    pose proof (member_inner comps0 b cl ch el eh cl' ch' el' eh' T_low T_top V_hi v_hi rho rv q mg HP0 O1 O2 O3 O4 s r (c 0) M HI) as HO.
    destruct (member_turn comps0 b rb D cl ch el eh cl' ch' el' eh' T_low T_top V_hi v_hi rho rv q mg Hd HD HC HP0 O1 O2 O3 O4 Hmg member_b s r (c 0) M HO) as (z & Z0 & Z1).
    intros t Ht. fold tau in Ht.
    assert (E : c t = z t).
    { apply (trajectories_agree Helium r D D c z 0 tau 0 HF HD HD); [lra| |symmetry; exact Z0|exact Ht].
      intros u Hu. split; [apply HT; lra|apply Z1; exact Hu]. }
    split; [apply HT; lra|]. rewrite E. apply Z1. exact Ht.
  Qed.
  Lemma cycles_start s r c ci : mem s r -> steady_cycle D r c -> warm_trajectory D r T_low c -> cd_P (c 0) = P0 -> inner r (ci 0) -> steady_cycle D r ci -> c 0 = ci 0.
  Proof.
    intros M (HT & HR) HW HP HI SC. destruct (cycle_turn s r ci M HI SC) as (TC & EC). destruct temps_pos as (TL & _).
    pose proof (per s r M) as EP. pose proof M as (_ & _ & _ & _ & HS). pose proof HS as (_ & _ & _ & HSt & HL & _).
    assert (E0 : c tau = c 0) by (rewrite <- (HR 0) by lra; rewrite EP; f_equal; ring).
    destruct (settled D D r T_low V_hi v_hi rho rv c ci HSt HD HD) as (ST & _).
    - intros t Ht. apply HT. lra.
    - intros t Ht. rewrite EP in Ht. apply TC. exact Ht.
    - intros t Ht. destruct (HW t (proj1 Ht)) as (_ & H1 & H2). auto.
    - intros t Ht. rewrite EP in Ht. destruct (TC t Ht) as (_ & _ & H1 & H2). lra.
    - rewrite EP, E0, EC in ST. pose proof (spread_pos (c 0) (ci 0)) as S0.
      assert (S1 : left_over r T_low V_hi v_hi rho rv * spread (c 0) (ci 0) <= q * spread (c 0) (ci 0)) by (apply Rmult_le_compat_r; assumption).
      assert (Z : (1 - q) * spread (c 0) (ci 0) <= 0) by lra.
      assert (S2 : spread (c 0) (ci 0) = 0).
      { destruct (Rle_lt_or_eq_dec _ _ S0) as [L|L]; [|congruence]. assert (0 < (1 - q) * spread (c 0) (ci 0)) by (apply Rmult_lt_0_compat; lra). lra. }
      unfold spread in S2. destruct (HW 0 (Rle_refl 0)) as (_ & W1 & W2). assert (TP : 0 < tau) by exact (period_pos comps0 b rb Hd Hrb). destruct (TC 0 ltac:(fold tau; lra)) as (_ & _ & W3 & W4).
      destruct HI as (HIP & _).
      pose proof (Rabs_pos (/ cd_T_c (c 0) - / cd_T_c (ci 0))) as Y1. pose proof (Rabs_pos (/ cd_T_e (c 0) - / cd_T_e (ci 0))) as Y2.
      assert (IE : forall a a', 0 < a -> 0 < a' -> Rabs (/ a - / a') = 0 -> a = a').
      { intros a a' Ha Ha' H. destruct (Req_dec (/ a - / a') 0) as [G|G]; [|apply Rabs_no_R0 in G; contradiction]. rewrite <- (Rinv_inv a), <- (Rinv_inv a'). f_equal. lra. }
      destruct (c 0) as [cp cc ce], (ci 0) as [ip icc ie]. cbn [cd_P cd_T_c cd_T_e] in *.
      rewrite (IE cc icc) by lra. rewrite (IE ce ie) by lra. congruence.
  Qed.
  Lemma cycle_inner s r c : mem s r -> steady_cycle D r c -> warm_trajectory D r T_low c -> cd_P (c 0) = P0 -> inner r (c 0).
  Proof.
    intros M SC HW HP. destruct (inner_cycle s r M) as (ci & HI & SI). rewrite (cycles_start s r c ci M SC HW HP HI SI). exact HI.
  Qed.
  Lemma cycles_same s r c c' t : mem s r -> steady_cycle D r c -> warm_trajectory D r T_low c -> cd_P (c 0) = P0 ->
    steady_cycle D r c' -> warm_trajectory D r T_low c' -> cd_P (c' 0) = P0 -> 0 <= t <= tau -> c t = c' t.
  Proof.
    intros M SC HW HP SC' HW' HP' Ht. pose proof (cycles_start s r c c' M SC HW HP (cycle_inner s r c' M SC' HW' HP') SC') as E.
    pose proof M as (Hf & Hr & _). assert (HF : ru_fluid r = IdealGas_Fluid he) by (rewrite <- Hf; apply (driven_run comps0 s r Hd Hr)).
    apply (trajectories_agree Helium r D D c c' 0 tau 0 HF HD HD); [lra| |exact E|exact Ht].
    intros u Hu. split; [apply (proj1 SC)|apply (proj1 SC')]; lra.
  Qed.
  Lemma warm_cycle s r : mem s r -> exists c, inner r (c 0) /\ steady_cycle D r c /\ warm_trajectory D r T_low c /\ cd_P (c 0) = P0.
  Proof.
    intros M. pose proof M as (Hf & Hr & Hn' & HP & HS).
    destruct (REffective.steady comps0 s r D cl ch el eh cl' ch' el' eh' T_low T_top V_hi v_hi rho rv q mg Hf Hd Hr Hn' HD HC ltac:(rewrite HP; exact HP0) O1 O2 O3 O4 HS Hmg) as (c & SC & WT & CP).
    rewrite HP in CP. exists c. split; [exact (cycle_inner s r c M SC WT CP)|]. auto.
  Qed.
  (** samples of an exact cycle *)
  Definition exact_samples (c : R -> Conditions R) (ts : list R) (r : Run R) (vs : list (SeValues R)) : Prop :=
    map (@sv_time R) vs = ts /\ Forall (fun v => sv_conditions v = c (sv_time v) /\ solved_at D r (sv_time v) (sv_conditions v) (sv_solution v)) vs.
  Lemma exact_exists s r c ts : mem s r -> rounds r c -> Forall (fun t => 0 <= t <= tau) ts -> exists vs, exact_samples c ts r vs.
  Proof.
    intros M HR. induction 1 as [|t ts Ht _ (vs & V1 & V2)]; [exists []; split; [reflexivity|constructor]|].
    destruct (HR t Ht) as (((_ & _ & hint & so & S1 & _) & _) & _).
    exists (mkSeValues t (c t) so :: vs). split; [cbn [map sv_time]; rewrite V1; reflexivity|]. constructor; [|exact V2]. cbn [sv_time sv_conditions sv_solution].
    split; [reflexivity|]. exists hint. exact S1.
  Qed.
  Lemma exact_sampled s r c ts vs : mem s r -> inner r (c 0) -> steady_cycle D r c -> grid_to ts tau -> exact_samples c ts r vs -> sampled 0 0 ts s r vs.
  Proof.
    intros M HI SC G (V1 & V2). destruct (cycle_turn s r c M HI SC) as (TC & EC). destruct temps_pos as (TL & TT).
    split; [exact M|]. split; [exact V1|]. split; [exact G|].
    pose proof (grid_range _ _ G) as GR. rewrite <- V1 in GR. split.
    - apply Forall_forall. intros v Hv. rewrite Forall_forall in V2. destruct (V2 v Hv) as (E & SV).
      assert (Ht : 0 <= sv_time v <= tau) by (apply GR; apply in_map; exact Hv).
      destruct (TC _ Ht) as ((_ & PH & _) & B1 & B2 & B3). unfold found_sample. rewrite (per s r M). split; [exact Ht|]. rewrite E in *.
      assert (PB : 0 < least_P cl' ch' el' eh' T_low T_top P0).
      { pose proof member_b as (_ & _ & _ & _ & Hb0).
        destruct (P_bounds b rb cl ch el eh cl' ch' el' eh' T_low T_top V_hi v_hi rho rv q mg HP0 O1 O2 O3 O4 Hb0 Hmg) as ((PL & _) & _). exact PL. }
      pose proof M as (_ & _ & _ & HPz & _). rewrite HPz. change (least_P cl' ch' el' eh' T_low T_top P0 <= cd_P (c (sv_time v)) <= most_P cl' ch' el' eh' T_low T_top P0) in B1. change (pr_t_zero (s_pres b)) with P0. split; [lra|]. split; [lra|]. split; [lra|]. split; [exact PH|exact SV].
    - exists (c 0), (c 0), c. split.
      { exact (member_inner comps0 b cl ch el eh cl' ch' el' eh' T_low T_top V_hi v_hi rho rv q mg HP0 O1 O2 O3 O4 s r (c 0) M HI). }
      split; [exact HI|]. assert (SZ : forall x, spread x x = 0) by (intros x'; unfold spread; rewrite !Rminus_diag_eq, Rabs_R0 by reflexivity; ring).
      split; [rewrite SZ; pose proof (rim_pos' comps0 b rb cl ch el eh cl' ch' el' eh' T_low T_top V_hi v_hi rho rv q mg O1 O2 O3 O4 Hmg member_b) as RP; change (0 < rim) in RP; lra|]. split; [reflexivity|]. split; [exact TC|].
      split; [rewrite EC, SZ; lra|]. revert V2. apply Forall_impl. intros v (-> & _). unfold gap. rewrite !Rminus_diag_eq, Rabs_R0 by reflexivity. lra.
  Qed.

  (** ** A state that the outer loop would not change *)
  Definition consistent_step (comps : Components R) (ts : list R) (s : State R) (T' : Temperatures R) : Prop :=
    exists r c vs P m Q, mem s r /\ steady_cycle D r c /\ warm_trajectory D r T_low c /\ cd_P (c 0) = P0 /\ exact_samples c ts r vs /\
      recomputed comps (s_fluid s) (s_pres s) (s_temp s) (s_regen_imbalance s) (Values_from vs) P m Q T'.
  Definition at_temps (T : Temperatures R) : State R :=
    {| s_fluid := s_fluid b; s_temp := T; s_pres := s_pres b; s_mass_flow := s_mass_flow b; s_heat_flow := s_heat_flow b; s_regen_imbalance := s_regen_imbalance b |}.
  Lemma at_within a a_k a_r a_l T : Rabs a_k <= a -> Rabs a_r <= a -> Rabs a_l <= a -> temperatures_follow sink source a_k a_r a_l 0 T -> approaches_within b a (at_temps T).
  Proof.
    intros H1 H2 H3 H4. unfold approaches_within, at_temps. cbn [s_fluid s_pres s_regen_imbalance s_temp]. rewrite Him.
    split; [reflexivity|]. split; [reflexivity|]. split; [reflexivity|]. exists a_k, a_r, a_l. auto.
  Qed.
  Section Step.
    Variables (comps : Components R) (U h : R) (ts : list R).
    Hypothesis SB : same_build comps0 comps.
    Hypothesis HMx : mixed comps U kept.
    Hypothesis U0 : 0 < U.
    Hypothesis HG : grid_to ts tau.
    Hypothesis HStp : steps_within h ts.
    Hypothesis Hh : 0 <= h < (y - x) / 2.
    Lemma step_total s : approaches_within b A s -> exists T', consistent_step comps ts s T' /\
      exists a_k a_r a_l, Rabs a_k <= capp U /\ Rabs a_r <= capp U /\ Rabs a_l <= capp U /\ temperatures_follow sink source a_k a_r a_l 0 T'.
    Proof.
      intros Hs. destruct (member_of s Hs) as (r & M & Hy & HU). pose proof M as (Hf & Hr & Hn' & HPz & HSet).
      pose proof SB as (EW & _). assert (Hd' : driven (co_ws comps)) by (rewrite EW; exact Hd).
      assert (Hr' : Run_new comps s = Ret r) by (rewrite (same_run comps0 comps s SB); exact Hr).
      assert (HP0' : 0 < pr_t_zero (s_pres s)) by (rewrite HPz; exact HP0).
      destruct (warm_cycle s r M) as (c & HI & SC & WT & CP). destruct (cycle_turn s r c M HI SC) as (TC & EC).
      destruct (exact_exists s r c ts M TC) as (vs & VS).
      { apply Forall_forall. exact (grid_range _ _ HG). }
      pose proof (exact_sampled s r c ts vs M HI SC HG VS) as SA. pose proof SA as (_ & TS & _ & F6 & _).
      assert (F3 : exists v rest, vs = v :: rest /\ cd_P (sv_conditions v) = pr_t_zero (s_pres s)).
      { destruct HG as (_ & (rest & E) & _). destruct VS as (V1 & V2). destruct vs as [|v vs]; [rewrite <- V1 in E; discriminate|]. exists v, vs. split; [reflexivity|].
        apply Forall_inv in V2 as (E1 & _). rewrite <- V1 in E. cbn [map] in E. injection E as E _. rewrite E1, E, HPz. apply HI. }
      destruct (mixed_laws comps U kept U0 HMx) as (g_k & g_r & g_l & HCd).
      destruct (updated comps U 0 0 ts h s r vs (mkConvTol 1 1) SB HMx U0 Hs SA F3 HStp Hh) as [Hu|(s1 & Hu & _ & _)].
      - apply State_update_spec in Hu as (_ & P & m & Q & T' & Hu & _). exists T'. split; [exists r, c, vs, P, m, Q; repeat (split; [assumption|]); assumption|].
        destruct (recomputed_is comps U g_k g_r g_l 0 0 ts h s r vs P m Q T' SB HCd Hs SA HStp Hh Hu) as (_ & _ & M1 & M2 & M3 & N1 & N2 & FT).
        destruct (approaches_small comps U g_k g_r g_l s r m Q M U0 HCd M1 M2 M3 N1 N2) as (B1 & B2 & B3). eexists _, _, _. split; [exact B1|]. split; [exact B2|]. split; [exact B3|exact FT].
      - apply State_update_spec in Hu as (_ & Hu & _). exists (s_temp s1). split; [exists r, c, vs; eexists _, _, _; repeat (split; [eassumption|]); exact Hu|].
        destruct (recomputed_is comps U g_k g_r g_l 0 0 ts h s r vs _ _ _ _ SB HCd Hs SA HStp Hh Hu) as (_ & _ & M1 & M2 & M3 & N1 & N2 & FT).
        destruct (approaches_small comps U g_k g_r g_l s r _ _ M U0 HCd M1 M2 M3 N1 N2) as (B1 & B2 & B3). eexists _, _, _. split; [exact B1|]. split; [exact B2|]. split; [exact B3|exact FT].
    Qed.
  End Step.
  (** a step that contracts has a fixed point *)
  Section Fixed.
    Variable step : State R -> Temperatures R -> Prop.
    Variables (U K d0 Kf : R).
    Hypothesis step_all : forall s, approaches_within b A s -> exists T', step s T' /\
      exists a_k a_r a_l, Rabs a_k <= capp U /\ Rabs a_r <= capp U /\ Rabs a_l <= capp U /\ temperatures_follow sink source a_k a_r a_l 0 T'.
    Hypothesis D0 : 0 < d0.
    Hypothesis Kf0 : 0 <= Kf.
    Hypothesis KU : K / U <= / 2.
    Hypothesis KUd : K / U <= d0 / 2.
    Hypothesis CU : capp U <= A.
    Hypothesis HNr : forall s1 s2 T1 T2, approaches_within b A s1 -> approaches_within b A s2 -> step s1 T1 -> step s2 T2 ->
      tdist T1 T2 <= K / U /\ (tdist (s_temp s1) (s_temp s2) <= d0 -> tdist T1 T2 <= K / U * tdist (s_temp s1) (s_temp s2)).
    Hypothesis HFA : forall a_k a_r a_l b_k b_r b_l T T' w,
      Rabs a_k <= capp U -> Rabs a_r <= capp U -> Rabs a_l <= capp U -> Rabs b_k <= capp U -> Rabs b_r <= capp U -> Rabs b_l <= capp U ->
      temperatures_follow sink source a_k a_r a_l 0 T -> temperatures_follow sink source b_k b_r b_l 0 T' ->
      Rabs (a_k - b_k) <= w -> Rabs (a_r - b_r) <= w -> Rabs (a_l - b_l) <= w -> tdist T T' <= Kf * w.
    Let visits (a_k a_r a_l : R) (T T' : Temperatures R) : Prop :=
      Rabs a_k <= capp U /\ Rabs a_r <= capp U /\ Rabs a_l <= capp U /\ temperatures_follow sink source a_k a_r a_l 0 T /\ step (at_temps T) T'.
    Lemma visits_within a_k a_r a_l T T' : visits a_k a_r a_l T T' -> approaches_within b A (at_temps T).
    Proof. intros (H1 & H2 & H3 & H4 & _). apply (within_less b (capp U)); [exact CU|]. exact (at_within _ a_k a_r a_l T H1 H2 H3 H4). Qed.
    Lemma visit_near n : exists a_k a_r a_l T T', visits a_k a_r a_l T T' /\ tdist T T' <= d0 / 2 * (/ 2) ^ n.
    Proof.
      induction n as [|n (a_k & a_r & a_l & T & T' & V & HT)].
      - destruct (step_all b Hbb) as (T & S0 & a_k & a_r & a_l & A1 & A2 & A3 & F).
        assert (W : approaches_within b A (at_temps T)) by (apply (within_less b (capp U)); [exact CU|]; exact (at_within _ a_k a_r a_l T A1 A2 A3 F)).
        destruct (step_all (at_temps T) W) as (T' & S1 & _). exists a_k, a_r, a_l, T, T'. split; [repeat (split; [assumption|]); exact S1|].
        destruct (HNr b (at_temps T) T T' Hbb W S0 S1) as (H & _). cbn [pow]. lra.
      - pose proof (visits_within _ _ _ _ _ V) as W. destruct V as (_ & _ & _ & _ & S0).
        destruct (step_all (at_temps T) W) as (T1 & S1 & c_k & c_r & c_l & C1 & C2 & C3 & F).
        assert (W1 : approaches_within b A (at_temps T1)) by (apply (within_less b (capp U)); [exact CU|]; exact (at_within _ c_k c_r c_l T1 C1 C2 C3 F)).
        destruct (step_all (at_temps T1) W1) as (T2 & S2 & _).
        assert (Z : tdist T' T1 = 0).
        { destruct (HNr _ _ _ _ W W S0 S1) as (_ & H). cbn [at_temps s_temp] in H. assert (E : tdist T T = 0) by (unfold tdist; rewrite !Rminus_diag_eq, Rabs_R0 by reflexivity; ring).
          rewrite E in H. specialize (H ltac:(lra)). pose proof (tdist_nonneg T' T1). lra. }
        exists c_k, c_r, c_l, T1, T2. split; [repeat (split; [assumption|]); exact S2|].
        pose proof (tdist_tri T T' T1) as TR. assert (PB : 0 < (/ 2) ^ n <= 1).
        { split; [apply pow_lt; lra|]. rewrite <- (pow1 n). apply pow_incr. lra. }
        assert (DB : d0 / 2 * (/ 2) ^ n <= d0 / 2 * 1) by (apply Rmult_le_compat_l; lra).
        destruct (HNr _ _ _ _ W W1 S1 S2) as (_ & H). cbn [at_temps s_temp] in H. specialize (H ltac:(lra)). pose proof (tdist_nonneg T T1) as TN.
        assert (K / U * tdist T T1 <= / 2 * tdist T T1) by (apply Rmult_le_compat_r; assumption). cbn [pow].
        replace (d0 / 2 * (/ 2 * (/ 2) ^ n)) with (/ 2 * (d0 / 2 * (/ 2) ^ n)) by ring. lra.
    Qed.
    Lemma visit_within a : 0 < a -> exists a_k a_r a_l T T', visits a_k a_r a_l T T' /\ tdist T T' <= a.
    Proof.
      intros Ha. destruct (pow_lt_1_zero (/ 2) ltac:(rewrite Rabs_pos_eq; lra) (a / d0) ltac:(apply Rdiv_lt_0_compat; lra)) as (n & Hn0). specialize (Hn0 n ltac:(lia)).
      destruct (visit_near n) as (a_k & a_r & a_l & T & T' & V & HT). exists a_k, a_r, a_l, T, T'. split; [exact V|]. apply Rle_trans with (1 := HT).
      assert (PB : 0 < (/ 2) ^ n) by (apply pow_lt; lra). rewrite Rabs_pos_eq in Hn0 by lra.
      apply Rle_trans with (d0 * (a / d0)); [|right; field; lra]. apply Rmult_le_compat; lra.
    Qed.
    Lemma visits_agree a a' a_k a_r a_l T T' b_k b_r b_l V V' : 0 < a <= d0 / 4 -> 0 < a' <= d0 / 4 -> visits a_k a_r a_l T T' -> tdist T T' <= a -> visits b_k b_r b_l V V' -> tdist V V' <= a' ->
      tdist T V <= 2 * (a + a').
    Proof.
      intros Ha Ha' H1 H2 H3 H4. pose proof (visits_within _ _ _ _ _ H1) as W1. pose proof (visits_within _ _ _ _ _ H3) as W2.
      destruct (HNr _ _ _ _ W1 W2 (proj2 (proj2 (proj2 (proj2 H1)))) (proj2 (proj2 (proj2 (proj2 H3))))) as (N1 & N2). cbn [at_temps s_temp] in N2.
      pose proof (tdist_tri T T' V) as Q1. pose proof (tdist_tri T' V' V) as Q2. rewrite (tdist_sym V' V) in Q2.
      assert (Q : tdist T V <= d0) by lra. specialize (N2 Q). pose proof (tdist_nonneg T V). assert (K / U * tdist T V <= / 2 * tdist T V) by (apply Rmult_le_compat_r; assumption). lra.
    Qed.
    Theorem fixed_exists : exists T, approaches_within b A (at_temps T) /\ step (at_temps T) T.
    Proof.
      assert (follow_parts : forall a_k a_r a_l b_k b_r b_l T V, temperatures_follow sink source a_k a_r a_l 0 T -> temperatures_follow sink source b_k b_r b_l 0 V ->
        Rabs (a_k - b_k) <= tdist T V /\ Rabs (a_r - b_r) <= tdist T V /\ Rabs (a_l - b_l) <= tdist T V).
      { intros a_k a_r a_l b_k b_r b_l T V (_ & _ & F1 & F2 & F3 & _) (_ & _ & G1 & G2 & G3 & _).
        assert (IM : n_le n0 (0 : R) = true) by (rewrite R_n0; cbn [n_le R_ops]; destruct (Rle_dec 0 0); [reflexivity|lra]). rewrite IM in F3, G3.
        change (@n_add R R_ops) with Rplus in *. change (@n_sub R R_ops) with Rminus in *.
        unfold tdist. pose proof (Rabs_pos (te_chx T - te_chx V)). pose proof (Rabs_pos (te_hhx T - te_hhx V)). pose proof (Rabs_pos (rt_cold (te_regen T) - rt_cold (te_regen V))).
        pose proof (Rabs_pos (rt_avg (te_regen T) - rt_avg (te_regen V))). pose proof (Rabs_pos (rt_hot (te_regen T) - rt_hot (te_regen V))).
        split; [replace (a_k - b_k) with (te_chx T - te_chx V) by lra; lra|]. split.
        - replace (a_r - b_r) with (rt_cold (te_regen T) - rt_cold (te_regen V) - (te_chx T - te_chx V)) by lra.
          apply Rle_trans with (1 := Rabs_triang _ _). rewrite Rabs_Ropp. lra.
        - replace (a_l - b_l) with (- (te_hhx T - te_hhx V)) by lra. rewrite Rabs_Ropp. lra. }
      assert (lim : forall p : R -> R -> R -> R, (forall a_k a_r a_l b_k b_r b_l T V, temperatures_follow sink source a_k a_r a_l 0 T -> temperatures_follow sink source b_k b_r b_l 0 V ->
          Rabs (p a_k a_r a_l - p b_k b_r b_l) <= tdist T V) -> (forall a_k a_r a_l B, Rabs a_k <= B -> Rabs a_r <= B -> Rabs a_l <= B -> Rabs (p a_k a_r a_l) <= B) ->
          exists l, Rabs l <= capp U /\ forall a a_k a_r a_l T T', 0 < a <= d0 / 4 -> visits a_k a_r a_l T T' -> tdist T T' <= a -> Rabs (p a_k a_r a_l - l) <= 2 * a).
      { intros p Hp Hpb.
        destruct (closing_in (fun a v => exists a_k a_r a_l T T', visits a_k a_r a_l T T' /\ tdist T T' <= a /\ v = p a_k a_r a_l) (d0 / 4) 2 ltac:(lra) ltac:(lra)) as (l & Hl).
        - intros a Ha. destruct (visit_within a (proj1 Ha)) as (a_k & a_r & a_l & T & T' & V & HT). exists (p a_k a_r a_l), a_k, a_r, a_l, T, T'. auto.
        - intros a a' v Ha (a_k & a_r & a_l & T & T' & V & HT & ->). exists a_k, a_r, a_l, T, T'. split; [exact V|]. split; [lra|reflexivity].
        - intros a a' v v' Ha Ha' (a_k & a_r & a_l & T & T' & V & HT & ->) (b_k & b_r & b_l & T1 & T1' & V1 & HT1 & ->).
          apply Rle_trans with (tdist T T1); [apply Hp; [apply V|apply V1]|]. exact (visits_agree a a' _ _ _ _ _ _ _ _ _ _ Ha Ha' V HT V1 HT1).
        - exists l. split.
          + apply le_epsilon. intros e He. pose proof (Rmin_l (e / 2) (d0 / 4)) as E1. pose proof (Rmin_r (e / 2) (d0 / 4)) as E2.
            assert (E0 : 0 < Rmin (e / 2) (d0 / 4)) by (apply Rmin_pos; lra). set (a := Rmin (e / 2) (d0 / 4)) in *.
            destruct (visit_within a E0) as (a_k & a_r & a_l & T & T' & V & HT).
            assert (H1 : Rabs (p a_k a_r a_l - l) <= 2 * a) by (apply (Hl a _ ltac:(lra)); exists a_k, a_r, a_l, T, T'; auto).
            pose proof (Hpb a_k a_r a_l (capp U) (proj1 V) (proj1 (proj2 V)) (proj1 (proj2 (proj2 V)))) as H2. apply abs_le_iff in H1, H2. apply abs_le_iff. lra.
          + intros a a_k a_r a_l T T' Ha V HT. apply (Hl a _ Ha). exists a_k, a_r, a_l, T, T'. auto. }
      destruct (lim (fun k _ _ => k) (fun a b0 c a' b' c' T V F G => proj1 (follow_parts a b0 c a' b' c' T V F G)) (fun _ _ _ _ H _ _ => H)) as (l_k & Bk & Lk).
      destruct (lim (fun _ r _ => r) (fun a b0 c a' b' c' T V F G => proj1 (proj2 (follow_parts a b0 c a' b' c' T V F G))) (fun _ _ _ _ _ H _ => H)) as (l_r & Br & Lr).
      destruct (lim (fun _ _ l => l) (fun a b0 c a' b' c' T V F G => proj2 (proj2 (follow_parts a b0 c a' b' c' T V F G))) (fun _ _ _ _ _ _ H => H)) as (l_l & Bl & Ll).
      pose proof (temperatures_follow_intro sink source {| ap_chx := l_k; ap_regen := l_r; ap_hhx := l_l |} 0) as F. cbn [ap_chx ap_regen ap_hhx] in F.
      set (T0 := Temperatures_from_approach _ _ _ _) in F. clearbody T0.
      assert (W0 : approaches_within b A (at_temps T0)) by (apply (within_less b (capp U)); [exact CU|]; exact (at_within _ l_k l_r l_l T0 Bk Br Bl F)).
      exists T0. split; [exact W0|]. destruct (step_all (at_temps T0) W0) as (T1 & S1 & c_k & c_r & c_l & C1 & C2 & C3 & F1).
      assert (Z : tdist T0 T1 <= 0).
      { apply le_epsilon. intros e He. rewrite Rplus_0_l. set (M := 4 * Kf + 1). assert (M0 : 1 <= M) by (unfold M; lra).
        set (a := Rmin (Rmin (d0 / 4) (e / M)) (d0 / M)).
        assert (A0 : 0 < a) by (unfold a; repeat apply Rmin_pos; try lra; apply Rdiv_lt_0_compat; lra).
        pose proof (Rle_refl a) as L. unfold a in L at 2. apply below_min in L as (L & L3). apply below_min in L as (L1 & L2).
        assert (E1 : M * a <= e) by (apply Rle_trans with (M * (e / M)); [apply Rmult_le_compat_l; lra|right; field; lra]).
        assert (E2 : M * a <= d0) by (apply Rle_trans with (M * (d0 / M)); [apply Rmult_le_compat_l; lra|right; field; lra]).
        destruct (visit_within a A0) as (a_k & a_r & a_l & T & T' & V & HT). pose proof V as (V1 & V2 & V3 & V4 & V5).
        pose proof (Lk a a_k a_r a_l T T' ltac:(lra) V HT) as G1. pose proof (Lr a a_k a_r a_l T T' ltac:(lra) V HT) as G2. pose proof (Ll a a_k a_r a_l T T' ltac:(lra) V HT) as G3.
        pose proof (HFA a_k a_r a_l l_k l_r l_l T T0 (2 * a) V1 V2 V3 Bk Br Bl V4 F G1 G2 G3) as G.
        destruct (HNr _ _ _ _ (visits_within _ _ _ _ _ V) W0 V5 S1) as (_ & N). cbn [at_temps s_temp] in N.
        unfold M in E1, E2. assert (KA : 0 <= Kf * a) by (apply Rmult_le_pos; lra). specialize (N ltac:(lra)). pose proof (tdist_nonneg T T0) as TN.
        assert (K / U * tdist T T0 <= / 2 * tdist T T0) by (apply Rmult_le_compat_r; assumption).
        pose proof (tdist_tri T0 T T1) as Q1. pose proof (tdist_tri T T' T1) as Q2. rewrite (tdist_sym T0 T) in Q1. lra. }
      assert (E : T1 = T0); [|rewrite E in S1; exact S1].
      destruct F as (X1 & X2 & _), F1 as (Y1 & Y2 & _). destruct (tdist_parts T0 T1) as (P1 & P2 & P3 & P4 & P5).
      assert (ZE : forall u v, Rabs (u - v) <= tdist T0 T1 -> v = u) by (intros u v Huv; assert (Rabs (u - v) <= 0) by lra; apply abs_le_iff in H; lra).
      apply ZE in P1, P2, P3, P4, P5. destruct T0 as [t1 t2 [t3 t4 t5] t6 t7], T1 as [v1 v2 [v3 v4 v5] v6 v7]. cbn in *. congruence.
    Qed.
  End Fixed.
  Lemma consistent_sampled comps ts s T' : grid_to ts tau -> consistent_step comps ts s T' -> exists r vs P m Q, sampled 0 0 ts s r vs /\
    recomputed comps (s_fluid s) (s_pres s) (s_temp s) (s_regen_imbalance s) (Values_from vs) P m Q T'.
  Proof.
    intros HG (r & c & vs & P & m & Q & M & SC & WT & CP & EX & RC). exists r, vs, P, m, Q. split; [|exact RC].
    exact (exact_sampled s r c ts vs M (cycle_inner s r c M SC WT CP) SC HG EX).
  Qed.
  Theorem consistent_one : exists U, 0 < U /\ forall (comps : Components R) (h : R) (ts : list R),
    same_build comps0 comps -> mixed comps U kept ->
    grid_to ts tau -> steps_within h ts -> 0 <= h < (y - x) / 2 ->
    exists T, approaches_within b A (at_temps T) /\ consistent_step comps ts (at_temps T) T.
  Proof.
    destruct recomputed_near as (K & U0 & d0 & K0 & U01 & D0 & RN). destruct (follow_apart sink source Hss) as (Kf & Af & Kfp & Af0 & AfE & FA). pose proof (kept_below Af AfE) as HkF.
    set (U := U0 + 2 * K + 2 * (K / d0) + Rabs cap / A + Rabs cap / Af).
    assert (KD : 0 <= K / d0) by (apply Rle_mult_inv_pos; lra). assert (CAA : 0 <= Rabs cap / A) by (apply Rle_mult_inv_pos; [apply Rabs_pos|exact HA]).
    assert (CAF : 0 <= Rabs cap / Af) by (apply Rle_mult_inv_pos; [apply Rabs_pos|exact Af0]).
    assert (UU : 1 <= U /\ U0 <= U /\ 2 * K <= U /\ 2 * (K / d0) <= U /\ Rabs cap / A <= U /\ Rabs cap / Af <= U) by (unfold U; lra). destruct UU as (UU1 & UU2 & UU3 & UU4 & UU5 & UU6).
    assert (KU : K / U <= / 2) by (apply (Rmult_le_reg_r U); [lra|]; replace (K / U * U) with K by (field; lra); lra).
    assert (KUd : K / U <= d0 / 2).
    { apply (Rmult_le_reg_r U); [lra|]. replace (K / U * U) with K by (field; lra). apply Rle_trans with (d0 / 2 * (2 * (K / d0))); [right; field; lra|]. apply Rmult_le_compat_l; lra. }
    assert (CUa : forall a, 0 < a -> Rabs cap / a <= U -> kept <= a -> capp U <= a).
    { intros a Ha Hu Hka. apply Rmax_lub; [exact Hka|]. apply (Rmult_le_reg_r U); [lra|]. replace (cap / U * U) with cap by (field; lra). apply Rle_trans with (1 := Rle_abs cap).
      apply Rle_trans with (a * (Rabs cap / a)); [right; field; lra|]. apply Rmult_le_compat_l; lra. }
    pose proof (CUa A HA UU5 HkA) as CU. pose proof (CUa Af Af0 UU6 HkF) as CF.
    exists U. split; [lra|]. intros comps h ts SB HCd HG HStp Hh.
    apply (fixed_exists (consistent_step comps ts) U K d0 Kf (step_total comps U h ts SB HCd ltac:(lra) HG HStp Hh) D0 Kfp KU KUd CU).
    - intros s1 s2 T1 T2 W1 W2 S1 S2. apply (consistent_sampled comps ts _ _ HG) in S1 as (r1 & vs1 & P1 & m1 & Q1 & SA1 & RC1). apply (consistent_sampled comps ts _ _ HG) in S2 as (r2 & vs2 & P2 & m2 & Q2 & SA2 & RC2).
      destruct (RN U UU2 comps SB HCd 0 0 ts h s1 r1 vs1 s2 r2 vs2 P1 m1 Q1 T1 P2 m2 Q2 T2 ltac:(lra) ltac:(lra) W1 W2 SA1 SA2 HStp Hh RC1 RC2) as (N1 & N2).
      split; [exact N1|]. rewrite !Rplus_0_l in N2. exact N2.
    - intros a_k a_r a_l b_k b_r b_l T T' w H1 H2 H3 H4 H5 H6. apply FA; lra.
  Qed.
  Lemma consistent_rests comps tol ts s : 0 < ct_abs tol -> 0 < ct_rel tol -> approaches_within b A s -> grid_to ts tau -> consistent_step comps ts s (s_temp s) ->
    exists vs, rests comps tol 0 0 ts (mkEngine comps s (Values_from vs)).
  Proof.
    intros TA TR W HG HS. apply (consistent_sampled comps ts _ _ HG) in HS as (r & vs & P & m & Q & SA & RC). exists vs. split; [exact W|]. exists r, vs. cbn [en_state en_values].
    split; [exact SA|]. split; [reflexivity|]. exists P, m, Q, (s_temp s). split; [exact RC|]. destruct (close_by tol TA TR) as (w & W0 & HW).
    apply (HW s r _ (proj1 SA)). unfold tdist. rewrite !Rminus_diag_eq, Rabs_R0 by reflexivity. lra.
  Qed.
End Outer.
