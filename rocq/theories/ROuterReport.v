(** * Reports of engines with samples close to each other *)
From Coq Require Import ZArith NArith List Reals Lra Lia.
From Verif Require Import Num ModelTypes ModelWs ModelHx ModelStateEq ModelEngine ModelApi RNum Spec SpecLoop SpecR SpecGas
  SpecKin SpecTraj SpecLaws SpecUnique SpecExist SpecDepend SpecSeries SpecQuad SpecReport SpecSpaces SpecBounds SpecSteady SpecContract
  SpecSample SpecGlobal SpecSearch SpecConverge SpecAccurate SpecSolver SpecApi SpecMeans SpecPush SpecEffective SpecOuter Fixture PolySolve PolyLoop PolyPanic PolyRun PolyReport RSolve RGauss RFluid RKin RPeriod RSeries
  RPicard RLocal RExist RStart RCase4 RDepend RBounds RSteady RQuad RSample RSampleReport RMotion RSampleCase RSearchCase RGlobal RGlobalReport RContract RContractEngine RSettle RSearch RConverge RAccurate RMeans
  RReturned RApproach RConsistent RPush RFlowBound RFollow REffective RFamily REuler RSolver RSolverRun RTame RUniform RVaryRun RShadow RApart ROuter RClosing ROuterLimit ROuterExact ROuterMean ROuterSteady.
Import ListNotations.
Local Open Scope R_scope.


(** integrals over samples close to each other *)
Lemma integrals_apart ts tau w (f g : list R) : grid_to ts tau -> Forall2 (fun a b => Rabs (a - b) <= w) f g -> length f = length ts ->
  Rabs (integrate ts f - integrate ts g) <= w * tau.
Proof.
  intros G HF HL. pose proof (means_apart ts tau w f g G HF HL) as H. pose proof G as (_ & _ & _ & T0).
  replace (integrate ts f - integrate ts g) with ((integrate ts f / tau - integrate ts g / tau) * tau) by (field; lra).
  rewrite Rabs_mult, (Rabs_pos_eq tau) by lra. apply Rmult_le_compat_r; lra.
Qed.
Definition report_gain (a : Replies R) : R := 8 * Rabs (rp_freq a) * (1 + Rabs (/ (2 * PI * rp_freq a))).
Lemma gain_nonneg a : 0 <= report_gain a.
Proof. unfold report_gain. pose proof (Rabs_pos (rp_freq a)). pose proof (Rabs_pos (/ (2 * PI * rp_freq a))). apply Rmult_le_pos; lra. Qed.
Lemma report_figures (e : Engine R) a vs X k : series_of vs (en_values e) -> replies e a -> 0 <= k ->
  let I g := integrate (map (@sv_time R) vs) (map g vs) in
  Rabs (I (work_num e a) - to_work X) <= k -> Rabs (I (ideal_num a) - to_ideal X) <= k ->
  Rabs (I (wall_c_num e a) - to_wall_c X) <= k -> Rabs (I (wall_e_num e a) - to_wall_e X) <= k ->
  Rabs (I (fun v => so_Q_dot_k (sv_solution v)) - to_Q_k X) <= k -> Rabs (I (fun v => so_Q_dot_l (sv_solution v)) - to_Q_l X) <= k ->
  exists rep, RunResults_from e = Ret rep /\ report_within a X (report_gain a * k) rep.
Proof.
  intros Hse Hrp K0 I W1 W2 W3 W4 W5 W6. unfold I in *. clear I.
  destruct (reported e a vs Hse Hrp) as (rep & ER & _ & _ & E1 & E2 & E3 & E4 & E5 & E6 & E7 & _).
  exists rep. split; [exact ER|].
  apply (close_scaled (rp_freq a)) in W1, W2, W3, W4, W5, W6.
  unfold report_within. rewrite E1, E2, E3, E4, E5, E6, E7. clear E1 E2 E3 E4 E5 E6 E7.
  unfold input_num, rejected_num, losses_num, net_num, shaft_num, indicated_num, ideal_ind_num, fric_c_num, fric_e_num, cycle_num.
  unfold true_indicated, true_ideal, true_net, true_shaft, true_input, true_rejected, true_ideal, true_indicated, report_gain.
  set (f := rp_freq a) in *. unfold n_add, n_mul, n_sub, n_div, R_ops. change (@n_pi R _) with PI in *.
  set (N1 := f * integrate _ (map (work_num e a) vs)) in *. set (N2 := f * integrate _ (map (ideal_num a) vs)) in *.
  set (N3 := f * integrate _ (map (wall_c_num e a) vs)) in *. set (N4 := f * integrate _ (map (wall_e_num e a) vs)) in *.
  set (N5 := f * integrate _ (map (fun v => so_Q_dot_k (sv_solution v)) vs)) in *.
  set (N6 := f * integrate _ (map (fun v => so_Q_dot_l (sv_solution v)) vs)) in *.
  set (M1 := f * to_work X) in *. set (M2 := f * to_ideal X) in *. set (M3 := f * to_wall_c X) in *.
  set (M4 := f * to_wall_e X) in *. set (M5 := f * to_Q_k X) in *. set (M6 := f * to_Q_l X) in *.
  set (w := Rabs (/ (2 * PI * f))). assert (W0 : 0 <= w) by apply Rabs_pos.
  assert (Z0 : 0 <= Rabs f * k) by (apply Rmult_le_pos; [apply Rabs_pos|exact K0]). set (z := Rabs f * k) in *.
  replace (8 * Rabs f * (1 + w) * k) with (8 * z + w * (8 * z)) by (unfold z; ring).
  assert (ZQ : 0 <= w * (8 * z)) by (apply Rmult_le_pos; lra).
  apply abs_le_iff in W1, W2, W3, W4, W5, W6.
  assert (SH : forall x, Rabs (N1 - x - (M1 - x)) <= 8 * z) by (intros x; apply abs_le_iff; lra).
  split; [apply abs_le_iff; lra|]. split; [apply abs_le_iff; lra|]. split; [apply abs_le_iff; lra|].
  split; [apply abs_le_iff; lra|]. split; [apply abs_le_iff; lra|]. split; [apply abs_le_iff; lra|].
  set (x := pp_mechanical (par_comp (rp_par a))). set (y := pp_mechanical (par_exp (rp_par a))).
  replace ((N1 - x - y) / (n2 * PI * f) - (M1 - (x + y)) / (2 * PI * f))
    with ((N1 - (x + y) - (M1 - (x + y))) * / (2 * PI * f)).
  2:{ change (n2 * PI * f) with (2 * PI * f). unfold Rdiv. ring. }
  rewrite Rabs_mult, Rmult_comm. fold w.
  assert (w * Rabs (N1 - (x + y) - (M1 - (x + y))) <= w * (8 * z)) by (apply Rmult_le_compat_l; [exact W0|apply SH]). lra.
Qed.
Lemma report_tri a X Y k k' rep rep' : report_within a Y k rep -> report_within a Y 0 rep' -> report_within a X k' rep' -> report_within a X (k + k') rep.
Proof.
  assert (T : forall u y u' x, Rabs (u - y) <= k -> Rabs (u' - y) <= 0 -> Rabs (u' - x) <= k' -> Rabs (u - x) <= k + k').
  { intros u y u' x H1 H2 H3. apply abs_le_iff in H1, H2, H3. apply abs_le_iff. lra. }
  intros (A1 & A2 & A3 & A4 & A5 & A6 & A7) (B1 & B2 & B3 & B4 & B5 & B6 & B7) (C1 & C2 & C3 & C4 & C5 & C6 & C7).
  split; [exact (T _ _ _ _ A1 B1 C1)|]. split; [exact (T _ _ _ _ A2 B2 C2)|]. split; [exact (T _ _ _ _ A3 B3 C3)|]. split; [exact (T _ _ _ _ A4 B4 C4)|].
  split; [exact (T _ _ _ _ A5 B5 C5)|]. split; [exact (T _ _ _ _ A6 B6 C6)|exact (T _ _ _ _ A7 B7 C7)].
Qed.
Lemma report_more a X k k' rep : k <= k' -> report_within a X k rep -> report_within a X k' rep.
Proof. intros H (A1 & A2 & A3 & A4 & A5 & A6 & A7). repeat split; lra. Qed.

(** the pressure drop in an exchanger *)
Lemma quotient_near T T' P P' Tm p w : Rabs T <= Tm -> 0 < p -> p <= P -> p <= P' -> Rabs (T - T') <= w -> Rabs (P - P') <= w ->
  Rabs (T * / P - T' * / P') <= (Tm * (/ p * / p) + / p) * w.
Proof.
  intros H1 H2 H3 H4 H5 H6. assert (IP : 0 < / p) by (apply Rinv_0_lt_compat; exact H2).
  assert (I : forall x, p <= x -> Rabs (/ x) <= / p).
  { intros x Hx. rewrite Rabs_pos_eq by (left; apply Rinv_0_lt_compat; lra). apply Rinv_le_contravar; lra. }
  replace (T * / P - T' * / P') with (T * (/ P * / P' * (P' - P)) + (T - T') * / P') by (field; lra).
  replace ((Tm * (/ p * / p) + / p) * w) with (Tm * (/ p * / p * w) + w * / p) by ring.
  rewrite Rabs_minus_sym in H6. apply abs_le_add; apply abs_le_mul; try assumption; [|apply I; lra].
  apply abs_le_mul; [|exact H6]. apply abs_le_mul; apply I; lra.
Qed.
Lemma quotient_size T P Tm p : Rabs T <= Tm -> 0 < p -> p <= P -> Rabs (T * / P) <= Tm * / p.
Proof.
  intros H1 H2 H3. apply abs_le_mul; [exact H1|]. rewrite Rabs_pos_eq by (left; apply Rinv_0_lt_compat; lra). apply Rinv_le_contravar; lra.
Qed.
Definition drop_gain (res F Tm p : R) : R := Rabs (res * R_he / 2) * (2 * F * (Tm * (/ p * / p) + / p) + 2 * (Tm * / p)).
Lemma drop_near res m m' n n' T T' P P' F Tm p w : Rabs m <= F -> Rabs m' <= F -> Rabs T <= Tm -> Rabs T' <= Tm -> 0 < T -> 0 < T' -> 0 < p -> p <= P -> p <= P' ->
  Rabs (m - n) <= w -> Rabs (m' - n') <= w -> Rabs (T - T') <= w -> Rabs (P - P') <= w ->
  Rabs (drop_num res m m' (fl_dens (IdealGas_Fluid he) T P) - drop_num res n n' (fl_dens (IdealGas_Fluid he) T' P')) <= drop_gain res F Tm p * w.
Proof.
  intros M1 M2 T1 T2 T3 T4 P1 P2 P3 D1 D2 D3 D4.
  assert (E : forall m m' T P, 0 < T -> p <= P -> drop_num res m m' (fl_dens (IdealGas_Fluid he) T P) = res * R_he / 2 * ((m + m') * (T * / P))).
  { intros u u' S Q HS HQ. unfold drop_num. rewrite R_nhalf. cbn [IdealGas_Fluid fl_dens]. unfold ig_dens. rewrite he_R. unfold R_he. cbn [n_mul n_div n_add R_ops]. field. lra. }
  rewrite (E m m' T P T3 P2), (E n n' T' P' T4 P3).
  replace (res * R_he / 2 * ((m + m') * (T * / P)) - res * R_he / 2 * ((n + n') * (T' * / P'))) with
    (res * R_he / 2 * ((m + m') * (T * / P - T' * / P') + (m - n + (m' - n')) * (T' * / P'))) by ring.
  unfold drop_gain.
  replace (Rabs (res * R_he / 2) * (2 * F * (Tm * (/ p * / p) + / p) + 2 * (Tm * / p)) * w) with
    (Rabs (res * R_he / 2) * ((F + F) * ((Tm * (/ p * / p) + / p) * w) + (w + w) * (Tm * / p))) by ring.
  apply abs_le_mul; [lra|]. apply abs_le_add; apply abs_le_mul.
  - apply abs_le_add; assumption.
  - apply quotient_near; assumption.
  - apply abs_le_add; assumption.
  - apply quotient_size; assumption.
Qed.

Lemma forall2_with {X Y} (P : X -> X -> Prop) (Q Q' : X -> Prop) (t : X -> Y) : forall l l', Forall2 P l l' -> Forall Q l -> Forall Q' l' -> map t l = map t l' ->
  Forall2 (fun a b => P a b /\ Q a /\ Q' b /\ t a = t b) l l'.
Proof.
  induction 1 as [|a b l l' H _ IH]; intros H1 H2 E; constructor.
  - injection E as E _. split; [exact H|]. split; [exact (Forall_inv H1)|]. split; [exact (Forall_inv H2)|exact E].
  - injection E as _ E. exact (IH (Forall_inv_tail H1) (Forall_inv_tail H2) E).
Qed.
Lemma values_series (vs : list (SeValues R)) : series_of vs (Values_from vs).
Proof.
  assert (M : forall f : SeValues R -> R, Forall2 (fun x y => y = f x) vs (map f vs)) by (intros f; induction vs as [|v l IH]; cbn [map]; constructor; [reflexivity|exact IH]).
  unfold series_of, Values_from. cbn. repeat (split; [apply M|]). apply M.
Qed.

Section Runs.
  Variables (comps0 : Components R) (b : State R) (rb : Run R) (D : Decomp R) (A cl ch el eh cl' ch' el' eh' T_low T_top V_hi v_hi rho rv q mg x y : R).
  Hypothesis Hfl : s_fluid b = IdealGas_Fluid he.
  Hypothesis Hd : driven (co_ws comps0).
  Hypothesis Hrb : Run_new comps0 b = Ret rb.
  Hypothesis Hn : te_sink (s_temp b) + te_source (s_temp b) <> 500.
  Hypothesis Hss : 0 < te_sink (s_temp b) < te_source (s_temp b).
  Hypothesis Him : s_regen_imbalance b = 0.
  Hypothesis HD : sound D.
  Hypothesis HC : complete D.
  Hypothesis HP0 : 0 < pr_t_zero (s_pres b).
  Hypothesis HA : 0 < A.
  Hypothesis O1 : 0 < cl' < cl.
  Hypothesis O2 : ch < ch'.
  Hypothesis O3 : 0 < el' < el.
  Hypothesis O4 : eh < eh'.
  Hypothesis HQ : q < 1.
  Hypothesis Hmg : 0 < mg.
  Hypothesis Hxy : 0 <= x < y.
  Hypothesis Hbb : approaches_within b A b.
  Hypothesis HB : forall s, approaches_within b A s -> exists r, Run_new comps0 s = Ret r /\
    settles_between r cl ch el eh cl' ch' el' eh' T_low T_top V_hi v_hi rho rv q mg /\
    y <= ru_period r /\ forall t, x < t < y -> pushes_at r t.
  Let P0 := pr_t_zero (s_pres b).
  Let tau := ru_period rb.
  Let lP := least_P cl' ch' el' eh' T_low T_top P0.
  Let smp := ROuter.sampled comps0 b rb D cl ch el eh cl' ch' el' eh' T_low T_top V_hi v_hi rho rv q mg.
  Let Vf := ru_vol_chx rb + ru_vol_regen rb + ru_vol_hhx rb.
  Let FM := flow_most cl' ch' el' eh' T_low T_top V_hi v_hi Vf P0.
  Let mb : member comps0 b cl ch el eh cl' ch' el' eh' T_low T_top V_hi v_hi rho rv q mg b rb :=
    member_b comps0 b rb A cl ch el eh cl' ch' el' eh' T_low T_top V_hi v_hi rho rv q mg x y Hfl Hd Hrb Hn Hbb HB.
  Lemma least_pos : 0 < lP.
  Proof.
    pose proof mb as (_ & _ & _ & _ & Hb0).
    destruct (P_bounds b rb cl ch el eh cl' ch' el' eh' T_low T_top V_hi v_hi rho rv q mg HP0 O1 O2 O3 O4 Hb0 Hmg) as ((PL & _) & _). exact PL.
  Qed.
  (** facts about each sample *)
  Definition sound_sample (s : State R) (v : SeValues R) : Prop :=
    let o := sv_solution v in let T := s_temp s in
    0 <= sv_time v <= tau /\ lP / 2 <= cd_P (sv_conditions v) /\
    Rabs (so_m_dot_ck o) <= FM /\ Rabs (so_m_dot_kr o) <= FM /\ Rabs (so_m_dot_rl o) <= FM /\ Rabs (so_m_dot_le o) <= FM.
  Lemma samples_sound e w ts s r vs : 0 <= e <= lP / 2 -> smp e w ts s r vs -> Forall (sound_sample s) vs.
  Proof.
    intros He (M & TS & G & F & ic & i & z & _ & _ & _ & _ & B5 & _ & B7). apply Forall_forall. intros v Hv.
    assert (Ht : 0 <= sv_time v <= tau) by (apply (grid_range _ _ G); rewrite <- TS; apply in_map; exact Hv).
    rewrite Forall_forall in F, B7. specialize (F v Hv). specialize (B7 v Hv).
    pose proof M as (Hf & Hr & Hn' & HP & HSet).
    destruct (B5 _ Ht) as (_ & (PL & _) & _). change (lP <= cd_P (z (sv_time v))) in PL.
    destruct (gap_parts _ _ _ B7) as (GP & _). apply abs_le_iff in GP.
    destruct (run_volumes comps0 b rb s r Hrb Hr) as (V1 & V2 & V3).
    pose proof (sample_sizes comps0 s r D cl ch el eh cl' ch' el' eh' T_low T_top V_hi v_hi rho rv q mg Hf Hd Hr Hn' HD HC ltac:(rewrite HP; exact HP0) O1 O2 O3 O4 HSet Hmg v F) as (S1 & S2 & S3 & S4 & _).
    rewrite V1, V2, V3, HP in S1, S2, S3, S4. split; [exact Ht|]. split; [lra|]. split; [exact S1|]. split; [exact S2|]. split; [exact S3|exact S4].
  Qed.
  Lemma temps_inside s r : member comps0 b cl ch el eh cl' ch' el' eh' T_low T_top V_hi v_hi rho rv q mg s r ->
    let ok T := 0 < T /\ Rabs T <= T_top in ok (te_chx (s_temp s)) /\ ok (te_hhx (s_temp s)) /\ ok (rt_avg (te_regen (s_temp s))).
  Proof.
    intros M. pose proof M as (_ & _ & _ & _ & HS). pose proof HS as (_ & _ & _ & _ & _ & _ & _ & _ & _ & I1 & I2 & _ & I4 & _).
    rewrite <- (member_temps comps0 b cl ch el eh cl' ch' el' eh' T_low T_top V_hi v_hi rho rv q mg HQ Hmg s r M) in I1, I2, I4.
    destruct (temps_pos comps0 b rb A cl ch el eh cl' ch' el' eh' T_low T_top V_hi v_hi rho rv q mg x y Hfl Hd Hrb Hn O1 O2 O3 O4 Hmg Hbb HB) as (TL & _).
    cbv zeta. repeat split; try lra; rewrite Rabs_pos_eq; lra.
  Qed.

  Definition drops_gain (a : Replies R) : R :=
    drop_gain (rp_R_chx a) FM T_top (lP / 2) + drop_gain (rp_R_hhx a) FM T_top (lP / 2) + drop_gain (rp_R_regen a) FM T_top (lP / 2).
  Definition figure_gain (a : Replies R) : R :=
    (2 + Rabs (drops_gain a)) * v_hi + 2 * v_hi + 2 * Rabs (/ tr_comp (rp_res a)) + 2 * Rabs (/ tr_exp (rp_res a)) + 1.
  Section Near.
    Variable a : Replies R.
    Hypothesis HV : rp_vols a = ru_ws_vol_fn rb.
    Let G := drops_gain a.
    Let Kf := figure_gain a.
    Lemma rates_small t : 0 <= t -> Rabs (v_deriv (fst (rp_vols a t))) <= v_hi /\ Rabs (v_deriv (snd (rp_vols a t))) <= v_hi.
    Proof.
      intros Ht. pose proof mb as (_ & _ & _ & _ & HS). pose proof HS as (_ & _ & _ & (_ & _ & _ & _ & _ & _ & _ & _ & L7 & _) & _).
      destruct (L7 t Ht) as (_ & _ & B1 & B2). rewrite HV. split; assumption.
    Qed.
    Lemma rate_nonneg : 0 <= v_hi.
    Proof. destruct (rates_small 0 ltac:(lra)) as (B & _). apply Rle_trans with (2 := B), Rabs_pos. Qed.
    Lemma figures_close (e1 e2 : Engine R) r1 r2 v1 v2 u : let s1 := en_state e1 in let s2 := en_state e2 in 0 <= u ->
      member comps0 b cl ch el eh cl' ch' el' eh' T_low T_top V_hi v_hi rho rv q mg s1 r1 -> member comps0 b cl ch el eh cl' ch' el' eh' T_low T_top V_hi v_hi rho rv q mg s2 r2 ->
      sound_sample s1 v1 -> sound_sample s2 v2 -> sv_time v1 = sv_time v2 -> near_samples u v1 v2 -> tdist (s_temp s1) (s_temp s2) <= u ->
      Rabs (work_num e1 a v1 - work_num e2 a v2) <= Kf * u /\ Rabs (ideal_num a v1 - ideal_num a v2) <= Kf * u /\
      Rabs (wall_c_num e1 a v1 - wall_c_num e2 a v2) <= Kf * u /\ Rabs (wall_e_num e1 a v1 - wall_e_num e2 a v2) <= Kf * u /\
      Rabs (so_Q_dot_k (sv_solution v1) - so_Q_dot_k (sv_solution v2)) <= Kf * u /\ Rabs (so_Q_dot_l (sv_solution v1) - so_Q_dot_l (sv_solution v2)) <= Kf * u.
    Proof.
      intros s1 s2 U0 M1 M2 (Ht & A1 & A2 & A3 & A4 & A5) (_ & B1 & B2 & B3 & B4 & B5) ET (N1 & N2 & N3 & N4 & N5 & N6 & N7 & N8 & N9) HT.
      destruct (temps_inside s1 r1 M1) as ((X1 & X2) & (X3 & X4) & (X5 & X6)). destruct (temps_inside s2 r2 M2) as ((Y1 & Y2) & (Y3 & Y4) & (Y5 & Y6)).
      destruct (tdist_parts (s_temp s1) (s_temp s2)) as (T1 & T2 & _ & T4 & _).
      assert (LP : 0 < lP / 2) by (pose proof least_pos; lra). pose proof rate_nonneg as R0. destruct (rates_small (sv_time v1) (proj1 Ht)) as (RC & RE).
      pose proof (Rabs_pos (/ tr_comp (rp_res a))) as Z1. pose proof (Rabs_pos (/ tr_exp (rp_res a))) as Z2. pose proof (Rabs_pos G) as Z3.
      assert (ZA : 0 <= (2 + Rabs G) * v_hi * u) by (apply Rmult_le_pos; [apply Rmult_le_pos; lra|lra]). assert (ZB : 0 <= 2 * v_hi * u) by (apply Rmult_le_pos; lra).
      assert (ZC : 0 <= 2 * Rabs (/ tr_comp (rp_res a)) * u) by (apply Rmult_le_pos; lra). assert (ZD : 0 <= 2 * Rabs (/ tr_exp (rp_res a)) * u) by (apply Rmult_le_pos; lra).
      replace (Kf * u) with ((2 + Rabs G) * v_hi * u + 2 * v_hi * u + 2 * Rabs (/ tr_comp (rp_res a)) * u + 2 * Rabs (/ tr_exp (rp_res a)) * u + u) by (unfold Kf, figure_gain, G; ring).
      pose proof M1 as (F1 & _). pose proof M2 as (F2 & _).
      assert (TT : Rabs (total_num e1 a v1 - total_num e2 a v2) <= Rabs G * u).
      { apply Rle_trans with (G * u); [|apply Rmult_le_compat_r; [exact U0|apply Rle_abs]]. unfold total_num. cbv zeta. fold s1 s2. unfold dens_num. fold s1 s2. rewrite F1, F2. change (@n_add R R_ops) with Rplus.
        match goal with |- Rabs (?p1 + ?p2 + ?p3 - (?q1 + ?q2 + ?q3)) <= _ => replace (p1 + p2 + p3 - (q1 + q2 + q3)) with (p1 - q1 + (p2 - q2) + (p3 - q3)) by ring end.
        unfold G, drops_gain. rewrite !Rmult_plus_distr_r. apply abs_le_add; [apply abs_le_add|]; apply drop_near; try assumption; lra. }
      assert (NH : (nhalf : R) = / 2) by (rewrite R_nhalf; lra).
      split.
      { unfold work_num, Pc_num, Pe_num, dVc_num, dVe_num. rewrite <- ET. rewrite NH. change (@n_add R R_ops) with Rplus. change (@n_sub R R_ops) with Rminus. change (@n_mul R R_ops) with Rmult.
        set (dc := v_deriv (fst (rp_vols a (sv_time v1)))) in *. set (de := v_deriv (snd (rp_vols a (sv_time v1)))) in *.
        set (t1 := total_num e1 a v1) in *. set (t2 := total_num e2 a v2) in *. set (p1 := cd_P (sv_conditions v1)) in *. set (p2 := cd_P (sv_conditions v2)) in *.
        replace ((p1 + t1 * / 2) * dc + (p1 - t1 * / 2) * de - ((p2 + t2 * / 2) * dc + (p2 - t2 * / 2) * de)) with
          ((p1 - p2 + (t1 - t2) * / 2) * dc + (p1 - p2 - (t1 - t2) * / 2) * de) by ring.
        apply Rle_trans with ((2 + Rabs G) * v_hi * u); [|lra].
        replace ((2 + Rabs G) * v_hi * u) with ((u + Rabs G * u * / 2) * v_hi + (u + Rabs G * u * / 2) * v_hi) by field.
        assert (HH : Rabs ((t1 - t2) * / 2) <= Rabs G * u * / 2) by (apply abs_le_mul; [exact TT|rewrite Rabs_pos_eq; lra]).
        apply abs_le_add; apply abs_le_mul; try assumption; [apply abs_le_add|apply abs_le_sub]; assumption. }
      split.
      { unfold ideal_num, dVc_num, dVe_num. rewrite <- ET. change (@n_add R R_ops) with Rplus. change (@n_mul R R_ops) with Rmult.
        set (dc := v_deriv (fst (rp_vols a (sv_time v1)))) in *. set (de := v_deriv (snd (rp_vols a (sv_time v1)))) in *. set (p1 := cd_P (sv_conditions v1)) in *. set (p2 := cd_P (sv_conditions v2)) in *.
        replace (p1 * (dc + de) - p2 * (dc + de)) with ((p1 - p2) * (dc + de)) by ring. apply Rle_trans with (u * (v_hi + v_hi)); [|lra].
        apply abs_le_mul; [exact N1|]. apply abs_le_add; assumption. }
      split.
      { unfold wall_c_num, wall_num. fold s1 s2. change (@n_sub R R_ops) with Rminus. change (@n_div R R_ops) with Rdiv.
        replace ((cd_T_c (sv_conditions v1) - te_chx (s_temp s1)) / tr_comp (rp_res a) - (cd_T_c (sv_conditions v2) - te_chx (s_temp s2)) / tr_comp (rp_res a)) with
          ((cd_T_c (sv_conditions v1) - cd_T_c (sv_conditions v2) - (te_chx (s_temp s1) - te_chx (s_temp s2))) * / tr_comp (rp_res a)) by (unfold Rdiv; ring).
        apply Rle_trans with ((u + u) * Rabs (/ tr_comp (rp_res a))); [|lra]. apply abs_le_mul; [|lra]. apply abs_le_sub; [exact N2|lra]. }
      split.
      { unfold wall_e_num, wall_num. fold s1 s2. change (@n_sub R R_ops) with Rminus. change (@n_div R R_ops) with Rdiv.
        replace ((cd_T_e (sv_conditions v1) - te_hhx (s_temp s1)) / tr_exp (rp_res a) - (cd_T_e (sv_conditions v2) - te_hhx (s_temp s2)) / tr_exp (rp_res a)) with
          ((cd_T_e (sv_conditions v1) - cd_T_e (sv_conditions v2) - (te_hhx (s_temp s1) - te_hhx (s_temp s2))) * / tr_exp (rp_res a)) by (unfold Rdiv; ring).
        apply Rle_trans with ((u + u) * Rabs (/ tr_exp (rp_res a))); [|lra]. apply abs_le_mul; [|lra]. apply abs_le_sub; [exact N3|lra]. }
      split; lra.
    Qed.
  End Near.
    Theorem reports_near : exists d0, 0 < d0 /\ forall a, rp_vols a = ru_ws_vol_fn rb -> exists K, 0 <= K /\ forall e w ts comps s1 r1 vs1 s2 r2 vs2, 0 <= e <= d0 -> 0 <= w ->
      smp e w ts s1 r1 vs1 -> smp e w ts s2 r2 vs2 -> tdist (s_temp s1) (s_temp s2) <= d0 ->
      let e1 := mkEngine comps s1 (Values_from vs1) in let e2 := mkEngine comps s2 (Values_from vs2) in replies e1 a -> replies e2 a ->
      exists X rep1 rep2, RunResults_from e1 = Ret rep1 /\ RunResults_from e2 = Ret rep2 /\
        report_within a X (K * (e + w + tdist (s_temp s1) (s_temp s2))) rep1 /\ report_within a X 0 rep2.
    Proof.
      destruct (samples_near comps0 b rb D A cl ch el eh cl' ch' el' eh' T_low T_top V_hi v_hi rho rv q mg x y Hfl Hd Hrb Hn HD HC HP0 O1 O2 O3 O4 HQ Hmg Hbb HB) as (K1 & d1 & K10 & D1 & SN).
      pose proof least_pos as LP. exists (Rmin d1 (lP / 2)). split; [apply Rmin_pos; lra|].
      intros a HV. set (Kf := figure_gain a). pose proof (rate_nonneg a HV) as R0. pose proof (gain_nonneg a) as GN. pose proof (period_pos comps0 b rb Hd Hrb) as TP. fold tau in TP.
      assert (KF : 0 <= Kf).
      { unfold Kf, figure_gain. pose proof (Rabs_pos (/ tr_comp (rp_res a))). pose proof (Rabs_pos (/ tr_exp (rp_res a))). pose proof (Rabs_pos (drops_gain a)).
        assert (0 <= (2 + Rabs (drops_gain a)) * v_hi) by (apply Rmult_le_pos; lra). lra. }
      assert (KT : 0 <= Kf * (K1 + 1) * tau) by (apply Rmult_le_pos; [apply Rmult_le_pos; lra|lra]).
      exists (report_gain a * (Kf * (K1 + 1) * tau)). split; [apply Rmult_le_pos; lra|].
      pose proof (Rmin_l d1 (lP / 2)) as ML. pose proof (Rmin_r d1 (lP / 2)) as MR.
      intros e w ts comps s1 r1 vs1 s2 r2 vs2 He Hw S1 S2 HT e1 e2 HR1 HR2.
      pose proof (SN e w ts s1 r1 vs1 s2 r2 vs2 (proj1 He) Hw S1 S2 ltac:(lra)) as NE.
      pose proof (samples_sound e w ts s1 r1 vs1 ltac:(lra) S1) as F1. pose proof (samples_sound e w ts s2 r2 vs2 ltac:(lra) S2) as F2.
      pose proof S1 as (M1 & TS1 & G1 & _). pose proof S2 as (M2 & TS2 & _).
      pose proof (forall2_with _ _ _ (@sv_time R) vs1 vs2 NE F1 F2 ltac:(congruence)) as ALL.
      set (d := tdist (s_temp s1) (s_temp s2)) in *. pose proof (tdist_nonneg (s_temp s1) (s_temp s2)) as DN. fold d in DN.
      set (n := e + w + d) in *. assert (NN : 0 <= n) by (unfold n; lra). set (u := (K1 + 1) * n). assert (U0 : 0 <= u) by (apply Rmult_le_pos; lra).
      assert (UK : K1 * n <= u /\ d <= u).
      { assert (0 <= K1 * n) by (apply Rmult_le_pos; lra). unfold u. rewrite Rmult_plus_distr_r. split; [lra|]. unfold n at 2. lra. }
      assert (MORE : forall v1 v2, near_samples (K1 * n) v1 v2 -> near_samples u v1 v2) by (intros v1 v2 Hv; unfold near_samples in *; repeat split; apply Rle_trans with (K1 * n); tauto).
      assert (LL : length vs1 = length ts) by (rewrite <- TS1, map_length; reflexivity).
      set (I1 := fun g => integrate ts (map g vs1)). set (I2 := fun g : SeValues R -> R => integrate ts (map g vs2)).
      assert (AP : forall f g : SeValues R -> R, (forall v1 v2, sound_sample s1 v1 -> sound_sample s2 v2 -> sv_time v1 = sv_time v2 -> near_samples u v1 v2 -> Rabs (f v1 - g v2) <= Kf * u) -> Rabs (I1 f - I2 g) <= Kf * (K1 + 1) * tau * n).
      { intros f g H. replace (Kf * (K1 + 1) * tau * n) with (Kf * u * tau) by (unfold u; ring). unfold I1, I2. apply integrals_apart; [exact G1| |rewrite map_length; exact LL].
        apply (two_maps f g _ (Kf * u) vs1 vs2 ALL). intros v1 v2 (Q1 & Q2 & Q3 & Q4). apply H; try assumption. apply MORE; exact Q1. }
      assert (FC := fun v1 v2 H1 H2 H3 H4 => figures_close a HV e1 e2 r1 r2 v1 v2 u U0 M1 M2 H1 H2 H3 H4 (proj2 UK)). cbv zeta in FC.
      set (X := mkTotals (I2 (work_num e2 a)) (I2 (ideal_num a)) (I2 (fun v => so_Q_dot_k (sv_solution v))) 0 (I2 (fun v => so_Q_dot_l (sv_solution v))) (I2 (wall_c_num e2 a)) (I2 (wall_e_num e2 a))).
      assert (Z : 0 <= Kf * (K1 + 1) * tau * n) by (apply Rmult_le_pos; assumption).
      destruct (report_figures e1 a vs1 X (Kf * (K1 + 1) * tau * n) (values_series vs1) HR1 Z) as (rep1 & ER1 & RW1).
      1-6: rewrite TS1; unfold X; cbn [to_work to_ideal to_Q_k to_Q_l to_wall_c to_wall_e]; apply AP; intros v1 v2 H1 H2 H3 H4; destruct (FC v1 v2 H1 H2 H3 H4) as (C1 & C2 & C3 & C4 & C5 & C6); assumption.
      assert (Z0 : forall y, Rabs (y - y) <= 0) by (intros y'; rewrite Rminus_diag_eq, Rabs_R0 by reflexivity; lra).
      destruct (report_figures e2 a vs2 X 0 (values_series vs2) HR2 (Rle_refl 0)) as (rep2 & ER2 & RW2).
      1-6: rewrite TS2; unfold X; cbn [to_work to_ideal to_Q_k to_Q_l to_wall_c to_wall_e]; apply Z0.
      exists X, rep1, rep2. split; [exact ER1|]. split; [exact ER2|]. split; [|rewrite Rmult_0_r in RW2; exact RW2].
      replace (report_gain a * (Kf * (K1 + 1) * tau) * n) with (report_gain a * (Kf * (K1 + 1) * tau * n)) by ring. exact RW1.
    Qed.
End Runs.
