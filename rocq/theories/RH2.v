(** * Temperatures and pressure along exact trajectories of hydrogen engines stay in range *)
From Coq Require Import ZArith NArith List Reals Lra Lia.
From Verif Require Import Num ModelTypes ModelWs ModelHx ModelStateEq ModelEngine RNum Spec SpecR SpecGas
  SpecKin SpecTraj SpecLaws SpecUnique SpecExist SpecSpaces SpecHydro SpecBounds SpecH2 Fixture PolySolve RSolve RGauss RFluid RKin RMass
  RSpaces RClose RStart RPeriod RHydro RBounds.
Local Open Scope R_scope.

(** ** Hydrogen *)
Lemma h2_h T P : ig_enth h2 T P = h_h2 T.
Proof. rewrite h2_enth. unfold h_h2, h2_c, T_ref. lra. Qed.
Lemma h2_u T P : ig_inte h2 T P = u_h2 T.
Proof. rewrite h2_inte, h2_h. unfold u_h2, R_h2, T_ref. lra. Qed.
Lemma h2_cv T P : ig_du_dT_P h2 T P = cv_h2 T.
Proof. rewrite h2_du_dT, h2_cp. unfold cv_h2, h2_c, R_h2. lra. Qed.
Lemma all_ranges T : 0 < T -> (0 <= T <= 100) \/ 100 <= T.
Proof. lra. Qed.
Lemma h2_cv_pos T : 0 < T -> 0 < cv_h2 T.
Proof.
  intros HT. destruct (all_ranges T HT) as [[Ha Hb]|Ha].
  - unfold cv_h2, R_h2. decimals. bern5 T 0 100. lra.
  - rewrite <- (h2_cv T 1), h2_du_dT. pose proof (h2_cp_R T 1 Ha). lra.
Qed.
(** the internal energy rises with the temperature *)
Definition du_h2 (T : R) : R := cv_h2 T - 250 * (13.3194432 / 2 - 0.0347782806 / 3 * 2 * T + 0.0000431784838 / 4 * 3 * T^2
    - 0.0000000242883335 / 5 * 4 * T^3 + 0.00000000000514289838 / 6 * 5 * T^4).
Lemma du_pos T : 0 < T -> 0 < du_h2 T.
Proof.
  intros HT. unfold du_h2, cv_h2, R_h2. decimals. destruct (all_ranges T HT) as [[Ha Hb]|Ha].
  - bern5 T 0 100. lra.
  - destruct (ranges T Ha) as [[Hb Hc]|[[Hb Hc]|Hb]].
    + bern5 T 100 1000. lra.
    + bern5 T 1000 1500. lra.
    + shift6 T 1500. lra.
Qed.
Lemma u_deriv T : derivable_pt_lim u_h2 T (du_h2 T).
Proof.
  eapply deriv_eq; [apply (deriv_ext (fun t => ig_inte h2 t 1)); [intros; apply h2_u|apply h2_inte_deriv]|].
  rewrite h2_cv. unfold du_h2, h2_c. decimals. lra.
Qed.
Lemma rising (f : R -> R) (df : R -> R) x y : 0 < x -> x <= y ->
  (forall t, 0 < t -> derivable_pt_lim f t (df t) /\ 0 < df t) -> f x <= f y.
Proof.
  intros Hx Hy H. destruct (Req_dec x y) as [->|N]; [lra|].
  destruct (MVT_cor2 f df x y ltac:(lra)) as (z & E & Hz).
  - intros t Ht. apply H. lra.
  - assert (0 < df z * (y - x)) by (apply Rmult_lt_0_compat; [apply H; lra|lra]). lra.
Qed.
Lemma u_rising x y : 0 < x -> x <= y -> u_h2 x <= u_h2 y.
Proof. intros Hx Hy. apply (rising u_h2 du_h2 x y Hx Hy). intros t Ht. split; [apply u_deriv|apply du_pos, Ht]. Qed.
Lemma s_deriv_T V T : 0 < T -> derivable_pt_lim (fun t => s_h2 V t) T (cv_h2 T / T).
Proof.
  intros HT. eapply deriv_eq.
  - apply (deriv_ext (fun t => (12471.4839 - R_h2) * ln t + (13.3194432 * t - 0.0347782806 / 2 * (t * t) + 0.0000431784838 / 3 * (t * t * t)
      - 0.0000000242883335 / 4 * (t * t * t * t) + 0.00000000000514289838 / 5 * (t * t * t * t * t)) + R_h2 * ln V)).
    { intros. unfold s_h2. ring. }
    apply derivable_pt_lim_plus; [|apply deriv_const]. apply derivable_pt_lim_plus.
    + apply derivable_pt_lim_scal, derivable_pt_lim_ln, HT.
    + deriv.
  - cbv beta. unfold cv_h2, R_h2. field. lra.
Qed.
Lemma s_rising V x y : 0 < x -> x <= y -> s_h2 V x <= s_h2 V y.
Proof.
  intros Hx Hy. apply (rising (fun t => s_h2 V t) (fun t => cv_h2 t / t) x y Hx Hy). intros t Ht. split; [apply s_deriv_T, Ht|].
  apply Rdiv_lt_0_compat; [apply h2_cv_pos, Ht|exact Ht].
Qed.
Lemma s_strict V x y : 0 < x -> x < y -> s_h2 V x < s_h2 V y.
Proof.
  intros Hx Hy. destruct (MVT_cor2 (fun t => s_h2 V t) (fun t => cv_h2 t / t) x y Hy) as (z & E & Hz).
  - intros t Ht. apply s_deriv_T. lra.
  - assert (0 < cv_h2 z / z * (y - x)).
    { apply Rmult_lt_0_compat; [|lra]. apply Rdiv_lt_0_compat; [apply h2_cv_pos; lra|lra]. }
    cbv beta in E. lra.
Qed.
Lemma s_volume V W T : 0 < V -> V <= W -> s_h2 V T <= s_h2 W T.
Proof.
  intros HV HW. unfold s_h2. assert (L : ln V <= ln W).
  { destruct HW as [HW|HW]; [left; apply ln_increasing; assumption|rewrite HW; lra]. }
  unfold R_h2. lra.
Qed.
Lemma s_order V W x y : 0 < V -> V <= W -> 0 < x -> x <= y -> s_h2 V x <= s_h2 W y.
Proof. intros. apply Rle_trans with (s_h2 V y); [apply s_rising|apply s_volume]; assumption. Qed.
Lemma s_below V x y : 0 < x -> 0 < y -> s_h2 V x <= s_h2 V y -> x <= y.
Proof. intros Hx Hy H. destruct (Rle_lt_dec x y) as [L|L]; [exact L|]. pose proof (s_strict V y x Hy L). lra. Qed.
Lemma s_deriv (V T : R -> R) t dV dT : 0 < V t -> 0 < T t -> derivable_pt_lim V t dV -> derivable_pt_lim T t dT ->
  derivable_pt_lim (fun u => s_h2 (V u) (T u)) t (cv_h2 (T t) / T t * dT + R_h2 * dV / V t).
Proof.
  intros HV HT DV DT. eapply deriv_eq.
  - apply (deriv_ext (fun u => s_h2 1 (T u) + R_h2 * ln (V u))).
    { intros u. unfold s_h2. rewrite ln_1. ring. }
    apply derivable_pt_lim_plus.
    + apply (derivable_pt_lim_comp T (fun x => s_h2 1 x)); [exact DT|apply s_deriv_T, HT].
    + apply derivable_pt_lim_scal. apply (derivable_pt_lim_comp V ln); [exact DV|apply derivable_pt_lim_ln, HV].
  - field. lra.
Qed.

(** ** One working space *)
Definition h2_warms (V T : R -> R) (Q T_in t : R) : Prop := exists dV dT M P m_in m_out,
  derivable_pt_lim V t dV /\ derivable_pt_lim T t dT /\ 0 < M /\ P * V t = M * R_h2 * T t /\ 0 <= m_in /\ 0 <= m_out /\
  0 < T t /\ M * cv_h2 (T t) * dT + P * dV = m_out * R_h2 * (T_ref - T t) + m_in * (h_h2 T_in - u_h2 (T t)) - Q.
Section Space.
  Variables (V T : R -> R) (Q T_in a b V_lo V_hi : R).
  Hypothesis HV : forall t, a <= t <= b -> h2_warms V T Q T_in t.
  Hypothesis Hlo : 0 < V_lo.
  Hypothesis Hb : forall t, a <= t <= b -> V_lo <= V t <= V_hi.
  Let f t := s_h2 (V t) (T t).
  Lemma level_deriv t : a <= t <= b -> exists sc m_in m_out, 0 < sc /\ 0 <= m_in /\ 0 <= m_out /\ 0 < T t /\
    derivable_pt_lim f t (sc * (m_out * R_h2 * (T_ref - T t) + m_in * (h_h2 T_in - u_h2 (T t)) - Q)).
  Proof.
    intros Ht. destruct (HV t Ht) as (dV & dT & M & P & m_in & m_out & D1 & D2 & HM & HG & I1 & I2 & HT & E).
    pose proof (Hb t Ht) as H3. exists (/ (M * T t)), m_in, m_out.
    split; [apply Rinv_0_lt_compat, Rmult_lt_0_compat; assumption|].
    split; [exact I1|]. split; [exact I2|]. split; [exact HT|]. rewrite <- E. eapply deriv_eq.
    - apply (s_deriv V T t dV dT); [lra|exact HT|exact D1|exact D2].
    - assert (X : R_h2 * dV / V t = P * dV / (M * T t)).
      { replace (R_h2 * dV / V t) with (M * R_h2 * T t * (dV / (M * T t * V t))) by (field; lra). rewrite <- HG. field; lra. }
      rewrite X. field. lra.
  Qed.
  Lemma level_ceiling x B t : 0 <= Q -> T_ref <= x -> h_h2 T_in <= u_h2 x -> f a <= B -> s_h2 V_hi x <= B ->
    a <= t <= b -> f t <= B.
  Proof.
    intros HQ Hx HU H1 H2 Ht. apply (barrier f a b B); [|exact H1|exact Ht]. intros w Hw.
    destruct (level_deriv w Hw) as (sc & m_in & m_out & S & I1 & I2 & HT & DF). eexists. split; [exact DF|]. intros L.
    pose proof (Hb w Hw) as HB.
    assert (G : x < T w).
    { destruct (Rlt_or_le x (T w)) as [G|G]; [exact G|exfalso].
      pose proof (s_order (V w) V_hi (T w) x ltac:(lra) ltac:(lra) HT G). unfold f in L. lra. }
    assert (X0 : 0 < x) by (unfold T_ref in Hx; lra). pose proof (u_rising x (T w) X0 ltac:(lra)) as HU2.
    assert (0 <= m_out * R_h2 * (T w - T_ref)).
    { apply Rmult_le_pos; [apply Rmult_le_pos; [exact I2|unfold R_h2; lra]|lra]. }
    assert (0 <= m_in * (u_h2 (T w) - h_h2 T_in)) by (apply Rmult_le_pos; lra).
    assert (0 <= sc * (- (m_out * R_h2 * (T_ref - T w) + m_in * (h_h2 T_in - u_h2 (T w)) - Q))) by (apply Rmult_le_pos; lra).
    lra.
  Qed.
  Lemma level_floor y B t : Q <= 0 -> 0 < y <= T_ref -> u_h2 y <= h_h2 T_in -> B <= f a -> B <= s_h2 V_lo y ->
    a <= t <= b -> B <= f t.
  Proof.
    intros HQ Hy HU H1 H2 Ht. apply Ropp_le_cancel.
    apply (barrier (fun u => - f u) a b (- B)); [|lra|exact Ht]. intros w Hw.
    destruct (level_deriv w Hw) as (sc & m_in & m_out & S & I1 & I2 & HT & DF).
    eexists. split; [apply derivable_pt_lim_opp, DF|]. intros L. pose proof (Hb w Hw) as HB.
    assert (G : T w < y).
    { destruct (Rlt_or_le (T w) y) as [G|G]; [exact G|exfalso].
      pose proof (s_order V_lo (V w) y (T w) Hlo ltac:(lra) ltac:(lra) G). unfold f in L. lra. }
    pose proof (u_rising (T w) y HT ltac:(lra)) as HU2.
    assert (0 <= m_out * R_h2 * (T_ref - T w)).
    { apply Rmult_le_pos; [apply Rmult_le_pos; [exact I2|unfold R_h2; lra]|lra]. }
    assert (0 <= m_in * (h_h2 T_in - u_h2 (T w))) by (apply Rmult_le_pos; lra).
    assert (0 <= sc * (m_out * R_h2 * (T_ref - T w) + m_in * (h_h2 T_in - u_h2 (T w)) - Q)) by (apply Rmult_le_pos; lra).
    lra.
  Qed.
  Hypothesis Hab : a <= b.
  Lemma space_ceiling z t : 0 <= Q -> 0 < z -> ceiling (V a) (T a) V_lo V_hi T_in z -> a <= t <= b -> T t <= z.
  Proof.
    intros HQ Hz (x & X1 & X2 & X3 & X4) Ht. pose proof (Hb t Ht) as HB.
    destruct (level_deriv t Ht) as (_ & _ & _ & _ & _ & _ & HT & _).
    pose proof (level_ceiling x (s_h2 V_lo z) t HQ X1 X2 X3 X4 Ht) as L. unfold f in L.
    apply (s_below V_lo); [exact HT|exact Hz|]. apply Rle_trans with (2 := L). apply s_volume; lra.
  Qed.
  Lemma space_floor z t : Q <= 0 -> 0 < z -> floor (V a) (T a) V_lo V_hi T_in z -> a <= t <= b -> z <= T t.
  Proof.
    intros HQ Hz (y & Y1 & Y2 & Y3 & Y4) Ht. pose proof (Hb t Ht) as HB.
    destruct (level_deriv t Ht) as (_ & _ & _ & _ & _ & _ & HT & _).
    pose proof (level_floor y (s_h2 V_hi z) t HQ Y1 Y2 Y3 Y4 Ht) as L. unfold f in L.
    apply (s_below V_hi); [exact Hz|exact HT|]. apply Rle_trans with (1 := L). apply s_volume; lra.
  Qed.
End Space.

(** ** Both working spaces of a hydrogen engine *)
Lemma h2_pos : 0 < ig_gas_constant h2.
Proof. rewrite h2_R. lra. Qed.
Section Engine.
  Variable r : Run R.
  Hypothesis Hf : ru_fluid r = IdealGas_Fluid h2.
  Variable D : Decomp R.
  Hypothesis HD : sound D.
  Variable c : R -> Conditions R.
  Lemma h2_temperatures t hint s : ru_enth_norm r <> 0 -> solve D (Run_calculate_inputs r t (c t)) hint = Ok s ->
    h2_temperature_equations r c t s.
  Proof.
    intros Hn Hs. destruct (balances r D c t hint s HD Hs Hn) as (h1 & h2' & h3 & h4 & S1 & _ & _ & S4 & (E1 & _ & _ & _ & E5)).
    destruct (mass_conserved D _ hint s HD Hs) as [(M1 & _ & _ & _ & M5) _].
    unfold energy_rate_space in E1, E5. rewrite M1 in E1. rewrite M5 in E5. rewrite S1 in E1. rewrite S4 in E5.
    unfold h2_temperature_equations, stored_mass, V_comp, V_exp, heat_lost_comp, heat_lost_exp. cbv zeta.
    unfold stream_ck, stream_le, carried in *. clear M1 M5 S1 S4.
    unfold Run_calculate_inputs in E1, E5. destruct (ru_ws_vol_fn r t) as [vc ve]. unfold comp_inputs, exp_inputs in E1, E5.
    cbn [fst snd in_comp in_exp in_pres wi_vol wi_dens wi_inte wi_du_dT_P wi_du_dP_T wi_dV_dt wi_Q_dot] in *.
    rewrite Hf in *. cbn [IdealGas_Fluid fl_dens fl_inte fl_enth fl_du_dP_T fl_du_dT_P] in *.
    rewrite h2_cv, h2_u, !h2_h in E1, E5. rewrite !Rmax_opp.
    assert (Z : forall T P, ig_du_dP_T h2 T P = 0) by reflexivity. rewrite Z in E1, E5.
    rewrite (Rmax_min (so_m_dot_ck s)) in E1 at 1. rewrite (Rmax_min (so_m_dot_le s)) in E5 at 1.
    unfold u_h2 in *.
    split; lra.
  Qed.
  Lemma h2_gas_law V T P : 0 < T -> P * V = V * ig_dens h2 T P * R_h2 * T.
  Proof. intros H. unfold ig_dens. rewrite h2_R. unfold R_h2. cbn [n_mul n_div R_ops]. field. lra. Qed.
  Lemma h2_both_warm t : physical_trajectory D r c t ->
    h2_warms (V_comp r) (fun u => cd_T_c (c u)) (heat_lost_comp r) (te_chx (ru_temp r)) t /\
    h2_warms (V_exp r) (fun u => cd_T_e (c u)) (heat_lost_exp r) (te_hhx (ru_temp r)) t.
  Proof.
    intros ((HT & HV & hint & s & Hs & HF) & HP & _).
    assert (Hn : ru_enth_norm r <> 0).
    { destruct HP as (Hn & _). unfold Run_calculate_inputs in Hn. destruct (ru_ws_vol_fn r t). exact Hn. }
    destruct (h2_temperatures t hint s Hn Hs) as (E1 & E2). cbv zeta in E1, E2.
    unfold stored_mass in E1, E2. rewrite Hf in E1, E2. cbn [IdealGas_Fluid fl_dens] in E1, E2. destruct HF as (_ & F1 & F2).
    destruct HP as (_ & (VC & RC & _) & (VE & RE & _) & _). destruct HT as (TC & TE & _).
    unfold Run_calculate_inputs, comp_inputs, exp_inputs in VC, RC, VE, RE. destruct HV as (D1 & D2).
    unfold V_comp, V_exp in *. unfold true_derivatives, has_deriv in *.
    destruct (ru_ws_vol_fn r t) as [vc ve] eqn:EV. cbn [fst snd] in *.
    cbn [in_comp in_exp wi_vol wi_dens] in *. rewrite Hf in RC, RE. cbn [IdealGas_Fluid fl_dens] in RC, RE.
    split; do 6 eexists;
      (split; [first [exact D1|exact D2]|]); (split; [first [exact F1|exact F2]|]); cbv beta; rewrite ?EV; cbn [fst snd].
    - split; [apply Rmult_lt_0_compat; [exact VC|exact RC]|]. split; [apply h2_gas_law, TC|].
      split; [|split; [|split; [exact TC|exact E1]]]; apply Rmax_r.
    - split; [apply Rmult_lt_0_compat; [exact VE|exact RE]|]. split; [apply h2_gas_law, TE|].
      split; [|split; [|split; [exact TE|exact E2]]]; apply Rmax_r.
  Qed.
  Variables a b : R.
  Hypothesis Hab : a <= b.
  Hypothesis HP : forall t, a <= t <= b -> physical_trajectory D r c t.
  Lemma h2_comp_hotter lo hi z t : between (V_comp r) lo hi a b -> 0 <= heat_lost_comp r -> 0 < z ->
    ceiling (V_comp r a) (cd_T_c (c a)) lo hi (te_chx (ru_temp r)) z -> a <= t <= b -> cd_T_c (c t) <= z.
  Proof.
    intros (H1 & H2) HQ HZ HC Ht.
    exact (space_ceiling (V_comp r) (fun u => cd_T_c (c u)) _ _ a b lo hi (fun u Hu => proj1 (h2_both_warm u (HP u Hu))) H1 H2
      z t HQ HZ HC Ht).
  Qed.
  Lemma h2_exp_hotter lo hi z t : between (V_exp r) lo hi a b -> 0 <= heat_lost_exp r -> 0 < z ->
    ceiling (V_exp r a) (cd_T_e (c a)) lo hi (te_hhx (ru_temp r)) z -> a <= t <= b -> cd_T_e (c t) <= z.
  Proof.
    intros (H1 & H2) HQ HZ HC Ht.
    exact (space_ceiling (V_exp r) (fun u => cd_T_e (c u)) _ _ a b lo hi (fun u Hu => proj2 (h2_both_warm u (HP u Hu))) H1 H2
      z t HQ HZ HC Ht).
  Qed.
  Lemma h2_comp_colder lo hi z t : between (V_comp r) lo hi a b -> heat_lost_comp r <= 0 -> 0 < z ->
    floor (V_comp r a) (cd_T_c (c a)) lo hi (te_chx (ru_temp r)) z -> a <= t <= b -> z <= cd_T_c (c t).
  Proof.
    intros (H1 & H2) HQ HZ HC Ht.
    exact (space_floor (V_comp r) (fun u => cd_T_c (c u)) _ _ a b lo hi (fun u Hu => proj1 (h2_both_warm u (HP u Hu))) H1 H2
      z t HQ HZ HC Ht).
  Qed.
  Lemma h2_exp_colder lo hi z t : between (V_exp r) lo hi a b -> heat_lost_exp r <= 0 -> 0 < z ->
    floor (V_exp r a) (cd_T_e (c a)) lo hi (te_hhx (ru_temp r)) z -> a <= t <= b -> z <= cd_T_e (c t).
  Proof.
    intros (H1 & H2) HQ HZ HC Ht.
    exact (space_floor (V_exp r) (fun u => cd_T_e (c u)) _ _ a b lo hi (fun u Hu => proj2 (h2_both_warm u (HP u Hu))) H1 H2
      z t HQ HZ HC Ht).
  Qed.
  (** ** The pressure *)
  Lemma h2_mass_ratio t k : positive_temps r k -> gas_mass r t k * R_h2 = cd_P k * ratio r t k.
  Proof.
    intros (H1 & H2 & H3 & H4 & H5). unfold gas_mass, ratio, fixed_ratio, V_comp, V_exp. cbv zeta. rewrite Hf.
    cbn [IdealGas_Fluid fl_dens]. unfold ig_dens. rewrite h2_R. unfold R_h2. cbn [n_mul n_div R_ops]. field. repeat split; lra.
  Qed.
  Lemma h2_pressure_ratio t : a <= t <= b -> cd_P (c t) * ratio r t (c t) = cd_P (c a) * ratio r a (c a).
  Proof.
    intros Ht. rewrite <- !h2_mass_ratio by (apply HP; lra).
    rewrite (gas_mass_constant h2 h2_pos r Hf D c a t HD ltac:(lra)); [reflexivity|]. intros u Hu. apply HP. lra.
  Qed.
End Engine.

(** ** Trajectories that last *)
Section Forever.
  Variables (comps : Components R) (s : State R) (r : Run R) (D : Decomp R) (c0 : Conditions R) (cl ch el eh tcl tch tel teh : R).
  Hypothesis Hfl : s_fluid s = IdealGas_Fluid h2.
  Hypothesis Hd : driven (co_ws comps).
  Hypothesis Hr : Run_new comps s = Ret r.
  Hypothesis HS : sound D.
  Hypothesis VC : forall T, between (V_comp r) cl ch 0 T.
  Hypothesis VE : forall T, between (V_exp r) el eh 0 T.
  Hypothesis QC : heat_lost_comp r = 0.
  Hypothesis QE : heat_lost_exp r = 0.
  Hypothesis H0 : hydrogen_conditions r 0 c0.
  Hypothesis Low : h2_lowest r c0 cl ch el eh tcl tel.
  Hypothesis High : h2_highest r c0 cl ch el eh tch teh.
  Hypothesis WC : T_cold <= tcl.
  Hypothesis WE : T_cold <= tel.
  Hypothesis UC : 0 < tch.
  Hypothesis UE : 0 < teh.
  Let rlo := cl / tch + fixed_ratio r + el / teh.
  Let rhi := ch / tcl + fixed_ratio r + eh / tel.
  Let K := cd_P c0 * ratio r 0 c0.
  Let lo := h2_range_lo r c0 ch eh tcl tel.
  Let hi := h2_range_hi r c0 cl el tch teh.
  Lemma h2_vol_c t : 0 <= t -> 0 < cl /\ cl <= V_comp r t <= ch.
  Proof. intros Ht. destruct (VC t) as (C1 & C2). specialize (C2 t ltac:(lra)). auto. Qed.
  Lemma h2_vol_e t : 0 <= t -> 0 < el /\ el <= V_exp r t <= eh.
  Proof. intros Ht. destruct (VE t) as (C1 & C2). specialize (C2 t ltac:(lra)). auto. Qed.
  Lemma h2_temps0 : tcl <= cd_T_c c0 <= tch /\ tel <= cd_T_e c0 <= teh.
  Proof.
    destruct H0 as (_ & W1 & W2 & _). unfold T_cold in *. destruct (h2_vol_c 0 ltac:(lra)) as (C1 & C2).
    destruct (h2_vol_e 0 ltac:(lra)) as (E1 & E2).
    destruct Low as ((y1 & _ & _ & Y1 & _) & (y2 & _ & _ & Y2 & _)). destruct High as ((x1 & _ & _ & X1 & _) & (x2 & _ & _ & X2 & _)).
    split; split.
    - apply (s_below ch); [lra|lra|]. apply Rle_trans with (1 := Y1). apply s_volume; lra.
    - apply (s_below cl); [lra|lra|]. apply Rle_trans with (2 := X1). apply s_volume; lra.
    - apply (s_below eh); [lra|lra|]. apply Rle_trans with (1 := Y2). apply s_volume; lra.
    - apply (s_below el); [lra|lra|]. apply Rle_trans with (2 := X2). apply s_volume; lra.
  Qed.
  Lemma h2_fixed_nonneg : 0 <= fixed_ratio r.
  Proof.
    destruct H0 as (_ & _ & _ & W1 & W2 & W3 & _ & _ & N1 & N2 & N3). unfold T_cold in *. unfold fixed_ratio, Rdiv.
    repeat apply Rplus_le_le_0_compat; apply Rmult_le_pos; try assumption; left; apply Rinv_0_lt_compat; lra.
  Qed.
  Lemma h2_rlo_pos : 0 < rlo.
  Proof.
    destruct (h2_vol_c 0 ltac:(lra)) as (C1 & _). destruct (h2_vol_e 0 ltac:(lra)) as (E1 & _). pose proof h2_fixed_nonneg.
    assert (0 < cl / tch) by (apply Rdiv_lt_0_compat; lra). assert (0 < el / teh) by (apply Rdiv_lt_0_compat; lra).
    unfold rlo. lra.
  Qed.
  Lemma h2_ratio_range t c : 0 <= t -> tcl <= cd_T_c c <= tch -> tel <= cd_T_e c <= teh -> rlo <= ratio r t c <= rhi.
  Proof.
    intros Ht H1 H2. destruct (h2_vol_c t Ht) as (C1 & C2). destruct (h2_vol_e t Ht) as (E1 & E2). unfold T_cold in *.
    assert (P1 : 0 < tcl) by lra. assert (P2 : 0 < tel) by lra.
    pose proof (quotient_range _ _ _ _ _ _ C1 C2 P1 H1). pose proof (quotient_range _ _ _ _ _ _ E1 E2 P2 H2).
    unfold rlo, rhi, ratio. lra.
  Qed.
  Lemma h2_K_pos : 0 < K.
  Proof.
    destruct H0 as (P0 & _). destruct h2_temps0 as (T1 & T2). pose proof (h2_ratio_range 0 c0 (Rle_refl 0) T1 T2). pose proof h2_rlo_pos.
    apply Rmult_lt_0_compat; lra.
  Qed.
  Lemma h2_pressure_range t c : 0 <= t -> tcl <= cd_T_c c <= tch -> tel <= cd_T_e c <= teh ->
    cd_P c * ratio r t c = K -> K / rhi <= cd_P c <= K / rlo.
  Proof.
    intros Ht H1 H2 E. pose proof (h2_ratio_range t c Ht H1 H2) as HR. pose proof h2_rlo_pos. pose proof h2_K_pos.
    replace (cd_P c) with (K / ratio r t c) by (rewrite <- E; field; lra). unfold Rdiv.
    split; apply Rmult_le_compat_l; try lra; apply Rinv_le_contravar; lra.
  Qed.
  Lemma h2_run_fluid : ru_fluid r = IdealGas_Fluid h2.
  Proof. rewrite <- Hfl. apply (driven_run comps s r Hd Hr). Qed.
  Lemma h2_stays c T : 0 <= T -> c 0 = c0 -> (forall t, 0 <= t <= T -> physical_trajectory D r c t) ->
    forall t, 0 <= t <= T -> in_box lo hi (c t).
  Proof.
    intros HT E HP t Ht. pose proof h2_run_fluid as Hf. unfold T_cold in *. destruct Low as (L1 & L2). destruct High as (H1 & H2).
    rewrite <- E in L1, L2, H1, H2.
    pose proof (h2_comp_colder r Hf D HS c 0 T HP cl ch tcl t (VC T) ltac:(lra) ltac:(lra) L1 Ht) as B1.
    pose proof (h2_comp_hotter r Hf D HS c 0 T HP cl ch tch t (VC T) ltac:(lra) ltac:(lra) H1 Ht) as B2.
    pose proof (h2_exp_colder r Hf D HS c 0 T HP el eh tel t (VE T) ltac:(lra) ltac:(lra) L2 Ht) as B3.
    pose proof (h2_exp_hotter r Hf D HS c 0 T HP el eh teh t (VE T) ltac:(lra) ltac:(lra) H2 Ht) as B4.
    unfold in_box, lo, hi, h2_range_lo, h2_range_hi. cbn [cd_P cd_T_c cd_T_e].
    split; [|split; lra]. apply (h2_pressure_range t); [lra|lra|lra|].
    rewrite (h2_pressure_ratio r Hf D HS c 0 T HT HP t Ht), E. reflexivity.
  Qed.
  Lemma h2_low_conditions t : 0 <= t -> hydrogen_conditions r t lo.
  Proof.
    intros Ht. destruct H0 as (_ & _ & _ & W1 & W2 & W3 & _ & _ & N). unfold hydrogen_conditions, lo, h2_range_lo.
    cbn [cd_P cd_T_c cd_T_e]. fold K rhi.
    destruct (h2_vol_c t Ht) as (C1 & C2). destruct (h2_vol_e t Ht) as (E1 & E2). unfold V_comp, V_exp in *.
    destruct h2_temps0 as (T1 & T2). pose proof (h2_ratio_range 0 c0 (Rle_refl 0) T1 T2). pose proof h2_rlo_pos.
    split; [apply Rdiv_lt_0_compat; [exact h2_K_pos|lra]|].
    split; [exact WC|]. split; [exact WE|]. split; [exact W1|]. split; [exact W2|]. split; [exact W3|].
    split; [lra|]. split; [lra|exact N].
  Qed.
  Hypothesis HC : complete D.
  Hypothesis Hk : 250 <= te_sink (s_temp s).
  Hypothesis Hl : 250 < te_source (s_temp s).
  Lemma h2_arbitrarily_long T : 0 <= T -> exists c, c 0 = c0 /\ forall t, 0 <= t <= T -> physical_trajectory D r c t.
  Proof.
    intros HT.
    assert (HB : in_box lo hi c0).
    { destruct h2_temps0 as (T1 & T2). unfold in_box, lo, hi, h2_range_lo, h2_range_hi. cbn [cd_P cd_T_c cd_T_e].
      split; [|split; lra]. apply (h2_pressure_range 0); [lra|lra|lra|reflexivity]. }
    destruct (hydrogen_lasts comps s r D lo hi c0 T Hfl Hd Hr Hk Hl HS HC HT (fun t Ht => h2_low_conditions t (proj1 Ht)) HB)
      as (t1 & c & Ht1 & E & HP & [->|N]).
    - exists c. split; [exact E|exact HP].
    - exfalso. apply N. apply (h2_stays c t1); [lra|exact E|exact HP|lra].
  Qed.
  Lemma h2_forever : lasts_forever r D c0.
  Proof. exact (glue Hydrogen r D c0 h2_run_fluid HS h2_arbitrarily_long). Qed.
End Forever.
