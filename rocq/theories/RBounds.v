(** * Temperatures and pressure along exact trajectories of helium engines stay in range *)
From Coq Require Import ZArith NArith List Reals Lra Lia.
From Verif Require Import Num ModelTypes ModelWs ModelHx ModelStateEq ModelEngine RNum Spec SpecR SpecGas
  SpecKin SpecTraj SpecLaws SpecUnique SpecExist SpecSpaces SpecBounds Fixture PolySolve RSolve RGauss RFluid RKin RMass
  RSpaces RClose RStart RPeriod RCase.
Local Open Scope R_scope.

(** ** A function that cannot rise while it exceeds a level *)
Definition over (x : R) : R := Rmax x 0 * Rmax x 0.
Lemma over_step x h : Rabs (over (x + h) - over x - 2 * Rmax x 0 * h) <= h * h.
Proof.
  unfold over. apply Rabs_le. destruct (Rle_dec 0 x) as [A|A]; destruct (Rle_dec 0 (x + h)) as [B|B].
  - rewrite !Rmax_left by lra. pose proof (Rle_0_sqr h) as S. unfold Rsqr in S. lra.
  - rewrite (Rmax_left x), (Rmax_right (x + h)) by lra.
    assert (0 <= x * (- h - x)) by (apply Rmult_le_pos; lra).
    assert (0 <= (h + x) * (h + x)) by (pose proof (Rle_0_sqr (h + x)) as S; exact S).
    assert (0 <= (- h) * x) by (apply Rmult_le_pos; lra). lra.
  - rewrite (Rmax_right x), (Rmax_left (x + h)) by lra.
    assert (0 <= (x + h) * (x + h)) by (pose proof (Rle_0_sqr (x + h)) as S; exact S).
    assert (0 <= (- x) * (h + (x + h))) by (apply Rmult_le_pos; lra). lra.
  - rewrite !Rmax_right by lra. pose proof (Rle_0_sqr h) as S. unfold Rsqr in S. lra.
Qed.
Lemma over_deriv x : derivable_pt_lim over x (2 * Rmax x 0).
Proof.
  intros eps He. exists (mkposreal eps He). intros h Hh Hd. cbn [pos] in Hd.
  replace ((over (x + h) - over x) / h - 2 * Rmax x 0) with ((over (x + h) - over x - 2 * Rmax x 0 * h) / h)
    by (field; exact Hh).
  unfold Rdiv. rewrite Rabs_mult, Rabs_inv. pose proof (Rabs_pos_lt h Hh) as HA.
  apply Rle_lt_trans with (h * h * / Rabs h).
  - apply Rmult_le_compat_r; [left; apply Rinv_0_lt_compat, HA|apply over_step].
  - replace (h * h) with (Rabs h * Rabs h) by (rewrite <- Rabs_mult; apply Rabs_right; pose proof (Rle_0_sqr h) as S; unfold Rsqr in S; lra).
    rewrite Rmult_assoc, Rinv_r by lra. lra.
Qed.
Lemma barrier (f : R -> R) a b M :
  (forall t, a <= t <= b -> exists df, derivable_pt_lim f t df /\ (M < f t -> df <= 0)) ->
  f a <= M -> forall t, a <= t <= b -> f t <= M.
Proof.
  intros H Ha t Ht. destruct (Rle_lt_dec (f t) M) as [L|L]; [exact L|]. exfalso.
  destruct (Rle_lt_or_eq_dec a t ltac:(lra)) as [C|<-]; [|lra].
  destruct (MVT_exists (fun u => over (f u - M)) a t (fun u l => l <= 0) C) as (x & l & Hx & S & E).
  { intros u Hu. destruct (H u ltac:(lra)) as (df & D & N). exists (2 * Rmax (f u - M) 0 * df). split.
    - apply (derivable_pt_lim_comp (fun v => f v - M) over u).
      + eapply deriv_eq; [apply derivable_pt_lim_minus; [exact D|apply deriv_const]|]. ring.
      + apply over_deriv.
    - destruct (Rle_lt_dec (f u) M) as [Q|Q].
      + rewrite Rmax_right by lra. lra.
      + rewrite Rmax_left by lra. specialize (N Q).
        assert (0 <= (f u - M) * - df) by (apply Rmult_le_pos; lra). lra. }
  assert (S2 : 0 <= - l * (t - a)) by (apply Rmult_le_pos; lra).
  assert (Oa : over (f a - M) = 0) by (unfold over; rewrite Rmax_right by lra; ring).
  assert (Ot : 0 < over (f t - M)) by (unfold over; rewrite Rmax_left by lra; apply Rmult_lt_0_compat; lra).
  lra.
Qed.

(** ** One working space *)
Lemma cv_pos : 0 < cv_he.
Proof. unfold cv_he, cp_he, R_he. lra. Qed.
Lemma k_pos : 0 < R_he / cv_he.
Proof. apply Rdiv_lt_0_compat; [unfold R_he; lra|exact cv_pos]. Qed.
Lemma Rpower_mono x y : 0 < x -> x <= y -> Rpower x (R_he / cv_he) <= Rpower y (R_he / cv_he).
Proof. intros Hx Hy. apply Rle_Rpower_l; [left; exact k_pos|lra]. Qed.
Lemma adiabat_deriv (V T : R -> R) t dV dT : 0 < V t -> derivable_pt_lim V t dV -> derivable_pt_lim T t dT ->
  derivable_pt_lim (fun u => adiabat (V u) (T u)) t (Rpower (V t) (R_he / cv_he) * (dT + R_he / cv_he * T t * dV / V t)).
Proof.
  intros HV DV DT. unfold adiabat. eapply deriv_eq.
  - apply deriv_mult; [exact DT|].
    apply (derivable_pt_lim_comp V (fun v => Rpower v (R_he / cv_he))); [exact DV|apply derivable_pt_lim_power, HV].
  - cbv beta. unfold Rminus. rewrite Rpower_plus, Rpower_Ropp, Rpower_1 by exact HV. field. split; [|apply Rgt_not_eq, HV].
    pose proof cv_pos. lra.
Qed.

(** what happens to the gas at one time *)
Definition warms (V T : R -> R) (Q T_in t : R) : Prop := exists dV dT M P m_in m_out,
  derivable_pt_lim V t dV /\ derivable_pt_lim T t dT /\ 0 < M /\ P * V t = M * R_he * T t /\ 0 <= m_in /\ 0 <= m_out /\
  M * cv_he * dT + P * dV = m_out * R_he * (T_ref - T t) + m_in * cv_he * (filling T_in - T t) - Q.
Section Space.
  Variables (V T : R -> R) (Q T_in a b V_lo V_hi : R).
  Hypothesis HV : forall t, a <= t <= b -> warms V T Q T_in t.
  Hypothesis Hlo : 0 < V_lo.
  Hypothesis Hb : forall t, a <= t <= b -> V_lo <= V t <= V_hi.
  Let pw v := Rpower v (R_he / cv_he).
  Let f t := adiabat (V t) (T t).
  Lemma f_deriv t : a <= t <= b -> exists sc m_in m_out, 0 < sc /\ 0 <= m_in /\ 0 <= m_out /\
    derivable_pt_lim f t (sc * (m_out * R_he * (T_ref - T t) + m_in * cv_he * (filling T_in - T t) - Q)).
  Proof.
    intros Ht. destruct (HV t Ht) as (dV & dT & M & P & m_in & m_out & D1 & D2 & HM & HG & I1 & I2 & E).
    pose proof cv_pos as H2. pose proof (Hb t Ht) as H3.
    exists (pw (V t) * / (M * cv_he)), m_in, m_out. split.
    { apply Rmult_lt_0_compat; [unfold pw, Rpower; apply exp_pos|].
      apply Rinv_0_lt_compat, Rmult_lt_0_compat; [exact HM|exact cv_pos]. }
    split; [exact I1|]. split; [exact I2|]. rewrite <- E. eapply deriv_eq.
    - apply (adiabat_deriv V T t dV dT); [lra|exact D1|exact D2].
    - fold (pw (V t)).
      assert (X : R_he / cv_he * T t * dV / V t = P * dV / (M * cv_he)).
      { replace (R_he / cv_he * T t * dV / V t) with (M * R_he * T t * (dV / (M * cv_he * V t))) by (field; lra).
        rewrite <- HG. field; lra. }
      rewrite X. field. lra.
  Qed.
  Lemma pw_pos v : 0 < pw v.
  Proof. unfold pw, Rpower. apply exp_pos. Qed.
  Hypothesis Hab : a <= b.
  Hypothesis HT0 : 0 < Rmax T_ref (filling T_in).
  Lemma level_hotter t : 0 <= Q -> a <= t <= b ->
    adiabat (V t) (T t) <= Rmax (adiabat (V a) (T a)) (adiabat V_hi (Rmax T_ref (filling T_in))).
  Proof.
    intros HQ Ht. set (B := Rmax (adiabat (V a) (T a)) (adiabat V_hi (Rmax T_ref (filling T_in)))).
    { apply (barrier f a b B); [|unfold B; apply Rmax_l|exact Ht]. intros u Hu.
      destruct (f_deriv u Hu) as (sc & m_in & m_out & S & I1 & I2 & DF). eexists. split; [exact DF|]. intros L.
      assert (G : Rmax T_ref (filling T_in) < T u).
      { assert (L2 : adiabat V_hi (Rmax T_ref (filling T_in)) < f u) by (apply Rle_lt_trans with (2 := L); apply Rmax_r).
        unfold f, adiabat in L2. pose proof (Hb u Hu) as HB.
        assert (P1 : pw (V u) <= pw V_hi) by (apply Rpower_mono; lra).
        assert (L3 : Rmax T_ref (filling T_in) * pw (V u) < T u * pw (V u)).
        { apply Rle_lt_trans with (2 := L2). apply Rmult_le_compat_l; [lra|exact P1]. }
        apply Rmult_lt_reg_r with (2 := L3). apply pw_pos. }
      pose proof (Rmax_l T_ref (filling T_in)). pose proof (Rmax_r T_ref (filling T_in)). pose proof cv_pos.
      assert (0 <= m_out * R_he * (T u - T_ref)).
      { apply Rmult_le_pos; [apply Rmult_le_pos; [assumption|unfold R_he; lra]|lra]. }
      assert (0 <= m_in * cv_he * (T u - filling T_in)).
      { apply Rmult_le_pos; [apply Rmult_le_pos; lra|lra]. }
      assert (0 <= sc * (- (m_out * R_he * (T_ref - T u) + m_in * cv_he * (filling T_in - T u) - Q))).
      { apply Rmult_le_pos; lra. }
      lra. }
  Qed.
  Lemma space_hotter t : 0 <= Q -> a <= t <= b -> T t <= hottest (V a) (T a) V_lo V_hi T_in.
  Proof.
    intros HQ Ht. pose proof (level_hotter t HQ Ht) as F.
    set (B := Rmax (adiabat (V a) (T a)) (adiabat V_hi (Rmax T_ref (filling T_in)))) in F.
    assert (BP : 0 < B).
    { apply Rlt_le_trans with (2 := Rmax_r _ _). apply Rmult_lt_0_compat; [exact HT0|apply pw_pos]. }
    unfold hottest. fold B. fold (pw V_lo). pose proof (Hb t Ht) as HB.
    apply (Rmult_le_reg_r (pw V_lo)); [apply pw_pos|].
    replace (B / pw V_lo * pw V_lo) with B by (field; pose proof (pw_pos V_lo); lra).
    destruct (Rle_lt_dec (T t) 0) as [N|N].
    - assert (0 <= (- T t) * pw V_lo) by (apply Rmult_le_pos; [lra|left; apply pw_pos]). lra.
    - apply Rle_trans with (2 := F). unfold f, adiabat. apply Rmult_le_compat_l; [lra|]. apply Rpower_mono; lra.
  Qed.
  Lemma level_colder t : Q <= 0 -> 0 < filling T_in -> a <= t <= b ->
    Rmin (adiabat (V a) (T a)) (adiabat V_lo (Rmin T_ref (filling T_in))) <= adiabat (V t) (T t).
  Proof.
    intros HQ HF Ht. set (B := Rmin (adiabat (V a) (T a)) (adiabat V_lo (Rmin T_ref (filling T_in)))).
    assert (TM : 0 < Rmin T_ref (filling T_in)) by (apply Rmin_pos; [unfold T_ref; lra|exact HF]).
    apply Ropp_le_cancel.
    { apply (barrier (fun u => - f u) a b (- B)); [|apply Ropp_le_contravar; unfold B; apply Rmin_l|exact Ht].
      intros u Hu. destruct (f_deriv u Hu) as (sc & m_in & m_out & S & I1 & I2 & DF).
      eexists. split; [apply derivable_pt_lim_opp, DF|]. intros L.
      assert (G : T u < Rmin T_ref (filling T_in)).
      { assert (L2 : f u < adiabat V_lo (Rmin T_ref (filling T_in))).
        { apply Rlt_le_trans with B; [lra|apply Rmin_r]. }
        unfold f, adiabat in L2. pose proof (Hb u Hu) as HB.
        assert (P1 : pw V_lo <= pw (V u)) by (apply Rpower_mono; lra).
        assert (L3 : T u * pw (V u) < Rmin T_ref (filling T_in) * pw (V u)).
        { apply Rlt_le_trans with (1 := L2). apply Rmult_le_compat_l; [lra|exact P1]. }
        apply Rmult_lt_reg_r with (2 := L3). apply pw_pos. }
      pose proof (Rmin_l T_ref (filling T_in)). pose proof (Rmin_r T_ref (filling T_in)). pose proof cv_pos.
      assert (0 <= m_out * R_he * (T_ref - T u)).
      { apply Rmult_le_pos; [apply Rmult_le_pos; [assumption|unfold R_he; lra]|lra]. }
      assert (0 <= m_in * cv_he * (filling T_in - T u)).
      { apply Rmult_le_pos; [apply Rmult_le_pos; lra|lra]. }
      assert (0 <= sc * (m_out * R_he * (T_ref - T u) + m_in * cv_he * (filling T_in - T u) - Q)).
      { apply Rmult_le_pos; lra. }
      lra. }
  Qed.
  Lemma space_colder t : Q <= 0 -> 0 < T a -> 0 < filling T_in -> a <= t <= b ->
    coldest (V a) (T a) V_lo V_hi T_in <= T t.
  Proof.
    intros HQ HTa HF Ht. pose proof (level_colder t HQ HF Ht) as F.
    set (B := Rmin (adiabat (V a) (T a)) (adiabat V_lo (Rmin T_ref (filling T_in)))) in F.
    assert (TM : 0 < Rmin T_ref (filling T_in)) by (apply Rmin_pos; [unfold T_ref; lra|exact HF]).
    assert (BP : 0 < B).
    { apply Rmin_pos; apply Rmult_lt_0_compat; try assumption; apply pw_pos. }
    unfold coldest. fold B. fold (pw V_hi). pose proof (Hb t Ht) as HB.
    apply (Rmult_le_reg_r (pw V_hi)); [apply pw_pos|].
    replace (B / pw V_hi * pw V_hi) with B by (field; pose proof (pw_pos V_hi); lra).
    assert (N : 0 < T t).
    { apply (Rmult_lt_reg_r (pw (V t))); [apply pw_pos|]. rewrite Rmult_0_l. apply Rlt_le_trans with B; [exact BP|exact F]. }
    apply Rle_trans with (1 := F). unfold adiabat. apply Rmult_le_compat_l; [lra|]. apply Rpower_mono; lra.
  Qed.
End Space.

(** ** Both working spaces of a helium engine *)
Lemma he_cv T P : ig_inte he T P = cv_he * (T - T_ref).
Proof. rewrite he_inte. reflexivity. Qed.
Lemma he_h T P : ig_enth he T P = cp_he * (T - T_ref).
Proof. rewrite he_enth. reflexivity. Qed.
Lemma he_pos : 0 < ig_gas_constant he.
Proof. rewrite he_R. lra. Qed.
Lemma Rmax_opp m : Rmax (- m) 0 = - Rmin m 0.
Proof. destruct (Rle_lt_dec 0 m); [rewrite Rmax_right, Rmin_right by lra|rewrite Rmax_left, Rmin_left by lra]; lra. Qed.
Lemma Rmax_min m : m = Rmax m 0 + Rmin m 0.
Proof. destruct (Rle_lt_dec 0 m); [rewrite Rmax_left, Rmin_right by lra|rewrite Rmax_right, Rmin_left by lra]; lra. Qed.
Lemma inflow m T T_in : m * cp_he * (T_in - T_ref) - m * cv_he * (T - T_ref) = m * cv_he * (filling T_in - T).
Proof. unfold filling. pose proof cv_pos. field. lra. Qed.
Section Engine.
  Variable r : Run R.
  Hypothesis Hf : ru_fluid r = IdealGas_Fluid he.
  Variable D : Decomp R.
  Hypothesis HD : sound D.
  Variable c : R -> Conditions R.
  Lemma mass_eq V T P : stored_mass r V T P = V * ig_dens he T P.
  Proof. unfold stored_mass. rewrite Hf. reflexivity. Qed.
  Lemma energy_eq V T P : stored_energy r V T P = stored_mass r V T P * (cv_he * (T - T_ref)).
  Proof. unfold stored_energy. rewrite mass_eq, Hf. cbn [IdealGas_Fluid fl_dens fl_inte]. rewrite he_cv. ring. Qed.
  Lemma heat_of (Mf E T : R -> R) t dM dE dT : (forall u, E u = Mf u * (cv_he * (T u - T_ref))) ->
    derivable_pt_lim Mf t dM -> derivable_pt_lim E t dE -> derivable_pt_lim T t dT ->
    Mf t * cv_he * dT = dE - dM * (cv_he * (T t - T_ref)).
  Proof.
    intros HE H1 H2 H3.
    assert (X : derivable_pt_lim E t (dM * (cv_he * (T t - T_ref)) + Mf t * (cv_he * dT))).
    { apply (deriv_ext (fun u => Mf u * (cv_he * (T u - T_ref)))); [intros u; symmetry; apply HE|].
      assert (Y : derivable_pt_lim (fun u => cv_he * (T u - T_ref)) t (cv_he * (dT - 0))).
      { apply (derivable_pt_lim_scal (fun u => T u - T_ref)).
        apply (derivable_pt_lim_minus T (fun _ => T_ref)); [exact H3|apply deriv_const]. }
      eapply deriv_eq; [apply (deriv_mult Mf (fun u => cv_he * (T u - T_ref)) t _ _ H1 Y)|]. cbv beta. ring. }
    rewrite (uniqueness_limite _ _ _ _ H2 X). ring.
  Qed.
  Lemma temperatures t hint s : ru_enth_norm r <> 0 -> solve D (Run_calculate_inputs r t (c t)) hint = Ok s ->
    follows c s t -> positive_temps r (c t) -> true_derivatives (ru_ws_vol_fn r) t -> temperature_equations r c t s.
  Proof.
    intros Hn Hs HF HT HV.
    destruct (masses he he_pos r Hf D c t hint s HD Hs HF HT HV) as (M1 & _ & _ & _ & M5).
    destruct (spaces he he_pos r Hf D c t hint s HD Hs HF HT Hn (fun T P => he_du_deriv T P) HV) as (E1 & E5).
    destruct HF as (_ & F1 & F5). unfold has_deriv in *. unfold temperature_equations, V_comp, V_exp. cbv zeta.
    pose proof (heat_of _ _ _ t _ _ _ (fun u => energy_eq _ _ _) M1 E1 F1) as H1. cbv beta in H1.
    pose proof (heat_of _ _ _ t _ _ _ (fun u => energy_eq _ _ _) M5 E5 F5) as H5. cbv beta in H5.
    rewrite H1, H5. unfold stream_ck, stream_le, carried, heat_lost_comp, heat_lost_exp. rewrite Hf.
    cbn [IdealGas_Fluid fl_enth]. rewrite !he_h, !Rmax_opp. rewrite <- !inflow.
    rewrite (Rmax_min (so_m_dot_ck s)) at 3. rewrite (Rmax_min (so_m_dot_le s)) at 3.
    unfold cv_he. split; ring.
  Qed.

  Lemma gas_law V T P : 0 < T -> P * V = V * ig_dens he T P * R_he * T.
  Proof. intros H. unfold ig_dens. rewrite he_R. unfold R_he. cbn [n_mul n_div R_ops]. field. lra. Qed.
  Lemma both_warm t : physical_trajectory D r c t ->
    warms (V_comp r) (fun u => cd_T_c (c u)) (heat_lost_comp r) (te_chx (ru_temp r)) t /\
    warms (V_exp r) (fun u => cd_T_e (c u)) (heat_lost_exp r) (te_hhx (ru_temp r)) t.
  Proof.
    intros ((HT & HV & hint & s & Hs & HF) & HP & _).
    assert (Hn : ru_enth_norm r <> 0).
    { destruct HP as (Hn & _). unfold Run_calculate_inputs in Hn. destruct (ru_ws_vol_fn r t). exact Hn. }
    destruct (temperatures t hint s Hn Hs HF HT HV) as (E1 & E2). cbv zeta in E1, E2.
    rewrite mass_eq in E1, E2. destruct HF as (_ & F1 & F2).
    destruct HP as (_ & (VC & RC & _) & (VE & RE & _) & _). destruct HT as (TC & TE & _).
    unfold Run_calculate_inputs, comp_inputs, exp_inputs in VC, RC, VE, RE. destruct HV as (D1 & D2).
    unfold V_comp, V_exp in *. unfold true_derivatives, has_deriv in *.
    destruct (ru_ws_vol_fn r t) as [vc ve] eqn:EV. cbn [fst snd] in *.
    cbn [in_comp in_exp wi_vol wi_dens] in *. rewrite Hf in RC, RE. cbn [IdealGas_Fluid fl_dens] in RC, RE.
    split; do 6 eexists;
      (split; [first [exact D1|exact D2]|]); (split; [first [exact F1|exact F2]|]); cbv beta; rewrite ?EV; cbn [fst snd].
    - split; [apply Rmult_lt_0_compat; [exact VC|exact RC]|]. split; [apply gas_law, TC|].
      split; [|split]; [| |exact E1]; apply Rmax_r.
    - split; [apply Rmult_lt_0_compat; [exact VE|exact RE]|]. split; [apply gas_law, TE|].
      split; [|split]; [| |exact E2]; apply Rmax_r.
  Qed.
  Lemma warms_back V T Q T_in t : warms V T Q T_in t -> 0 < V t -> drawn_back V T Q T_in t.
  Proof.
    intros H HV. destruct (f_deriv V T Q T_in t t (V t) (V t)) with (t := t) as (sc & m_in & m_out & S & I1 & I2 & DF).
    - intros u Hu. replace u with t by lra. exact H.
    - exact HV.
    - intros u Hu. replace u with t by lra. lra.
    - lra.
    - eexists. split; [exact DF|]. pose proof cv_pos.
      assert (A1 : 0 <= m_out * R_he) by (apply Rmult_le_pos; [exact I2|unfold R_he; lra]).
      assert (A2 : 0 <= m_in * cv_he) by (apply Rmult_le_pos; lra).
      split; intros HQ HT.
      + pose proof (Rmax_l T_ref (filling T_in)). pose proof (Rmax_r T_ref (filling T_in)).
        assert (0 <= m_out * R_he * (T t - T_ref)) by (apply Rmult_le_pos; lra).
        assert (0 <= m_in * cv_he * (T t - filling T_in)) by (apply Rmult_le_pos; lra).
        assert (0 <= sc * (- (m_out * R_he * (T_ref - T t) + m_in * cv_he * (filling T_in - T t) - Q))) by (apply Rmult_le_pos; lra).
        lra.
      + pose proof (Rmin_l T_ref (filling T_in)). pose proof (Rmin_r T_ref (filling T_in)).
        assert (0 <= m_out * R_he * (T_ref - T t)) by (apply Rmult_le_pos; lra).
        assert (0 <= m_in * cv_he * (filling T_in - T t)) by (apply Rmult_le_pos; lra).
        apply Rmult_le_pos; lra.
  Qed.
  Lemma both_back t : physical_trajectory D r c t ->
    drawn_back (V_comp r) (fun u => cd_T_c (c u)) (heat_lost_comp r) (te_chx (ru_temp r)) t /\
    drawn_back (V_exp r) (fun u => cd_T_e (c u)) (heat_lost_exp r) (te_hhx (ru_temp r)) t.
  Proof.
    intros H. destruct (both_warm t H) as (W1 & W2). destruct H as (_ & (_ & (V1 & _) & (V2 & _) & _) & _).
    unfold Run_calculate_inputs, comp_inputs, exp_inputs in V1, V2.
    split; apply warms_back; try assumption; unfold V_comp, V_exp; destruct (ru_ws_vol_fn r t); assumption.
  Qed.
  Variables a b : R.
  Hypothesis Hab : a <= b.
  Hypothesis HP : forall t, a <= t <= b -> physical_trajectory D r c t.
  Lemma some_pos T_in : 0 < Rmax T_ref (filling T_in).
  Proof. apply Rlt_le_trans with (2 := Rmax_l _ _). unfold T_ref. lra. Qed.
  Lemma warm_filling T_in : warm T_in -> 0 < filling T_in.
  Proof.
    unfold warm, filling. intros H. pose proof cv_pos. apply (Rmult_lt_reg_r cv_he); [lra|]. rewrite Rmult_0_l.
    replace ((T_ref + cp_he / cv_he * (T_in - T_ref)) * cv_he) with (cv_he * T_ref + cp_he * (T_in - T_ref)) by (field; lra).
    unfold cv_he in *. lra.
  Qed.
  Lemma comp_hotter lo hi : between (V_comp r) lo hi a b -> 0 <= heat_lost_comp r -> never_hotter_comp r c a b lo hi.
  Proof.
    intros (H1 & H2) HQ t Ht.
    exact (space_hotter (V_comp r) (fun u => cd_T_c (c u)) _ _ a b lo hi (fun u Hu => proj1 (both_warm u (HP u Hu))) H1 H2
      (some_pos _) t HQ Ht).
  Qed.
  Lemma exp_hotter lo hi : between (V_exp r) lo hi a b -> 0 <= heat_lost_exp r -> never_hotter_exp r c a b lo hi.
  Proof.
    intros (H1 & H2) HQ t Ht.
    exact (space_hotter (V_exp r) (fun u => cd_T_e (c u)) _ _ a b lo hi (fun u Hu => proj2 (both_warm u (HP u Hu))) H1 H2
      (some_pos _) t HQ Ht).
  Qed.
  Lemma start_pos : 0 < cd_T_c (c a) /\ 0 < cd_T_e (c a).
  Proof. destruct (HP a ltac:(lra)) as (((H1 & H2 & _) & _) & _). auto. Qed.
  Lemma comp_colder lo hi : between (V_comp r) lo hi a b -> heat_lost_comp r <= 0 -> warm (te_chx (ru_temp r)) ->
    never_colder_comp r c a b lo hi.
  Proof.
    intros (H1 & H2) HQ HW t Ht.
    exact (space_colder (V_comp r) (fun u => cd_T_c (c u)) _ _ a b lo hi (fun u Hu => proj1 (both_warm u (HP u Hu))) H1 H2
      t HQ (proj1 start_pos) (warm_filling _ HW) Ht).
  Qed.
  Lemma exp_colder lo hi : between (V_exp r) lo hi a b -> heat_lost_exp r <= 0 -> warm (te_hhx (ru_temp r)) ->
    never_colder_exp r c a b lo hi.
  Proof.
    intros (H1 & H2) HQ HW t Ht.
    exact (space_colder (V_exp r) (fun u => cd_T_e (c u)) _ _ a b lo hi (fun u Hu => proj2 (both_warm u (HP u Hu))) H1 H2
      t HQ (proj2 start_pos) (warm_filling _ HW) Ht).
  Qed.
  (** ** The pressure *)
  Lemma mass_ratio t k : positive_temps r k -> gas_mass r t k * R_he = cd_P k * ratio r t k.
  Proof.
    intros (H1 & H2 & H3 & H4 & H5). unfold gas_mass, ratio, fixed_ratio, V_comp, V_exp. cbv zeta. rewrite Hf.
    cbn [IdealGas_Fluid fl_dens]. unfold ig_dens. rewrite he_R. unfold R_he. cbn [n_mul n_div R_ops]. field. repeat split; lra.
  Qed.
  Lemma pressure_ratio t : a <= t <= b -> cd_P (c t) * ratio r t (c t) = cd_P (c a) * ratio r a (c a).
  Proof.
    intros Ht. rewrite <- !mass_ratio by (apply HP; lra).
    rewrite (gas_mass_constant he he_pos r Hf D c a t HD ltac:(lra)); [reflexivity|]. intros u Hu. apply HP. lra.
  Qed.
End Engine.

(** ** Trajectories that last *)
Lemma pw_gt v : 0 < Rpower v (R_he / cv_he).
Proof. unfold Rpower. apply exp_pos. Qed.
Lemma coldest_start V0 T0 lo hi T_in : 0 < lo -> lo <= V0 <= hi -> 0 < T0 -> coldest V0 T0 lo hi T_in <= T0.
Proof.
  intros Hl HV HT. unfold coldest. apply (Rmult_le_reg_r (Rpower hi (R_he / cv_he))); [apply pw_gt|].
  unfold Rdiv at 1. rewrite Rmult_assoc, Rinv_l, Rmult_1_r by (apply Rgt_not_eq, pw_gt).
  apply Rle_trans with (1 := Rmin_l _ _). unfold adiabat. apply Rmult_le_compat_l; [lra|]. apply Rpower_mono; lra.
Qed.
Lemma hottest_start V0 T0 lo hi T_in : 0 < lo -> lo <= V0 <= hi -> 0 < T0 -> T0 <= hottest V0 T0 lo hi T_in.
Proof.
  intros Hl HV HT. unfold hottest. apply (Rmult_le_reg_r (Rpower lo (R_he / cv_he))); [apply pw_gt|].
  unfold Rdiv at 2. rewrite Rmult_assoc, Rinv_l, Rmult_1_r by (apply Rgt_not_eq, pw_gt).
  apply Rle_trans with (2 := Rmax_l _ _). unfold adiabat. apply Rmult_le_compat_l; [lra|]. apply Rpower_mono; lra.
Qed.
Lemma quotient_range V lo hi T t_lo t_hi : 0 < lo -> lo <= V <= hi -> 0 < t_lo -> t_lo <= T <= t_hi ->
  lo / t_hi <= V / T <= hi / t_lo.
Proof.
  intros H1 H2 H3 H4. unfold Rdiv. split; apply Rmult_le_compat; try lra;
    try (left; apply Rinv_0_lt_compat; lra); apply Rinv_le_contravar; lra.
Qed.
(** *** One trajectory from arbitrarily long ones *)
Lemma deriv_local f g x l d : 0 < d -> (forall y, Rabs (y - x) < d -> f y = g y) ->
  derivable_pt_lim f x l -> derivable_pt_lim g x l.
Proof.
  intros Hd E H eps He. destruct (H eps He) as [e Hl]. exists (mkposreal (Rmin e d) (Rmin_pos _ _ (cond_pos e) Hd)).
  cbn [pos]. intros h Hh Hs. rewrite <- !E.
  - apply Hl; [exact Hh|]. apply Rlt_le_trans with (1 := Hs), Rmin_l.
  - rewrite Rminus_diag_eq by reflexivity. rewrite Rabs_R0. exact Hd.
  - replace (x + h - x) with h by ring. apply Rlt_le_trans with (1 := Hs), Rmin_r.
Qed.
Lemma trajectory_local D r c c' t d : 0 < d -> (forall u, Rabs (u - t) < d -> c u = c' u) ->
  physical_trajectory D r c t -> physical_trajectory D r c' t.
Proof.
  intros Hd E ((HT & HV & hint & s & Hs & F1 & F2 & F3) & HP & HC).
  assert (Et : c t = c' t) by (apply E; rewrite Rminus_diag_eq by reflexivity; rewrite Rabs_R0; exact Hd).
  rewrite Et in *. split; [|split; assumption]. split; [exact HT|]. split; [exact HV|]. exists hint, s. split; [exact Hs|].
  split; [|split].
  - apply (deriv_local _ _ t _ d Hd) with (2 := F1). intros u Hu. rewrite (E u Hu). reflexivity.
  - apply (deriv_local _ _ t _ d Hd) with (2 := F2). intros u Hu. rewrite (E u Hu). reflexivity.
  - apply (deriv_local _ _ t _ d Hd) with (2 := F3). intros u Hu. rewrite (E u Hu). reflexivity.
Qed.
Lemma named_real (Q : R -> Prop) : (exists x, Q x /\ forall y, Q y -> y = x) -> {x | Q x}.
Proof.
  intros H. destruct (completeness Q) as [m Hm].
  - destruct H as (x & _ & Hx). exists x. intros y Hy. rewrite (Hx y Hy). apply Rle_refl.
  - destruct H as (x & Hx & _). eauto.
  - exists m. destruct H as (x & Hx & Hu). destruct Hm as (B & L).
    assert (m <= x) by (apply L; intros y Hy; rewrite (Hu y Hy); apply Rle_refl).
    pose proof (B x Hx). replace m with x by lra. exact Hx.
Qed.
Section Glue.
  Variables (name : GasName) (r : Run R) (D : Decomp R) (c0 : Conditions R).
  Hypothesis Hf : ru_fluid r = IdealGas_Fluid (IdealGas_new name).
  Hypothesis HD : sound D.
  Let good T c := c 0 = c0 /\ forall t, 0 <= t <= T -> physical_trajectory D r c t.
  Hypothesis H : forall T, 0 <= T -> exists c, good T c.
  Lemma same_value T T' c c' t : good T c -> good T' c' -> 0 <= t -> t <= T -> t <= T' -> c t = c' t.
  Proof.
    intros (E & A) (E' & A') H0 H1 H2.
    apply (trajectories_agree name r D D c c' 0 t 0 Hf HD HD); [lra| |rewrite E, E'; reflexivity|lra].
    intros u Hu. split; [apply A; lra|apply A'; lra].
  Qed.
  Lemma value_named (p : Conditions R -> R) t : {v | 0 <= t -> exists T c, t <= T /\ good T c /\ p (c t) = v}.
  Proof.
    destruct (Rle_lt_dec 0 t) as [Ht|Ht]; [|exists 0; lra].
    destruct (named_real (fun v => exists T c, t <= T /\ good T c /\ p (c t) = v)) as (v & Hv); [|eauto].
    destruct (H t Ht) as (c & Hc). exists (p (c t)). split; [exists t, c; split; [lra|split; [exact Hc|reflexivity]]|].
    intros y (T & c' & HT & Hc' & <-). rewrite (same_value T t c' c t Hc' Hc Ht HT (Rle_refl t)). reflexivity.
  Qed.
  Lemma glue : lasts_forever r D c0.
  Proof.
    destruct (H 1 ltac:(lra)) as (c1 & G1).
    set (v p t := proj1_sig (value_named p t)).
    set (c t := if Rle_dec t 0 then c1 t else mkCond (v cd_P t) (v cd_T_c t) (v cd_T_e t)).
    assert (EV : forall p t T k, 0 <= t -> t <= T -> good T k -> v p t = p (k t)).
    { intros p t T k Ht HT Hk. unfold v. destruct (value_named p t) as (x & Hx). cbn [proj1_sig].
      destruct (Hx Ht) as (T' & k' & HT' & Hk' & <-). rewrite (same_value T' T k' k t Hk' Hk Ht HT' HT). reflexivity. }
    assert (EC : forall t T k, 0 <= t -> t <= T -> good T k -> c t = k t).
    { intros t T k Ht HT Hk. unfold c. destruct (Rle_dec t 0) as [N|N].
      - replace t with 0 by lra. rewrite (proj1 G1), (proj1 Hk). reflexivity.
      - rewrite !(EV _ t T k Ht HT Hk). destruct (k t). reflexivity. }
    exists c. split.
    - rewrite (EC 0 1 c1 ltac:(lra) ltac:(lra) G1). apply G1.
    - intros t Ht. destruct (Rle_lt_dec t 0) as [N|N].
      + replace t with 0 by lra. apply (trajectory_local D r c1 c 0 1 ltac:(lra)); [|apply G1; lra].
        intros u Hu. rewrite Rminus_0_r in Hu. apply Rabs_def2 in Hu. destruct (Rle_lt_dec u 0) as [N'|N'].
        * unfold c. destruct (Rle_dec u 0); [reflexivity|lra].
        * symmetry. apply (EC u 1 c1); [lra|lra|exact G1].
      + destruct (H (t + t) ltac:(lra)) as (k & Hk).
        apply (trajectory_local D r k c t t N); [|apply Hk; lra].
        intros u Hu. apply Rabs_def2 in Hu. symmetry. apply (EC u (t + t) k); [lra|lra|exact Hk].
  Qed.
End Glue.

Section Forever.
  Variables (comps : Components R) (s : State R) (r : Run R) (D : Decomp R) (c0 : Conditions R) (cl ch el eh : R).
  Hypothesis Hfl : s_fluid s = IdealGas_Fluid he.
  Hypothesis Hd : driven (co_ws comps).
  Hypothesis Hr : Run_new comps s = Ret r.
  Hypothesis Hn : te_sink (s_temp s) + te_source (s_temp s) <> 500.
  Hypothesis HS : sound D.
  Hypothesis HC : complete D.
  Hypothesis VC : forall T, between (V_comp r) cl ch 0 T.
  Hypothesis VE : forall T, between (V_exp r) el eh 0 T.
  Hypothesis QC : heat_lost_comp r = 0.
  Hypothesis QE : heat_lost_exp r = 0.
  Hypothesis H0 : helium_conditions r 0 c0.
  Let tcl := T_c_lo r c0 cl ch.
  Let tch := T_c_hi r c0 cl ch.
  Let tel := T_e_lo r c0 el eh.
  Let teh := T_e_hi r c0 el eh.
  Hypothesis WC : warm tcl.
  Hypothesis WE : warm tel.
  Let rlo := cl / tch + fixed_ratio r + el / teh.
  Let rhi := ch / tcl + fixed_ratio r + eh / tel.
  Let K := cd_P c0 * ratio r 0 c0.
  Let lo := range_lo r c0 cl ch el eh.
  Let hi := range_hi r c0 cl ch el eh.
  Lemma warm_gt T : warm T -> 0 < T.
  Proof. unfold warm, R_he, T_ref, cp_he. lra. Qed.
  Lemma temps0 : tcl <= cd_T_c c0 <= tch /\ tel <= cd_T_e c0 <= teh.
  Proof.
    destruct H0 as (_ & W1 & W2 & _). apply warm_gt in W1, W2. destruct (VC 0) as (C1 & C2). destruct (VE 0) as (E1 & E2).
    specialize (C2 0 ltac:(lra)). specialize (E2 0 ltac:(lra)).
    split; split; first [apply coldest_start; assumption|apply hottest_start; assumption].
  Qed.
  Lemma fixed_nonneg : 0 <= fixed_ratio r.
  Proof.
    destruct H0 as (_ & _ & _ & W1 & W2 & W3 & _ & _ & N1 & N2 & N3). apply warm_gt in W1, W2. unfold fixed_ratio, Rdiv.
    repeat apply Rplus_le_le_0_compat; apply Rmult_le_pos; try assumption; left; apply Rinv_0_lt_compat; assumption.
  Qed.
  Lemma tcl_pos : 0 < tcl /\ 0 < tel.
  Proof. split; apply warm_gt; assumption. Qed.
  Lemma rlo_pos : 0 < rlo.
  Proof.
    destruct (VC 0) as (C1 & _). destruct (VE 0) as (E1 & _). pose proof temps0. pose proof tcl_pos. pose proof fixed_nonneg.
    assert (0 < cl / tch) by (apply Rdiv_lt_0_compat; lra). assert (0 < el / teh) by (apply Rdiv_lt_0_compat; lra).
    unfold rlo. lra.
  Qed.
  Lemma ratio_range t c : 0 <= t -> tcl <= cd_T_c c <= tch -> tel <= cd_T_e c <= teh -> rlo <= ratio r t c <= rhi.
  Proof.
    intros Ht H1 H2. destruct (VC t) as (C1 & C2). destruct (VE t) as (E1 & E2).
    specialize (C2 t ltac:(lra)). specialize (E2 t ltac:(lra)). pose proof tcl_pos as (P1 & P2).
    pose proof (quotient_range _ _ _ _ _ _ C1 C2 P1 H1). pose proof (quotient_range _ _ _ _ _ _ E1 E2 P2 H2).
    unfold rlo, rhi, ratio. lra.
  Qed.
  Lemma K_pos : 0 < K.
  Proof.
    destruct H0 as (P0 & _). destruct temps0 as (T1 & T2). pose proof (ratio_range 0 c0 (Rle_refl 0) T1 T2). pose proof rlo_pos.
    apply Rmult_lt_0_compat; lra.
  Qed.
  Lemma pressure_range t c : 0 <= t -> tcl <= cd_T_c c <= tch -> tel <= cd_T_e c <= teh ->
    cd_P c * ratio r t c = K -> K / rhi <= cd_P c <= K / rlo.
  Proof.
    intros Ht H1 H2 E. pose proof (ratio_range t c Ht H1 H2) as HR. pose proof rlo_pos. pose proof K_pos.
    replace (cd_P c) with (K / ratio r t c) by (rewrite <- E; field; lra). unfold Rdiv.
    split; apply Rmult_le_compat_l; try lra; apply Rinv_le_contravar; lra.
  Qed.
  Lemma run_fluid : ru_fluid r = IdealGas_Fluid he.
  Proof. rewrite <- Hfl. apply (driven_run comps s r Hd Hr). Qed.
  Lemma stays c T : 0 <= T -> c 0 = c0 -> (forall t, 0 <= t <= T -> physical_trajectory D r c t) ->
    forall t, 0 <= t <= T -> in_box lo hi (c t).
  Proof.
    intros HT E HP t Ht. pose proof run_fluid as Hf.
    destruct H0 as (_ & _ & _ & W1 & W2 & _).
    pose proof (comp_colder r Hf D HS c 0 T HT HP cl ch (VC T) ltac:(lra) W1 t Ht) as B1.
    pose proof (comp_hotter r Hf D HS c 0 T HP cl ch (VC T) ltac:(lra) t Ht) as B2.
    pose proof (exp_colder r Hf D HS c 0 T HT HP el eh (VE T) ltac:(lra) W2 t Ht) as B3.
    pose proof (exp_hotter r Hf D HS c 0 T HP el eh (VE T) ltac:(lra) t Ht) as B4.
    rewrite E in B1, B2, B3, B4. change (tcl <= cd_T_c (c t)) in B1. change (cd_T_c (c t) <= tch) in B2.
    change (tel <= cd_T_e (c t)) in B3. change (cd_T_e (c t) <= teh) in B4.
    unfold in_box, lo, hi, range_lo, range_hi. cbn [cd_P cd_T_c cd_T_e]. fold tcl tch tel teh.
    split; [|split; lra]. apply (pressure_range t); [lra|lra|lra|].
    rewrite (pressure_ratio r Hf D HS c 0 T HT HP t Ht), E. reflexivity.
  Qed.
  Lemma low_conditions t : 0 <= t -> helium_conditions r t lo.
  Proof.
    intros Ht. destruct H0 as (_ & _ & _ & W1 & W2 & W3 & _ & _ & N). unfold helium_conditions, lo, range_lo. cbn [cd_P cd_T_c cd_T_e]. fold tcl tel K rhi.
    destruct (VC t) as (C1 & C2). destruct (VE t) as (E1 & E2).
    specialize (C2 t ltac:(lra)). specialize (E2 t ltac:(lra)). unfold V_comp, V_exp in *.
    destruct temps0 as (T1 & T2). pose proof (ratio_range 0 c0 (Rle_refl 0) T1 T2). pose proof rlo_pos.
    split; [apply Rdiv_lt_0_compat; [exact K_pos|lra]|].
    split; [exact WC|]. split; [exact WE|]. split; [exact W1|]. split; [exact W2|]. split; [exact W3|].
    split; [lra|]. split; [lra|exact N].
  Qed.
  Lemma arbitrarily_long T : 0 <= T -> exists c, c 0 = c0 /\ forall t, 0 <= t <= T -> physical_trajectory D r c t.
  Proof.
    intros HT.
    assert (HB : in_box lo hi c0).
    { destruct temps0 as (T1 & T2). unfold in_box, lo, hi, range_lo, range_hi. cbn [cd_P cd_T_c cd_T_e].
      fold tcl tch tel teh. split; [|split; lra]. apply (pressure_range 0); [lra|lra|lra|reflexivity]. }
    destruct (helium_lasts comps s r D lo hi c0 T Hfl Hd Hr Hn HS HC HT (fun t Ht => low_conditions t (proj1 Ht)) HB)
      as (t1 & c & Ht1 & E & HP & [->|N]).
    - exists c. split; [exact E|exact HP].
    - exfalso. apply N. apply (stays c t1); [lra|exact E|exact HP|lra].
  Qed.
  Lemma forever : lasts_forever r D c0.
  Proof. exact (glue Helium r D c0 run_fluid HS arbitrarily_long). Qed.
End Forever.
(** ** An engine that runs forever *)
Definition gl_drive : SinusoidalDrive R :=
  mkSin 60 90 (mkSinGeo 0.0001 0.0001) (mkSinGeo 0.0001 0.0001) (mkTR 1 1) (mkPar (mkPP 0 10 0) (mkPP 0 10 0)).
Definition gl_comps : Components R :=
  mkComponents (SinusoidalDrive_ws gl_drive) (co_chx case_comps) (co_regen case_comps) (co_hhx case_comps).
Definition gl_run : Run R :=
  mkRun case_norm (IdealGas_Fluid he) (1 / 60) (s_pres case_state) case_temps 0.00004 0.0001 0.0001
    (sd_parasitics gl_drive) (sin_volumes gl_drive).
Lemma gl_new : Run_new gl_comps case_state = Ret gl_run.
Proof. reflexivity. Qed.
Lemma gl_driven : driven (co_ws gl_comps).
Proof. left. exists gl_drive. split; [reflexivity|]. cbn. lra. Qed.
Lemma gl_volumes T : between (V_comp gl_run) 0.0001 0.0002 0 T /\ between (V_exp gl_run) 0.0001 0.0002 0 T.
Proof.
  split; (split; [lra|]); intros t _; destruct (sin_bounds gl_drive t) as [H1 H2]; cbn in *; try lra;
    unfold V_comp, V_exp; change (ru_ws_vol_fn gl_run t) with (sin_volumes gl_drive t); lra.
Qed.
Lemma half_power : / 2 <= Rpower (/ 2) (R_he / cv_he).
Proof.
  assert (E : / 2 = Rpower (/ 2) 1) by (rewrite Rpower_1; lra). rewrite E at 1. unfold Rpower.
  assert (L : ln (/ 2) <= 0). { rewrite <- ln_1. left. apply ln_increasing; lra. }
  assert (K : R_he / cv_he <= 1).
  { apply (Rmult_le_reg_r cv_he); [exact cv_pos|]. unfold Rdiv. rewrite Rmult_assoc, Rinv_l by (pose proof cv_pos; lra).
    unfold cv_he, cp_he, R_he. lra. }
  assert (M : 1 * ln (/ 2) <= R_he / cv_he * ln (/ 2)).
  { assert (0 <= (1 - R_he / cv_he) * - ln (/ 2)) by (apply Rmult_le_pos; lra). lra. }
  destruct M as [M|M]; [left; apply exp_increasing, M|right; f_equal; exact M].
Qed.
Lemma gl_cold V0 T0 T_in : 0.0001 <= V0 -> 250 <= T0 -> 250 <= T_in -> warm (coldest V0 T0 0.0001 0.0002 T_in).
Proof.
  intros HV HT HI. unfold coldest.
  assert (B : 250 * Rpower 0.0001 (R_he / cv_he) <= Rmin (adiabat V0 T0) (adiabat 0.0001 (Rmin T_ref (filling T_in)))).
  { apply Rmin_glb.
    - unfold adiabat. apply Rmult_le_compat; [lra|left; apply pw_gt|exact HT|]. apply Rpower_mono; lra.
    - unfold adiabat. apply Rmult_le_compat_r; [left; apply pw_gt|]. apply Rmin_glb; [unfold T_ref; lra|].
      unfold filling, T_ref. pose proof cv_pos.
      assert (0 <= cp_he / cv_he * (T_in - 250)).
      { apply Rmult_le_pos; [|lra]. left. apply Rdiv_lt_0_compat; [unfold cp_he; lra|exact cv_pos]. }
      lra. }
  assert (Q : Rpower 0.0001 (R_he / cv_he) = Rpower (/ 2) (R_he / cv_he) * Rpower 0.0002 (R_he / cv_he)).
  { rewrite Rpower_mult_distr by lra. f_equal. lra. }
  pose proof half_power as HP. pose proof (pw_gt 0.0002) as HG.
  assert (X : 125 <= Rmin (adiabat V0 T0) (adiabat 0.0001 (Rmin T_ref (filling T_in))) / Rpower 0.0002 (R_he / cv_he)).
  { revert B. set (m := Rmin _ _). intros B. apply (Rmult_le_reg_r (Rpower 0.0002 (R_he / cv_he))); [exact HG|].
    replace (m / Rpower 0.0002 (R_he / cv_he) * Rpower 0.0002 (R_he / cv_he)) with m
      by (unfold Rdiv at 1; rewrite Rmult_assoc, Rinv_l by lra; ring).
    apply Rle_trans with (2 := B). rewrite Q.
    assert (0 <= (Rpower (/ 2) (R_he / cv_he) - / 2) * Rpower 0.0002 (R_he / cv_he)) by (apply Rmult_le_pos; lra). lra. }
  unfold warm, R_he, T_ref, cp_he in *. lra.
Qed.
Lemma gl_start : helium_conditions gl_run 0 case_conditions.
Proof.
  destruct (gl_volumes 0) as [(_ & H1) (_ & H2)]. specialize (H1 0 ltac:(lra)). specialize (H2 0 ltac:(lra)).
  unfold V_comp, V_exp in *. unfold helium_conditions, warm, R_he, T_ref, cp_he.
  cbn -[sin_volumes] in *. repeat split; lra.
Qed.
Lemma gl_warm : warm (T_c_lo gl_run case_conditions 0.0001 0.0002) /\ warm (T_e_lo gl_run case_conditions 0.0001 0.0002).
Proof.
  destruct (gl_volumes 0) as [(_ & H1) (_ & H2)]. specialize (H1 0 ltac:(lra)). specialize (H2 0 ltac:(lra)).
  split; apply gl_cold; try (cbn; lra); [exact (proj1 H1)|exact (proj1 H2)].
Qed.
Lemma gl_forever : lasts_forever gl_run gauss case_conditions.
Proof.
  apply (forever gl_comps case_state gl_run gauss case_conditions 0.0001 0.0002 0.0001 0.0002); try reflexivity.
  - exact gl_driven.
  - cbn. lra.
  - exact gauss_sound.
  - exact gauss_complete.
  - intros T. apply gl_volumes.
  - intros T. apply gl_volumes.
  - exact gl_start.
  - apply gl_warm.
  - apply gl_warm.
Qed.
Lemma gl_exchangers : warm (te_chx (ru_temp gl_run)) /\ warm (te_hhx (ru_temp gl_run)).
Proof. unfold warm, R_he, T_ref, cp_he. cbn. lra. Qed.
