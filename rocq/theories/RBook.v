(** * Heat, work and entropy of a helium engine over a cycle *)
From Coq Require Import ZArith NArith List Reals Lra Lia.
From Verif Require Import Num ModelTypes ModelWs ModelHx ModelStateEq ModelEngine RNum Spec SpecR SpecGas SpecKin
  SpecTraj SpecLaws SpecUnique SpecSpaces SpecBounds SpecRegen SpecCarnot Fixture PolySolve RSolve RGauss RFluid RKin RMass RSpaces
  RPairs RPicard RLocal RExist RBounds RLaws RSettle RRegen RCarnot.
Import ListNotations.
Local Open Scope R_scope.

Section Book.
  Variable r : Run R.
  Hypothesis Hf : ru_fluid r = IdealGas_Fluid he.
  Variable D : Decomp R.
  Hypothesis HD : sound D.
  Variable c : R -> Conditions R.
  Variable k : Book.

  Lemma phys_norm t : physical_trajectory D r c t -> ru_enth_norm r <> 0.
  Proof. intros (_ & (Hn & _) & _). unfold Run_calculate_inputs in Hn. destruct (ru_ws_vol_fn r t). exact Hn. Qed.

  Lemma cycle_heats a b Q : a <= b -> (forall t, a <= t <= b -> physical_trajectory D r c t /\ books D r c k t) ->
    spaces_return r c a b -> cd_P (c b) = cd_P (c a) ->
    total (bk_taken k) a b = total (bk_work_e k) a b + heat_lost_exp r * (b - a) + / 2 * step_hot r Q * total (bk_gas_rl k) a b /\
    total (bk_given k) a b = - total (bk_work_c k) a b - heat_lost_comp r * (b - a) + / 2 * step_cold r Q * total (bk_gas_kr k) a b /\
    total (bk_kept k) a b = / 2 * step_hot r Q * total (bk_gas_rl k) a b - / 2 * step_cold r Q * total (bk_gas_kr k) a b.
  Proof.
    intros Hab H HS HP.
    set (hk := fl_enth (ru_fluid r) (te_chx (ru_temp r)) Q). set (hc := fl_enth (ru_fluid r) (rt_cold (te_regen (ru_temp r))) Q).
    set (hh := fl_enth (ru_fluid r) (rt_hot (te_regen (ru_temp r))) Q). set (hl := fl_enth (ru_fluid r) (te_hhx (ru_temp r)) Q).
    set (Mc := fun u => stored_mass r (v_value (fst (ru_ws_vol_fn r u))) (cd_T_c (c u)) (cd_P (c u))).
    set (Mk := fun u => stored_mass r (ru_vol_chx r) (te_chx (ru_temp r)) (cd_P (c u))).
    set (Ml := fun u => stored_mass r (ru_vol_hhx r) (te_hhx (ru_temp r)) (cd_P (c u))).
    set (Me := fun u => stored_mass r (v_value (snd (ru_ws_vol_fn r u))) (cd_T_e (c u)) (cd_P (c u))).
    set (Ec := fun u => stored_energy r (v_value (fst (ru_ws_vol_fn r u))) (cd_T_c (c u)) (cd_P (c u))).
    set (Ek := fun u => stored_energy r (ru_vol_chx r) (te_chx (ru_temp r)) (cd_P (c u))).
    set (El := fun u => stored_energy r (ru_vol_hhx r) (te_hhx (ru_temp r)) (cd_P (c u))).
    set (Ee := fun u => stored_energy r (v_value (snd (ru_ws_vol_fn r u))) (cd_T_e (c u)) (cd_P (c u))).
    set (Fl := fun u => bk_taken k u - bk_work_e k u - heat_lost_exp r * u - El u - Ee u + / 2 * (hh + hl) * (Ml u + Me u)
                        + / 2 * (hh - hl) * bk_gas_rl k u).
    set (Fk := fun u => bk_given k u + bk_work_c k u + heat_lost_comp r * u + Ek u + Ec u - / 2 * (hk + hc) * (Mc u + Mk u)
                        + / 2 * (hk - hc) * bk_gas_kr k u).
    assert (E : Fl b = Fl a /\ Fk b = Fk a).
    { split; (apply same_ends; [exact Hab|]); intros t Ht;
      destruct (H t Ht) as (Hp & hint & s & Hs & HF & G1 & G2 & G3 & G4 & G5 & G6 & G7 & _);
      pose proof (phys_norm t Hp) as Hn; destruct Hp as ((HT & HV & _) & _);
      destruct (masses he he_pos r Hf D c t hint s HD Hs HF HT HV) as (M1 & M2 & M3 & M4 & M5);
      destruct (exchangers he he_pos r Hf D c t hint s HD Hs HF HT Hn) as (E1 & E2 & E3);
      destruct (spaces he he_pos r Hf D c t hint s HD Hs HF HT Hn (fun T P => he_du_deriv T P) HV) as (X1 & X5);
      unfold has_deriv in *.
      - unfold Fl. eapply deriv_eq.
        + apply deriv_plus; [apply deriv_plus; [apply deriv_minus; [apply deriv_minus; [apply deriv_minus; [apply deriv_minus; [exact G1|exact G7]|]|exact E3]|exact X5]|]|].
          * apply deriv_mult; [apply deriv_const|apply deriv_id].
          * apply deriv_mult; [apply deriv_const|]. apply deriv_plus; [exact M4|exact M5].
          * apply deriv_mult; [apply deriv_const|exact G5].
        + cbv beta. unfold stream_rl, heat_lost_exp. rewrite !carried_abs.
          rewrite (enth_at Helium r Hf (rt_hot (te_regen (ru_temp r))) (cd_P (c t)) Q), (enth_at Helium r Hf (te_hhx (ru_temp r)) (cd_P (c t)) Q).
          fold hh hl. ring.
      - unfold Fk. eapply deriv_eq.
        + apply deriv_plus; [apply deriv_minus; [apply deriv_plus; [apply deriv_plus; [apply deriv_plus; [apply deriv_plus; [exact G2|exact G6]|]|exact E1]|exact X1]|]|].
          * apply deriv_mult; [apply deriv_const|apply deriv_id].
          * apply deriv_mult; [apply deriv_const|]. apply deriv_plus; [exact M1|exact M2].
          * apply deriv_mult; [apply deriv_const|exact G4].
        + cbv beta. unfold stream_kr, heat_lost_comp. rewrite !carried_abs.
          rewrite (enth_at Helium r Hf (te_chx (ru_temp r)) (cd_P (c t)) Q), (enth_at Helium r Hf (rt_cold (te_regen (ru_temp r))) (cd_P (c t)) Q).
          fold hk hc. ring. }
    pose proof (regen_balance Helium r Hf D HD c a b (bk_kept k) (bk_gas_kr k) (bk_gas_rl k) Q) as RB.
    specialize (RB (phys_norm a (proj1 (H a ltac:(lra)))) Hab).
    assert (HR : 2 * (bk_kept k b - bk_kept k a) = step_hot r Q * (bk_gas_rl k b - bk_gas_rl k a) - step_cold r Q * (bk_gas_kr k b - bk_gas_kr k a)).
    { apply RB; [|exact HS|exact HP]. intros t Ht. destruct (H t Ht) as (((HT & HV & _) & _) & hint & s & Hs & HF & _ & _ & G3 & G4 & G5 & _).
      split; [exact HT|]. split; [exact HV|]. exists hint, s. repeat split; try assumption; apply HF. }
    destruct E as (E1 & E2). destruct HS as (R1 & R2 & R3 & R4).
    unfold Fl, Fk, El, Ee, Ek, Ec, Mc, Mk, Ml, Me in E1, E2. rewrite HP, R2, R4 in E1. rewrite HP, R1, R3 in E2.
    unfold total, step_hot, step_cold in *. fold hk hc hh hl in HR |- *. lra.
  Qed.

  (** ** Entropy *)
  Lemma gas_mass_law V T P : 0 < T -> 0 < P -> stored_mass r V T P * R_he * T = P * V.
  Proof. intros H H0. rewrite (mass_eq r Hf). rewrite (gas_law V T P H). ring. Qed.
  Lemma made_in m T Tin : 0 < T -> 0 < Tin ->
    Rmax m 0 * made T Tin + Rmax (- m) 0 * made Tin T =
    cp_he * (Rmax m 0 * (T / Tin - 1 - (ln T - ln Tin)) + Rmax (- m) 0 * (Tin / T - 1 - (ln Tin - ln T))).
  Proof.
    assert (L : forall x y, 0 < x -> 0 < y -> ln (x / y) = ln x - ln y).
    { intros x y Hx Hy. unfold Rdiv. rewrite ln_mult, ln_Rinv by (try apply Rinv_0_lt_compat; assumption). ring. }
    intros H H0. unfold made. rewrite !L by assumption. ring.
  Qed.
  (** one working space: [F] flows out, to an exchanger at [Tin] *)
  Lemma space_entropy F T Tin P dP dT dV dU m : 0 < T -> 0 < Tin -> 0 < P -> 0 < m ->
    dU = - (Rmax F 0 * (cp_he * (T - T_ref)) + Rmin F 0 * (cp_he * (Tin - T_ref))) - P * dV ->
    dU = - F * (cv_he * (T - T_ref)) + m * (cv_he * dT) ->
    P * dV = m * R_he * dT - F * R_he * T - m * R_he * T * (dP / P) ->
    P * dV / Tin + (Rmax F 0 * made T Tin + Rmax (- F) 0 * made Tin T) - R_he * T_ref * (- F / T)
      + dU / Tin + F * (cp_he * (1 - T_ref / Tin - ln Tin)) - (- F * (cp_he * ln T) + m * (cp_he * (dT / T))) + R_he * m * (dP / P) = 0.
  Proof.
    intros H1 H2 H3 H4 A B C. rewrite made_in by assumption. rewrite A at 1.
    assert (X : m * cp_he * dT = m * R_he * T * (dP / P) + F * R_he * T - F * cv_he * (T_ref - T)
              - (Rmax F 0 * (cp_he * (T - T_ref)) + Rmin F 0 * (cp_he * (Tin - T_ref)))).
    { unfold cv_he in *. lra. }
    replace (m * (cp_he * (dT / T))) with (m * cp_he * dT / T) by (field; lra). rewrite X. unfold cv_he.
    destruct (Rle_lt_dec 0 F) as [L|L].
    - rewrite (Rmax_left F 0), (Rmax_right (- F) 0), (Rmin_right F 0) by lra. field. lra.
    - rewrite (Rmax_right F 0), (Rmax_left (- F) 0), (Rmin_left F 0) by lra. field. lra.
  Qed.
  Lemma mass_rate (V T P : R -> R) t dV dT dP dM : 0 < T t -> 0 < P t ->
    derivable_pt_lim V t dV -> derivable_pt_lim T t dT -> derivable_pt_lim P t dP ->
    derivable_pt_lim (fun u => stored_mass r (V u) (T u) (P u)) t dM ->
    P t * dV = stored_mass r (V t) (T t) (P t) * R_he * dT + dM * R_he * T t - stored_mass r (V t) (T t) (P t) * R_he * T t * (dP / P t).
  Proof.
    intros HT HP H1 H2 H3 H4. assert (RH : R_he <> 0) by (unfold R_he; lra).
    assert (ME : forall v x y, stored_mass r v x y = v * (y / (R_he * x))).
    { intros v x y. rewrite (mass_eq r Hf). unfold ig_dens. rewrite he_R. reflexivity. }
    assert (X : derivable_pt_lim (fun u => stored_mass r (V u) (T u) (P u)) t
      (dV * (P t / (R_he * T t)) + V t * ((dP * (R_he * T t) - P t * (R_he * dT)) / Rsqr (R_he * T t)))).
    { apply (deriv_ext (fun u => V u * (P u / (R_he * T u)))); [intros u; symmetry; apply ME|].
      eapply deriv_eq.
      - apply deriv_mult; [exact H1|]. apply deriv_div; [exact H3| |].
        + apply deriv_mult; [apply deriv_const|exact H2].
        + apply Rmult_integral_contrapositive_currified; lra.
      - cbv beta. unfold Rsqr. field. split; lra. }
    rewrite (uniqueness_limite _ _ _ _ H4 X), ME. unfold Rsqr. field. repeat split; lra.
  Qed.
  Lemma fixed_mass V T P : stored_mass r V T P = V / (R_he * T) * P.
  Proof. rewrite (mass_eq r Hf). unfold ig_dens. rewrite he_R. cbn [n_mul n_div R_ops]. unfold R_he, Rdiv. ring. Qed.

  Lemma cycle_entropy a b : a <= b -> (forall t, a <= t <= b -> physical_trajectory D r c t /\ books D r c k t) ->
    spaces_return r c a b -> cd_P (c b) = cd_P (c a) -> heat_lost_comp r = 0 -> heat_lost_exp r = 0 ->
    total (bk_work_c k) a b / te_chx (ru_temp r) + total (bk_work_e k) a b / te_hhx (ru_temp r) + total (bk_mixing k) a b
    = total (bk_excess k) a b.
  Proof.
    intros Hab H HS HP QC QE.
    set (Tk := te_chx (ru_temp r)). set (Tl := te_hhx (ru_temp r)).
    set (Mc := fun u => stored_mass r (v_value (fst (ru_ws_vol_fn r u))) (cd_T_c (c u)) (cd_P (c u))).
    set (Me := fun u => stored_mass r (v_value (snd (ru_ws_vol_fn r u))) (cd_T_e (c u)) (cd_P (c u))).
    set (Mf := fun u => stored_mass r (ru_vol_chx r) Tk (cd_P (c u))
      + stored_mass r (ru_vol_regen r) (rt_avg (te_regen (ru_temp r))) (cd_P (c u)) + stored_mass r (ru_vol_hhx r) Tl (cd_P (c u))).
    set (Ec := fun u => stored_energy r (v_value (fst (ru_ws_vol_fn r u))) (cd_T_c (c u)) (cd_P (c u))).
    set (Ee := fun u => stored_energy r (v_value (snd (ru_ws_vol_fn r u))) (cd_T_e (c u)) (cd_P (c u))).
    set (kk := cp_he * (1 - T_ref / Tk - ln Tk)). set (kl := cp_he * (1 - T_ref / Tl - ln Tl)).
    set (K := Mc a + Me a + Mf a).
    set (Z := fun u => bk_work_c k u / Tk + bk_work_e k u / Tl + bk_mixing k u - bk_excess k u
      + (Ec u / Tk - Mc u * kk - Mc u * (cp_he * ln (cd_T_c (c u)))) + (Ee u / Tl - Me u * kl - Me u * (cp_he * ln (cd_T_e (c u))))
      + R_he * K * ln (cd_P (c u)) - R_he * Mf u).
    assert (HK : forall t, a <= t <= b -> Mc t + Me t + Mf t = K).
    { intros t Ht. unfold K. apply (same_ends (fun u => Mc u + Me u + Mf u) a t); [lra|]. intros u Hu.
      destruct (H u ltac:(lra)) as (((HT & HV & _) & _) & hint & s & Hs & HF & _).
      destruct (masses he he_pos r Hf D c u hint s HD Hs HF HT HV) as (M1 & M2 & M3 & M4 & M5). unfold has_deriv in *.
      unfold Mc, Me, Mf, Tk, Tl. eapply deriv_eq.
      - apply deriv_plus; [apply deriv_plus; [exact M1|exact M5]|apply deriv_plus; [apply deriv_plus; [exact M2|exact M3]|exact M4]].
      - ring. }
    assert (E : Z b = Z a).
    { apply same_ends; [exact Hab|]. intros t Ht. specialize (HK t Ht).
      destruct (H t Ht) as (Hp & hint & s & Hs & HF & _ & _ & _ & _ & _ & G6 & G7 & G8 & G9).
      pose proof (phys_norm t Hp) as Hn. pose proof (pressure_pos D r c t Hf Hp) as PP.
      destruct Hp as ((HT & HV & _) & Hph & _).
      destruct (masses he he_pos r Hf D c t hint s HD Hs HF HT HV) as (M1 & M2 & M3 & M4 & M5).
      destruct (spaces he he_pos r Hf D c t hint s HD Hs HF HT Hn (fun T P => he_du_deriv T P) HV) as (X1 & X5).
      destruct HF as (F0 & F1 & F2). destruct HV as (V1 & V2). destruct HT as (TC & TE & TK & TL & TR).
      unfold has_deriv in *. fold Tk in TK. fold Tl in TL.
      assert (PM : 0 < Mc t /\ 0 < Me t).
      { destruct Hph as (_ & (VC & RC & _) & (VE & RE & _) & _). unfold Run_calculate_inputs, comp_inputs, exp_inputs in VC, RC, VE, RE.
        unfold Mc, Me, stored_mass. destruct (ru_ws_vol_fn r t) as [vc ve]. cbn [fst snd in_comp in_exp wi_vol wi_dens] in *.
        split; apply Rmult_lt_0_compat; assumption. }
      assert (DF : so_m_dot_ck s - so_m_dot_le s = Mf t * (so_dP_dt s / cd_P (c t))).
      { assert (Y : derivable_pt_lim Mf t (so_m_dot_ck s - so_m_dot_le s)).
        { unfold Mf, Tk, Tl. eapply deriv_eq; [apply deriv_plus; [apply deriv_plus; [exact M2|exact M3]|exact M4]|]. ring. }
        assert (Y' : derivable_pt_lim Mf t ((ru_vol_chx r / (R_he * Tk) + ru_vol_regen r / (R_he * rt_avg (te_regen (ru_temp r))) + ru_vol_hhx r / (R_he * Tl)) * so_dP_dt s)).
        { apply (deriv_ext (fun u => (ru_vol_chx r / (R_he * Tk) + ru_vol_regen r / (R_he * rt_avg (te_regen (ru_temp r))) + ru_vol_hhx r / (R_he * Tl)) * cd_P (c u))).
          - intros u. unfold Mf. rewrite !fixed_mass. ring.
          - eapply deriv_eq; [apply deriv_mult; [apply deriv_const|exact F0]|]. cbv beta. ring. }
        rewrite (uniqueness_limite _ _ _ _ Y Y'). unfold Mf. rewrite !fixed_mass. field.
        assert (R_he <> 0) by (unfold R_he; lra). repeat split; lra. }
      pose proof (heat_of _ _ _ t _ _ _ (fun u => energy_eq r Hf _ _ _) M1 X1 F1) as H1. cbv beta in H1.
      pose proof (heat_of _ _ _ t _ _ _ (fun u => energy_eq r Hf _ _ _) M5 X5 F2) as H5. cbv beta in H5.
      pose proof (mass_rate _ _ _ t _ _ _ _ TC PP V1 F1 F0 M1) as W1. pose proof (mass_rate _ _ _ t _ _ _ _ TE PP V2 F2 F0 M5) as W5.
      cbv beta in W1, W5. fold (Mc t) in W1, H1. fold (Me t) in W5, H5. fold (heat_lost_comp r) in X1, H1. fold (heat_lost_exp r) in X5, H5.
      rewrite QC in X1, H1. rewrite QE in X5, H5.
      unfold stream_ck, stream_le, carried in X1, X5, H1, H5. rewrite Hf in X1, X5, H1, H5. cbn [IdealGas_Fluid fl_enth] in X1, X5, H1, H5.
      rewrite !he_h in X1, X5, H1, H5. fold Tk in X1, H1. fold Tl in X5, H5.
      assert (Fl : Rmax (so_m_dot_le s) 0 * (cp_he * (Tl - T_ref)) + Rmin (so_m_dot_le s) 0 * (cp_he * (cd_T_e (c t) - T_ref)) =
        - (Rmax (- so_m_dot_le s) 0 * (cp_he * (cd_T_e (c t) - T_ref)) + Rmin (- so_m_dot_le s) 0 * (cp_he * (Tl - T_ref)))).
      { rewrite Rmax_opp. replace (Rmin (- so_m_dot_le s) 0) with (- Rmax (so_m_dot_le s) 0); [ring|].
        destruct (Rle_lt_dec 0 (so_m_dot_le s)); [rewrite Rmax_left, Rmin_left by lra|rewrite Rmax_right, Rmin_right by lra]; lra. }
      rewrite Fl in X5, H5.
      pose proof (space_entropy (so_m_dot_ck s) (cd_T_c (c t)) Tk (cd_P (c t)) (so_dP_dt s) (so_dTc_dt s) (v_deriv (fst (ru_ws_vol_fn r t))) _ (Mc t) TC TK PP (proj1 PM)
        eq_refl ltac:(lra) ltac:(lra)) as S1.
      pose proof (space_entropy (- so_m_dot_le s) (cd_T_e (c t)) Tl (cd_P (c t)) (so_dP_dt s) (so_dTe_dt s) (v_deriv (snd (ru_ws_vol_fn r t))) _ (Me t) TE TL PP (proj2 PM)
        eq_refl ltac:(lra) ltac:(lra)) as S5.
      assert (LN : forall (f : R -> R) l, 0 < f t -> derivable_pt_lim f t l -> derivable_pt_lim (fun u => ln (f u)) t (l / f t)).
      { intros f l P1 P2. eapply deriv_eq; [apply (deriv_comp f ln t l (/ f t)); [exact P2|apply derivable_pt_lim_ln, P1]|]. unfold Rdiv. ring. }
      assert (SC : forall (f : R -> R) l x, derivable_pt_lim f t l -> derivable_pt_lim (fun u => f u / x) t (l / x)).
      { intros f l x Hx. apply (deriv_ext (fun u => / x * f u)); [intros u; unfold Rdiv; ring|].
        eapply deriv_eq; [apply deriv_mult; [apply deriv_const|exact Hx]|]. cbv beta. unfold Rdiv. ring. }
      unfold Z. eapply deriv_eq.
      - apply deriv_minus; [apply deriv_plus; [apply deriv_plus; [apply deriv_plus; [apply deriv_minus; [apply deriv_plus; [apply deriv_plus|]|]|]|]|]|].
        + apply SC, G6.
        + apply SC, G7.
        + exact G8.
        + exact G9.
        + apply deriv_minus; [apply deriv_minus|].
          * apply SC, X1.
          * apply deriv_mult; [exact M1|apply deriv_const].
          * apply deriv_mult; [exact M1|]. apply deriv_mult; [apply deriv_const|apply LN; [exact TC|exact F1]].
        + apply deriv_minus; [apply deriv_minus|].
          * apply SC, X5.
          * apply deriv_mult; [exact M5|apply deriv_const].
          * apply deriv_mult; [exact M5|]. apply deriv_mult; [apply deriv_const|apply LN; [exact TE|exact F2]].
        + apply deriv_mult; [apply deriv_const|apply LN; [exact PP|exact F0]].
        + apply deriv_mult; [apply deriv_const|]. apply deriv_plus; [apply deriv_plus; [exact M2|exact M3]|exact M4].
      - cbv beta. unfold made_by. fold (Mc t) (Me t) Tk Tl. fold kk in S1. fold kl in S5. clearbody kk kl.
        rewrite Ropp_involutive in S5. rewrite <- HK. clear - S1 S5 DF. unfold Rdiv in *.
        assert (DF' : R_he * (so_m_dot_ck s - so_m_dot_le s) = R_he * (Mf t * (so_dP_dt s * / cd_P (c t)))) by (rewrite DF; reflexivity).
        lra. }
    destruct HS as (R1 & R2 & R3 & R4).
    unfold Z, Ec, Ee, Mf, Mc, Me in E. rewrite HP, R1, R2, R3, R4 in E. unfold total. unfold Rdiv in *. lra.
  Qed.
End Book.

Lemma made_nonneg x y : 0 < x -> 0 < y -> 0 <= made x y.
Proof.
  intros Hx Hy. unfold made. assert (Z : 0 < x / y) by (apply Rdiv_lt_0_compat; assumption).
  apply Rmult_le_pos; [unfold cp_he; lra|]. pose proof (exp_ineq1_le (ln (x / y))) as E. rewrite exp_ln in E by exact Z. lra.
Qed.

Section Exist.
  Variable r : Run R.
  Hypothesis Hf : ru_fluid r = IdealGas_Fluid he.
  Variable D : Decomp R.
  Hypothesis HD : sound D.
  Variable c : R -> Conditions R.
  Let made_at t := made_by (so_m_dot_ck (sol_at r c t)) (cd_T_c (c t)) (te_chx (ru_temp r))
    + made_by (so_m_dot_le (sol_at r c t)) (te_hhx (ru_temp r)) (cd_T_e (c t)).
  Lemma mixing_grows k a b : a <= b -> (forall t, a <= t <= b -> physical_trajectory D r c t /\ books D r c k t) ->
    0 <= total (bk_mixing k) a b.
  Proof.
    intros Hab H. unfold total. pose proof (le_from_derivs (fun _ => 0) (fun _ => 0) (bk_mixing k) made_at a b Hab) as L.
    assert (0 - 0 <= bk_mixing k b - bk_mixing k a); [|lra]. apply L.
    - intros t _. apply deriv_const.
    - intros t Ht. destruct (H t Ht) as ((_ & Hp & _) & hint & s & Hs & _ & _ & _ & _ & _ & _ & _ & _ & G8 & _).
      rewrite (sol_is r D HD c t hint s Hp Hs) in G8. exact G8.
    - intros t Ht. destruct (H t Ht) as ((((TC & TE & TK & TL & _) & _) & _) & _). unfold made_at, made_by.
      repeat apply Rplus_le_le_0_compat; apply Rmult_le_pos; try apply Rmax_r; apply made_nonneg; assumption.
  Qed.
  Lemma second_law k a b : a <= b -> (forall t, a <= t <= b -> physical_trajectory D r c t /\ books D r c k t) ->
    spaces_return r c a b -> cd_P (c b) = cd_P (c a) -> heat_lost_comp r = 0 -> heat_lost_exp r = 0 ->
    total (bk_work_c k) a b / te_chx (ru_temp r) + total (bk_work_e k) a b / te_hhx (ru_temp r) <= total (bk_excess k) a b.
  Proof.
    intros Hab H HS HP QC QE. pose proof (mixing_grows k a b Hab H).
    pose proof (cycle_entropy r Hf D HD c k a b Hab H HS HP QC QE). lra.
  Qed.

  Lemma cont_max f t : continuity_pt f t -> continuity_pt (fun u => Rmax (f u) 0) t.
  Proof.
    intros H. assert (E : forall x, Rmax x 0 = / 2 * (x + Rabs x)).
    { intros x. destruct (Rle_lt_dec 0 x); [rewrite Rmax_left, Rabs_pos_eq by lra|rewrite Rmax_right, Rabs_left by lra]; lra. }
    apply (continuity_pt_locally_ext (fun u => / 2 * (f u + Rabs (f u))) _ 1); [lra|intros u _; symmetry; apply E|].
    apply continuity_pt_mult; [apply continuity_pt_const; intros x y; reflexivity|]. apply continuity_pt_plus; [exact H|].
    exact (continuity_pt_comp f Rabs t H (Rcontinuity_abs _)).
  Qed.
  Lemma cont_const (x t : R) : continuity_pt (fun _ => x) t.
  Proof. apply continuity_pt_const. intros u v. reflexivity. Qed.
  Lemma cont_made f g t : continuity_pt f t -> continuity_pt g t -> 0 < f t -> 0 < g t -> continuity_pt (fun u => made (f u) (g u)) t.
  Proof.
    intros Cf Cg Pf Pg. assert (Q : continuity_pt (fun u => f u / g u) t) by (apply continuity_pt_div; [assumption..|lra]).
    unfold made. apply continuity_pt_mult; [apply cont_const|]. apply continuity_pt_minus.
    - apply continuity_pt_minus; [exact Q|apply cont_const].
    - apply (continuity_pt_comp (fun u => f u / g u) ln t Q). apply derivable_continuous_pt.
      exists (/ (f t / g t)). apply derivable_pt_lim_ln. apply Rdiv_lt_0_compat; assumption.
  Qed.
  Lemma cont_made_by m f g t : continuity_pt m t -> continuity_pt f t -> continuity_pt g t -> 0 < f t -> 0 < g t ->
    continuity_pt (fun u => made_by (m u) (f u) (g u)) t.
  Proof.
    intros Cm Cf Cg Pf Pg. unfold made_by. apply continuity_pt_plus; apply continuity_pt_mult.
    - apply cont_max, Cm.
    - apply cont_made; assumption.
    - apply cont_max, continuity_pt_opp, Cm.
    - apply cont_made; assumption.
  Qed.
  Lemma books_exist a b : a <= b -> (forall t, a <= t <= b -> physical_trajectory D r c t) ->
    exists k, forall t, a <= t <= b -> books D r c k t.
  Proof.
    intros Hab H.
    assert (C : forall f, In f parts -> forall t, a <= t <= b -> continuity_pt (fun u => f (sol_at r c u)) t).
    { intros f I t Ht. exact (proj2 (proj2 (continuously Helium r Hf D HD c t (H t Ht))) f I). }
    assert (CA : forall f, In f parts -> forall t, a <= t <= b -> continuity_pt (fun u => Rabs (f (sol_at r c u))) t).
    { intros f I t Ht. exact (continuity_pt_comp (fun u => f (sol_at r c u)) Rabs t (C f I t Ht) (Rcontinuity_abs _)). }
    assert (S : forall t, a <= t <= b -> continuity_pt (fun u => cd_P (c u)) t /\ continuity_pt (fun u => cd_T_c (c u)) t /\
      continuity_pt (fun u => cd_T_e (c u)) t /\ positive_temps r (c t) /\ continuous_rates (ru_ws_vol_fn r) t).
    { intros t Ht. destruct (H t Ht) as ((HT & _ & hint & s & _ & F0 & F1 & F2) & _ & HC). unfold has_deriv in *.
      split; [exact (deriv_cont _ t _ F0)|]. split; [exact (deriv_cont _ t _ F1)|]. split; [exact (deriv_cont _ t _ F2)|]. auto. }
    destruct (primitive_exists (fun u => so_Q_dot_l (sol_at r c u)) a b Hab) as (B1 & H1); [apply C; unfold parts; cbn; tauto|].
    destruct (primitive_exists (fun u => so_Q_dot_k (sol_at r c u)) a b Hab) as (B2 & H2); [apply C; unfold parts; cbn; tauto|].
    destruct (primitive_exists (fun u => so_Q_dot_r (sol_at r c u)) a b Hab) as (B3 & H3); [apply C; unfold parts; cbn; tauto|].
    destruct (primitive_exists (fun u => Rabs (so_m_dot_kr (sol_at r c u))) a b Hab) as (B4 & H4); [apply CA; unfold parts; cbn; tauto|].
    destruct (primitive_exists (fun u => Rabs (so_m_dot_rl (sol_at r c u))) a b Hab) as (B5 & H5); [apply CA; unfold parts; cbn; tauto|].
    destruct (primitive_exists (fun u => cd_P (c u) * v_deriv (fst (ru_ws_vol_fn r u))) a b Hab) as (B6 & H6).
    { intros t Ht. destruct (S t Ht) as (S1 & _ & _ & _ & S2 & _). apply continuity_pt_mult; assumption. }
    destruct (primitive_exists (fun u => cd_P (c u) * v_deriv (snd (ru_ws_vol_fn r u))) a b Hab) as (B7 & H7).
    { intros t Ht. destruct (S t Ht) as (S1 & _ & _ & _ & _ & S2). apply continuity_pt_mult; assumption. }
    destruct (primitive_exists made_at a b Hab) as (B8 & H8).
    { intros t Ht. destruct (S t Ht) as (_ & S1 & S2 & (TC & TE & TK & TL & _) & _). unfold made_at. apply continuity_pt_plus; apply cont_made_by;
        try assumption; try apply cont_const; apply C; try assumption; unfold parts; cbn; tauto. }
    destruct (primitive_exists (fun u => R_he * T_ref * (so_m_dot_le (sol_at r c u) / cd_T_e (c u) - so_m_dot_ck (sol_at r c u) / cd_T_c (c u))) a b Hab) as (B9 & H9).
    { intros t Ht. destruct (S t Ht) as (_ & S1 & S2 & (TC & TE & _) & _). apply continuity_pt_mult; [apply cont_const|].
      apply continuity_pt_minus; (apply continuity_pt_div; [apply C; try assumption; unfold parts; cbn; tauto|assumption|lra]). }
    exists (mkBook B1 B2 B3 B4 B5 B6 B7 B8 B9). intros t Ht.
    destruct (H t Ht) as ((_ & _ & hint & s & Hs & HF) & Hp & _). exists hint, s. split; [exact Hs|]. split; [exact HF|].
    cbn [bk_taken bk_given bk_kept bk_gas_kr bk_gas_rl bk_work_c bk_work_e bk_mixing bk_excess].
    rewrite (sol_is r D HD c t hint s Hp Hs). unfold has_deriv.
    split; [apply H1, Ht|]. split; [apply H2, Ht|]. split; [apply H3, Ht|]. split; [apply H4, Ht|]. split; [apply H5, Ht|].
    split; [apply H6, Ht|]. split; [apply H7, Ht|]. split; [apply (H8 t Ht)|apply H9, Ht].
  Qed.
End Exist.
