(** * Entropy of the gas along exact trajectories *)
From Coq Require Import ZArith NArith List Reals Lra Lia.
From Verif Require Import Num ModelTypes ModelWs ModelHx ModelStateEq ModelEngine RNum Spec SpecR SpecGas
  SpecKin SpecTraj SpecSecond PolySolve Fixture RSolve RGauss RFluid RKin RMass RCase.
Local Open Scope R_scope.

Lemma ln_le_id x : 0 < x -> ln x <= x - 1.
Proof.
  intros H. destruct (Req_dec (ln x) 0) as [E|N].
  - rewrite E. assert (x = 1) by (apply ln_inv; [exact H|lra|rewrite E, ln_1; reflexivity]). lra.
  - pose proof (exp_ineq1 _ N) as H1. rewrite (exp_ln x H) in H1. lra.
Qed.
Lemma mixing_nonneg cp a b : 0 <= cp -> 0 < a -> 0 < b -> 0 <= mixing cp a b.
Proof.
  intros Hc Ha Hb. unfold mixing. pose proof (ln_le_id (a / b) (Rdiv_lt_0_compat _ _ Ha Hb)).
  apply Rmult_le_pos; lra.
Qed.
Lemma mixing_same cp a : 0 < a -> mixing cp a a = 0.
Proof. intros H. unfold mixing. replace (a / a) with 1 by (field; lra). rewrite ln_1. ring. Qed.
Lemma mixing_eq cp Rg a b P : 0 < a -> 0 < b ->
  mixing cp a b = cp * (a / b - 1) - (entropy Rg cp a P - entropy Rg cp b P).
Proof.
  intros Ha Hb. unfold mixing, entropy. unfold Rdiv at 2.
  rewrite (ln_mult a (/ b) Ha (Rinv_0_lt_compat _ Hb)), (ln_Rinv b Hb). ring.
Qed.
Lemma inflow_nonneg m : 0 <= inflow m.
Proof. apply Rmax_l. Qed.

(** the two ways gas can cross: entropy of the stream *)
Definition stream (m cold hot : R) : R := if Rle_dec 0 m then cold else hot.
Lemma stream_donor m cold hot : donor_R m cold hot (stream m cold hot).
Proof. unfold donor_R, stream. destruct (Rle_dec 0 m); split; intros; lra. Qed.

Section Gas.
  Variables Rg cp h0 k : R.
  Hypothesis HR : 0 < Rg.

  Lemma amount_deriv (V P T : R -> R) t dV dP dT :
    derivable_pt_lim V t dV -> derivable_pt_lim P t dP -> derivable_pt_lim T t dT -> 0 < T t -> 0 < P t ->
    derivable_pt_lim (fun u => V u * (P u / (Rg * T u)) * entropy Rg cp (T u) (P u)) t
      ((V t * (- P t / (Rg * (T t * T t)) * dT + 1 / (Rg * T t) * dP) + P t / (Rg * T t) * dV)
         * entropy Rg cp (T t) (P t)
       + V t * (P t / (Rg * T t)) * (cp * (dT / T t) - Rg * (dP / P t))).
  Proof.
    intros HV HP HT T0 P0. unfold entropy.
    assert (Rg * T t <> 0) by (apply Rgt_not_eq, Rmult_lt_0_compat; lra).
    eapply deriv_eq.
    - eapply deriv_mult.
      + eapply deriv_mult; [exact HV|]. eapply deriv_div; [exact HP|eapply deriv_mult; [apply deriv_const|exact HT]|].
        exact H.
      + eapply deriv_minus.
        * eapply deriv_mult; [apply deriv_const|]. apply (deriv_comp T ln); [exact HT|].
          apply derivable_pt_lim_ln. exact T0.
        * eapply deriv_mult; [apply deriv_const|]. apply (deriv_comp P ln); [exact HP|].
          apply derivable_pt_lim_ln. exact P0.
    - cbv beta. field. repeat split; lra.
  Qed.

  (** a working space; [m] flows in from gas of enthalpy cp T_d - h0 *)
  Lemma space_entropy_alg V P T dV dP dT m Td q :
    0 < T -> 0 < P ->
    V * (- P / (Rg * (T * T)) * dT + 1 / (Rg * T) * dP) + P / (Rg * T) * dV = m ->
    V * (P / (Rg * T)) * ((cp - Rg) * dT) + (cp * T - h0 - Rg * T + k) * m =
      (cp * Td - h0) * m - P * dV - q ->
    V * (P / (Rg * T)) * (cp * (dT / T) - Rg * (dP / P)) =
      cp * (Td / T - 1) * m - q / T - k * m / T.
  Proof.
    intros HT HP HM HE.
    assert (E1 : V * P * cp * dT / (Rg * T) - V * dP =
                 cp * (Td - T) * m - q - k * m).
    { assert (HM' : P * dV = Rg * T * m + V * P * dT / T - V * dP).
      { rewrite <- HM. field. lra. }
      rewrite HM' in HE.
      replace (V * (P / (Rg * T)) * ((cp - Rg) * dT)) with (V * P * cp * dT / (Rg * T) - V * P * dT / T) in HE
        by (field; lra).
      lra. }
    replace (V * (P / (Rg * T)) * (cp * (dT / T) - Rg * (dP / P)))
      with ((V * P * cp * dT / (Rg * T) - V * dP) / T) by (field; repeat split; lra).
    rewrite E1. field. lra.
  Qed.

  (** a volume of fixed temperature; streams [a] in, [b] out *)
  Lemma hx_entropy_alg V P T dP a b Ta Tb q :
    0 < T -> 0 < P ->
    V * (1 / (Rg * T)) * dP = a - b ->
    (cp * T - h0 - Rg * T + k) * (a - b) = (cp * Ta - h0) * a - (cp * Tb - h0) * b - q ->
    V * (P / (Rg * T)) * (- (Rg * (dP / P))) =
      cp * (Ta / T - 1) * a - cp * (Tb / T - 1) * b - q / T - k * (a - b) / T.
  Proof.
    intros HT HP HM HE.
    replace (V * (P / (Rg * T)) * (- (Rg * (dP / P)))) with (- (Rg * (V * (1 / (Rg * T)) * dP)))
      by (field; repeat split; lra).
    rewrite HM.
    assert (HQ : q = (cp * Ta - h0) * a - (cp * Tb - h0) * b - (cp * T - h0 - Rg * T + k) * (a - b)) by lra.
    rewrite HQ. field. lra.
  Qed.

  Variable r : @Run R.
  Hypothesis HG : perfect_gas (ru_fluid r) Rg cp h0 k.
  Hypothesis Hn : ru_enth_norm r <> 0.

  Lemma entropy_balance D c t sol : sound D -> moves_along D r c t sol ->
    entropy_made Rg cp r c sol t
      (mixing_comp cp r (c t) sol + k * so_m_dot_ck sol / cd_T_c (c t))
      (mixing_chx cp r (c t) sol - k * (so_m_dot_ck sol - so_m_dot_kr sol) / te_chx (ru_temp r))
      (mixing_hhx cp r (c t) sol - k * (so_m_dot_rl sol - so_m_dot_le sol) / te_hhx (ru_temp r))
      (mixing_exp cp r (c t) sol - k * so_m_dot_le sol / cd_T_e (c t)).
  Proof.
    intros HD ((Tc & Te & Tk & Tl & Tr) & Trc & Trh & P0 & (VC & VE) & (hint & Hs) & (HP & HTc & HTe)).
    assert (Hn' : in_enth_norm (Run_calculate_inputs r t (c t)) <> 0)
      by (unfold Run_calculate_inputs; destruct (ru_ws_vol_fn r t); exact Hn).
    destruct (energy_conserved D _ hint sol HD Hn' Hs) as [[(M1 & M2 & M3 & M4 & M5) HB] _].
    destruct HB as (hck & hkr & hrl & hle & D1 & D2 & D3 & D4 & (E1 & E2 & _ & E4 & E5)).
    unfold Run_calculate_inputs in *.
    unfold has_deriv in VC, VE, HP, HTc, HTe.
    destruct (ru_ws_vol_fn r t) as [vc ve] eqn:EV. cbn [fst snd] in *.
    unfold energy_rate_space, energy_rate_hx in *. rewrite M1 in E1. rewrite M2 in E2.
    rewrite M4 in E4. rewrite M5 in E5.
    unfold mass_rate_space, mass_rate_hx in *.
    cbn [in_comp in_chx in_regen in_hhx in_exp in_pres] in *.
    unfold comp_inputs, chx_inputs, regen_inputs, hhx_inputs, exp_inputs in *.
    cbn [wi_vol wi_dens wi_inte wi_enth wi_dd_dP_T wi_dd_dT_P wi_du_dP_T wi_du_dT_P wi_dV_dt wi_Q_dot
      hi_vol hi_dens hi_inte hi_enth hi_dd_dP_T hi_du_dP_T gi_enth_cold gi_enth_hot] in *.
    destruct (HG _ (cd_P (c t)) Tc) as (Rc & pPc & pTc & hc & uc & uPc & uTc).
    destruct (HG _ (cd_P (c t)) Te) as (Re & pPe & pTe & he' & ue & uPe & uTe).
    destruct (HG _ (cd_P (c t)) Tk) as (Rk & pPk & _ & hk & uk & uPk & _).
    destruct (HG _ (cd_P (c t)) Tl) as (Rl & pPl & _ & hl & ul & uPl & _).
    destruct (HG _ (cd_P (c t)) Trc) as (_ & _ & _ & hrc & _).
    destruct (HG _ (cd_P (c t)) Trh) as (_ & _ & _ & hrh & _).
    rewrite ?Rc, ?pPc, ?pTc, ?hc, ?uc, ?uPc, ?uTc, ?Re, ?pPe, ?pTe, ?he', ?ue, ?uPe, ?uTe,
      ?Rk, ?pPk, ?hk, ?uk, ?uPk, ?Rl, ?pPl, ?hl, ?ul, ?uPl, ?hrc, ?hrh in *.
    clear Rc pPc pTc hc uc uPc uTc Re pPe pTe he' ue uPe uTe Rk pPk hk uk uPk Rl pPl hl ul uPl hrc hrh.
    set (P := cd_P (c t)) in *.
    set (T_c := cd_T_c (c t)) in *. set (T_e := cd_T_e (c t)) in *.
    set (T_k := te_chx (ru_temp r)) in *. set (T_l := te_hhx (ru_temp r)) in *.
    set (T_rc := rt_cold (te_regen (ru_temp r))) in *. set (T_rh := rt_hot (te_regen (ru_temp r))) in *.
    (** temperatures of the streams *)
    assert (X1 : exists T1, hck = cp * T1 - h0 /\ donor_R (so_m_dot_ck sol) T_c T_k T1).
    { destruct D1 as [A B]. exists (stream (so_m_dot_ck sol) T_c T_k). split; [|apply stream_donor].
      unfold stream. destruct (Rle_dec 0 (so_m_dot_ck sol)); [apply A|apply B]; lra. }
    assert (X2 : exists T2, hkr = cp * T2 - h0 /\ donor_R (so_m_dot_kr sol) T_k T_rc T2).
    { destruct D2 as [A B]. exists (stream (so_m_dot_kr sol) T_k T_rc). split; [|apply stream_donor].
      unfold stream. destruct (Rle_dec 0 (so_m_dot_kr sol)); [apply A|apply B]; lra. }
    assert (X3 : exists T3, hrl = cp * T3 - h0 /\ donor_R (so_m_dot_rl sol) T_rh T_l T3).
    { destruct D3 as [A B]. exists (stream (so_m_dot_rl sol) T_rh T_l). split; [|apply stream_donor].
      unfold stream. destruct (Rle_dec 0 (so_m_dot_rl sol)); [apply A|apply B]; lra. }
    assert (X4 : exists T4, hle = cp * T4 - h0 /\ donor_R (so_m_dot_le sol) T_l T_e T4).
    { destruct D4 as [A B]. exists (stream (so_m_dot_le sol) T_l T_e). split; [|apply stream_donor].
      unfold stream. destruct (Rle_dec 0 (so_m_dot_le sol)); [apply A|apply B]; lra. }
    destruct X1 as (T1 & -> & [A1 B1]), X2 as (T2 & -> & [A2 B2]),
      X3 as (T3 & -> & [A3 B3]), X4 as (T4 & -> & [A4 B4]).
    unfold entropy_made. cbn zeta. fold P T_c T_e T_k T_l T_rc T_rh.
    exists (entropy Rg cp T1 P), (entropy Rg cp T2 P), (entropy Rg cp T3 P), (entropy Rg cp T4 P).
    unfold donor_R.
    do 4 (split; [split; intros; f_equal; auto|]).
    unfold makes_entropy, has_deriv.
    assert (PC : exists e : R, 0 < e) by (exists 1; lra).
    (** positivity near t *)
    assert (near : forall (f : R -> R) l, derivable_pt_lim f t l -> 0 < f t ->
              exists e, 0 < e /\ forall u, Rabs (u - t) < e -> 0 < f u).
    { intros f l Hf H0. assert (Hc : continuity_pt f t)
        by (apply derivable_continuous_pt; exists l; exact Hf).
      destruct (Hc (f t) H0) as (a & Ha & Hb). exists a. split; [exact Ha|]. intros u Hu.
      destruct (Req_dec u t) as [->|N]; [exact H0|].
      assert (Hd : Rabs (f u - f t) < f t).
      { apply (Hb u). split; [split; [exact I|]|exact Hu]. intros E. apply N. symmetry. exact E. }
      apply Rabs_def2 in Hd. lra. }
    split; [|split; [|split]].
    - (* compression space *)
      destruct (near _ _ HTc Tc) as (e & He & Hpos).
      apply (deriv_local (fun u => v_value (fst (ru_ws_vol_fn r u)) * (cd_P (c u) / (Rg * cd_T_c (c u)))
                                   * entropy Rg cp (cd_T_c (c u)) (cd_P (c u))) _ _ _ e He).
      { intros u Hu. unfold comp_entropy.
        destruct (HG (cd_T_c (c u)) (cd_P (c u)) (Hpos u Hu)) as (-> & _). reflexivity. }
      eapply deriv_eq; [apply (amount_deriv (fun u => v_value (fst (ru_ws_vol_fn r u))) (fun u => cd_P (c u))
                                  (fun u => cd_T_c (c u))); [eassumption..|exact Tc|exact P0]|].
      cbv beta. rewrite EV. cbn [fst]. fold P T_c.
      rewrite (space_entropy_alg (v_value vc) P T_c (v_deriv vc) (so_dP_dt sol) (so_dTc_dt sol) (- so_m_dot_ck sol) T1
                 (pp_thermal (par_comp (ru_ws_parasitics r))) Tc P0 M1) by (lra).
      rewrite M1. unfold mixing_comp, inflow. fold T_c T_k.
      destruct (Rle_or_lt 0 (so_m_dot_ck sol)) as [Hm|Hm].
      + rewrite (A1 Hm). rewrite Rmax_left by lra. field. lra.
      + rewrite (B1 Hm). rewrite Rmax_right by lra. rewrite (mixing_eq cp Rg _ _ P Tk Tc). field. lra.
    - (* cold exchanger *)
      apply (deriv_ext (fun u => ru_vol_chx r * (cd_P (c u) / (Rg * T_k)) * entropy Rg cp T_k (cd_P (c u)))).
      { intros u. unfold chx_entropy. fold T_k.
        destruct (HG T_k (cd_P (c u)) Tk) as (-> & _). reflexivity. }
      eapply deriv_eq; [apply (amount_deriv (fun _ => ru_vol_chx r) (fun u => cd_P (c u)) (fun _ => T_k));
                          [apply deriv_const|eassumption|apply deriv_const|exact Tk|exact P0]|].
      cbv beta. fold P.
      pose proof (hx_entropy_alg (ru_vol_chx r) P T_k (so_dP_dt sol) (so_m_dot_ck sol) (so_m_dot_kr sol) T1 T2
                    (so_Q_dot_k sol) Tk P0 M2 ltac:(lra)) as HH.
      replace (cp * (0 / T_k) - Rg * (so_dP_dt sol / P)) with (- (Rg * (so_dP_dt sol / P))) by (field; lra).
      rewrite HH.
      replace (ru_vol_chx r * (- P / (Rg * (T_k * T_k)) * 0 + 1 / (Rg * T_k) * so_dP_dt sol) + P / (Rg * T_k) * 0)
        with (ru_vol_chx r * (1 / (Rg * T_k)) * so_dP_dt sol) by ring.
      rewrite M2. unfold mixing_chx, inflow. fold T_c T_k T_rc.
      destruct (Rle_or_lt 0 (so_m_dot_ck sol)) as [Hm|Hm]; destruct (Rle_or_lt 0 (so_m_dot_kr sol)) as [Hm'|Hm'];
        rewrite ?(A1 Hm), ?(A2 Hm'); try rewrite (B1 Hm); try rewrite (B2 Hm');
        repeat (rewrite Rmax_left by lra); repeat (rewrite Rmax_right by lra);
        repeat (rewrite Rmax_left by lra);
        rewrite ?(mixing_eq cp Rg _ _ P Tc Tk), ?(mixing_eq cp Rg _ _ P Trc Tk); field; lra.
    - (* hot exchanger *)
      apply (deriv_ext (fun u => ru_vol_hhx r * (cd_P (c u) / (Rg * T_l)) * entropy Rg cp T_l (cd_P (c u)))).
      { intros u. unfold hhx_entropy. fold T_l.
        destruct (HG T_l (cd_P (c u)) Tl) as (-> & _). reflexivity. }
      eapply deriv_eq; [apply (amount_deriv (fun _ => ru_vol_hhx r) (fun u => cd_P (c u)) (fun _ => T_l));
                          [apply deriv_const|eassumption|apply deriv_const|exact Tl|exact P0]|].
      cbv beta. fold P.
      pose proof (hx_entropy_alg (ru_vol_hhx r) P T_l (so_dP_dt sol) (so_m_dot_rl sol) (so_m_dot_le sol) T3 T4
                    (- so_Q_dot_l sol) Tl P0 M4 ltac:(lra)) as HH.
      replace (cp * (0 / T_l) - Rg * (so_dP_dt sol / P)) with (- (Rg * (so_dP_dt sol / P))) by (field; lra).
      rewrite HH.
      replace (ru_vol_hhx r * (- P / (Rg * (T_l * T_l)) * 0 + 1 / (Rg * T_l) * so_dP_dt sol) + P / (Rg * T_l) * 0)
        with (ru_vol_hhx r * (1 / (Rg * T_l)) * so_dP_dt sol) by ring.
      rewrite M4. unfold mixing_hhx, inflow. fold T_e T_l T_rh.
      destruct (Rle_or_lt 0 (so_m_dot_rl sol)) as [Hm|Hm]; destruct (Rle_or_lt 0 (so_m_dot_le sol)) as [Hm'|Hm'];
        rewrite ?(A3 Hm), ?(A4 Hm'); try rewrite (B3 Hm); try rewrite (B4 Hm');
        repeat (rewrite Rmax_left by lra); repeat (rewrite Rmax_right by lra);
        repeat (rewrite Rmax_left by lra);
        rewrite ?(mixing_eq cp Rg _ _ P Te Tl), ?(mixing_eq cp Rg _ _ P Trh Tl); field; lra.
    - (* expansion space *)
      destruct (near _ _ HTe Te) as (e & He & Hpos).
      apply (deriv_local (fun u => v_value (snd (ru_ws_vol_fn r u)) * (cd_P (c u) / (Rg * cd_T_e (c u)))
                                   * entropy Rg cp (cd_T_e (c u)) (cd_P (c u))) _ _ _ e He).
      { intros u Hu. unfold exp_entropy.
        destruct (HG (cd_T_e (c u)) (cd_P (c u)) (Hpos u Hu)) as (-> & _). reflexivity. }
      eapply deriv_eq; [apply (amount_deriv (fun u => v_value (snd (ru_ws_vol_fn r u))) (fun u => cd_P (c u))
                                  (fun u => cd_T_e (c u))); [eassumption..|exact Te|exact P0]|].
      cbv beta. rewrite EV. cbn [snd]. fold P T_e.
      rewrite (space_entropy_alg (v_value ve) P T_e (v_deriv ve) (so_dP_dt sol) (so_dTe_dt sol) (so_m_dot_le sol) T4
                 (pp_thermal (par_exp (ru_ws_parasitics r))) Te P0 M5) by (lra).
      rewrite M5. unfold mixing_exp, inflow. fold T_e T_l.
      destruct (Rle_or_lt 0 (so_m_dot_le sol)) as [Hm|Hm].
      + rewrite (A4 Hm). rewrite Rmax_right by lra. rewrite (mixing_eq cp Rg _ _ P Tl Te). field. lra.
      + rewrite (B4 Hm). rewrite Rmax_left by lra. field. lra.
  Qed.
End Gas.

(** ** Helium, and helium with u = h - P / rho *)
Lemma he_perfect : perfect_gas (IdealGas_Fluid he) R_he cp_he (cp_he * T_ref) (R_he * T_ref).
Proof.
  intros T P HT. cbn [IdealGas_Fluid fl_dens fl_inte fl_enth fl_dd_dP_T fl_dd_dT_P fl_du_dP_T fl_du_dT_P].
  rewrite dens_eq, dd_dP_T_eq, dd_dT_P_eq, he_enth, he_inte, he_du_dT, he_R.
  unfold R_he, cp_he, T_ref. repeat split; ring.
Qed.
Definition he_consistent : Fluid R :=
  let f := IdealGas_Fluid he in
  mkFluid (fl_dens f) (fun T P => fl_enth f T P - R_he * T) (fl_enth f) (fl_cp f) (fl_dd_dP_T f)
    (fl_dd_dT_P f) (fl_du_dP_T f) (fl_du_dT_P f).
Lemma he_consistent_perfect : perfect_gas he_consistent R_he cp_he (cp_he * T_ref) 0.
Proof.
  intros T P HT. destruct (he_perfect T P HT) as (H1 & H2 & H3 & H4 & H5 & H6 & H7).
  cbn [he_consistent fl_dens fl_inte fl_enth fl_dd_dP_T fl_dd_dT_P fl_du_dP_T fl_du_dT_P].
  rewrite H1, H2, H3, H4, H6, H7. repeat split; ring.
Qed.

Lemma second_law Rg cp h0 r D c t sol : 0 < Rg -> 0 <= cp -> perfect_gas (ru_fluid r) Rg cp h0 0 ->
  ru_enth_norm r <> 0 -> sound D -> moves_along D r c t sol ->
  exists comp chx hhx exp, entropy_made Rg cp r c sol t comp chx hhx exp /\
    0 <= comp /\ 0 <= chx /\ 0 <= hhx /\ 0 <= exp.
Proof.
  intros HR Hc HG Hn HD HM. pose proof (entropy_balance Rg cp h0 0 HR r HG Hn D c t sol HD HM) as HE.
  destruct HM as ((Tc & Te & Tk & Tl & _) & Trc & Trh & _).
  do 4 eexists. split; [exact HE|]. unfold mixing_comp, mixing_chx, mixing_hhx, mixing_exp.
  pose proof (fun m => inflow_nonneg m) as HI.
  assert (N : forall m a b, 0 < a -> 0 < b -> 0 <= inflow m * mixing cp a b)
    by (intros; apply Rmult_le_pos; [apply HI|apply mixing_nonneg; assumption]).
  assert (Z : forall a b, 0 * a / b = 0) by (intros; unfold Rdiv; ring).
  rewrite !Z.
  pose proof (N (- so_m_dot_ck sol) _ _ Tk Tc). pose proof (N (so_m_dot_ck sol) _ _ Tc Tk).
  pose proof (N (- so_m_dot_kr sol) _ _ Trc Tk). pose proof (N (so_m_dot_rl sol) _ _ Trh Tl).
  pose proof (N (- so_m_dot_le sol) _ _ Te Tl). pose proof (N (so_m_dot_le sol) _ _ Tl Te).
  repeat split; lra.
Qed.

(** ** Gas at 300 K pushed from the expansion space to the compression space *)
Section Push.
  Variable fl : Fluid R.
  Variable k : R.
  Hypothesis HG : perfect_gas fl R_he cp_he (cp_he * T_ref) k.
  Hypothesis Hk : k = 0 \/ k = R_he * T_ref.
  Definition push_rho : R := 1000000 / (R_he * 300).
  Definition push_x : R := k / (push_rho * cp_he).
  Definition push_a : R := 1 / push_rho - push_x / 300.
  Definition push_run : Run R :=
    mkRun 1 fl 1 (mkPressure 1000000 1000000 1000000 1000000)
      (mkTemps 300 300 (mkRegenTemp 300 300 300) 300 300) 0 0 0
      (mkPar (mkPP 0 0 0) (mkPP 0 0 0))
      (fun t => (mkVolume (1 + push_a * t) push_a, mkVolume (1 - push_a * t) (- push_a))).
  Definition push_traj (t : R) : Conditions R := mkCond 1000000 (300 - push_x * t) (300 + push_x * t).
  Definition push_solution : Solution R := mkSolution (- (1)) (- (1)) (- (1)) (- (1)) 0 0 0 (- push_x) push_x 0.

  Lemma push_rho_pos : 0 < push_rho.
  Proof. unfold push_rho, R_he. decimals. lra. Qed.
  Lemma push_start : push_traj 0 = mkCond 1000000 300 300.
  Proof. unfold push_traj. rewrite Rmult_0_r, Rminus_0_r, Rplus_0_r. reflexivity. Qed.

  Ltac expose :=
    unfold Run_calculate_inputs; cbn [push_run ru_ws_vol_fn]; rewrite push_start;
    cbn [push_run in_enth_norm in_comp in_chx in_regen in_hhx in_exp in_pres comp_inputs chx_inputs regen_inputs hhx_inputs exp_inputs
    wi_vol wi_dens wi_inte wi_enth wi_dd_dP_T wi_dd_dT_P wi_du_dP_T wi_du_dT_P wi_dV_dt wi_Q_dot
    hi_vol hi_dens hi_inte hi_enth hi_dd_dP_T hi_du_dP_T gi_vol gi_dens gi_inte gi_enth_cold gi_enth_hot gi_dd_dP_T gi_du_dP_T
    ru_fluid ru_vol_chx ru_vol_regen ru_vol_hhx ru_ws_parasitics ru_temp ru_enth_norm par_comp par_exp pp_thermal
    te_chx te_hhx te_regen rt_cold rt_hot rt_avg
    v_value v_deriv push_solution so_m_dot_ck so_m_dot_kr so_m_dot_rl so_m_dot_le
    so_Q_dot_k so_Q_dot_r so_Q_dot_l so_dTc_dt so_dTe_dt so_dP_dt cd_P cd_T_c cd_T_e].

  Lemma push_conserves : conserves (Run_calculate_inputs push_run 0 (push_traj 0)) push_solution.
  Proof.
    unfold conserves, mass_balances, energy_balances. cbn zeta.
    unfold energy_rate_space, energy_rate_hx, energy_rate_regen, mass_rate_space, mass_rate_hx, mass_rate_regen.
    expose.
    destruct (HG 300 1000000 ltac:(lra)) as (H1 & H2 & H3 & H4 & H5 & H6 & H7).
    rewrite H1, H2, H3, H4, H5, H6, H7.
    pose proof push_rho_pos as Hr. assert (HRp : 0 < R_he) by (unfold R_he; decimals; lra).
    assert (M : (1 + push_a * 0) * (- (1000000) / (R_he * (300 * 300)) * - push_x + 1 / (R_he * 300) * 0)
                + 1000000 / (R_he * 300) * push_a = 1).
    { fold push_rho. replace (- (1000000) / (R_he * (300 * 300))) with (- push_rho / 300)
        by (unfold push_rho; field; unfold R_he; decimals; lra).
      unfold push_a. field. split; lra. }
    assert (M' : (1 - push_a * 0) * (- (1000000) / (R_he * (300 * 300)) * push_x + 1 / (R_he * 300) * 0)
                + 1000000 / (R_he * 300) * - push_a = - (1)).
    { fold push_rho. replace (- (1000000) / (R_he * (300 * 300))) with (- push_rho / 300)
        by (unfold push_rho; field; unfold R_he; decimals; lra).
      unfold push_a. field. split; lra. }
    rewrite M, M'.
    split; [repeat split; ring|].
    exists (cp_he * 300 - cp_he * T_ref), (cp_he * 300 - cp_he * T_ref),
      (cp_he * 300 - cp_he * T_ref), (cp_he * 300 - cp_he * T_ref).
    unfold donor_R.
    do 4 (split; [split; intros; reflexivity|]).
    assert (EP : 1000000 = push_rho * (R_he * 300)) by (unfold push_rho; field; unfold R_he; decimals; lra).
    fold push_rho.
    assert (EX : push_rho * cp_he * push_x = k).
    { unfold push_x. field. split; [unfold cp_he; decimals; lra|lra]. }
    assert (EA : push_rho * push_a = 1 - push_rho * push_x / 300).
    { unfold push_a. field. lra. }
    repeat split; try ring.
    - replace (1000000 * push_a) with (R_he * 300 * (push_rho * push_a)) by (rewrite EP at 1; ring).
      rewrite EA.
      replace ((1 + push_a * 0) * push_rho * ((cp_he - R_he) * - push_x + 0 * 0))
        with (- (push_rho * cp_he * push_x) + push_rho * R_he * push_x) by ring.
      rewrite EX. unfold Rdiv. ring_simplify. unfold R_he. decimals. lra.
    - replace (1000000 * - push_a) with (- (R_he * 300 * (push_rho * push_a))) by (rewrite EP at 1; ring).
      rewrite EA.
      replace ((1 - push_a * 0) * push_rho * ((cp_he - R_he) * push_x + 0 * 0))
        with ((push_rho * cp_he * push_x) - push_rho * R_he * push_x) by ring.
      rewrite EX. unfold Rdiv. ring_simplify. unfold R_he. decimals. lra.
  Qed.

  Lemma push_physical : physical (Run_calculate_inputs push_run 0 (push_traj 0)).
  Proof.
    unfold physical, physical_space. expose.
    destruct (HG 300 1000000 ltac:(lra)) as (H1 & H2 & H3 & H4 & H5 & H6 & H7).
    rewrite H1, H2, H3, H4, H5, H6, H7.
    unfold R_he, cp_he, T_ref in *. decimals.
    destruct Hk as [-> | ->]; unfold Q2R; cbn; repeat split; lra.
  Qed.
  Lemma push_moves : moves_along gauss push_run push_traj 0 push_solution.
  Proof.
    unfold moves_along, positive_temps. rewrite push_start.
    cbn [push_run ru_temp te_chx te_hhx te_regen rt_cold rt_hot rt_avg cd_P cd_T_c cd_T_e ru_ws_vol_fn].
    split; [repeat split; lra|]. split; [lra|]. split; [lra|]. split; [lra|].
    split.
    { split; unfold has_deriv; cbn [push_run fst snd v_value v_deriv];
        (eapply deriv_eq; [deriv|cbv beta; ring]). }
    split.
    { exists FlowDirection_default. rewrite <- push_start.
      apply (solve_iff_conserves gauss _ _ _ gauss_sound gauss_complete push_physical). exact push_conserves. }
    unfold follows, has_deriv, push_traj.
    cbn [cd_P cd_T_c cd_T_e push_solution so_dP_dt so_dTc_dt so_dTe_dt].
    split; [apply deriv_const|]. split; (eapply deriv_eq; [deriv|cbv beta; ring]).
  Qed.
End Push.

Definition he_push := push_run (IdealGas_Fluid he) (R_he * T_ref).
Definition he_push_traj := push_traj (R_he * T_ref).
Definition he_push_solution := push_solution (R_he * T_ref).
Lemma he_push_moves : moves_along gauss he_push he_push_traj 0 he_push_solution.
Proof. exact (push_moves _ _ he_perfect (or_intror eq_refl)). Qed.
Lemma he_push_x : 0 < push_x (R_he * T_ref).
Proof.
  unfold push_x. pose proof push_rho_pos. unfold R_he, T_ref, cp_he. decimals.
  apply Rdiv_lt_0_compat; [lra|]. apply Rmult_lt_0_compat; lra.
Qed.
Lemma he_push_entropy : exists comp chx hhx exp,
  entropy_made R_he cp_he he_push he_push_traj he_push_solution 0 comp chx hhx exp /\ comp < 0.
Proof.
  assert (HR : 0 < R_he) by (unfold R_he; decimals; lra).
  do 4 eexists. split.
  - apply (entropy_balance R_he cp_he (cp_he * T_ref) (R_he * T_ref) HR he_push he_perfect
             ltac:(cbn; lra) gauss _ 0 _ gauss_sound he_push_moves).
  - unfold mixing_comp, he_push_traj. rewrite push_start.
    cbn [he_push push_run he_push_solution push_solution so_m_dot_ck cd_T_c ru_temp te_chx].
    rewrite mixing_same by lra. unfold R_he, T_ref. decimals. lra.
Qed.
Definition he_true_push := push_run he_consistent 0.
Lemma he_true_push_moves : moves_along gauss he_true_push (push_traj 0) 0 (push_solution 0).
Proof. exact (push_moves _ _ he_consistent_perfect (or_introl eq_refl)). Qed.

(** gas at rest in temperature and pressure separates into cold and warm *)
Lemma he_separates : exists r c sol,
  ru_fluid r = IdealGas_Fluid he /\ moves_along gauss r c 0 sol /\
  (cd_T_c (c 0) = 300 /\ cd_T_e (c 0) = 300 /\
   ru_temp r = mkTemps 300 300 (mkRegenTemp 300 300 300) 300 300) /\
  (so_Q_dot_k sol = 0 /\ so_Q_dot_r sol = 0 /\ so_Q_dot_l sol = 0 /\
   pp_thermal (par_comp (ru_ws_parasitics r)) = 0 /\ pp_thermal (par_exp (ru_ws_parasitics r)) = 0) /\
  (so_dP_dt sol = 0 /\ v_deriv (fst (ru_ws_vol_fn r 0)) + v_deriv (snd (ru_ws_vol_fn r 0)) = 0) /\
  so_dTc_dt sol < 0 < so_dTe_dt sol /\
  exists comp chx hhx exp, entropy_made R_he cp_he r c sol 0 comp chx hhx exp /\ comp < 0.
Proof.
  exists he_push, he_push_traj, he_push_solution.
  split; [reflexivity|]. split; [exact he_push_moves|].
  split; [unfold he_push_traj; rewrite push_start; repeat split|].
  split; [repeat split|].
  split; [split; [reflexivity|cbn; ring]|].
  split; [|exact he_push_entropy].
  pose proof he_push_x. cbn [he_push_solution push_solution so_dTc_dt so_dTe_dt]. lra.
Qed.
