(** * Symmetries, cycles and continuity of the state equations *)
From Coq Require Import ZArith NArith List Reals Lra Lia.
From Verif Require Import Num ModelTypes ModelWs ModelHx ModelStateEq ModelEngine RNum Spec SpecR SpecGas
  SpecKin SpecTraj SpecLaws PolySolve RSolve RGauss RFluid RKin RMass RCase.
Local Open Scope R_scope.

(** only products [h * m] with the mass flow occur: any enthalpy does for a flow of zero *)
Definition donor_weak (m cold hot h : R) : Prop := (0 < m -> h = cold) /\ (m < 0 -> h = hot).
Lemma donor_weak_fix m cold hot h : donor_weak m cold hot h ->
  exists h', donor_R m cold hot h' /\ h' * m = h * m.
Proof.
  intros [H1 H2]. destruct (Rtotal_order m 0) as [H|[H|H]].
  - exists h. split; [split; [lra|auto]|reflexivity].
  - exists cold. split; [split; [reflexivity|lra]|]. rewrite H. ring.
  - exists h. split; [split; [intros; auto|lra]|reflexivity].
Qed.
Lemma conserves_weak i s : mass_balances i s ->
  (exists h_ck h_kr h_rl h_le,
    donor_weak (so_m_dot_ck s) (wi_enth (in_comp i)) (hi_enth (in_chx i)) h_ck /\
    donor_weak (so_m_dot_kr s) (hi_enth (in_chx i)) (gi_enth_cold (in_regen i)) h_kr /\
    donor_weak (so_m_dot_rl s) (gi_enth_hot (in_regen i)) (hi_enth (in_hhx i)) h_rl /\
    donor_weak (so_m_dot_le s) (hi_enth (in_hhx i)) (wi_enth (in_exp i)) h_le /\
    energy_balances i h_ck h_kr h_rl h_le s) ->
  conserves i s.
Proof.
  intros HM (a & b & c & d & Ha & Hb & Hc & Hd & HE). split; [exact HM|].
  apply donor_weak_fix in Ha as (a' & Ha & Ea). apply donor_weak_fix in Hb as (b' & Hb & Eb).
  apply donor_weak_fix in Hc as (c' & Hc & Ec). apply donor_weak_fix in Hd as (d' & Hd & Ed).
  exists a', b', c', d'. do 4 (split; [assumption|]).
  unfold energy_balances in *. rewrite Ea, Eb, Ec, Ed. exact HE.
Qed.
Lemma donor_R_weak m cold hot h : donor_R m cold hot h -> donor_weak m cold hot h.
Proof. intros [H1 H2]. split; [intros; apply H1; lra|exact H2]. Qed.

(** from one solved system to another with related balances *)
Lemma solve_transfer D i j hint hint' s s' : sound D -> complete D -> physical i -> physical j ->
  solve D i hint = Ok s -> (conserves i s -> conserves j s') -> solve D j hint' = Ok s'.
Proof.
  intros HS HC Hi Hj H K. apply (solve_iff_conserves D j hint' s' HS HC Hj), K.
  exact (proj1 (solve_iff_conserves D i hint s HS HC Hi) H).
Qed.

Ltac open_balances :=
  unfold mass_balances, energy_balances in *; cbn zeta in *; unfold_rates;
  cbn [faster shifted mirror scaled at_rest mirror_solution faster_space shift_space shift_hx shift_regen
    in_pres in_enth_norm in_comp in_chx in_regen in_hhx in_exp
    wi_vol wi_dens wi_inte wi_enth wi_dd_dP_T wi_dd_dT_P wi_du_dP_T wi_du_dT_P wi_dV_dt wi_Q_dot
    hi_vol hi_dens hi_inte hi_enth hi_dd_dP_T hi_du_dP_T
    gi_vol gi_dens gi_inte gi_enth_cold gi_enth_hot gi_dd_dP_T gi_du_dP_T
    so_m_dot_ck so_m_dot_kr so_m_dot_rl so_m_dot_le so_Q_dot_k so_Q_dot_r so_Q_dot_l
    so_dTc_dt so_dTe_dt so_dP_dt] in *.

(** ** Speed *)
Lemma faster_physical k i : physical i -> physical (faster k i).
Proof. exact (fun H => H). Qed.

Lemma donor_scaled k m cold hot h : 0 <= k -> donor_R m cold hot h -> donor_weak (k * m) cold hot h.
Proof.
  intros Hk [H1 H2]. split; intros H.
  - apply H1. destruct (Rle_or_lt 0 m) as [Hm|Hm]; [exact Hm|].
    assert (k * m <= k * 0) by (apply Rmult_le_compat_l; lra). lra.
  - apply H2. destruct (Rle_or_lt 0 m) as [Hm|Hm]; [|exact Hm].
    assert (0 <= k * m) by (apply Rmult_le_pos; assumption). lra.
Qed.

Lemma times k a b : a = b -> k * a = k * b.
Proof. intros ->. reflexivity. Qed.

Lemma faster_conserves k i s : 0 <= k -> conserves i s -> conserves (faster k i) (scaled k k k s).
Proof.
  intros Hk [HM (a & b & c & d & Ha & Hb & Hc & Hd & HE)].
  apply conserves_weak.
  - open_balances. destruct HM as (M1 & M2 & M3 & M4 & M5).
    apply (times k) in M1, M2, M3, M4, M5. repeat split; lra.
  - exists a, b, c, d.
    do 4 (split; [apply donor_scaled; assumption|]).
    open_balances. destruct HE as (E1 & E2 & E3 & E4 & E5).
    apply (times k) in E1, E2, E3, E4, E5. repeat split; lra.
Qed.

Lemma solve_faster D i hint hint' s k : sound D -> complete D -> physical i -> 0 <= k ->
  solve D i hint = Ok s -> solve D (faster k i) hint' = Ok (scaled k k k s).
Proof.
  intros HS HC HP Hk H. apply (solve_transfer D i _ hint hint' s _ HS HC HP (faster_physical k i HP) H).
  exact (faster_conserves k i s Hk).
Qed.

Lemma faster_inputs k r t c :
  Run_calculate_inputs (faster_run k r) t c = faster k (Run_calculate_inputs r (k * t) c).
Proof.
  unfold Run_calculate_inputs. cbn [faster_run ru_ws_vol_fn].
  destruct (ru_ws_vol_fn r (k * t)) as [vc ve]. reflexivity.
Qed.
Lemma run_faster D r t c hint hint' s k : sound D -> complete D ->
  physical (Run_calculate_inputs r (k * t) c) -> 0 <= k ->
  solve D (Run_calculate_inputs r (k * t) c) hint = Ok s ->
  solve D (Run_calculate_inputs (faster_run k r) t c) hint' = Ok (scaled k k k s).
Proof. intros. rewrite faster_inputs. eapply solve_faster; eassumption. Qed.
Lemma sin_faster k d t : sin_volumes (faster_sin k d) t =
  (faster_volume k (fst (sin_volumes d (k * t))), faster_volume k (snd (sin_volumes d (k * t)))).
Proof.
  pose proof (sin_comp_value (faster_sin k d) t) as H1. pose proof (sin_comp_deriv (faster_sin k d) t) as H2.
  pose proof (sin_exp_value (faster_sin k d) t) as H3. pose proof (sin_exp_deriv (faster_sin k d) t) as H4.
  unfold faster_volume.
  rewrite sin_comp_value, sin_comp_deriv, sin_exp_value, sin_exp_deriv.
  destruct (sin_volumes (faster_sin k d) t) as [[a b] [c e]].
  cbn [fst snd v_value v_deriv faster_sin sd_frequency sd_phase_angle sd_comp_geometry sd_exp_geometry] in *.
  rewrite H1, H2, H3, H4.
  replace (2 * PI * (k * sd_frequency d) * t) with (2 * PI * sd_frequency d * (k * t)) by ring.
  f_equal; f_equal; ring.
Qed.

Lemma rh_faster k d t : rh_volumes (faster_rh k d) t =
  (faster_volume k (fst (rh_volumes d (k * t))), faster_volume k (snd (rh_volumes d (k * t)))).
Proof.
  unfold rh_volumes, faster_volume.
  cbn [fst snd v_value v_deriv faster_rh rd_frequency rd_geometry rd_V_clearance_c rd_V_clearance_e].
  cbn [n_mul n_sub n_add n_div n_opp n_sqrt n_sin n_cos R_ops].
  replace (n2 * n_pi * (k * rd_frequency d) * t) with (n2 * n_pi * rd_frequency d * (k * t)) by ring.
  f_equal; f_equal; ring.
Qed.

Lemma solve_at_rest D i hint : sound D -> complete D -> physical i ->
  wi_dV_dt (in_comp i) = 0 -> wi_dV_dt (in_exp i) = 0 ->
  wi_Q_dot (in_comp i) = 0 -> wi_Q_dot (in_exp i) = 0 ->
  solve D i hint = Ok at_rest.
Proof.
  intros HS HC HP V1 V2 Q1 Q2.
  apply (solve_iff_conserves D i hint _ HS HC HP).
  apply conserves_weak.
  - open_balances. rewrite V1, V2. repeat split; ring.
  - exists 0, 0, 0, 0. do 4 (split; [split; cbn; lra|]).
    open_balances. rewrite V1, V2, Q1, Q2. repeat split; ring.
Qed.

(** ** Zero of the enthalpy scale *)
Lemma shifted_physical h0 hn i : hn <> 0 -> physical i -> physical (shifted h0 hn i).
Proof.
  intros Hn (_ & (A1 & A2 & A3 & A4 & A5 & A6) & (B1 & B2 & B3 & B4 & B5 & B6) & HR).
  split; [exact Hn|]. split; [|split; [|exact HR]].
  - unfold physical_space. cbn. repeat split; try assumption.
    + replace (wi_enth (in_comp i) + h0 - (wi_inte (in_comp i) + h0)) with (wi_enth (in_comp i) - wi_inte (in_comp i)) by ring. exact A5.
    + replace (hi_enth (in_chx i) + h0 - (wi_inte (in_comp i) + h0)) with (hi_enth (in_chx i) - wi_inte (in_comp i)) by ring. exact A6.
  - unfold physical_space. cbn. repeat split; try assumption.
    + replace (wi_enth (in_exp i) + h0 - (wi_inte (in_exp i) + h0)) with (wi_enth (in_exp i) - wi_inte (in_exp i)) by ring. exact B5.
    + replace (hi_enth (in_hhx i) + h0 - (wi_inte (in_exp i) + h0)) with (hi_enth (in_hhx i) - wi_inte (in_exp i)) by ring. exact B6.
Qed.
Lemma donor_shift h0 m cold hot h : donor_R m cold hot h -> donor_R m (cold + h0) (hot + h0) (h + h0).
Proof. intros [H1 H2]. split; intros; f_equal; auto. Qed.
Lemma shifted_conserves h0 hn i s : conserves i s -> conserves (shifted h0 hn i) s.
Proof.
  intros [HM (a & b & c & d & Ha & Hb & Hc & Hd & HE)]. split; [exact HM|].
  exists (a + h0), (b + h0), (c + h0), (d + h0).
  do 4 (split; [apply donor_shift; assumption|]).
  open_balances. destruct HE as (E1 & E2 & E3 & E4 & E5). destruct HM as (M1 & M2 & M3 & M4 & M5).
  apply (times h0) in M1, M2, M3, M4, M5.
  repeat split; lra.
Qed.
Lemma solve_shifted D i hint hint' s h0 hn : sound D -> complete D -> physical i -> hn <> 0 ->
  solve D i hint = Ok s -> solve D (shifted h0 hn i) hint' = Ok s.
Proof.
  intros HS HC HP Hn H.
  apply (solve_transfer D i _ hint hint' s _ HS HC HP (shifted_physical h0 hn i Hn HP) H).
  exact (shifted_conserves h0 hn i s).
Qed.

(** ** Left and right *)
Lemma mirror_physical i : physical i -> physical (mirror i).
Proof.
  intros (A & B & C & D1 & D2 & E1 & E2 & F1 & F2). repeat split; try assumption; try apply B; apply C.
Qed.
Lemma donor_mirror m cold hot h : donor_R m cold hot h -> donor_weak (- m) hot cold h.
Proof. intros [H1 H2]. split; intros; [apply H2|apply H1]; lra. Qed.
Lemma mirror_conserves i s : conserves i s -> conserves (mirror i) (mirror_solution s).
Proof.
  intros [HM (a & b & c & d & Ha & Hb & Hc & Hd & HE)].
  apply conserves_weak.
  - open_balances. destruct HM as (M1 & M2 & M3 & M4 & M5). repeat split; lra.
  - exists d, c, b, a.
    do 4 (split; [apply donor_mirror; assumption|]).
    open_balances. destruct HE as (E1 & E2 & E3 & E4 & E5). repeat split; lra.
Qed.
Lemma solve_mirror D i hint hint' s : sound D -> complete D -> physical i ->
  solve D i hint = Ok s -> solve D (mirror i) hint' = Ok (mirror_solution s).
Proof.
  intros HS HC HP H. apply (solve_transfer D i _ hint hint' s _ HS HC HP (mirror_physical i HP) H).
  exact (mirror_conserves i s).
Qed.
Lemma mirror_inputs r t c :
  Run_calculate_inputs (mirror_run r) t (mirror_conditions c) = mirror (Run_calculate_inputs r t c).
Proof.
  unfold Run_calculate_inputs. cbn [mirror_run ru_ws_vol_fn].
  destruct (ru_ws_vol_fn r t) as [vc ve]. reflexivity.
Qed.
Lemma run_mirror D r t c hint hint' s : sound D -> complete D -> physical (Run_calculate_inputs r t c) ->
  solve D (Run_calculate_inputs r t c) hint = Ok s ->
  solve D (Run_calculate_inputs (mirror_run r) t (mirror_conditions c)) hint' = Ok (mirror_solution s).
Proof. rewrite mirror_inputs. apply solve_mirror. Qed.

(** ** Charge pressure *)
Section Charge.
  Variable g : IdealGas R.
  Variable r : Run R.
  Hypothesis Hf : ru_fluid r = IdealGas_Fluid g.

  Lemma ig_dens_scale k T P : ig_dens g T (k * P) = k * ig_dens g T P.
  Proof. rewrite !dens_eq. unfold Rdiv. ring. Qed.
  Lemma ig_dd_dT_scale k T P : ig_dd_dT_P g T (k * P) = k * ig_dd_dT_P g T P.
  Proof. rewrite !dd_dT_P_eq. unfold Rdiv. ring. Qed.

  Definition charge_space (k : R) (w : WorkingSpaceIn R) : WorkingSpaceIn R :=
    mkWsIn (wi_vol w) (k * wi_dens w) (wi_inte w) (wi_enth w) (wi_dd_dP_T w) (k * wi_dd_dT_P w)
      0 (wi_du_dT_P w) (wi_dV_dt w) (k * wi_Q_dot w).
  Definition charge_hx (k : R) (x : HeatExchangerIn R) : HeatExchangerIn R :=
    mkHxIn (hi_vol x) (k * hi_dens x) (hi_inte x) (hi_enth x) (hi_dd_dP_T x) 0.
  Definition charge_regen (k : R) (x : RegeneratorIn R) : RegeneratorIn R :=
    mkRegIn (gi_vol x) (k * gi_dens x) (gi_inte x) (gi_enth_cold x) (gi_enth_hot x) (gi_dd_dP_T x) 0.
  Definition charge (k : R) (i : Inputs R) : Inputs R :=
    mkInputs (k * in_pres i) (in_enth_norm i) (charge_space k (in_comp i)) (charge_hx k (in_chx i))
      (charge_regen k (in_regen i)) (charge_hx k (in_hhx i)) (charge_space k (in_exp i)).
  Definition no_du_dP (i : Inputs R) : Prop :=
    wi_du_dP_T (in_comp i) = 0 /\ hi_du_dP_T (in_chx i) = 0 /\ gi_du_dP_T (in_regen i) = 0 /\
    hi_du_dP_T (in_hhx i) = 0 /\ wi_du_dP_T (in_exp i) = 0.

  Lemma run_no_du_dP t c : no_du_dP (Run_calculate_inputs r t c).
  Proof.
    unfold Run_calculate_inputs. destruct (ru_ws_vol_fn r t) as [vc ve]. unfold no_du_dP.
    cbn -[IdealGas_Fluid]. rewrite Hf. repeat split.
  Qed.
  Lemma run_charge k t c :
    Run_calculate_inputs (charged_run k r) t (charged k c) = charge k (Run_calculate_inputs r t c).
  Proof.
    unfold Run_calculate_inputs. cbn [charged_run ru_ws_vol_fn].
    destruct (ru_ws_vol_fn r t) as [vc ve].
    unfold charge, charge_space, charge_hx, charge_regen, comp_inputs, chx_inputs, regen_inputs, hhx_inputs, exp_inputs.
    cbn [in_pres in_enth_norm in_comp in_chx in_regen in_hhx in_exp
      wi_vol wi_dens wi_inte wi_enth wi_dd_dP_T wi_dd_dT_P wi_du_dP_T wi_du_dT_P wi_dV_dt wi_Q_dot
      hi_vol hi_dens hi_inte hi_enth hi_dd_dP_T hi_du_dP_T
      gi_vol gi_dens gi_inte gi_enth_cold gi_enth_hot gi_dd_dP_T gi_du_dP_T
      charged charged_run charged_loss cd_P cd_T_c cd_T_e ru_fluid ru_temp ru_vol_chx ru_vol_regen ru_vol_hhx
      ru_ws_parasitics par_comp par_exp pp_thermal ru_enth_norm].
    rewrite Hf. cbn [IdealGas_Fluid fl_dens fl_inte fl_enth fl_dd_dP_T fl_dd_dT_P fl_du_dP_T fl_du_dT_P].
    rewrite !ig_dens_scale, !ig_dd_dT_scale. reflexivity.
  Qed.
  Lemma charge_physical k i : 0 < k -> no_du_dP i -> physical i -> physical (charge k i).
  Proof.
    intros Hk (Z1 & _ & _ & _ & Z2)
      (Hn & (A1 & A2 & A3 & A4 & A5 & A6) & (B1 & B2 & B3 & B4 & B5 & B6) & HR).
    rewrite Z1 in A4. rewrite Z2 in B4.
    split; [exact Hn|]. split; [|split; [|exact HR]].
    - unfold physical_space. cbn. repeat split; try assumption.
      + apply Rmult_lt_0_compat; assumption.
      + lra.
      + rewrite !Rmult_assoc. apply Rmult_lt_compat_l; assumption.
      + rewrite !Rmult_assoc. apply Rmult_lt_compat_l; assumption.
    - unfold physical_space. cbn. repeat split; try assumption.
      + apply Rmult_lt_0_compat; assumption.
      + lra.
      + rewrite !Rmult_assoc. apply Rmult_lt_compat_l; assumption.
      + rewrite !Rmult_assoc. apply Rmult_lt_compat_l; assumption.
  Qed.
  Lemma charge_conserves k i s : 0 < k -> no_du_dP i -> conserves i s ->
    conserves (charge k i) (scaled k 1 k s).
  Proof.
    intros Hk (Z1 & Z2 & Z3 & Z4 & Z5) [HM (a & b & c & d & Ha & Hb & Hc & Hd & HE)].
    apply conserves_weak.
    - unfold charge, charge_space, charge_hx, charge_regen. open_balances.
      destruct HM as (M1 & M2 & M3 & M4 & M5).
      apply (times k) in M1, M2, M3, M4, M5. repeat split; lra.
    - exists a, b, c, d. do 4 (split; [apply donor_scaled; [lra|assumption]|]).
      unfold charge, charge_space, charge_hx, charge_regen. open_balances.
      rewrite Z1, Z2, Z3, Z4, Z5 in HE.
      destruct HE as (E1 & E2 & E3 & E4 & E5).
      apply (times k) in E1, E2, E3, E4, E5. repeat split; lra.
  Qed.
  Lemma run_charged D k t c hint hint' s : sound D -> complete D ->
    physical (Run_calculate_inputs r t c) -> 0 < k ->
    solve D (Run_calculate_inputs r t c) hint = Ok s ->
    solve D (Run_calculate_inputs (charged_run k r) t (charged k c)) hint' = Ok (scaled k 1 k s).
  Proof.
    intros HS HC HP Hk H. rewrite run_charge. pose proof (run_no_du_dP t c) as HZ.
    apply (solve_transfer D _ _ hint hint' s _ HS HC HP (charge_physical k _ Hk HZ HP) H).
    exact (charge_conserves k _ s Hk HZ).
  Qed.
End Charge.

(** ** Cycles *)
Section Cycle.
  Variable g : IdealGas R.
  Hypothesis HR : 0 < ig_gas_constant g.
  Variable r : Run R.
  Hypothesis Hf : ru_fluid r = IdealGas_Fluid g.

  Lemma gas_mass_reduced t c : positive_temps r c ->
    gas_mass r t c = cd_P c * reduced_volume r t c / ig_gas_constant g.
  Proof.
    intros (T1 & T2 & T3 & T4 & T5). unfold gas_mass, reduced_volume. rewrite Hf.
    cbn [IdealGas_Fluid fl_dens]. rewrite !dens_eq. field. repeat split; lra.
  Qed.
  Lemma pressure_law D c a b : sound D -> a <= b ->
    (forall t, a <= t <= b -> on_trajectory D r c t) ->
    cd_P (c b) * reduced_volume r b (c b) = cd_P (c a) * reduced_volume r a (c a).
  Proof.
    intros HD Hab H. pose proof (gas_mass_constant g HR r Hf D c a b HD Hab H) as HM.
    pose proof (proj1 (H a ltac:(lra))) as Ta. pose proof (proj1 (H b ltac:(lra))) as Tb.
    rewrite !gas_mass_reduced in HM by assumption.
    unfold Rdiv in HM. apply Rmult_eq_reg_r in HM; [exact HM|].
    apply Rgt_not_eq, Rinv_0_lt_compat, HR.
  Qed.
  Lemma pressure_returns D c a b : sound D -> a <= b ->
    (forall t, a <= t <= b -> on_trajectory D r c t) -> spaces_return r c a b ->
    reduced_volume r a (c a) <> 0 -> cd_P (c b) = cd_P (c a).
  Proof.
    intros HD Hab H (V1 & V2 & T1 & T2) Hne.
    pose proof (pressure_law D c a b HD Hab H) as HL.
    assert (E : reduced_volume r b (c b) = reduced_volume r a (c a)).
    { unfold reduced_volume. rewrite V1, V2, T1, T2. reflexivity. }
    rewrite E in HL. apply Rmult_eq_reg_r in HL; assumption.
  Qed.
  Lemma pressure_positive D c a b : sound D -> a <= b ->
    (forall t, a <= t <= b -> on_trajectory D r c t) ->
    (forall t, a <= t <= b -> 0 < reduced_volume r t (c t)) ->
    0 < cd_P (c a) -> 0 < cd_P (c b).
  Proof.
    intros HD Hab H HV HP. pose proof (pressure_law D c a b HD Hab H) as HL.
    pose proof (HV a ltac:(lra)) as Va. pose proof (HV b ltac:(lra)) as Vb.
    apply Rmult_lt_reg_r with (reduced_volume r b (c b)); [exact Vb|]. rewrite HL, Rmult_0_l.
    apply Rmult_lt_0_compat; assumption.
  Qed.
  (** the first law over an interval and over a cycle *)
  Hypothesis Hu : forall T P, has_deriv (fun t => ig_inte g t P) T (ig_du_dT_P g T P).
  Hypothesis Hn : ru_enth_norm r <> 0.
  Lemma energy_account D c heat work a b : sound D -> a <= b ->
    (forall t, a <= t <= b -> accounts D r c heat work t) ->
    gas_energy r b (c b) - gas_energy r a (c a) = (heat b - heat a) - (work b - work a).
  Proof.
    intros HD Hab H. destruct Hab as [Hab|<-]; [|lra].
    destruct (MVT_cor2 (fun u => gas_energy r u (c u) - (heat u - work u)) (fun _ => 0) a b Hab)
      as (x & E & _); [|lra].
    intros t Ht. destruct (H t Ht) as (Tp & Td & hint & s & Hs & Hfo & Hh & Hw).
    eapply deriv_eq.
    - apply deriv_minus.
      + exact (gas_energy_deriv g HR r Hf Hu D c t hint s HD Hn Tp Td Hs Hfo).
      + apply deriv_minus; [exact Hh|exact Hw].
    - cbv beta. ring.
  Qed.
  Lemma accounts_trajectory D c heat work t : accounts D r c heat work t -> on_trajectory D r c t.
  Proof.
    intros (Tp & Td & hint & s & Hs & Hfo & _). split; [exact Tp|]. split; [exact Td|]. eauto.
  Qed.
  Lemma cycle_account D c heat work a b : sound D -> a <= b ->
    (forall t, a <= t <= b -> accounts D r c heat work t) -> spaces_return r c a b ->
    reduced_volume r a (c a) <> 0 -> heat b - heat a = work b - work a.
  Proof.
    intros HD Hab H HS Hne.
    pose proof (energy_account D c heat work a b HD Hab H) as HE.
    assert (HP : cd_P (c b) = cd_P (c a)).
    { apply (pressure_returns D c a b HD Hab); [|exact HS|exact Hne].
      intros t Ht. exact (accounts_trajectory D c heat work t (H t Ht)). }
    destruct HS as (V1 & V2 & T1 & T2).
    assert (E : gas_energy r b (c b) = gas_energy r a (c a)).
    { unfold gas_energy. rewrite V1, V2, T1, T2, HP. reflexivity. }
    lra.
  Qed.
End Cycle.
