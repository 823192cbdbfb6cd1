(** * Engines whose regenerator is a net source or sink of heat *)
From Coq Require Import ZArith NArith List Reals Lra Lia.
From Verif Require Import Num ModelTypes ModelWs ModelHx ModelStateEq ModelEngine RNum Spec SpecR SpecGas SpecKin
  SpecLoop SpecApi SpecTraj SpecLaws SpecUnique SpecSpaces SpecBounds SpecSteady SpecRegen Fixture PolySolve PolyRun PolyMore RSolve RGauss RFluid RKin
  RMass RSpaces RPairs RPicard RLocal RExist RPeriod RCase RBounds RSteady RRegen.
Import ListNotations.
Local Open Scope R_scope.

(** ** With a rigid expansion space *)
Section Rigid.
  Variable name : GasName.
  Let g : IdealGas R := IdealGas_new name.
  Variable r : Run R.
  Hypothesis Hf : ru_fluid r = IdealGas_Fluid g.
  Variable D : Decomp R.
  Hypothesis HD : sound D.
  Variable c : R -> Conditions R.
  Definition k_r : R := ru_vol_regen r * (1 / (ig_gas_constant g * rt_avg (te_regen (ru_temp r)))).

  Lemma same_direction t hint s : physical (Run_calculate_inputs r t (c t)) ->
    solve D (Run_calculate_inputs r t (c t)) hint = Ok s ->
    v_deriv (snd (ru_ws_vol_fn r t)) = 0 -> heat_lost_exp r = 0 ->
    Rabs (so_m_dot_kr s) = Rabs (so_m_dot_rl s) + k_r * Rabs (so_dP_dt s) /\
    (so_dP_dt s = 0 -> 0 < cd_T_c (c t) -> heat_lost_comp r = 0 -> v_deriv (fst (ru_ws_vol_fn r t)) = 0).
  Proof.
    intros Hp Hs HV HQ. pose proof (gas_R_pos name) as HR. fold g in HR.
    apply solve_upwind in Hs. apply solves_for_upwind in Hs.
    destruct (eliminated_of _ Hp D _ _ HD Hs) as (E1 & E2 & E3 & E4 & E5 & _).
    pose proof (Ge_pos _ Hp (signs s)) as Gp.
    pose proof (stiff_pos _ _ (proj1 (proj2 (proj2 Hp)))) as Bp.
    pose proof (K_nonneg _ Hp) as (K1 & K2 & K3).
    assert (Z : drive (in_pres (Run_calculate_inputs r t (c t))) (in_exp (Run_calculate_inputs r t (c t))) = 0).
    { unfold Run_calculate_inputs, heat_lost_exp in *. destruct (ru_ws_vol_fn r t) as [vc ve]. cbn [snd] in HV.
      unfold drive, exp_inputs. cbn [in_exp wi_dV_dt wi_Q_dot in_pres wi_dens wi_du_dT_P wi_dd_dT_P]. rewrite HV, HQ. ring. }
    assert (KR : gi_vol (in_regen (Run_calculate_inputs r t (c t))) * gi_dd_dP_T (in_regen (Run_calculate_inputs r t (c t))) = k_r).
    { unfold Run_calculate_inputs. destruct (ru_ws_vol_fn r t) as [vc ve]. unfold regen_inputs, k_r.
      cbn [in_regen gi_vol gi_dd_dP_T]. rewrite Hf. cbn [IdealGas_Fluid fl_dd_dP_T]. rewrite dd_dP_T_eq. reflexivity. }
    rewrite Z in E2. rewrite KR in E4, K2.
    set (Kl := hi_vol (in_hhx (Run_calculate_inputs r t (c t))) * hi_dd_dP_T (in_hhx (Run_calculate_inputs r t (c t)))) in *.
    set (Kk := hi_vol (in_chx (Run_calculate_inputs r t (c t))) * hi_dd_dP_T (in_chx (Run_calculate_inputs r t (c t)))) in *.
    set (B := stiff (in_exp (Run_calculate_inputs r t (c t)))) in *. set (G := Ge (Run_calculate_inputs r t (c t)) (signs s)) in *.
    assert (L : so_m_dot_le s = B / G * so_dP_dt s).
    { apply (Rmult_eq_reg_l G); [|lra]. rewrite E2. field. lra. }
    assert (BG : 0 < B / G) by (apply Rdiv_lt_0_compat; assumption).
    assert (M : so_m_dot_rl s = (B / G + Kl) * so_dP_dt s) by lra.
    assert (N : so_m_dot_kr s = (B / G + Kl + k_r) * so_dP_dt s) by lra.
    split.
    - rewrite M, N, !Rabs_mult, (Rabs_pos_eq (B / G + Kl)), (Rabs_pos_eq (B / G + Kl + k_r)) by lra. ring.
    - intros P0 HT HQc. assert (M0 : so_m_dot_ck s = 0).
      { rewrite P0 in *. lra. }
      rewrite M0, P0, !Rmult_0_r in E1. rewrite Rminus_0_r in E1.
      destruct Hp as (_ & (_ & H2 & H3 & _) & _). clear - E1 H2 H3 HQc HT Hf HR.
      unfold Run_calculate_inputs, heat_lost_comp in *. destruct (ru_ws_vol_fn r t) as [vc ve].
      unfold drive, comp_inputs in *.
      cbn [fst in_comp wi_dV_dt wi_Q_dot in_pres wi_dens wi_du_dT_P wi_dd_dT_P] in *. rewrite HQc in E1. rewrite Hf in *.
      cbn [IdealGas_Fluid fl_dens fl_dd_dT_P fl_du_dT_P] in *. rewrite dd_dT_P_eq in E1.
      assert (PP : cd_P (c t) = ig_dens g (cd_T_c (c t)) (cd_P (c t)) * ig_gas_constant g * cd_T_c (c t)) by (apply dens_law; assumption).
      set (rho := ig_dens g (cd_T_c (c t)) (cd_P (c t))) in *. set (cv := ig_du_dT_P g (cd_T_c (c t)) (cd_P (c t))) in *.
      set (Rg := ig_gas_constant g) in *. set (T := cd_T_c (c t)) in *.
      assert (P0 : 0 < cd_P (c t)).
      { rewrite PP. apply Rmult_lt_0_compat; [apply Rmult_lt_0_compat|]; assumption. }
      assert (X : 0 < rho * rho * cv + cd_P (c t) * cd_P (c t) / (Rg * (T * T))).
      { apply Rplus_lt_0_compat.
        - apply Rmult_lt_0_compat; [apply Rmult_lt_0_compat|]; assumption.
        - apply Rdiv_lt_0_compat; [apply Rmult_lt_0_compat; assumption|].
          apply Rmult_lt_0_compat; [exact HR|apply Rmult_lt_0_compat; assumption]. }
      apply (Rmult_eq_reg_l (- (rho * rho * cv + cd_P (c t) * cd_P (c t) / (Rg * (T * T))))); [|lra].
      rewrite Rmult_0_r. rewrite E1 at 1. field. split; lra.
  Qed.

  Lemma never_falls (f f' : R -> R) a b : (forall t, a <= t <= b -> derivable_pt_lim f t (f' t) /\ 0 <= f' t) ->
    forall x y, a <= x -> x <= y -> y <= b -> f x <= f y.
  Proof.
    intros H x y Hx Hxy Hy. destruct (Rle_lt_or_eq_dec x y Hxy) as [L| ->]; [|lra].
    destruct (MVT_cor2 f f' x y L) as (u & E & Hu); [intros t Ht; apply H; lra|].
    assert (0 <= f' u * (y - x)) by (apply Rmult_le_pos; [apply H; lra|lra]). lra.
  Qed.
  (** a function that never falls and ends where it began does not move in between *)
  Lemma at_rest_between (f f' : R -> R) a b t : (forall t, a <= t <= b -> derivable_pt_lim f t (f' t) /\ 0 <= f' t) ->
    a < t < b -> f b <= f a -> f' t = 0.
  Proof.
    intros H Ht E. pose proof (never_falls f f' a b H) as M.
    assert (K : forall u, a <= u <= b -> f u = f a).
    { intros u Hu. pose proof (M a u ltac:(lra) ltac:(lra) ltac:(lra)). pose proof (M u b ltac:(lra) ltac:(lra) ltac:(lra)). lra. }
    apply (uniqueness_limite f t); [apply H; lra|].
    apply (RFluid.deriv_local (fun _ => f a) f t 0 (Rmin (t - a) (b - t))).
    - apply Rmin_pos; lra.
    - intros u Hu. symmetry. apply K. pose proof (Rmin_l (t - a) (b - t)). pose proof (Rmin_r (t - a) (b - t)).
      pose proof (Rle_abs (u - t)). pose proof (Rle_abs (- (u - t))) as Q. rewrite Rabs_Ropp in Q. lra.
    - apply deriv_const.
  Qed.

  Lemma sink a b heat gas_kr gas_rl Q : a <= b ->
    (forall t, a <= t <= b -> physical_trajectory D r c t /\ meters D r c heat gas_kr gas_rl t) ->
    spaces_return r c a b -> cd_P (c b) = cd_P (c a) -> rigid_expansion r a b -> 0 < ru_vol_regen r ->
    gas_rl b - gas_rl a < gas_kr b - gas_kr a /\
    (0 <= step_hot r Q <= step_cold r Q -> 0 < step_cold r Q -> heat b < heat a).
  Proof.
    intros Hab H HS HP (Qc & Qe & HV & t0 & Ht0 & HV0) Hvol. pose proof (gas_R_pos name) as HR. fold g in HR.
    assert (AT : forall t, a <= t <= b -> exists hint, solve D (Run_calculate_inputs r t (c t)) hint = Ok (sol_at r c t) /\
      physical (Run_calculate_inputs r t (c t)) /\ positive_temps r (c t) /\
      derivable_pt_lim gas_kr t (Rabs (so_m_dot_kr (sol_at r c t))) /\ derivable_pt_lim gas_rl t (Rabs (so_m_dot_rl (sol_at r c t)))).
    { intros t Ht. destruct (H t Ht) as (((HT & _) & Hp & _) & hint & s & Hs & HF & G1 & G2 & G3).
      pose proof (sol_is r D HD c t hint s Hp Hs) as E. rewrite <- E. exists hint. auto. }
    assert (KP : 0 < k_r).
    { destruct (AT a ltac:(lra)) as (_ & _ & _ & (_ & _ & _ & _ & Tr) & _). unfold k_r.
      apply Rmult_lt_0_compat; [exact Hvol|]. apply Rdiv_lt_0_compat; [lra|apply Rmult_lt_0_compat; assumption]. }
    set (f := fun t => gas_kr t - gas_rl t). set (f' := fun t => k_r * Rabs (so_dP_dt (sol_at r c t))).
    assert (Hff : forall t, a <= t <= b -> derivable_pt_lim f t (f' t) /\ 0 <= f' t).
    { intros t Ht. destruct (AT t Ht) as (hint & Hs & Hp & _ & G2 & G3). split.
      - destruct (same_direction t hint _ Hp Hs (HV t Ht) Qe) as (E & _). unfold f, f'. eapply deriv_eq.
        + apply deriv_minus; [exact G2|exact G3].
        + lra.
      - unfold f'. apply Rmult_le_pos; [lra|apply Rabs_pos]. }
    assert (G : f a < f b).
    { destruct (Rlt_le_dec (f a) (f b)) as [L|L]; [exact L|exfalso]. apply HV0.
      pose proof (at_rest_between f f' a b t0 Hff Ht0 L) as E. unfold f' in E.
      destruct (AT t0 ltac:(lra)) as (hint & Hs & Hp & (Tc & _) & _).
      refine (proj2 (same_direction t0 hint _ Hp Hs (HV t0 ltac:(lra)) Qe) _ Tc Qc).
      apply Rmult_integral in E. destruct E as [E|E]; [lra|].
      destruct (Req_dec (so_dP_dt (sol_at r c t0)) 0) as [Z|Z]; [exact Z|]. apply Rabs_no_R0 in Z. lra. }
    unfold f in G. split; [lra|]. intros (S1 & S2) S3.
    assert (Hn : ru_enth_norm r <> 0).
    { destruct (AT a ltac:(lra)) as (_ & _ & (Hn & _) & _). unfold Run_calculate_inputs in Hn.
      destruct (ru_ws_vol_fn r a). exact Hn. }
    assert (M : gas_rl a <= gas_rl b).
    { apply (never_falls gas_rl (fun t => Rabs (so_m_dot_rl (sol_at r c t))) a b); try lra.
      intros t Ht. destruct (AT t Ht) as (_ & _ & _ & _ & _ & G3). split; [exact G3|apply Rabs_pos]. }
    pose proof (regen_balance name r Hf D HD c a b heat gas_kr gas_rl Q Hn Hab) as E.
    specialize (E (fun t Ht => conj (proj1 (proj1 (proj1 (H t Ht)))) (conj (proj1 (proj2 (proj1 (proj1 (H t Ht))))) (proj2 (H t Ht)))) HS HP).
    assert (A1 : step_hot r Q * (gas_rl b - gas_rl a) <= step_cold r Q * (gas_rl b - gas_rl a)) by (apply Rmult_le_compat_r; lra).
    assert (A2 : step_cold r Q * (gas_rl b - gas_rl a) < step_cold r Q * (gas_kr b - gas_kr a)) by (apply Rmult_lt_compat_l; lra).
    lra.
  Qed.
End Rigid.

(** ** Temperatures of a run *)
Lemma run_ends (E : Env R) (U : Decomp R) (comps : Components R) (fl : Fluid R) (inputs : RunInputs R)
    (settings : RunSettings R) (eng : Engine R) :
  Engine_run E U comps fl inputs settings = Ret (Ok eng) ->
  let T := s_temp (en_state eng) in rt_cold (te_regen T) - te_chx T = te_hhx T - rt_hot (te_regen T).
Proof.
  intros H. cbv zeta. pose proof (run_boundary E U comps fl inputs settings eng H) as (_ & _ & _ & _ & HI).
  assert (Z : n_le (@n0 R R_ops) n0 = true) by (cbn; destruct (Rle_dec 0 0); [reflexivity|lra]).
  assert (K : forall a b d e f s, temperatures_follow a b d e f n0 s -> rt_cold (te_regen s) - te_chx s = te_hhx s - rt_hot (te_regen s)).
  { intros a b d e f s (_ & _ & _ & _ & E1 & E2 & _). rewrite Z in E1, E2. rewrite E1, E2.
    cbn [n_add n_sub R_ops n0]. change (@n0 R R_ops) with 0. ring. }
  destruct (run_lag E U comps fl inputs settings eng H) as [(a & b & d & _ & _ & _ & HT & _)|(s & v & _ & _ & HR & _ & _ & HE)].
  - exact (K _ _ _ _ _ _ HT).
  - destruct HR as (R & a & b & d & _ & _ & _ & _ & _ & _ & _ & HT). rewrite <- HE, HI in HT. exact (K _ _ _ _ _ _ HT).
Qed.
Lemma helium_steps r P : ru_fluid r = IdealGas_Fluid he ->
  step_cold r P = cp_he * (rt_cold (te_regen (ru_temp r)) - te_chx (ru_temp r)) /\
  step_hot r P = cp_he * (te_hhx (ru_temp r) - rt_hot (te_regen (ru_temp r))).
Proof.
  intros Hf. unfold step_cold, step_hot. rewrite Hf. cbn [IdealGas_Fluid fl_enth]. rewrite !he_h. unfold cp_he. split; lra.
Qed.

(** ** An engine *)
Definition rg_drive : SinusoidalDrive R :=
  mkSin 60 90 (mkSinGeo 0.0001 0.0001) (mkSinGeo 0.0001 0) (mkTR 1 1) (mkPar (mkPP 0 10 0) (mkPP 0 10 0)).
Definition rg_comps : Components R :=
  mkComponents (SinusoidalDrive_ws rg_drive) (co_chx case_comps) (co_regen case_comps) (co_hhx case_comps).
Definition rg_inputs : RunInputs R := mkRunInputs 1000000 300 900.
Definition rg_temps : Temperatures R := Temperatures_from_approach 300 900 (mkApproach 10 10 10) 0.
Definition rg_state : State R :=
  mkState (IdealGas_Fluid he) (mkPressure 1000000 1000000 1000000 1000000) rg_temps (mkMassFlows 0 0 0) (mkHeatFlows 0 0 0) 0.
Definition rg_run : Run R :=
  mkRun case_norm (IdealGas_Fluid he) (1 / 60) (s_pres rg_state) rg_temps 0.00004 0.0001 0.0001
    (sd_parasitics rg_drive) (sin_volumes rg_drive).

Lemma rg_hint : State_new_hint rg_comps (IdealGas_Fluid he) rg_inputs = Ret rg_state.
Proof. reflexivity. Qed.
Lemma rg_new : Run_new rg_comps rg_state = Ret rg_run.
Proof. reflexivity. Qed.
Lemma rg_driven : driven (co_ws rg_comps).
Proof. left. exists rg_drive. split; [reflexivity|]. cbn. lra. Qed.
Lemma rg_regen : rt_cold (te_regen rg_temps) = 320 /\ rt_hot (te_regen rg_temps) = 880 /\ 0 < rt_avg (te_regen rg_temps) /\
  te_chx rg_temps = 310 /\ te_hhx rg_temps = 890.
Proof.
  assert (Z : n_le (@n0 R R_ops) 0 = true) by (cbn; destruct (Rle_dec 0 0); [reflexivity|lra]).
  unfold rg_temps, Temperatures_from_approach, regen_temp. rewrite Z.
  cbn [te_regen rt_cold rt_hot rt_avg te_chx te_hhx ap_chx ap_hhx ap_regen]. rewrite R_nhalf. cbn [n_add n_sub n_mul n_div n_ln R_ops].
  split; [lra|]. split; [lra|]. split; [|split; lra].
  apply Rdiv_lt_0_compat; [lra|].
  assert (L : forall x, 1 < x -> 0 < ln x) by (intros x Hx; rewrite <- ln_1; apply ln_increasing; lra). apply L.
  apply (Rmult_lt_reg_r (300 + 10 + / 2 * 10)); [lra|]. unfold Rdiv. rewrite Rmult_assoc, Rinv_l by lra. lra.
Qed.
Lemma rg_volumes T : between (V_comp rg_run) 0.0001 0.0002 0 T /\ between (V_exp rg_run) 0.0001 0.0002 0 T.
Proof.
  split; (split; [lra|]); intros t _; destruct (sin_bounds rg_drive t) as [H1 H2]; cbn in *; try lra;
    unfold V_comp, V_exp; change (ru_ws_vol_fn rg_run t) with (sin_volumes rg_drive t); lra.
Qed.
Lemma rg_warm T : 250 <= T -> warm T.
Proof. unfold warm, R_he, T_ref, cp_he. lra. Qed.
Lemma rg_steady P0 : 0 < P0 -> exists c, cd_P (c 0) = P0 /\ steady_cycle gauss rg_run c.
Proof.
  destruct rg_regen as (_ & _ & A & E1 & E2).
  intros HP. destruct (steady rg_comps rg_state rg_run gauss P0 0.0001 0.0002 0.0001 0.0002) as (c & H1 & H2 & _);
    try reflexivity; try assumption.
  - exact rg_driven.
  - cbn. lra.
  - exact gauss_sound.
  - exact gauss_complete.
  - intros T. apply rg_volumes.
  - intros T. apply rg_volumes.
  - unfold sane_exchangers. change (ru_temp rg_run) with rg_temps. rewrite E1, E2.
    split; [apply rg_warm; lra|]. split; [apply rg_warm; lra|]. split; [exact A|]. cbn. repeat split; lra.
  - change (ru_temp rg_run) with rg_temps. rewrite E1. apply gl_expanded. lra.
  - change (ru_temp rg_run) with rg_temps. rewrite E2. apply gl_expanded. lra.
  - eauto.
Qed.
Lemma rg_rigid : rigid_expansion rg_run 0 (ru_period rg_run).
Proof.
  split; [reflexivity|]. split; [reflexivity|]. split.
  - intros t _. change (ru_ws_vol_fn rg_run t) with (sin_volumes rg_drive t). unfold sin_volumes.
    cbn [snd v_deriv rg_drive sd_exp_geometry sg_swept_volume]. cbn [n_mul n_opp R_ops]. ring.
  - exists (1 / 240). split; [cbn; lra|]. change (ru_ws_vol_fn rg_run (1 / 240)) with (sin_volumes rg_drive (1 / 240)).
    unfold sin_volumes. cbn [fst v_deriv rg_drive sd_comp_geometry sg_swept_volume sd_frequency]. rewrite R_nhalf.
    cbn [n_mul n_opp n_sin n_pi n_lit R_ops].
    replace (R_lit 2 0 * PI * 60 * (1 / 240)) with (PI / 2) by (unfold R_lit; cbn; lra).
    rewrite sin_PI2. unfold R_lit. cbn. pose proof PI_RGT_0. lra.
Qed.
Lemma rg_loses : exists c heat gas_kr gas_rl, steady_cycle gauss rg_run c /\
  (forall t, 0 <= t <= ru_period rg_run -> meters gauss rg_run c heat gas_kr gas_rl t) /\ heat (ru_period rg_run) < heat 0.
Proof.
  destruct (rg_steady 1000000 ltac:(lra)) as (c & _ & HS & HP). assert (T0 : 0 <= ru_period rg_run) by (cbn; lra).
  destruct (meters_exist Helium rg_run eq_refl gauss gauss_sound c 0 (ru_period rg_run) T0) as (heat & gk & gl & HM).
  { intros t Ht. apply HS. lra. }
  exists c, heat, gk, gl. split; [split; assumption|]. split; [exact HM|].
  destruct rg_regen as (A1 & A2 & _ & E1 & E2). destruct (helium_steps rg_run 0 eq_refl) as (S1 & S2).
  change (ru_temp rg_run) with rg_temps in S1, S2. rewrite A1, E1 in S1. rewrite A2, E2 in S2.
  assert (EC : c (ru_period rg_run) = c 0) by (rewrite <- (HP 0 (Rle_refl 0)), Rplus_0_l; reflexivity).
  pose proof (driven_run rg_comps rg_state rg_run rg_driven rg_new) as DR.
  apply (sink Helium rg_run eq_refl gauss gauss_sound c 0 (ru_period rg_run) heat gk gl 0 T0).
  - intros t Ht. split; [apply HS; lra|apply HM, Ht].
  - assert (V : ru_ws_vol_fn rg_run (ru_period rg_run) = ru_ws_vol_fn rg_run 0).
    { destruct DR as (_ & RP & _). rewrite <- (RP 0), Rplus_0_l. reflexivity. }
    unfold spaces_return. rewrite V, EC. auto.
  - rewrite EC. reflexivity.
  - exact rg_rigid.
  - cbn. lra.
  - rewrite S1, S2. unfold cp_he. lra.
  - rewrite S1. unfold cp_he. lra.
Qed.
