(** * Runs of an engine that beats Carnot's bound *)
From Coq Require Import ZArith NArith List Reals Lra Lia Psatz.
From Verif Require Import Num ModelTypes ModelWs ModelHx ModelStateEq ModelEngine ModelApi RNum Spec SpecR SpecGas
  SpecKin SpecTraj SpecLaws SpecUnique SpecExist SpecDepend SpecSeries SpecQuad SpecReport SpecSpaces SpecBounds SpecSteady SpecContract
  SpecSample SpecGlobal SpecSearch SpecConverge SpecAccurate SpecSolver SpecRegen SpecCarnot Fixture PolySolve RSolve RGauss RFluid
  RKin RMass RCase RLaws RClose RUnique RPeriod RSpaces RBounds RSteady RContract RSettle RSettleCase RSearch RSearchCase RConverge RAccurate RAccurateCase RRegen RRegenCase RCarnot RBook RCarnotCase.
Import ListNotations.
Local Open Scope R_scope.

(** the engine with walls of thermal resistance [w], which act on reported heats only *)
Definition cw_drive (w : R) : SinusoidalDrive R :=
  mkSin 60 90 (mkSinGeo 0.000001 0.000000000004) (mkSinGeo 0.000001 0.000000000004) (mkTR w w) (mkPar (mkPP 0 0 0) (mkPP 0 0 0)).
Definition cw_comps (w : R) : Components R :=
  mkComponents (SinusoidalDrive_ws (cw_drive w))
    (chx_FixedApproach (mkFA 0 1 0 (mkPP 0 0 0)))
    (regen_FixedApproach (mkFA 0 1 0 (mkPP 0 0 0)))
    (hhx_FixedApproach (mkFA 0 1 0 (mkPP 0 0 0))).
Definition cw_replies (w : R) : Replies R :=
  mkReplies 60 (sin_volumes (cw_drive w)) (mkPar (mkPP 0 0 0) (mkPP 0 0 0)) (mkTR w w) 0 0 0 (mkPP 0 0 0) (mkPP 0 0 0) (mkPP 0 0 0).
Lemma cw_hint w : State_new_hint (cw_comps w) (IdealGas_Fluid he) cn_inputs = Ret cn_state.
Proof. reflexivity. Qed.
Lemma cw_new w : Run_new (cw_comps w) cn_state = Ret cn_run.
Proof. reflexivity. Qed.
Lemma cw_driven w : driven (co_ws (cw_comps w)).
Proof. left. exists (cw_drive w). split; [reflexivity|]. cbn. lra. Qed.
Lemma cw_replied w vals : replies (mkEngine (cw_comps w) cn_state vals) (cw_replies w).
Proof. unfold replies. cbv zeta. repeat split; reflexivity. Qed.

(** ** It settles *)
Definition cn_V : R := 0.000001000004.
Definition cn_v : R := 0.000000001.
Lemma cn_moderate : moderate cn_run cn_V cn_v.
Proof.
  intros t Ht. destruct (cn_volumes t) as [(_ & C) (_ & E)]. specialize (C t ltac:(lra)). specialize (E t ltac:(lra)). unfold cn_V, cn_v.
  split; [lra|]. split; [lra|]. change (ru_ws_vol_fn cn_run t) with (sin_volumes cn_drive t). rewrite sin_comp_deriv, sin_exp_deriv.
  cbn [cn_drive sd_comp_geometry sd_exp_geometry sg_swept_volume sd_frequency sd_phase_angle].
  assert (Q : forall x, Rabs (- / 2 * 0.000000000004 * sin x * (2 * PI * 60)) <= 0.000000001).
  { intros x. replace (- / 2 * 0.000000000004 * sin x * (2 * PI * 60)) with (0.00000000024 * (PI * - sin x)) by lra.
    pose proof PI_4. pose proof PI_RGT_0. destruct (SIN_bound x) as (S1 & S2).
    apply Rabs_le. assert (PI * - sin x <= PI * 1) by (apply Rmult_le_compat_l; lra).
    assert (PI * -1 <= PI * - sin x) by (apply Rmult_le_compat_l; lra). lra. }
  split; apply Q.
Qed.
Lemma cn_breathes : breathes (V_comp cn_run) (1 / 60) cn_V 0.999997 1 /\ breathes (V_exp cn_run) (1 / 60) cn_V 0.999997 1.
Proof.
  assert (C : forall t, V_comp cn_run t = 0.000001 + / 2 * 0.000000000004 * (1 + cos (2 * PI * 60 * t))).
  { intros t. unfold V_comp. change (ru_ws_vol_fn cn_run t) with (sin_volumes cn_drive t). rewrite sin_comp_value. reflexivity. }
  assert (X : forall t, V_exp cn_run t = 0.000001 + / 2 * 0.000000000004 * (1 + cos (2 * PI * 60 * t + 90 * PI / 180))).
  { intros t. unfold V_exp. change (ru_ws_vol_fn cn_run t) with (sin_volumes cn_drive t). rewrite sin_exp_value. reflexivity. }
  unfold cn_V. split.
  - exists (/ 120), (1 / 60). rewrite !C. replace (2 * PI * 60 * / 120) with PI by lra. replace (2 * PI * 60 * (1 / 60)) with (2 * PI) by lra.
    rewrite cos_PI, cos_2PI. lra.
  - exists (/ 240), (/ 80). rewrite !X. replace (2 * PI * 60 * / 240 + 90 * PI / 180) with PI by lra.
    replace (2 * PI * 60 * / 80 + 90 * PI / 180) with (2 * PI) by lra. rewrite cos_PI, cos_2PI. lra.
Qed.
Lemma cn_numbers : 0 <= through_pressure cn_run 200 cn_V cn_v <= 0.000000001 /\
  0 <= exp (pressure_rate cn_run 200 cn_v * ru_period cn_run) <= 1.000000001.
Proof.
  pose proof nil_value as N. pose proof cn_fixed as FX. unfold through_pressure, volume_flow, steepness, pressure_rate, cn_V, cn_v.
  change (ru_period cn_run) with (1 / 60). set (g := 200 - T_nil). assert (G : 100 <= g <= 100.01) by (unfold g; lra).
  set (fx := fixed_ratio cn_run) in *.
  assert (I : 0 < / g <= 0.01).
  { split; [apply Rinv_0_lt_compat; lra|]. replace 0.01 with (/ 100) by lra. apply Rinv_le_contravar; lra. }
  assert (J : 0 < / fx <= 250).
  { split; [apply Rinv_0_lt_compat; lra|]. replace 250 with (/ 0.004) by lra. apply Rinv_le_contravar; lra. }
  set (rate := 2 * 0.000000001 / (g * fx)). assert (RT : 0 <= rate <= 0.000000005).
  { assert (E : rate = 0.000000002 * (/ g * / fx)) by (unfold rate, Rdiv; rewrite Rinv_mult; lra).
    assert (0 <= / g * / fx) by (apply Rmult_le_pos; lra). assert (/ g * / fx <= 0.01 * 250) by (apply Rmult_le_compat; lra). lra. }
  assert (A : cv_he / cp_he <= 0.6001 /\ 0 <= cv_he / cp_he) by (unfold cv_he, cp_he, R_he; lra). set (a := cv_he / cp_he) in *.
  assert (E : 0 <= exp (rate * (1 / 60)) <= 1.000000001).
  { split; [left; apply exp_pos|]. apply Rle_trans with (1 := small_exp (rate * (1 / 60)) ltac:(lra) ltac:(lra)).
    replace 1.000000001 with (/ (/ 1.000000001)) by lra. apply Rinv_le_contravar; lra. }
  split; [|exact E]. set (e := exp _) in *. clearbody e.
  assert (S : 0 <= (200 / g) ^ 2 <= 4).
  { split; [apply pow2_ge_0|]. replace 4 with (2 ^ 2) by lra. apply pow_incr. unfold Rdiv. lra. }
  set (s := (200 / g) ^ 2) in *. clearbody s. clearbody rate.
  assert (F : 0 <= a * 0.000001000004 * rate + 0.000000001 <= 0.0000000011).
  { assert (0 <= a * rate) by (apply Rmult_le_pos; lra). assert (a * rate <= 0.6001 * 0.000000005) by (apply Rmult_le_compat; lra). lra. }
  set (v := a * 0.000001000004 * rate + 0.000000001) in *. clearbody v.
  assert (X : 0 <= / 200 + a / g <= 0.0111).
  { assert (0 <= a * / g) by (apply Rmult_le_pos; lra). assert (a * / g <= 0.6001 * 0.01) by (apply Rmult_le_compat; lra). unfold Rdiv. lra. }
  set (x := / 200 + a / g) in *. clearbody x.
  assert (SV : 0 <= s * v <= 4 * 0.0000000011) by (split; [apply Rmult_le_pos; lra|apply Rmult_le_compat; lra]).
  assert (SJ : 0 <= s * v * / fx <= 4 * 0.0000000011 * 250) by (split; [apply Rmult_le_pos; lra|apply Rmult_le_compat; lra]).
  assert (XS : 0 <= x * (s * v * / fx) <= 0.0111 * (4 * 0.0000000011 * 250)) by (split; [apply Rmult_le_pos; lra|apply Rmult_le_compat; lra]).
  assert (XE : 0 <= x * (s * v * / fx) * e <= 0.0111 * (4 * 0.0000000011 * 250) * 1.000000001) by (split; [apply Rmult_le_pos; lra|apply Rmult_le_compat; lra]).
  replace (2 * x * (s * v / fx) * (1 / 60) * e) with (x * (s * v * / fx) * e * (2 / 60)) by (unfold Rdiv; ring). lra.
Qed.
Lemma cn_settles : settles cn_run 200 cn_V cn_v 0.999997 1.
Proof.
  pose proof nil_value. pose proof cn_fixed. destruct cn_regen as (_ & _ & _ & E1 & E2). unfold settles. change (ru_temp cn_run) with cn_temps. rewrite E1, E2.
  split; [reflexivity|]. split; [reflexivity|]. split; [reflexivity|].
  split; [cbn; lra|]. split; [lra|]. split; [lra|]. split; [lra|]. split; [lra|]. split; [exact cn_moderate|].
  split; [apply cn_breathes|]. split; [apply cn_breathes|]. pose proof cn_numbers. lra.
Qed.
Lemma cn_left_over : left_over cn_run 200 cn_V cn_v 0.999997 1 < 1.
Proof.
  destruct cn_numbers as (T & E). unfold left_over. set (e := exp _) in *. set (b := through_pressure _ _ _ _) in *. clearbody e b.
  assert (B : b / (1 - b) <= 0.000000002).
  { apply (Rmult_le_reg_r (1 - b)); [lra|]. replace (b / (1 - b) * (1 - b)) with b by (field; lra). lra. }
  assert (e * (0.999997 + 1 * (b / (1 - b))) <= 1.000000001 * (0.999997 + 1 * 0.000000002)).
  { apply Rmult_le_compat; try lra. assert (0 <= b / (1 - b)) by (apply Rle_mult_inv_pos; lra). lra. }
  lra.
Qed.
Definition cn_lo : R := 0.000000999.
Definition cn_hi : R := 0.000001001.
Lemma cn_ok : 0 < cn_lo < 0.000001 /\ 0.000001000004 < cn_hi.
Proof. unfold cn_lo, cn_hi. lra. Qed.
Lemma cn_expanded : 200 < expanded cn_lo cn_hi (te_chx (ru_temp cn_run)) /\ 200 < expanded cn_lo cn_hi (te_hhx (ru_temp cn_run)).
Proof.
  destruct cn_regen as (_ & _ & _ & E1 & E2). change (ru_temp cn_run) with cn_temps. rewrite E1, E2. unfold cn_lo, cn_hi.
  pose proof (narrow_expanded 0.000000999 0.000001001 0.99 300 ltac:(lra) ltac:(lra) ltac:(lra) ltac:(lra) ltac:(lra)).
  pose proof (narrow_expanded 0.000000999 0.000001001 0.99 900 ltac:(lra) ltac:(lra) ltac:(lra) ltac:(lra) ltac:(lra)). lra.
Qed.
Lemma cn_sane : sane_exchangers cn_run.
Proof.
  destruct cn_regen as (_ & _ & A & E1 & E2). unfold sane_exchangers. change (ru_temp cn_run) with cn_temps. rewrite E1, E2.
  split; [apply rg_warm; lra|]. split; [apply rg_warm; lra|]. split; [exact A|]. cbn. repeat split; lra.
Qed.
Lemma cn_norm : te_sink (s_temp cn_state) + te_source (s_temp cn_state) <> 500.
Proof. cbn. lra. Qed.

(** ** What a report on its steady cycle says *)
Lemma same_total (F G f : R -> R) a b : a <= b ->
  (forall t, a <= t <= b -> derivable_pt_lim F t (f t)) -> (forall t, a <= t <= b -> derivable_pt_lim G t (f t)) -> F b - F a = G b - G a.
Proof.
  intros Hab HF HG. apply Rle_antisym; [apply (le_from_derivs F f G f)|apply (le_from_derivs G f F f)]; try assumption; intros; apply Rle_refl.
Qed.
Section Totals.
  Variables (c : R -> Conditions R) (k : Book) (s : R -> Solution R) (X : Totals) (w : R).
  Hypothesis PT : forall t, 0 <= t <= 1 / 60 -> physical_trajectory gauss cn_run c t.
  Hypothesis HB : forall t, 0 <= t <= 1 / 60 -> books gauss cn_run c k t.
  Hypothesis HR : forall t, 0 <= t <= 1 / 60 -> 200 <= cd_T_c (c t) <= 1400 /\ 200 <= cd_T_e (c t) <= 1400.
  Hypothesis Hs : forall t, 0 <= t <= 1 / 60 -> solved_at gauss cn_run t (c t) (s t).
  Hypothesis HX : totals (IdealGas_Fluid he) cn_temps (cw_replies w) c s (1 / 60) X.
  Hypothesis Hw : 0 < w.
  Lemma cw_heat : to_Q_l X = total (bk_taken k) 0 (1 / 60).
  Proof.
    destruct HX as (_ & _ & _ & _ & (F & AF & ->) & _). unfold total.
    apply (same_total F (bk_taken k) (fun t => so_Q_dot_l (s t))); [lra|exact AF|].
    intros t Ht. destruct (HB t Ht) as (hint & s' & E & _ & H & _). destruct (Hs t Ht) as (hint' & E').
    destruct (PT t Ht) as (_ & Hp & _).
    rewrite (sol_is cn_run gauss gauss_sound c t hint s' Hp E) in H. rewrite (sol_is cn_run gauss gauss_sound c t hint' (s t) Hp E'). exact H.
  Qed.
  Lemma cw_work : to_work X = total (bk_work_c k) 0 (1 / 60) + total (bk_work_e k) 0 (1 / 60).
  Proof.
    destruct HX as ((F & AF & ->) & _). unfold total.
    replace (bk_work_c k (1 / 60) - bk_work_c k 0 + (bk_work_e k (1 / 60) - bk_work_e k 0))
      with ((fun t => bk_work_c k t + bk_work_e k t) (1 / 60) - (fun t => bk_work_c k t + bk_work_e k t) 0) by (cbv beta; lra).
    apply (same_total F (fun t => bk_work_c k t + bk_work_e k t) (work_rate (IdealGas_Fluid he) cn_temps (cw_replies w) c s)); [lra|exact AF|].
    intros t Ht. destruct (HB t Ht) as (hint & s' & E & _ & _ & _ & _ & _ & _ & H1 & H2 & _).
    eapply deriv_eq; [apply deriv_plus; [exact H1|exact H2]|]. unfold work_rate, drop, drop_in, dVc_of, dVe_of.
    cbn [rp_R_chx rp_R_regen rp_R_hhx cw_replies rp_vols].
    change (ru_ws_vol_fn cn_run t) with (sin_volumes (cw_drive w) t). lra.
  Qed.
  Lemma cw_wall : Rabs (to_wall_e X) <= 900 / 60 / w.
  Proof.
    destruct HX as (_ & _ & _ & _ & _ & _ & (F & AF & ->)).
    assert (W : 0 < / w) by (apply Rinv_0_lt_compat, Hw). destruct cn_regen as (_ & _ & _ & _ & E2).
    assert (B : forall t, 0 <= t <= 1 / 60 -> - (900 / w) <= wall_exp_rate cn_temps (cw_replies w) c t <= 900 / w).
    { intros t Ht. destruct (HR t Ht) as (_ & H). unfold wall_exp_rate, Rdiv. rewrite E2. cbn [rp_res cw_replies tr_exp].
      assert (0 <= (cd_T_e (c t)) * / w) by (apply Rmult_le_pos; lra). assert (cd_T_e (c t) * / w <= 1400 * / w) by (apply Rmult_le_compat_r; lra). lra. }
    assert (L : forall u t, derivable_pt_lim (fun x => u * x) t u).
    { intros u t. eapply deriv_eq; [apply deriv_mult; [apply deriv_const|apply derivable_pt_lim_id]|]. cbv beta. ring. }
    pose proof (le_from_derivs F (wall_exp_rate cn_temps (cw_replies w) c) (fun x => 900 / w * x) (fun _ => 900 / w) 0 (1 / 60)
      ltac:(lra) AF (fun t _ => L _ t) (fun t Ht => proj2 (B t Ht))) as U.
    pose proof (le_from_derivs (fun x => - (900 / w) * x) (fun _ => - (900 / w)) F (wall_exp_rate cn_temps (cw_replies w) c) 0 (1 / 60)
      ltac:(lra) (fun t _ => L _ t) AF (fun t Ht => proj1 (B t Ht))) as V.
    cbv beta in U, V. apply Rabs_le. unfold Rdiv in *. lra.
  Qed.
End Totals.

(** the steady cycle at the pressure of the inputs *)
Lemma cn_one : exists c k, cd_P (c 0) = 1000000 /\ steady_cycle gauss cn_run c /\
  (forall t, 0 <= t <= 1 / 60 -> 200 <= cd_T_c (c t) <= 1400 /\ 200 <= cd_T_e (c t) <= 1400) /\
  (forall t, 0 <= t <= 1 / 60 -> books gauss cn_run c k t) /\ 0 < total (bk_taken k) 0 (1 / 60) /\
  0.7 * total (bk_taken k) 0 (1 / 60) < total (bk_work_c k) 0 (1 / 60) + total (bk_work_e k) 0 (1 / 60).
Proof.
  destruct (cn_steady 1000000 ltac:(lra)) as (c & E0 & HS & HR).
  assert (PT : forall t, 0 <= t <= 1 / 60 -> physical_trajectory gauss cn_run c t) by (intros t Ht; apply HS; lra).
  destruct (books_exist cn_run eq_refl gauss gauss_sound c 0 (1 / 60) ltac:(lra) PT) as (k & HB).
  exists c, k. split; [exact E0|]. split; [exact HS|]. split; [exact HR|]. split; [exact HB|].
  pose proof (cycle_heats cn_run eq_refl gauss gauss_sound c k 0 (1 / 60) 0 ltac:(lra) (fun t Ht => conj (PT t Ht) (HB t Ht))
    (cn_spaces_return c HS)) as CH.
  rewrite (cn_returns c HS) in CH. destruct (CH eq_refl) as (H1 & H2 & H3). clear CH.
  destruct (helium_steps cn_run 0 eq_refl) as (S1 & S2). change (ru_temp cn_run) with cn_temps in S1, S2.
  destruct cn_regen as (R1 & R2 & _ & R4 & R5). rewrite R1, R4 in S1. rewrite R2, R5 in S2.
  change (heat_lost_exp cn_run) with 0 in H1. rewrite S2 in H1.
  pose proof (cn_work c HS HR k HB 0 1 ltac:(lra) ltac:(lra) ltac:(lra)) as X1.
  pose proof (cn_work c HS HR k HB 1 0.3 ltac:(lra) ltac:(lra) ltac:(lra)) as X2. lra.
Qed.
(** and no other *)
Lemma cn_only c c' : steady_cycle gauss cn_run c -> steady_cycle gauss cn_run c' -> cd_P (c 0) = 1000000 -> cd_P (c' 0) = 1000000 ->
  kept_warm 200 c 0 (1 / 60) -> kept_warm 200 c' 0 (1 / 60) -> forall t, 0 <= t -> c' t = c t.
Proof.
  intros H1 H2 P1 P2 W1 W2 t Ht.
  rewrite (one_cycle gauss cn_run 200 cn_V cn_v 0.999997 1 c c' cn_settles cn_left_over gauss_sound gauss_complete H1 H2 W1 W2 t Ht).
  rewrite P1, P2. unfold charged. destruct (c t) as [P Tc Te]. cbn [cd_P cd_T_c cd_T_e]. f_equal. field.
Qed.

(** ** Its runs *)
Lemma archimed_nat x : exists m, x <= INR m.
Proof.
  exists (Z.to_nat (up x)). destruct (archimed x) as (H & _). destruct (Z_lt_le_dec (up x) 0) as [L|L].
  - apply IZR_lt in L. pose proof (pos_INR (Z.to_nat (up x))). lra.
  - rewrite INR_IZR_INZ, Z2Nat.id by exact L. lra.
Qed.
Lemma Rabs_inside x e : Rabs x <= e -> - e <= x <= e.
Proof. intros H. pose proof (Rle_abs x). pose proof (Rle_abs (- x)) as M. rewrite Rabs_Ropp in M. lra. Qed.
Lemma efficiency_is (en : Engine R) rep : RunResults_from en = Ret rep ->
  rre_mechanical (rr_efficiency rep) = rrp_net (rr_power rep) / rrh_input (rr_heat_flow rep).
Proof.
  intros HR. unfold RunResults_from in HR. destruct (Performance_from en) as [p|] eqn:HP; cbn [obind] in HR; [|discriminate]. injection HR as <-.
  cbn [rr_efficiency rre_mechanical rr_power rrp_net rr_heat_flow rrh_input].
  unfold Performance_from in HP. repeat (match type of HP with obind ?o _ = _ => destruct o; cbn [obind] in HP; [|discriminate] end). injection HP as <-. reflexivity.
Qed.
(** the report promises more than Carnot's bound *)
Definition too_good (rep : RunResults R) : Prop :=
  0 < rrh_input (rr_heat_flow rep) /\ 0.7 < rre_mechanical (rr_efficiency rep).
Lemma cw_good : exists W, 0 < W /\ forall w, W <= w -> exists eps, 0 < eps /\ forall c s X en rep,
  steady_cycle gauss cn_run c -> warm_trajectory gauss cn_run 200 c -> cd_P (c 0) = 1000000 ->
  (forall t, 0 <= t <= 1 / 60 -> solved_at gauss cn_run t (c t) (s t)) -> totals (IdealGas_Fluid he) cn_temps (cw_replies w) c s (1 / 60) X ->
  RunResults_from en = Ret rep -> report_within (cw_replies w) X eps rep -> too_good rep.
Proof.
  destruct cn_one as (c0 & k & P0 & HS0 & HR0 & HB0 & H0 & WK).
  set (h := total (bk_taken k) 0 (1 / 60)) in *. set (wk := total (bk_work_c k) 0 (1 / 60) + total (bk_work_e k) 0 (1 / 60)) in *.
  set (gap := wk - 0.7 * h). assert (G0 : 0 < gap) by (unfold gap; lra).
  set (m := Rmin h gap). assert (M0 : 0 < m) by (apply Rmin_glb_lt; assumption). assert (M1 : m <= h) by apply Rmin_l. assert (M2 : m <= gap) by apply Rmin_r.
  exists (60 / m). split; [apply Rdiv_lt_0_compat; lra|]. intros w Hw.
  assert (W0 : 0 < w) by (apply Rlt_le_trans with (2 := Hw); apply Rdiv_lt_0_compat; lra).
  assert (WM : 15 / w <= m / 4).
  { apply (Rmult_le_reg_r w); [exact W0|]. replace (15 / w * w) with 15 by (field; lra).
    apply Rmult_le_compat_r with (r := m) in Hw; [|lra]. replace (60 / m * m) with 60 in Hw by (field; lra). lra. }
  exists m. split; [exact M0|]. intros c s X en rep HS WT PC Hs HX HRep HW.
  assert (KW : kept_warm 200 c 0 (1 / 60)) by (intros t Ht; destruct (WT t (proj1 Ht)) as (_ & U); exact U).
  assert (KW0 : kept_warm 200 c0 0 (1 / 60)) by (intros t Ht; destruct (HR0 t Ht); lra).
  pose proof (cn_only c0 c HS0 HS P0 PC KW0 KW) as EC.
  assert (HR : forall t, 0 <= t <= 1 / 60 -> 200 <= cd_T_c (c t) <= 1400 /\ 200 <= cd_T_e (c t) <= 1400) by (intros t Ht; rewrite (EC t (proj1 Ht)); apply HR0, Ht).
  assert (Hs0 : forall t, 0 <= t <= 1 / 60 -> solved_at gauss cn_run t (c0 t) (s t)) by (intros t Ht; rewrite <- (EC t (proj1 Ht)); apply Hs, Ht).
  assert (HX0 : totals (IdealGas_Fluid he) cn_temps (cw_replies w) c0 s (1 / 60) X).
  { assert (T : forall f g I, (forall t, 0 <= t <= 1 / 60 -> f t = g t) -> integral f 0 (1 / 60) I -> integral g 0 (1 / 60) I).
    { intros f g I E (F & AF & EI). exists F. split; [|exact EI]. intros t Ht. rewrite <- (E t Ht). apply AF, Ht. }
    destruct HX as (X1 & X2 & X3 & X4 & X5 & X6 & X7).
    split; [revert X1; apply T; intros t Ht; unfold work_rate, drop; rewrite (EC t (proj1 Ht)); reflexivity|].
    split; [revert X2; apply T; intros t Ht; unfold ideal_rate; rewrite (EC t (proj1 Ht)); reflexivity|].
    split; [exact X3|]. split; [exact X4|]. split; [exact X5|].
    split; [revert X6; apply T; intros t Ht; unfold wall_comp_rate; rewrite (EC t (proj1 Ht)); reflexivity|].
    revert X7; apply T; intros t Ht; unfold wall_exp_rate; rewrite (EC t (proj1 Ht)); reflexivity. }
  assert (PT : forall t, 0 <= t <= 1 / 60 -> physical_trajectory gauss cn_run c0 t) by (intros t Ht; apply HS0; lra).
  pose proof (cw_heat c0 k s X w PT HB0 Hs0 HX0) as EH. pose proof (cw_work c0 k s X w HB0 HX0) as EW. pose proof (cw_wall c0 s X w HR0 HX0 W0) as BW.
  fold h in EH. fold wk in EW. destruct HW as (_ & _ & _ & HN & HI & _).
  unfold true_net, true_shaft, true_indicated in HN. unfold true_input in HI. cbn [cw_replies rp_freq rp_par rp_chx rp_hhx rp_regen par_comp par_exp pp_mechanical pp_thermal] in HN, HI.
  rewrite EW in HN. rewrite EH in HI. apply Rabs_inside in HN. apply Rabs_inside in HI. apply Rabs_inside in BW.
  set (n := rrp_net (rr_power rep)) in *. set (i := rrh_input (rr_heat_flow rep)) in *.
  assert (WE : 900 / 60 / w = 15 / w) by lra. rewrite WE in BW. unfold too_good. rewrite (efficiency_is en rep HRep). fold n i.
  assert (I0 : 0 < i) by lra. split; [exact I0|].
  apply (Rmult_lt_reg_r i); [exact I0|]. replace (n / i * i) with n by (field; lra). unfold gap in *. lra.
Qed.
(** whatever accurate integrator is used *)
Lemma cw_runs : exists W, 0 < W /\ forall w, W <= w -> exists dl, 0 < dl /\
  forall tol, 0 < ct_abs tol -> 0 < ct_rel tol <= dl -> exists e0 n, 0 < e0 /\
  forall (E : Env R) (settings : RunSettings R) (h : R), let region := within_levels cn_run 1000000 cn_lo cn_hi cn_lo cn_hi in
  lt_inner (rs_loop_tol settings) = tol ->
  0 < ct_abs (lt_outer (rs_loop_tol settings)) -> 0 < ct_rel (lt_outer (rs_loop_tol settings)) ->
  accurate E gauss cn_run region (rs_ode_tol settings) 2 (ru_period cn_run) e0 ->
  accurate E gauss cn_run region (rs_ode_tol settings) (rs_resolution settings) h e0 -> h <= dl ->
  (n < N.to_nat (mi_inner (rs_max_iters settings)))%nat -> (0 < mi_outer (rs_max_iters settings))%N ->
  exists en rep, Engine_run E gauss (cw_comps w) (IdealGas_Fluid he) cn_inputs settings = Ret (Ok en) /\
    RunResults_from en = Ret rep /\ too_good rep.
Proof.
  destruct cw_good as (W & W0 & HG). exists W. split; [exact W0|]. intros w Hw. destruct (HG w Hw) as (eps & E0 & HE).
  destruct cn_ok as (O1 & O2).
  destruct (accurate_limit (cw_comps w) cn_state cn_run gauss 0.000001 0.000001000004 0.000001 0.000001000004 cn_lo cn_hi cn_lo cn_hi 200 cn_V cn_v 0.999997 1 (cw_replies w)
    (fun _ => eq_refl) (fun _ => eq_refl) (fun _ => eq_refl) eq_refl (cw_driven w) (cw_new w) cn_norm gauss_sound gauss_complete cn_sane ltac:(cbn; lra)
    (fun T => proj1 (cn_volumes T)) (fun T => proj2 (cn_volumes T)) O1 O2 O1 O2 cn_settles cn_left_over (proj1 cn_expanded) (proj2 cn_expanded)
    (cw_replied w)) as (c & s & X & H1 & H2 & H3 & H4 & H5 & H).
  destruct (H eps E0) as (dl & DL & HL). exists dl. split; [exact DL|]. intros tol A1 A2.
  destruct (HL tol A1 A2) as (e0 & n & EP & HR). exists e0, n. split; [exact EP|]. intros E settings h region S1 S2 S3 S4 S5 S6 S7 S8.
  destruct (HR E (IdealGas_Fluid he) cn_inputs settings h (cw_hint w) S1 S2 S3 S4 S5 S6 S7 S8) as (k & en & rep & R1 & _ & R2 & R3).
  exists en, rep. split; [unfold Engine_run; rewrite R1; reflexivity|]. split; [exact R2|]. exact (HE c s X en rep H1 H2 H3 H4 H5 R2 R3).
Qed.
(** an integrator without errors is one *)
Lemma cn_wide T : between (V_comp cn_run) cn_lo cn_hi 0 T /\ between (V_exp cn_run) cn_lo cn_hi 0 T.
Proof.
  destruct (cn_volumes T) as ((_ & C) & (_ & E)). unfold cn_lo, cn_hi.
  split; (split; [lra|]); intros t Ht; [specialize (C t Ht)|specialize (E t Ht)]; lra.
Qed.
Lemma cn_warm : warm (expanded cn_lo cn_hi (te_chx (ru_temp cn_run))) /\ warm (expanded cn_lo cn_hi (te_hhx (ru_temp cn_run))).
Proof. pose proof cn_expanded. pose proof nil_value. split; apply nil_warm; lra. Qed.
Definition cn_env (m : nat) : Env R :=
  exact_env cn_comps cn_state cn_run gauss 1000000 cn_lo cn_hi cn_lo cn_hi eq_refl cn_driven cn_new cn_norm gauss_sound gauss_complete
    (fun T => proj1 (cn_wide T)) (fun T => proj2 (cn_wide T)) eq_refl eq_refl cn_sane ltac:(lra) (proj1 cn_warm) (proj2 cn_warm) m.
Lemma cn_accurate m tol n : (0 < m)%nat ->
  accurate (cn_env m) gauss cn_run (within_levels cn_run 1000000 cn_lo cn_hi cn_lo cn_hi) tol n (1 / 60 / INR m) 0.
Proof.
  intros Hm. destruct cn_expanded as (L1 & L2).
  exact (exact_accurate cn_comps cn_state cn_run gauss 1000000 _ _ _ _ _ _ _ _ _ _ _ _ _ _ _ _ _ _ 200 (Rlt_le _ _ L1) (Rlt_le _ _ L2) m tol n Hm).
Qed.
Lemma cw_one : exists w E settings en rep, 0 < w /\
  Engine_run E gauss (cw_comps w) (IdealGas_Fluid he) cn_inputs settings = Ret (Ok en) /\
  RunResults_from en = Ret rep /\ too_good rep.
Proof.
  destruct cw_runs as (W & W0 & HW). exists W. destruct (HW W (Rle_refl W)) as (dl & DL & H).
  destruct (H (mkConvTol 1 dl) ltac:(cbn; lra) ltac:(cbn; lra)) as (e0 & n & E0 & HE).
  destruct (archimed_nat (1 / 60 / dl)) as (m & Hm).
  assert (M0 : (0 < S m)%nat) by lia. pose proof (lt_0_INR _ M0) as MI. rewrite S_INR in MI.
  assert (X : 1 / 60 / INR (S m) <= dl).
  { rewrite S_INR. apply (Rmult_le_reg_r (INR m + 1)); [exact MI|]. replace (1 / 60 / (INR m + 1) * (INR m + 1)) with (1 / 60) by (field; lra).
    apply Rmult_le_compat_r with (r := dl) in Hm; [|lra]. replace (1 / 60 / dl * dl) with (1 / 60) in Hm by (field; lra). lra. }
  set (set0 := mkRunSettings 2 (mkLoopTol (mkConvTol 1 dl) (mkConvTol 1 1)) (mkOdeTol 1 1) (mkMaxIters (N.of_nat (S n)) 1)).
  destruct (HE (cn_env (S m)) set0 (1 / 60 / INR (S m))) as (en & rep & R); try (cbn; lra).
  - reflexivity.
  - apply (accurate_wider _ _ _ _ _ _ (1 / 60 / INR (S m)) _ 0 _); [|lra|exact (cn_accurate (S m) _ 2 M0)].
    change (ru_period cn_run) with (1 / 60). rewrite S_INR. apply (Rmult_le_reg_r (INR m + 1)); [lra|].
    replace (1 / 60 / (INR m + 1) * (INR m + 1)) with (1 / 60) by (field; lra). pose proof (pos_INR m). lra.
  - apply (accurate_wider _ _ _ _ _ _ (1 / 60 / INR (S m)) _ 0 _); [lra|lra|exact (cn_accurate (S m) _ _ M0)].
  - exact X.
  - cbn [set0 rs_max_iters mi_inner]. rewrite Nat2N.id. lia.
  - cbn. lia.
  - exists (cn_env (S m)), set0, en, rep. split; [exact W0|exact R].
Qed.
