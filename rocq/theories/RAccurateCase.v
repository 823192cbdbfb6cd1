(** * A run with an accurate integrator *)
From Coq Require Import ZArith NArith List Reals Lra Lia.
From Verif Require Import Num ModelTypes ModelWs ModelHx ModelStateEq ModelEngine ModelApi RNum Spec SpecR SpecGas
  SpecKin SpecTraj SpecLaws SpecUnique SpecExist SpecDepend SpecSeries SpecQuad SpecReport SpecSpaces SpecBounds SpecSteady SpecContract
  SpecSample SpecGlobal SpecSearch SpecConverge SpecAccurate Fixture RSolve RGauss RFluid RPeriod RBounds RSteady RSampleReport RSampleCase
  RContractEngine RSettle RSettleCase RGlobalReport RSearch RSearchCase RConverge RConvergeCase RAccurate.
Import ListNotations.
Local Open Scope R_scope.

Lemma steps_wider h h' l : h <= h' -> steps_within h l -> steps_within h' l.
Proof.
  intros Hh. induction l as [|x l IH]; [auto|]. destruct l as [|y l]; [auto|]. intros (A & B). split; [lra|exact (IH B)].
Qed.
Lemma accurate_wider E D r region tol n h h' e e' : h <= h' -> e <= e' -> accurate E D r region tol n h e -> accurate E D r region tol n h' e'.
Proof.
  intros Hh He H ic HI. destruct (H ic HI) as (pts & E1 & S1 & G1 & G2 & N1). exists pts. repeat (split; [assumption|]).
  split; [exact (steps_wider _ _ _ Hh G2)|]. intros c C0 HT. apply Forall_forall. intros p Hp. specialize (N1 c C0 HT).
  rewrite Forall_forall in N1. specialize (N1 p Hp). lra.
Qed.
(** an exact integrator is accurate *)
Section Exact.
  Variables (comps : Components R) (s : State R) (r : Run R) (D : Decomp R) (P0 cl ch el eh : R).
  Hypothesis Hfl : s_fluid s = IdealGas_Fluid he.
  Hypothesis Hd : driven (co_ws comps).
  Hypothesis Hr : Run_new comps s = Ret r.
  Hypothesis Hn : te_sink (s_temp s) + te_source (s_temp s) <> 500.
  Hypothesis HS : sound D.
  Hypothesis HC : complete D.
  Hypothesis VC : forall T, between (V_comp r) cl ch 0 T.
  Hypothesis VE : forall T, between (V_exp r) el eh 0 T.
  Hypothesis QC : heat_lost_comp r = 0.
  Hypothesis QE : heat_lost_exp r = 0.
  Hypothesis HX : sane_exchangers r.
  Hypothesis HP0 : 0 < P0.
  Hypothesis WC : warm (expanded cl ch (te_chx (ru_temp r))).
  Hypothesis WE : warm (expanded el eh (te_hhx (ru_temp r))).
  Variable T_low : R.
  Hypothesis L1 : T_low <= expanded cl ch (te_chx (ru_temp r)).
  Hypothesis L2 : T_low <= expanded el eh (te_hhx (ru_temp r)).
  Lemma exact_accurate m tol n : (0 < m)%nat ->
    accurate (exact_env comps s r D P0 cl ch el eh Hfl Hd Hr Hn HS HC VC VE QC QE HX HP0 WC WE m) D r (within_levels r P0 cl ch el eh) tol n
      (ru_period r / INR m) 0.
  Proof.
    intros Hm ic HI.
    destruct (exact_points comps s r D P0 cl ch el eh Hfl Hd Hr Hn HS HC VC VE QC QE HX HP0 WC WE m Hm T_low L1 L2 ic n tol HI)
      as (c & C0 & HT & _ & E1).
    destruct (times_grid comps s r Hd Hr m Hm) as (G1 & G2). set (times := even (ru_period r / INR m) 0 (S m)) in *.
    assert (ET : map (@pt_time R) (map (fun t => mkPoint t (c t)) times) = times) by (rewrite map_map; apply map_id).
    exists (map (fun t => mkPoint t (c t)) times). split; [exact E1|]. rewrite ET. split.
    { pose proof G1 as (_ & (rest & F1) & _). rewrite F1. cbn [map]. eexists. eexists. split; [reflexivity|exact C0]. }
    split; [exact G1|]. split; [exact G2|]. intros c2 C2 HT2. apply Forall_forall. intros p Hp. apply in_map_iff in Hp as (t & <- & Ht).
    cbn [pt_time pt_conditions]. pose proof (grid_range _ _ G1 t Ht) as RT.
    rewrite (trajectories_agree Helium r D D c c2 0 (ru_period r) 0 (RSteady.Hf comps s r Hfl Hd Hr) HS HS); [rewrite gap_refl; lra|lra| |congruence|exact RT].
    intros u Hu. split; [apply HT; lra|apply HT2; lra].
  Qed.
End Exact.

(** ** The engine with fixed approaches *)
Definition wide_lo : R := 0.0000999.
Definition wide_hi : R := 0.0002001.
Lemma wide_power : / 2 * Rpower wide_hi (R_he / cv_he) < Rpower wide_lo (R_he / cv_he).
Proof.
  set (k := R_he / cv_he). assert (K : 0 < k < 3 / 4).
  { split; [exact k_pos|]. unfold k. apply (Rmult_lt_reg_r cv_he); [exact cv_pos|]. replace (R_he / cv_he * cv_he) with R_he by (field; pose proof cv_pos; lra).
    unfold cv_he, cp_he, R_he. lra. }
  set (b := 0.84 * 0.84 * (0.84 * 0.84)).
  assert (B : Rpower b (3 / 4) = 0.84 * 0.84 * 0.84).
  { replace b with (Rpower 0.84 (INR 4)) by (rewrite Rpower_pow by lra; unfold b; cbn [pow]; lra). rewrite Rpower_mult.
    replace (INR 4 * (3 / 4)) with (INR 3) by (cbn [INR]; lra). rewrite Rpower_pow by lra. cbn [pow]. lra. }
  assert (L : / 2 < Rpower b k).
  { apply Rlt_le_trans with (Rpower b (3 / 4)); [rewrite B; lra|]. unfold Rpower.
    assert (LB : ln b < 0) by (rewrite <- ln_1; apply ln_increasing; unfold b; lra).
    assert (M : 3 / 4 * ln b <= k * ln b).
    { assert (0 <= (3 / 4 - k) * - ln b) by (apply Rmult_le_pos; lra). lra. }
    destruct M as [M|M]; [left; apply exp_increasing, M|right; f_equal; exact M]. }
  replace wide_lo with (wide_lo / wide_hi * wide_hi) by (unfold wide_lo, wide_hi; lra).
  rewrite <- Rpower_mult_distr; [|unfold wide_lo, wide_hi; lra|unfold wide_hi; lra].
  apply Rmult_lt_compat_r; [apply pw_gt|]. apply Rlt_le_trans with (1 := L). apply Rpower_mono; unfold b, wide_lo, wide_hi; lra.
Qed.
Lemma wide_low T_in : 250 <= T_in -> 125 < expanded wide_lo wide_hi T_in.
Proof.
  intros H.
  assert (F : 250 <= filling T_in).
  { unfold filling, T_ref. pose proof cv_pos. assert (0 <= cp_he / cv_he * (T_in - 250)); [|lra].
    apply Rmult_le_pos; [|lra]. left. apply Rdiv_lt_0_compat; [unfold cp_he; lra|exact cv_pos]. }
  unfold expanded, adiabat. pose proof wide_power as W. pose proof (pw_gt wide_hi) as G. pose proof (pw_gt wide_lo) as G'.
  apply (Rmult_lt_reg_r (Rpower wide_hi (R_he / cv_he))); [exact G|].
  replace (Rmin T_ref (filling T_in) * Rpower wide_lo (R_he / cv_he) / Rpower wide_hi (R_he / cv_he) * Rpower wide_hi (R_he / cv_he))
    with (Rmin T_ref (filling T_in) * Rpower wide_lo (R_he / cv_he)) by (field; lra).
  apply Rlt_le_trans with (250 * Rpower wide_lo (R_he / cv_he)); [lra|]. apply Rmult_le_compat_r; [lra|].
  apply Rmin_glb; [unfold T_ref; lra|exact F].
Qed.
Lemma wide_volumes T : between (V_comp st_run) wide_lo wide_hi 0 T /\ between (V_exp st_run) wide_lo wide_hi 0 T.
Proof.
  destruct (st_volumes T) as ((_ & C) & (_ & E)). unfold wide_lo, wide_hi.
  split; (split; [lra|]); intros t Ht; [specialize (C t Ht)|specialize (E t Ht)]; lra.
Qed.
Lemma wide_expanded : 125 < expanded wide_lo wide_hi (te_chx (ru_temp st_run)) /\ 125 < expanded wide_lo wide_hi (te_hhx (ru_temp st_run)).
Proof. destruct st_ends as (E1 & E2 & _). change (ru_temp st_run) with st_temps. rewrite E1, E2. split; apply wide_low; lra. Qed.
Lemma wide_warm : warm (expanded wide_lo wide_hi (te_chx (ru_temp st_run))) /\ warm (expanded wide_lo wide_hi (te_hhx (ru_temp st_run))).
Proof. pose proof wide_expanded. pose proof nil_value. split; apply nil_warm; lra. Qed.
(** reports the exact trajectory at [m + 1] times *)
Definition wide_env (m : nat) : Env R :=
  exact_env st_comps st_state st_run gauss 1000000 wide_lo wide_hi wide_lo wide_hi eq_refl gl_driven st_new st_norm gauss_sound gauss_complete
    (fun T => proj1 (wide_volumes T)) (fun T => proj2 (wide_volumes T)) eq_refl eq_refl st_sane ltac:(lra) (proj1 wide_warm) (proj2 wide_warm) m.
Lemma wide_accurate m tol n : (0 < m)%nat ->
  accurate (wide_env m) gauss st_run (within_levels st_run 1000000 wide_lo wide_hi wide_lo wide_hi) tol n (1 / 60 / INR m) 0.
Proof.
  intros Hm. destruct wide_expanded as (L1 & L2).
  exact (exact_accurate st_comps st_state st_run gauss 1000000 _ _ _ _ _ _ _ _ _ _ _ _ _ _ _ _ _ _ 125 (Rlt_le _ _ L1) (Rlt_le _ _ L2) m tol n Hm).
Qed.
Lemma wide_ok : 0 < wide_lo < 0.0001 /\ 0.0002 < wide_hi.
Proof. unfold wide_lo, wide_hi. lra. Qed.
Lemma st_accurate : exists X, forall eps, 0 < eps -> exists dl, 0 < dl /\
  forall m tol, (0 < m)%nat -> 1 / 60 / INR m <= dl -> 0 < ct_abs tol -> 0 < ct_rel tol <= dl ->
  exists n, forall tol' ode points inner outer, 0 < ct_abs tol' -> 0 < ct_rel tol' -> (n < N.to_nat inner)%nat -> (0 < outer)%N ->
  exists k en rep,
    Engine_run_counted (wide_env m) gauss st_comps (IdealGas_Fluid he) st_inputs (st_settings tol tol' ode points inner outer) = (k, Ret (Ok en)) /\
    (k <= n + 2)%nat /\ RunResults_from en = Ret rep /\ report_within st_replies X eps rep.
Proof.
  pose proof st_left_over as HQ. destruct wide_ok as (O1 & O2).
  destruct (accurate_limit st_comps st_state st_run gauss 0.0001 0.0002 0.0001 0.0002 wide_lo wide_hi wide_lo wide_hi 125 0.0002 0.024 (/ 2) 1 st_replies
    (fun _ => eq_refl) (fun _ => eq_refl) (fun _ => eq_refl) eq_refl gl_driven st_new st_norm gauss_sound gauss_complete st_sane ltac:(cbn; lra)
    (fun T => proj1 (st_volumes T)) (fun T => proj2 (st_volumes T)) O1 O2 O1 O2 st_settles ltac:(lra) (proj1 wide_expanded) (proj2 wide_expanded)
    st_replied) as (c' & s & X & _ & _ & _ & _ & _ & H).
  exists X. intros eps He. destruct (H eps He) as (dl & D0 & H1). exists dl. split; [exact D0|]. intros m tol Hm Hd A1 A2.
  destruct (H1 tol A1 A2) as (e0 & n & E0 & H2). exists n. intros tol' ode points inner outer A4 A5 A6 A7.
  assert (M1 : 1 <= INR m) by (change 1 with (INR 1); apply le_INR; lia).
  apply (H2 (wide_env m) (IdealGas_Fluid he) st_inputs (st_settings tol tol' ode points inner outer) (1 / 60 / INR m)); try assumption.
  - exact st_hint.
  - reflexivity.
  - apply (accurate_wider _ _ _ _ _ _ (1 / 60 / INR m) _ 0 _); [|lra|exact (wide_accurate m ode 2 Hm)].
    change (ru_period st_run) with (1 / 60). apply (Rmult_le_reg_r (INR m)); [lra|]. 
    replace (1 / 60 / INR m * INR m) with (1 / 60) by (field; lra). lra.
  - apply (accurate_wider _ _ _ _ _ _ (1 / 60 / INR m) _ 0 _); [lra|lra|exact (wide_accurate m ode points Hm)].
Qed.
