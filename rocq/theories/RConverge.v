(** * The report of a run is close to that of the exact steady cycle *)
From Coq Require Import ZArith NArith List Reals Lra Lia.
From Verif Require Import Num ModelTypes ModelWs ModelHx ModelStateEq ModelEngine ModelApi RNum Spec SpecR SpecGas
  SpecKin SpecTraj SpecLaws SpecUnique SpecExist SpecDepend SpecSeries SpecQuad SpecReport SpecSpaces SpecBounds SpecSteady SpecContract
  SpecSample SpecGlobal SpecSearch SpecConverge Fixture PolySolve PolyLoop PolyReport RSolve RGauss RFluid RKin RPeriod RSeries RBounds RSteady
  RSample RSampleReport RMotion RSampleCase RGlobal RGlobalReport RSettle RSearch.
Import ListNotations.
Local Open Scope R_scope.

(** temperatures whose reciprocals are close are close *)
Lemma near_temp T0 T x : 0 < T0 -> Rabs (/ T - / T0) <= x -> x <= / (2 * T0) -> Rabs (T - T0) <= 2 * (T0 * T0) * x.
Proof.
  intros H0 Hx Hs. assert (I0 : 0 < / T0) by (apply Rinv_0_lt_compat; exact H0).
  assert (E2 : / (2 * T0) = / T0 / 2) by (field; lra). rewrite E2 in Hs. pose proof (Rabs_pos (/ T - / T0)) as AP.
  pose proof (proj1 (abs_le_iff _ _) Hx) as HB.
  assert (P : 0 < / T) by lra. assert (HT : 0 < T).
  { destruct (Rlt_le_dec 0 T) as [L|[L|L]]; [exact L| |]; exfalso.
    - apply Rinv_lt_0_compat in L. lra.
    - rewrite L, Rinv_0 in P. lra. }
  assert (U : T <= 2 * T0).
  { rewrite <- (Rinv_inv T), <- (Rinv_inv (2 * T0)). apply Rinv_le_contravar; [apply Rinv_0_lt_compat; lra|]. rewrite E2. lra. }
  rewrite (inv_change T0 T H0 HT), Rabs_minus_sym. replace (2 * (T0 * T0) * x) with ((T0 * (2 * T0)) * x) by ring.
  apply Rmult_le_compat; [apply Rmult_le_pos; lra|exact AP| |exact Hx]. apply Rmult_le_compat_l; lra.
Qed.
Lemma near_gap c0 : 0 < cd_T_c c0 -> 0 < cd_T_e c0 -> exists K d, 0 <= K /\ 0 < d /\
  forall c x, cd_P c = cd_P c0 -> spread c c0 <= x -> x <= d -> gap c c0 <= K * x.
Proof.
  intros H1 H2. exists (2 * (cd_T_c c0 * cd_T_c c0) + 2 * (cd_T_e c0 * cd_T_e c0)), (Rmin (/ (2 * cd_T_c c0)) (/ (2 * cd_T_e c0))).
  assert (Q1 : 0 <= cd_T_c c0 * cd_T_c c0) by (apply Rmult_le_pos; lra). assert (Q2 : 0 <= cd_T_e c0 * cd_T_e c0) by (apply Rmult_le_pos; lra).
  split; [lra|]. split; [apply Rmin_pos; apply Rinv_0_lt_compat; lra|]. intros c x HP HS Hd. unfold spread in HS.
  pose proof (Rabs_pos (/ cd_T_c c - / cd_T_c c0)) as A1. pose proof (Rabs_pos (/ cd_T_e c - / cd_T_e c0)) as A2.
  pose proof (Rmin_l (/ (2 * cd_T_c c0)) (/ (2 * cd_T_e c0))). pose proof (Rmin_r (/ (2 * cd_T_c c0)) (/ (2 * cd_T_e c0))).
  pose proof (near_temp (cd_T_c c0) (cd_T_c c) x H1 ltac:(lra) ltac:(lra)) as B1.
  pose proof (near_temp (cd_T_e c0) (cd_T_e c) x H2 ltac:(lra) ltac:(lra)) as B2.
  unfold gap. rewrite (Rminus_diag_eq _ _ HP), Rabs_R0. lra.
Qed.

Lemma steps_nonneg x t h : grid_to x t -> steps_within h x -> 0 <= h.
Proof.
  intros Hg Hh. destruct (grid_last _ _ Hg) as (rest & -> & El). pose proof Hg as (Hnd & _ & _ & Ht).
  destruct rest as [|b rest]; [cbn in El; lra|]. destruct Hh as [Hh _], Hnd as [Hnd _]. lra.
Qed.
Lemma report_wider a X e e' rep : report_within a X e rep -> e <= e' -> report_within a X e' rep.
Proof.
  intros (B1 & B2 & B3 & B4 & B5 & B6 & B7) Q. unfold report_within.
  split; [|split; [|split; [|split; [|split; [|split]]]]]; eapply Rle_trans; try eassumption; exact Q.
Qed.
(** the values inherit what is known of the points *)
Lemma values_times D r pts vs : values_of_points D (Run_Cycle r) pts vs -> map (@sv_time R) vs = map (@pt_time R) pts.
Proof. induction 1 as [|p v pts vs (H & _) _ IH]; [reflexivity|]. cbn [map]. rewrite H, IH. reflexivity. Qed.
Lemma values_solved D r pts vs : values_of_points D (Run_Cycle r) pts vs -> all_solved D r vs.
Proof.
  induction 1 as [|p v pts vs (H1 & H2 & H3) _ IH]; constructor; [|exact IH].
  exists (signs (sv_solution v)). rewrite H1, H2. exact (solve_accepts D _ _ H3).
Qed.
Lemma values_accurate e D r pts vs : values_of_points D (Run_Cycle r) pts vs -> accurate_points e D r pts -> accurate_steps e D r vs.
Proof.
  induction 1 as [|p v pts vs (H1 & H2 & H3) HF IH]; intros H; [exact I|].
  destruct HF as [|p' v' pts vs (G1 & G2 & G3) HF]; [exact I|]. destruct H as (A & B). split; [|exact (IH B)].
  rewrite H1, H2, G1, G2. exact A.
Qed.

Section Engine.
  Variables (comps : Components R) (s0 : State R) (r : Run R) (D : Decomp R) (T_low V_hi v_hi rho rv : R) (c' : R -> Conditions R)
    (a : Replies R).
  Hypothesis Fk : fixed_approach (co_chx comps).
  Hypothesis Fr : fixed_approach (co_regen comps).
  Hypothesis Fl : fixed_approach (co_hhx comps).
  Hypothesis Hfl : s_fluid s0 = IdealGas_Fluid he.
  Hypothesis Hd : driven (co_ws comps).
  Hypothesis Hr : Run_new comps s0 = Ret r.
  Let q := left_over r T_low V_hi v_hi rho rv.
  Let P0 := pr_t_zero (s_pres s0).
  Let ic := mkCond P0 (te_chx (s_temp s0)) (te_hhx (s_temp s0)).
  Hypothesis HS : settles r T_low V_hi v_hi rho rv.
  Hypothesis HQ : q < 1.
  Hypothesis HD : sound D.
  Hypothesis HC : complete D.
  Hypothesis SC : steady_cycle D r c'.
  Hypothesis WT : warm_trajectory D r T_low c'.
  Hypothesis CP : cd_P (c' 0) = P0.
  Hypothesis HA : forall vals, replies (mkEngine comps s0 vals) a.
  Let err (e : R) (settings : RunSettings R) := test_error T_low q e (lt_inner (rs_loop_tol settings)).

  Theorem run_converges : exists K d, 0 <= K /\ 0 < d /\
    forall (E : Env R) (fl : Fluid R) (inputs : RunInputs R) (settings : RunSettings R) (region : Conditions R -> Prop)
      (e e1 h T_hi : R) (n : nat) (s : R -> Solution R) (X : Totals),
    State_new_hint comps fl inputs = Ret s0 ->
    0 < ct_abs (lt_outer (rs_loop_tol settings)) -> 0 < ct_rel (lt_outer (rs_loop_tol settings)) ->
    0 <= e -> reliable E D r T_low e P0 region (rs_ode_tol settings) (rs_resolution settings) ->
    (forall c, region c -> cd_P c = P0 /\ cd_T_c c <= T_hi /\ cd_T_e c <= T_hi) -> region ic ->
    passes_test (lt_inner (rs_loop_tol settings)) T_hi (change_after q e (spread ic (c' 0)) n) ->
    (n < N.to_nat (mi_inner (rs_max_iters settings)))%nat -> (0 < mi_outer (rs_max_iters settings))%N ->
    0 <= e1 -> resolves E D r region (rs_ode_tol settings) (rs_resolution settings) h e1 ->
    err e settings + e1 <= d ->
    (forall t, 0 <= t <= ru_period r -> solved_at D r t (c' t) (s t)) ->
    totals (IdealGas_Fluid he) (s_temp s0) a c' s (ru_period r) X ->
    exists k en rep, Engine_run_counted E D comps fl inputs settings = (k, Ret (Ok en)) /\ (k <= n + 2)%nat /\
      RunResults_from en = Ret rep /\ report_within a X (K * (h + err e settings + e1)) rep.
  Proof.
    pose proof SC as (HT & HP). assert (E0 : c' (ru_period r) = c' 0) by (rewrite <- (HP 0) by lra; f_equal; ring).
    destruct (reply_volumes (mkEngine comps s0 (Values_from [])) a s0 r Hd Hr (HA _)) as (HV & _).
    pose proof (low_pos r T_low V_hi v_hi rho rv HS) as LP. destruct (WT 0 (Rle_refl 0)) as (_ & W1 & W2).
    destruct (report_of_steps he (gas_R_pos Helium) r (eng_fluid Helium comps s0 r Hfl Hd Hr) D c' (ru_period r) HD
      (eng_tau comps s0 r Hd Hr) (fun t Ht => HT t (proj1 Ht)) (eng_motion comps s0 r Hd Hr) (s_temp s0) a
      (fun t _ => f_equal (fun f => f t) HV)) as (K1 & d1 & D1 & HRep).
    destruct (near_gap (c' 0) ltac:(lra) ltac:(lra)) as (K2 & d2 & P2 & D2 & HG).
    assert (I : 0 < K2 + 1) by lra.
    exists (Rabs K1 * (1 + K2)), (Rmin d2 (d1 / (K2 + 1))).
    split; [apply Rmult_le_pos; [apply Rabs_pos|lra]|].
    split; [apply Rmin_pos; [exact D2|apply Rdiv_lt_0_compat; assumption]|].
    intros E fl inputs settings region e e1 h T_hi n s X H0 Ha Hl He HRel HB HI Hpass Hn Ho He1 HRes Hsmall Hs HX.
    pose proof (Rmin_l d2 (d1 / (K2 + 1))) as M1. pose proof (Rmin_r d2 (d1 / (K2 + 1))) as M2.
    destruct (run_finds E D comps fl inputs settings s0 r Fk Fr Fl H0 Hr) with (T_low := T_low) (V_hi := V_hi) (v_hi := v_hi) (rho := rho)
      (rv := rv) (e := e) (T_hi := T_hi) (c' := c') (region := region) (n := n)
      as (k & en & vs & F1 & F2 & F3 & F4 & F5 & F6 & F7); try assumption.
    { intros p. destruct (HA (Values_from [])) as (_ & _ & _ & HA4 & _). cbn [en_components en_state] in HA4. rewrite HA4. discriminate. }
    destruct F7 as (ic' & pts & R1 & R2 & R3). destruct (HRes ic' pts R1 R2) as (G1 & G2 & G3).
    rewrite <- (values_times D r pts vs R3) in G1, G2.
    assert (EN : en = mkEngine comps s0 (en_values en)) by (destruct en; cbn in *; congruence).
    set (te := test_error T_low q e (lt_inner (rs_loop_tol settings))) in *. change (err e settings) with te in *.
    assert (T0 : 0 <= te).
    { destruct F6 as (v & rest & _ & _ & S). apply Rle_trans with (2 := S), spread_pos. }
    assert (ST : starts_near (K2 * te) c' vs).
    { destruct F6 as (v & rest & -> & S1 & S2). destruct G1 as (_ & (ts & G1) & _). injection G1 as G1 _.
      cbn [starts_near]. rewrite G1. apply HG; [rewrite S1; symmetry; exact CP|exact S2|lra]. }
    assert (DL : K2 * te + e1 <= d1).
    { apply Rle_trans with ((K2 + 1) * (te + e1)).
      - assert (0 <= K2 * e1) by (apply Rmult_le_pos; assumption). lra.
      - apply Rle_trans with ((K2 + 1) * (d1 / (K2 + 1))); [apply Rmult_le_compat_l; lra|]. right. field. lra. }
    assert (Q0 : 0 <= K2 * te) by (apply Rmult_le_pos; assumption).
    destruct (HRep s X en vs h (K2 * te) e1 D Hs HX) as (rep & ER & B); try assumption.
    - rewrite F4. exact Hfl.
    - rewrite F4. reflexivity.
    - rewrite EN. apply HA.
    - exact (values_accurate e1 D r pts vs R3 G3).
    - exact (values_solved D r pts vs R3).
    - exists k, en, rep. split; [exact F1|]. split; [exact F2|]. split; [exact ER|].
      pose proof (steps_nonneg _ _ _ G1 G2) as h0.
      assert (Q : K1 * (h + (K2 * te + e1)) <= Rabs K1 * (1 + K2) * (h + te + e1)).
      { apply Rle_trans with (Rabs K1 * (h + (K2 * te + e1))); [apply Rmult_le_compat_r; [lra|apply Rle_abs]|].
        rewrite Rmult_assoc. apply Rmult_le_compat_l; [apply Rabs_pos|].
        assert (0 <= K2 * h) by (apply Rmult_le_pos; assumption). assert (0 <= K2 * e1) by (apply Rmult_le_pos; assumption). lra. }
      exact (report_wider a X _ _ rep B Q).
  Qed.
  (** any accuracy can be reached *)
  Theorem run_limit eps : 0 < eps -> exists dl, 0 < dl /\
    forall (E : Env R) (fl : Fluid R) (inputs : RunInputs R) (settings : RunSettings R) (region : Conditions R -> Prop)
      (e e1 h T_hi : R) (n : nat) (s : R -> Solution R) (X : Totals),
    State_new_hint comps fl inputs = Ret s0 ->
    0 < ct_abs (lt_outer (rs_loop_tol settings)) -> 0 < ct_rel (lt_outer (rs_loop_tol settings)) ->
    0 <= e -> reliable E D r T_low e P0 region (rs_ode_tol settings) (rs_resolution settings) ->
    (forall c, region c -> cd_P c = P0 /\ cd_T_c c <= T_hi /\ cd_T_e c <= T_hi) -> region ic ->
    passes_test (lt_inner (rs_loop_tol settings)) T_hi (change_after q e (spread ic (c' 0)) n) ->
    (n < N.to_nat (mi_inner (rs_max_iters settings)))%nat -> (0 < mi_outer (rs_max_iters settings))%N ->
    0 <= e1 -> resolves E D r region (rs_ode_tol settings) (rs_resolution settings) h e1 ->
    e <= dl -> e1 <= dl -> h <= dl -> ct_rel (lt_inner (rs_loop_tol settings)) <= dl ->
    (forall t, 0 <= t <= ru_period r -> solved_at D r t (c' t) (s t)) ->
    totals (IdealGas_Fluid he) (s_temp s0) a c' s (ru_period r) X ->
    exists k en rep, Engine_run_counted E D comps fl inputs settings = (k, Ret (Ok en)) /\ (k <= n + 2)%nat /\
      RunResults_from en = Ret rep /\ report_within a X eps rep.
  Proof.
    intros He. destruct run_converges as (K & d & K0 & D0 & H). pose proof (low_pos r T_low V_hi v_hi rho rv HS) as LP.
    set (B := (1 + 2 / T_low) / (1 - q)).
    assert (B0 : 0 < B).
    { unfold B. apply Rdiv_lt_0_compat; [|lra]. assert (0 < 2 / T_low) by (apply Rdiv_lt_0_compat; lra). lra. }
    set (dl := Rmin (d / (B + 1)) (eps / ((K + 1) * (B + 2)))).
    assert (KB : 0 < (K + 1) * (B + 2)) by (apply Rmult_lt_0_compat; lra).
    pose proof (Rmin_l (d / (B + 1)) (eps / ((K + 1) * (B + 2)))) as M1. pose proof (Rmin_r (d / (B + 1)) (eps / ((K + 1) * (B + 2)))) as M2.
    fold dl in M1, M2.
    assert (DL : 0 < dl) by (apply Rmin_pos; apply Rdiv_lt_0_compat; lra). exists dl. split; [exact DL|].
    intros E fl inputs settings region e e1 h T_hi n s X A1 A2 A3 A4 A5 A6 A7 A8 A9 A10 A11 A12 L1 L2 L3 L4 A13 A14.
    assert (TE : err e settings <= B * dl).
    { unfold err, test_error, B. apply (Rmult_le_reg_r (1 - q)); [lra|].
      replace ((e + 2 * (Rmin (ct_rel (lt_inner (rs_loop_tol settings))) (ct_abs (lt_inner (rs_loop_tol settings)) / T_low) / T_low)) / (1 - q) * (1 - q))
        with (e + 2 * (Rmin (ct_rel (lt_inner (rs_loop_tol settings))) (ct_abs (lt_inner (rs_loop_tol settings)) / T_low) / T_low)) by (field; lra).
      replace ((1 + 2 / T_low) / (1 - q) * dl * (1 - q)) with (dl + 2 * (dl / T_low)) by (field; lra).
      apply Rplus_le_compat; [exact L1|]. apply Rmult_le_compat_l; [lra|]. unfold Rdiv.
      apply Rmult_le_compat_r; [left; apply Rinv_0_lt_compat; exact LP|]. eapply Rle_trans; [apply Rmin_l|exact L4]. }
    assert (DD : (B + 1) * dl <= d).
    { apply Rle_trans with ((B + 1) * (d / (B + 1))); [apply Rmult_le_compat_l; lra|]. right. field. lra. }
    assert (EE : (K + 1) * (B + 2) * dl <= eps).
    { apply Rle_trans with ((K + 1) * (B + 2) * (eps / ((K + 1) * (B + 2)))); [apply Rmult_le_compat_l; lra|]. right. field. lra. }
    destruct (H E fl inputs settings region e e1 h T_hi n s X A1 A2 A3 A4 A5 A6 A7 A8 A9 A10 A11 A12 ltac:(lra) A13 A14)
      as (k & en & rep & F1 & F2 & F3 & F4).
    exists k, en, rep. split; [exact F1|]. split; [exact F2|]. split; [exact F3|]. apply (report_wider a X _ _ rep F4).
    apply Rle_trans with (K * ((B + 2) * dl)); [apply Rmult_le_compat_l; lra|].
    apply Rle_trans with ((K + 1) * ((B + 2) * dl)); [apply Rmult_le_compat_r; [apply Rmult_le_pos; lra|lra]|]. lra.
  Qed.
End Engine.
