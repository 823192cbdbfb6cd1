(** * The search for a steady cycle succeeds and finds it *)
From Coq Require Import ZArith NArith List Reals Lra Lia.
From Verif Require Import Num ModelTypes ModelWs ModelHx ModelStateEq ModelEngine RNum Spec SpecLoop SpecR SpecGas SpecTraj
  SpecUnique SpecSpaces SpecBounds SpecSteady SpecContract SpecLimits SpecSearch Fixture PolySolve PolyLoop PolyRun PolyPanic PolyLimits
  RSolve RGauss RFluid RCase4 RState RContractEngine RSettle.
Import ListNotations.
Local Open Scope R_scope.

Lemma spread_sym c c' : spread c c' = spread c' c.
Proof. unfold spread. rewrite (Rabs_minus_sym (/ cd_T_c c)), (Rabs_minus_sym (/ cd_T_e c)). reflexivity. Qed.
Lemma spread_tri a b c : spread a c <= spread a b + spread b c.
Proof.
  unfold spread. pose proof (Rabs_triang (/ cd_T_c a - / cd_T_c b) (/ cd_T_c b - / cd_T_c c)) as H1.
  pose proof (Rabs_triang (/ cd_T_e a - / cd_T_e b) (/ cd_T_e b - / cd_T_e c)) as H2.
  replace (/ cd_T_c a - / cd_T_c b + (/ cd_T_c b - / cd_T_c c)) with (/ cd_T_c a - / cd_T_c c) in H1 by ring.
  replace (/ cd_T_e a - / cd_T_e b + (/ cd_T_e b - / cd_T_e c)) with (/ cd_T_e a - / cd_T_e c) in H2 by ring. lra.
Qed.
Lemma inv_change x y : 0 < x -> 0 < y -> Rabs (y - x) = x * y * Rabs (/ x - / y).
Proof.
  intros Hx Hy. rewrite <- (Rabs_pos_eq (x * y)) by (left; apply Rmult_lt_0_compat; assumption).
  rewrite <- Rabs_mult. f_equal. field. lra.
Qed.
Lemma test_passed (tol : ConvergenceTolerance R) T_low x y : 0 < T_low -> T_low <= x -> T_low <= y -> close tol x y ->
  Rabs (/ x - / y) <= Rmin (ct_rel tol) (ct_abs tol / T_low) / T_low.
Proof.
  intros HT Hx Hy (Ha & Hr). apply R_lt_iff in Ha, Hr. cbn [n_abs n_sub n_div R_ops] in Ha, Hr.
  assert (QT : Rabs (y - x) = x * y * Rabs (/ x - / y)) by (apply inv_change; lra).
  pose proof (Rabs_pos (/ x - / y)) as P. set (d := Rabs (/ x - / y)) in *.
  assert (Er : y * d < ct_rel tol).
  { unfold Rdiv in Hr. rewrite Rabs_mult, QT, (Rabs_pos_eq (/ x)) in Hr by (left; apply Rinv_0_lt_compat; lra).
    replace (x * y * d * / x) with (y * d) in Hr by (field; lra). exact Hr. }
  rewrite QT in Ha.
  apply (Rmult_le_reg_r T_low); [exact HT|]. replace (Rmin (ct_rel tol) (ct_abs tol / T_low) / T_low * T_low)
    with (Rmin (ct_rel tol) (ct_abs tol / T_low)) by (field; lra).
  assert (Y : T_low * d <= y * d) by (apply Rmult_le_compat_r; lra).
  apply Rmin_glb; [lra|]. apply (Rmult_le_reg_r T_low); [exact HT|].
  replace (ct_abs tol / T_low * T_low) with (ct_abs tol) by (field; lra).
  assert (X : T_low * (y * d) <= x * (y * d)) by (apply Rmult_le_compat_r; [apply Rmult_le_pos; lra|exact Hx]).
  assert (T_low * (T_low * d) <= T_low * (y * d)) by (apply Rmult_le_compat_l; lra). lra.
Qed.
Lemma test_passes (tol : ConvergenceTolerance R) T_hi s x y : 0 < x -> 0 < y -> x <= T_hi -> y <= T_hi -> passes_test tol T_hi s ->
  Rabs (/ x - / y) <= s -> close tol x y.
Proof.
  intros Hx Hy Hx' Hy' (Hr & Ha) H. pose proof (inv_change x y Hx Hy) as QT. pose proof (Rabs_pos (/ x - / y)) as P.
  set (d := Rabs (/ x - / y)) in *.
  assert (Y : y * d <= T_hi * s) by (apply Rmult_le_compat; lra).
  assert (X : x * (y * d) <= T_hi * (T_hi * s)) by (apply Rmult_le_compat; try lra; apply Rmult_le_pos; lra).
  split; apply R_lt_iff; cbn [n_abs n_sub n_div R_ops].
  - rewrite QT. lra.
  - unfold Rdiv. rewrite Rabs_mult, QT, (Rabs_pos_eq (/ x)) by (left; apply Rinv_0_lt_compat; lra).
    replace (x * y * d * / x) with (y * d) by (field; lra). lra.
Qed.
Lemma starts_first pts c : starts_at pts c -> exists p, first_unwrap pts = Ret p /\ pt_conditions p = c.
Proof. intros (p & rest & -> & H). exists p. split; [reflexivity|exact H]. Qed.
Lemma ends_last pts c : ends_at pts c -> exists p, last_unwrap pts = Ret p /\ pt_conditions p = c.
Proof. intros (rest & p & -> & H). exists p. split; [apply last_unwrap_Ret; exists rest; reflexivity|exact H]. Qed.
Lemma converged_iff pts ic fin tol : starts_at pts ic -> ends_at pts fin ->
  exists b, integration_is_converged pts tol = Ret b /\
    (b = true <-> close tol (cd_T_c ic) (cd_T_c fin) /\ close tol (cd_T_e ic) (cd_T_e fin)).
Proof.
  intros H1 H2. destruct (starts_first _ _ H1) as (p & E1 & F1). destruct (ends_last _ _ H2) as (p' & E2 & F2).
  unfold integration_is_converged. rewrite E1, E2. cbn [obind]. eexists. split; [reflexivity|].
  rewrite Bool.andb_true_iff, !close_iff, F1, F2. reflexivity.
Qed.

Section Search.
  Variables (E : Env R) (D : Decomp R) (r : Run R) (T_low V_hi v_hi rho rv e P0 : R) (c' : R -> Conditions R).
  Let tau := ru_period r.
  Let q := left_over r T_low V_hi v_hi rho rv.
  Hypothesis HS : settles r T_low V_hi v_hi rho rv.
  Hypothesis HQ : q < 1.
  Hypothesis HD : sound D.
  Hypothesis HW' : warm_trajectory D r T_low c'.
  Hypothesis HE' : c' tau = c' 0.
  Lemma low_pos : 0 < T_low.
  Proof. destruct HS as (_ & _ & _ & _ & H & _). pose proof nil_pos. lra. Qed.
  Lemma q_pos : 0 <= q.
  Proof. exact (proj1 (factors_pos r T_low V_hi v_hi rho rv HS D c' HW')). Qed.
  Lemma revolved ic c1 : revolution D r T_low ic c1 -> spread c1 (c' 0) <= q * spread ic (c' 0).
  Proof.
    intros (c & <- & <- & K & HP). rewrite <- HE' at 1. unfold tau.
    apply (settled D D r T_low V_hi v_hi rho rv c c' HS HD HD HP); [|exact K|].
    - intros t Ht. apply HW'. lra.
    - intros t Ht. apply HW'. lra.
  Qed.
  Lemma revolution_warm ic c1 : revolution D r T_low ic c1 -> T_low <= cd_T_c ic /\ T_low <= cd_T_e ic.
  Proof. intros (c & <- & _ & K & _). apply K. destruct HS as (_ & _ & _ & H & _). lra. Qed.
  Lemma passed_near ic fin pts tol : tracks D r T_low e ic fin pts -> integration_is_converged pts tol = Ret true ->
    spread ic (c' 0) <= test_error T_low q e tol.
  Proof.
    intros (H1 & H2 & W1 & W2 & c1 & HR & He) HT. pose proof low_pos as LP.
    destruct (converged_iff pts ic fin tol H1 H2) as (b & E1 & E2). rewrite E1 in HT. injection HT as ->.
    destruct (proj1 E2 eq_refl) as (K1 & K2). destruct (revolution_warm _ _ HR) as (V1 & V2).
    apply (test_passed tol T_low) in K1, K2; try assumption. pose proof (revolved _ _ HR) as RV.
    pose proof (spread_tri ic fin (c' 0)) as S1. pose proof (spread_tri fin c1 (c' 0)) as S2.
    unfold spread at 2 in S1. unfold test_error.
    apply (Rmult_le_reg_r (1 - q)); [lra|].
    match goal with |- _ <= ?a / (1 - q) * (1 - q) => replace (a / (1 - q) * (1 - q)) with a by (field; lra) end. lra.
  Qed.
  Lemma small_passes ic fin pts tol T_hi s : tracks D r T_low e ic fin pts ->
    cd_T_c ic <= T_hi -> cd_T_e ic <= T_hi -> cd_T_c fin <= T_hi -> cd_T_e fin <= T_hi ->
    passes_test tol T_hi s -> (1 + q) * spread ic (c' 0) + e <= s -> integration_is_converged pts tol = Ret true.
  Proof.
    intros (H1 & H2 & W1 & W2 & c1 & HR & He) A1 A2 A3 A4 HP Hs. pose proof low_pos as LP.
    destruct (converged_iff pts ic fin tol H1 H2) as (b & E1 & E2). rewrite E1. f_equal. apply E2.
    destruct (revolution_warm _ _ HR) as (V1 & V2). pose proof (revolved _ _ HR) as RV.
    pose proof (spread_tri ic (c' 0) c1) as S1. rewrite (spread_sym (c' 0)) in S1. pose proof (spread_tri ic c1 fin) as S2.
    rewrite (spread_sym c1) in S2. assert (S : spread ic fin <= s) by lra. unfold spread in S.
    pose proof (Rabs_pos (/ cd_T_c ic - / cd_T_c fin)). pose proof (Rabs_pos (/ cd_T_e ic - / cd_T_e fin)).
    split; apply (test_passes tol T_hi s); try assumption; lra.
  Qed.
  Section Loop.
    Variables (region : Conditions R -> Prop) (T_hi : R) (inputs : SteadyStateInputs R).
    Hypothesis HC : complete D.
    Hypothesis He : 0 <= e.
    Hypothesis HREL : reliable E D r T_low e P0 region (ssi_ode_tol inputs) (ssi_num_points inputs).
    Hypothesis HP0 : ssi_pres_zero inputs = P0.
    Hypothesis HB : forall ic, region ic -> cd_P ic = P0 /\ cd_T_c ic <= T_hi /\ cd_T_e ic <= T_hi.
    Let tol := ssi_conv_tol inputs.
    Let result_of := sampled_from E D r region (ssi_ode_tol inputs) (ssi_num_points inputs).
    Lemma finish ic : region ic -> spread ic (c' 0) <= test_error T_low q e tol -> exists vs,
      (let! x := try_from E D (Run_Cycle r) ic (ssi_num_points inputs) (ssi_ode_tol inputs) in
       match x with Err er => Ret (Err er) | Ok integration =>
         let! values := into_state_values D (Run_Cycle r) integration in Ret (Ok values) end) = Ret (Ok vs) /\
      found_near (c' 0) P0 (test_error T_low q e tol) vs /\ result_of vs.
    Proof.
      intros HI HN. destruct (HREL ic HI) as (_ & pts & E1 & (p & rest & -> & E2) & E3). rewrite E1. cbn [obind].
      destruct (physical_values D (Run_Cycle r) _ HD HC E3) as (vs & E4). rewrite E4. cbn [obind]. exists vs. split; [reflexivity|].
      pose proof (into_state_values_from_spec D (Run_Cycle r) (p :: rest) FlowDirection_default) as VP.
      unfold into_state_values in E4. rewrite E4 in VP. split; [|exists ic, (p :: rest); auto].
      cbn [into_state_values_from] in E4.
      destruct (solve D _ _) as [sol|]; [|discriminate E4]. destruct (into_state_values_from _ _ _ _) as [vs'|]; [|discriminate E4].
      cbn [obind] in E4. injection E4 as <-. eexists. exists vs'. split; [reflexivity|]. cbn [sv_conditions]. rewrite E2.
      split; [apply HB, HI|exact HN].
    Qed.
    Lemma loop_finds n : forall m ic d, (n < m)%nat -> region ic -> spread ic (c' 0) <= d + e / (1 - q) -> 0 <= d ->
      passes_test tol T_hi (change_after q e d n) ->
      exists k vs, find_steady_state_loop E D (Run_Cycle r) inputs m ic = (k, Ret (Ok vs)) /\ (k <= n + 2)%nat /\
        found_near (c' 0) P0 (test_error T_low q e tol) vs /\ result_of vs.
    Proof.
      pose proof q_pos as Q0.
      induction n as [|n IH]; intros m ic d Hm HI Hd D0 HP; (destruct m as [|m]; [lia|]); cbn [find_steady_state_loop];
        destruct (HREL ic HI) as ((pts & fin & E1 & TR & HF) & _); rewrite E1; fold tol;
        destruct TR as (T1 & T2 & T3); pose proof (conj T1 (conj T2 T3)) as TR;
        destruct (converged_iff pts ic fin tol T1 T2) as (b & E2 & _).
      - rewrite (small_passes ic fin pts tol T_hi (change_after q e d 0) TR); try (apply HB; assumption); try exact HP.
        + destruct (finish ic HI) as (vs & EV & HN).
          { apply (passed_near ic fin pts tol TR). apply (small_passes ic fin pts tol T_hi (change_after q e d 0) TR);
              try (apply HB; assumption); try exact HP.
            - exact (proj1 (proj2 (HB _ HF))).
            - exact (proj2 (proj2 (HB _ HF))).
            - unfold change_after. rewrite pow_O. apply Rplus_le_compat_r, Rmult_le_compat_l; lra. }
          exists 2%nat, vs. rewrite EV. split; [reflexivity|]. split; [lia|exact HN].
        + exact (proj1 (proj2 (HB _ HF))).
        + exact (proj2 (proj2 (HB _ HF))).
        + unfold change_after. rewrite pow_O. apply Rplus_le_compat_r, Rmult_le_compat_l; lra.
      - rewrite E2. destruct b.
        + destruct (finish ic HI (passed_near ic fin pts tol TR E2)) as (vs & EV & HN).
          exists 2%nat, vs. rewrite EV. split; [reflexivity|]. split; [lia|exact HN].
        + destruct (ends_last _ _ T2) as (p & L1 & L2). unfold final_conditions. rewrite L1. cbn [obind]. rewrite L2, HP0.
          destruct (IH m (mkCond P0 (cd_T_c fin) (cd_T_e fin)) (q * d) ltac:(lia) HF) as (k & vs & EL & HK & HN).
          * destruct T3 as (_ & _ & c1 & HR & Hc). pose proof (revolved _ _ HR) as RV. pose proof (spread_tri fin c1 (c' 0)) as S.
            change (spread (mkCond P0 (cd_T_c fin) (cd_T_e fin)) (c' 0)) with (spread fin (c' 0)).
            assert (M : q * spread ic (c' 0) <= q * (d + e / (1 - q))) by (apply Rmult_le_compat_l; assumption).
            replace (e / (1 - q)) with (q * (e / (1 - q)) + e) by (field; lra). lra.
          * apply Rmult_le_pos; assumption.
          * unfold change_after in *. replace (q ^ n * (q * d)) with (q ^ S n * d) by (cbn [pow]; ring). exact HP.
          * rewrite EL. exists (S k), vs. split; [reflexivity|]. split; [lia|exact HN].
    Qed.
    Lemma search_finds n : let ic := mkCond P0 (ssi_temp_comp_hint inputs) (ssi_temp_exp_hint inputs) in
      region ic -> (n < N.to_nat (ssi_max_iters inputs))%nat -> passes_test tol T_hi (change_after q e (spread ic (c' 0)) n) ->
      exists k vs, find_steady_state_counted E D (Run_Cycle r) inputs = (k, Ret (Ok vs)) /\ (k <= n + 2)%nat /\
        found_near (c' 0) P0 (test_error T_low q e tol) vs /\ result_of vs.
    Proof.
      intros ic HI Hn HP. unfold find_steady_state_counted. rewrite HP0. fold ic.
      apply (loop_finds n _ ic (spread ic (c' 0)) Hn HI); [|apply spread_pos|exact HP].
      assert (0 <= e / (1 - q)) by (apply Rle_mult_inv_pos; lra). lra.
    Qed.
  End Loop.
End Search.

(** some limit suffices *)
Lemma some_limit (tol : ConvergenceTolerance R) q e d T_hi : 0 <= q < 1 -> 0 <= d -> 0 <= T_hi ->
  passes_test tol T_hi (change_after q e 0 0) -> exists n, passes_test tol T_hi (change_after q e d n).
Proof.
  intros (Q0 & Q1) D0 T0 (H1 & H2). unfold change_after in *. rewrite pow_O, Rmult_0_r, Rplus_0_l in H1, H2.
  set (s := (1 + q) * (e / (1 - q)) + e) in *.
  assert (K : 0 < T_hi * ((1 + q) * d) + T_hi * T_hi * ((1 + q) * d) + 1).
  { assert (0 <= (1 + q) * d) by (apply Rmult_le_pos; lra). assert (0 <= T_hi * ((1 + q) * d)) by (apply Rmult_le_pos; assumption).
    assert (0 <= T_hi * (T_hi * ((1 + q) * d))) by (apply Rmult_le_pos; assumption). lra. }
  set (kk := T_hi * ((1 + q) * d) + T_hi * T_hi * ((1 + q) * d) + 1) in *.
  set (g := Rmin (ct_rel tol - T_hi * s) (ct_abs tol - T_hi * T_hi * s)).
  assert (G : 0 < g) by (unfold g; apply Rmin_pos; lra).
  destruct (pow_lt_1_zero q ltac:(rewrite Rabs_pos_eq; lra) (g / kk) ltac:(apply Rdiv_lt_0_compat; lra)) as (n & Hn).
  specialize (Hn n (Nat.le_refl n)). rewrite Rabs_pos_eq in Hn by (apply pow_le; lra). exists n.
  assert (P : 0 <= q ^ n) by (apply pow_le; lra). set (p := q ^ n) in *.
  assert (M : p * kk < g).
  { apply (Rmult_lt_compat_r kk) in Hn; [|exact K]. replace (g / kk * kk) with g in Hn by (field; lra). exact Hn. }
  unfold kk in M.
  assert (A1 : 0 <= p * (T_hi * ((1 + q) * d))) by (repeat apply Rmult_le_pos; lra).
  assert (A2 : 0 <= p * (T_hi * T_hi * ((1 + q) * d))) by (repeat apply Rmult_le_pos; lra).
  pose proof (Rmin_l (ct_rel tol - T_hi * s) (ct_abs tol - T_hi * T_hi * s)) as L1.
  pose proof (Rmin_r (ct_rel tol - T_hi * s) (ct_abs tol - T_hi * T_hi * s)) as L2. fold g in L1, L2.
  replace ((1 + q) * (p * d + e / (1 - q)) + e) with (p * ((1 + q) * d) + s) by (unfold s; ring). unfold passes_test.
  split.
  - replace (T_hi * (p * ((1 + q) * d) + s)) with (p * (T_hi * ((1 + q) * d)) + T_hi * s) by ring. lra.
  - replace (T_hi * T_hi * (p * ((1 + q) * d) + s)) with (p * (T_hi * T_hi * ((1 + q) * d)) + T_hi * T_hi * s) by ring. lra.
Qed.

(** ** Engines with fixed approaches *)
Section Engine.
  Variables (E : Env R) (D : Decomp R) (comps : Components R) (fl : Fluid R) (inputs : RunInputs R) (settings : RunSettings R)
    (s0 : State R) (r : Run R).
  Hypothesis Fk : fixed_approach (co_chx comps).
  Hypothesis Fr : fixed_approach (co_regen comps).
  Hypothesis Fl : fixed_approach (co_hhx comps).
  Hypothesis H0 : State_new_hint comps fl inputs = Ret s0.
  Hypothesis Hr : Run_new comps s0 = Ret r.
  Hypothesis HW : forall p, ws_thermal_resistance (co_ws comps) (mkWsState (s_pres s0)) <> Panic p.
  Hypothesis Ha : 0 < ct_abs (lt_outer (rs_loop_tol settings)).
  Hypothesis Hl : 0 < ct_rel (lt_outer (rs_loop_tol settings)).
  Lemma fixed_run k v vs : find_steady_state_counted E D (Run_Cycle r)
      (mkSSI (pr_t_zero (s_pres s0)) (te_chx (s_temp s0)) (te_hhx (s_temp s0)) (rs_resolution settings) (rs_ode_tol settings)
         (lt_inner (rs_loop_tol settings)) (mi_inner (rs_max_iters settings))) = (k, Ret (Ok (v :: vs))) ->
    (0 < mi_outer (rs_max_iters settings))%N ->
    exists e, Engine_run_counted E D comps fl inputs settings = (k, Ret (Ok e)) /\ en_components e = comps /\
      en_state e = s0 /\ series_of (v :: vs) (en_values e).
  Proof.
    intros HF Ho. unfold Engine_run_counted. rewrite H0.
    replace (N.to_nat (mi_outer (rs_max_iters settings))) with (S (pred (N.to_nat (mi_outer (rs_max_iters settings))))) by lia.
    cbn [run_loop]. rewrite Hr, HF. apply State_new_hint_spec in H0.
    destruct H0 as (ak & ar & al & Ik & Ir & Il & HT & Hfl & Himb & _).
    assert (Same : forall v s', recomputed comps (s_fluid s0) (s_pres s0) (s_temp s0) (s_regen_imbalance s0) v
      (pr_avg (s_pres s')) (s_mass_flow s') (s_heat_flow s') (s_temp s') -> s_temp s0 = s_temp s').
    { intros v' s' (RR & bk & br & bl & _ & _ & _ & _ & Bk & Br & Bl & HT').
      rewrite Fk in Bk. rewrite Fr in Br. rewrite Fl in Bl.
      assert (bk = ak) by congruence. assert (br = ar) by congruence. assert (bl = al) by congruence.
      subst bk br bl. rewrite Himb in HT'.
      assert (Hsink : te_sink (s_temp s0) = ri_temp_sink inputs) by apply HT.
      assert (Hsource : te_source (s_temp s0) = ri_temp_source inputs) by apply HT.
      rewrite Hsink, Hsource in HT'. exact (temperatures_follow_det _ _ _ _ _ _ _ _ HT HT'). }
    destruct (State_update s0 comps (Values_from (v :: vs)) (lt_outer (rs_loop_tol settings))) as [[s'|s']|p] eqn:Hu.
    - exfalso. apply State_update_spec in Hu as (_ & Hrec & Hnc & _). apply Hnc. rewrite <- (Same _ _ Hrec).
      repeat split; apply close_self; auto.
    - apply State_update_spec in Hu as (-> & _). eexists. split; [reflexivity|]. cbn [en_components en_state en_values].
      split; [reflexivity|]. split; [reflexivity|apply Values_from_series].
    - exfalso. apply (State_update_panic _ _ _ _ _ _ (Values_from_series (v :: vs))) in Hu as [[_ Hu]|[Hu|Hu]].
      + discriminate Hu.
      + exact (HW p Hu).
      + destruct Hu as [(x & Hu)|[(x & Hu)|(x & Hu)]]; [rewrite Fk in Hu|rewrite Fr in Hu|rewrite Fl in Hu]; congruence.
  Qed.
  Variables (T_low V_hi v_hi rho rv e T_hi : R) (c' : R -> Conditions R) (region : Conditions R -> Prop).
  Let q := left_over r T_low V_hi v_hi rho rv.
  Let P0 := pr_t_zero (s_pres s0).
  Let ic := mkCond P0 (te_chx (s_temp s0)) (te_hhx (s_temp s0)).
  Lemma run_finds n : settles r T_low V_hi v_hi rho rv -> q < 1 -> sound D -> complete D -> warm_trajectory D r T_low c' ->
    c' (ru_period r) = c' 0 -> 0 <= e -> reliable E D r T_low e P0 region (rs_ode_tol settings) (rs_resolution settings) ->
    (forall c, region c -> cd_P c = P0 /\ cd_T_c c <= T_hi /\ cd_T_e c <= T_hi) -> region ic ->
    passes_test (lt_inner (rs_loop_tol settings)) T_hi (change_after q e (spread ic (c' 0)) n) ->
    (n < N.to_nat (mi_inner (rs_max_iters settings)))%nat -> (0 < mi_outer (rs_max_iters settings))%N ->
    exists k en vs, Engine_run_counted E D comps fl inputs settings = (k, Ret (Ok en)) /\ (k <= n + 2)%nat /\
      en_components en = comps /\ en_state en = s0 /\ series_of vs (en_values en) /\
      found_near (c' 0) P0 (test_error T_low q e (lt_inner (rs_loop_tol settings))) vs /\
      sampled_from E D r region (rs_ode_tol settings) (rs_resolution settings) vs.
  Proof.
    intros G1 G2 G3 G4 G5 G6 G7 G8 G9 G10 G11 G12 G13.
    destruct (search_finds E D r T_low V_hi v_hi rho rv e P0 c' G1 G2 G3 G5 G6 region T_hi
      (mkSSI P0 (te_chx (s_temp s0)) (te_hhx (s_temp s0)) (rs_resolution settings) (rs_ode_tol settings)
         (lt_inner (rs_loop_tol settings)) (mi_inner (rs_max_iters settings))) G4 G7 G8 eq_refl G9 n G10 G12 G11)
      as (k & vs & A & B & C & C').
    pose proof C as (v & rest & -> & _). destruct (fixed_run k v rest A G13) as (en & F1 & F2 & F3 & F4).
    exists k, en, (v :: rest). auto 10.
  Qed.
End Engine.
