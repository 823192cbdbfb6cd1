(** * Runs of engines whose exchangers are consistent with the exact steady cycle *)
From Coq Require Import ZArith NArith List Reals Lra Lia.
From Verif Require Import Num ModelTypes ModelWs ModelHx ModelStateEq ModelEngine ModelApi RNum Spec SpecLoop SpecR SpecGas
  SpecKin SpecTraj SpecLaws SpecUnique SpecExist SpecDepend SpecSeries SpecQuad SpecReport SpecSpaces SpecBounds SpecSteady SpecContract
  SpecSample SpecGlobal SpecSearch SpecConverge SpecAccurate SpecApi SpecMeans Fixture PolySolve PolyLoop PolyPanic PolyRun PolyReport RSolve RGauss RFluid RKin RPeriod RSeries
  RCase4 RDepend RBounds RSteady RSample RSampleReport RMotion RSampleCase RSearchCase RGlobal RGlobalReport RContractEngine RSettle RSearch RConverge RAccurate RMeans
  RReturned.
Import ListNotations.
Local Open Scope R_scope.

(** ** The logarithmic mean is continuous *)
Definition cont2 (f : R -> R -> R) (x y : R) : Prop := forall eps, 0 < eps -> exists d, 0 < d /\ forall x' y',
  Rabs (x' - x) <= d -> Rabs (y' - y) <= d -> Rabs (f x' y' - f x y) <= eps.
Lemma c2_fst x y : cont2 (fun a _ => a) x y.
Proof. intros eps He. exists eps. auto. Qed.
Lemma c2_snd x y : cont2 (fun _ b => b) x y.
Proof. intros eps He. exists eps. auto. Qed.
Lemma c2_comp g f x y : cont2 f x y -> continuity_pt g (f x y) -> cont2 (fun a b => g (f a b)) x y.
Proof.
  intros C G eps He. destruct (G eps He) as (w & W0 & HG). destruct (C (w / 2) ltac:(lra)) as (d & D0 & H).
  exists d. split; [exact D0|]. intros x' y' Hx Hy. specialize (H x' y' Hx Hy).
  destruct (Req_dec (f x' y') (f x y)) as [->|Z]; [rewrite Rminus_diag_eq, Rabs_R0 by reflexivity; lra|].
  left. apply (HG (f x' y')). split; [split; [exact I|auto]|]. cbn. unfold R_dist. lra.
Qed.
Lemma c2_minus f g x y : cont2 f x y -> cont2 g x y -> cont2 (fun a b => f a b - g a b) x y.
Proof.
  intros C G eps He. destruct (C (eps / 2) ltac:(lra)) as (d & D0 & H). destruct (G (eps / 2) ltac:(lra)) as (w & W0 & H').
  exists (Rmin d w). split; [apply Rmin_pos; assumption|]. intros x' y' Hx Hy. apply below_min in Hx as (Hx & Hx'), Hy as (Hy & Hy').
  specialize (H x' y' Hx Hy). specialize (H' x' y' Hx' Hy'). apply abs_le_iff in H, H'. apply abs_le_iff. lra.
Qed.
Lemma c2_mult f g x y : cont2 f x y -> cont2 g x y -> cont2 (fun a b => f a b * g a b) x y.
Proof.
  intros C G eps He. set (a := f x y). set (b := g x y). pose proof (Rabs_pos a) as A0. pose proof (Rabs_pos b) as B0.
  set (u := eps / (2 * (Rabs b + 1))). assert (U0 : 0 < u) by (apply Rdiv_lt_0_compat; lra).
  set (v := Rmin 1 (eps / (2 * (Rabs a + 1)))). assert (V0 : 0 < v) by (apply Rmin_pos; [lra|apply Rdiv_lt_0_compat; lra]).
  pose proof (Rmin_l 1 (eps / (2 * (Rabs a + 1)))) as V1. pose proof (Rmin_r 1 (eps / (2 * (Rabs a + 1)))) as V2. fold v in V1, V2.
  destruct (C u U0) as (d & D0 & H). destruct (G v V0) as (w & W0 & H').
  exists (Rmin d w). split; [apply Rmin_pos; assumption|]. intros x' y' Hx Hy. apply below_min in Hx as (Hx & Hx'), Hy as (Hy & Hy').
  specialize (H x' y' Hx Hy). specialize (H' x' y' Hx' Hy'). fold a in H. fold b in H'. set (a' := f x' y') in *. set (b' := g x' y') in *.
  replace (a' * b' - a * b) with ((a' - a) * b' + a * (b' - b)) by ring.
  assert (Gm : Rabs b' <= Rabs b + 1).
  { replace b' with (b + (b' - b)) by ring. pose proof (Rabs_triang b (b' - b)). lra. }
  apply Rle_trans with (1 := Rabs_triang _ _). rewrite !Rabs_mult.
  assert (A1 : Rabs (a' - a) * Rabs b' <= u * (Rabs b + 1)) by (apply Rmult_le_compat; try apply Rabs_pos; lra).
  assert (A2 : Rabs a * Rabs (b' - b) <= (Rabs a + 1) * (eps / (2 * (Rabs a + 1)))) by (apply Rmult_le_compat; try apply Rabs_pos; lra).
  replace (u * (Rabs b + 1)) with (eps / 2) in A1 by (unfold u; field; lra).
  replace ((Rabs a + 1) * (eps / (2 * (Rabs a + 1)))) with (eps / 2) in A2 by (field; lra). lra.
Qed.
Lemma c2_div f g x y : cont2 f x y -> cont2 g x y -> g x y <> 0 -> cont2 (fun a b => f a b / g a b) x y.
Proof.
  intros C G N. apply (c2_mult f (fun a b => / g a b)); [exact C|]. apply (c2_comp Rinv g); [exact G|].
  apply (continuity_pt_inv (fun z => z)); [apply derivable_continuous_pt, derivable_pt_id|exact N].
Qed.
Lemma log_mean_cont x y : 0 < y -> y < x -> cont2 (fun a b => (a - b) / ln (a / b)) x y.
Proof.
  intros Hy Hx. assert (Q : 1 < x / y).
  { apply (Rmult_lt_reg_r y); [exact Hy|]. replace (x / y * y) with x by (field; lra). lra. }
  apply (c2_div (fun a b => a - b) (fun a b => ln (a / b))).
  - apply (c2_minus (fun a _ => a) (fun _ b => b)); [apply c2_fst|apply c2_snd].
  - apply (c2_comp ln (fun a b => a / b)).
    + apply (c2_div (fun a _ => a) (fun _ b => b)); [apply c2_fst|apply c2_snd|lra].
    + apply derivable_continuous_pt. exists (/ (x / y)). apply derivable_pt_lim_ln. lra.
  - assert (ln 1 < ln (x / y)) by (apply ln_increasing; lra). rewrite ln_1 in *. lra.
Qed.

(** ** Temperatures that follow from nearby approaches are nearby *)
Definition temps_within (x : R) (T T' : Temperatures R) : Prop :=
  Rabs (te_chx T' - te_chx T) <= x /\ Rabs (te_hhx T' - te_hhx T) <= x /\
  Rabs (rt_cold (te_regen T') - rt_cold (te_regen T)) <= x /\ Rabs (rt_avg (te_regen T') - rt_avg (te_regen T)) <= x /\
  Rabs (rt_hot (te_regen T') - rt_hot (te_regen T)) <= x.
Lemma follow_near sink source imb a_k a_r a_l T :
  temperatures_follow sink source a_k a_r a_l imb T ->
  0 < te_chx T + rt_cold (te_regen T) < te_hhx T + rt_hot (te_regen T) ->
  forall eps, 0 < eps -> exists d, 0 < d /\ forall b_k b_r b_l T', temperatures_follow sink source b_k b_r b_l imb T' ->
    Rabs (b_k - a_k) <= d -> Rabs (b_r - a_r) <= d -> Rabs (b_l - a_l) <= d -> temps_within eps T T'.
Proof.
  intros HF HO eps He. pose proof HF as (_ & _ & F1 & F2 & F3 & F4 & F5). 
  assert (IM : n_le n0 imb = (if Rle_dec 0 imb then true else false)) by (rewrite R_n0; reflexivity).
  rewrite IM in F3, F4, F5. rewrite R_nhalf in F5. change (@n_add R R_ops) with Rplus in *. change (@n_sub R R_ops) with Rminus in *.
  change (@n_mul R R_ops) with Rmult in *. change (@n_div R R_ops) with Rdiv in *. change (@n_ln R R_ops) with ln in *.
  set (cold := if (if Rle_dec 0 imb then true else false) then a_r else a_r - imb) in *.
  set (hot := if (if Rle_dec 0 imb then true else false) then a_r + imb else a_r) in *.
  set (H := te_hhx T - / 2 * hot) in *. set (C := te_chx T + / 2 * cold) in *.
  destruct (log_mean_cont H C ltac:(unfold C; lra) ltac:(unfold H, C; lra) eps He) as (d & D0 & HL).
  set (w := Rmin (eps / 2) (d / 2)). exists w. split; [apply Rmin_pos; lra|].
  pose proof (Rmin_l (eps / 2) (d / 2)) as W1. pose proof (Rmin_r (eps / 2) (d / 2)) as W2. fold w in W1, W2.
  intros b_k b_r b_l T' (_ & _ & G1 & G2 & G3 & G4 & G5) B1 B2 B3.
  rewrite IM in G3, G4, G5. rewrite R_nhalf in G5. change (@n_add R R_ops) with Rplus in *. change (@n_sub R R_ops) with Rminus in *.
  change (@n_mul R R_ops) with Rmult in *. change (@n_div R R_ops) with Rdiv in *. change (@n_ln R R_ops) with ln in *.
  set (cold' := if (if Rle_dec 0 imb then true else false) then b_r else b_r - imb) in *.
  set (hot' := if (if Rle_dec 0 imb then true else false) then b_r + imb else b_r) in *.
  apply abs_le_iff in B1, B2, B3.
  assert (CC : - w <= cold' - cold <= w) by (unfold cold, cold'; destruct (Rle_dec 0 imb); lra).
  assert (HH : - w <= hot' - hot <= w) by (unfold hot, hot'; destruct (Rle_dec 0 imb); lra).
  unfold temps_within. rewrite !abs_le_iff. split; [lra|]. split; [lra|]. split; [lra|]. split; [|lra].
  apply abs_le_iff. rewrite F5, G5.
  replace (H - te_chx T - / 2 * cold) with (H - C) by (unfold H, C; ring).
  specialize (HL (te_hhx T' - / 2 * hot') (te_chx T' + / 2 * cold')).
  replace (te_hhx T' - / 2 * hot' - te_chx T' - / 2 * cold') with (te_hhx T' - / 2 * hot' - (te_chx T' + / 2 * cold')) by ring.
  apply HL; apply abs_le_iff; unfold H, C; lra.
Qed.
Lemma within_close tol T : 0 < ct_abs tol -> 0 < ct_rel tol -> exists x, 0 < x /\ forall T', temps_within x T T' -> temperatures_close tol T T'.
Proof.
  intros A L. 
  set (S := Rabs (/ te_chx T) + Rabs (/ te_hhx T) + Rabs (/ rt_cold (te_regen T)) + Rabs (/ rt_avg (te_regen T)) + Rabs (/ rt_hot (te_regen T)) + 1).
  pose proof (Rabs_pos (/ te_chx T)). pose proof (Rabs_pos (/ te_hhx T)). pose proof (Rabs_pos (/ rt_cold (te_regen T))).
  pose proof (Rabs_pos (/ rt_avg (te_regen T))). pose proof (Rabs_pos (/ rt_hot (te_regen T))).
  assert (S0 : 0 < S) by (unfold S; lra).
  set (x := Rmin (ct_abs tol / 2) (ct_rel tol / (2 * S))). assert (X0 : 0 < x) by (apply Rmin_pos; [lra|apply Rdiv_lt_0_compat; lra]).
  pose proof (Rmin_l (ct_abs tol / 2) (ct_rel tol / (2 * S))) as X1. pose proof (Rmin_r (ct_abs tol / 2) (ct_rel tol / (2 * S))) as X2. fold x in X1, X2.
  exists x. split; [exact X0|]. intros T' (B1 & B2 & B3 & B4 & B5).
  assert (Q : forall old new, Rabs (/ old) <= S -> Rabs (new - old) <= x -> close tol old new).
  { intros old new HO HN. split; apply R_lt_iff.
    - change (Rabs (new - old) < ct_abs tol). lra.
    - change (Rabs ((new - old) / old) < ct_rel tol). unfold Rdiv. rewrite Rabs_mult.
      apply Rle_lt_trans with (ct_rel tol / (2 * S) * S).
      + apply Rmult_le_compat; try apply Rabs_pos; lra.
      + replace (ct_rel tol / (2 * S) * S) with (ct_rel tol / 2) by (field; lra). lra. }
  repeat split; apply Q; try assumption; unfold S; lra.
Qed.

Section Consistent.
  Variables (comps : Components R) (s0 : State R) (r : Run R) (D : Decomp R) (cl ch el eh cl' ch' el' eh' : R)
    (T_low V_hi v_hi rho rv : R) (c' : R -> Conditions R) (a : Replies R).
  Hypothesis Hfl : s_fluid s0 = IdealGas_Fluid he.
  Hypothesis Hd : driven (co_ws comps).
  Hypothesis Hr : Run_new comps s0 = Ret r.
  Hypothesis Hn : te_sink (s_temp s0) + te_source (s_temp s0) <> 500.
  Hypothesis HD : sound D.
  Hypothesis HC : complete D.
  Hypothesis HX : sane_exchangers r.
  Let P0 := pr_t_zero (s_pres s0).
  Hypothesis HP0 : 0 < P0.
  Hypothesis VC : forall T, between (V_comp r) cl ch 0 T.
  Hypothesis VE : forall T, between (V_exp r) el eh 0 T.
  Hypothesis O1 : 0 < cl' < cl.
  Hypothesis O2 : ch < ch'.
  Hypothesis O3 : 0 < el' < el.
  Hypothesis O4 : eh < eh'.
  Let q := left_over r T_low V_hi v_hi rho rv.
  Let ic := mkCond P0 (te_chx (s_temp s0)) (te_hhx (s_temp s0)).
  Hypothesis HS : settles r T_low V_hi v_hi rho rv.
  Hypothesis HQ : q < 1.
  Let Tk := te_chx (ru_temp r).
  Let Tl := te_hhx (ru_temp r).
  Hypothesis W1 : T_low < expanded cl' ch' Tk.
  Hypothesis W2 : T_low < expanded el' eh' Tl.
  Hypothesis SC : steady_cycle D r c'.
  Hypothesis WT : warm_trajectory D r T_low c'.
  Hypothesis CP : cd_P (c' 0) = P0.
  Let outer := within_levels r P0 cl' ch' el' eh'.
  Let rev e := e / (T_low * T_low).
  Let err (e : R) (settings : RunSettings R) := test_error T_low q (rev e) (lt_inner (rs_loop_tol settings)).
  Hypothesis HA : forall vals, replies (mkEngine comps s0 vals) a.
  Hypothesis NP : forall p, ~ approach_panics comps p.
  Variables (s : R -> Solution R) (M : Means) (a_k a_r a_l : R).
  Hypothesis Hs : forall t, 0 <= t <= ru_period r -> solved_at D r t (c' t) (s t).
  Hypothesis HM : means (s_temp s0) (rp_res a) c' s (ru_period r) M.
  Hypothesis HAp : steady_approaches comps s0 M a_k a_r a_l.
  Hypothesis HF : temperatures_follow (te_sink (s_temp s0)) (te_source (s_temp s0)) a_k a_r a_l (s_regen_imbalance s0) (s_temp s0).
  Hypothesis HO : 0 < te_chx (s_temp s0) + rt_cold (te_regen (s_temp s0)) < te_hhx (s_temp s0) + rt_hot (te_regen (s_temp s0)).

  (** the outer loop accepts the state *)
  Lemma accepts tol' : 0 < ct_abs tol' -> 0 < ct_rel tol' -> exists d, 0 < d /\
    forall (E : Env R) (settings : RunSettings R) (e h : R) k vs n, lt_outer (rs_loop_tol settings) = tol' ->
    find_steady_state_counted E D (Run_Cycle r) (search_of s0 settings) = (k, Ret (Ok vs)) ->
    0 <= e -> accurate E D r outer (rs_ode_tol settings) 2 (ru_period r) e ->
    accurate E D r outer (rs_ode_tol settings) (rs_resolution settings) h e ->
    e <= d -> err e settings <= d -> h <= d ->
    run_loop E D comps settings (S n) s0 = (k, Ret (Ok (mkEngine comps s0 (Values_from vs)))).
  Proof.
    intros TA TR. destruct (within_close tol' (s_temp s0) TA TR) as (x & X0 & HW).
    destruct (follow_near _ _ _ _ _ _ _ HF HO x X0) as (y & Y0 & HN).
    destruct HAp as ((_ & K2) & (_ & R2) & (_ & L2)).
    destruct (K2 y Y0) as (d1 & D1 & C1). destruct (R2 y Y0) as (d2 & D2 & C2). destruct (L2 y Y0) as (d3 & D3 & C3).
    set (w := Rmin d1 (Rmin d2 d3)). assert (W0 : 0 < w) by (unfold w; repeat apply Rmin_pos; assumption).
    assert (WL : w <= d1 /\ w <= d2 /\ w <= d3).
    { pose proof (Rle_refl w) as A. unfold w in A at 2. apply below_min in A as (A & B). apply below_min in B. tauto. }
    destruct (found_samples comps s0 r D cl ch el eh cl' ch' el' eh' T_low V_hi v_hi rho rv c' Hfl Hd Hr Hn HD HC HX HP0 VC VE O1 O2 O3 O4 HS HQ W1 W2 SC WT CP)
      as (B & d4 & B1 & D4 & HB). pose proof SC as (HT & _).
    destruct (means_near he (gas_R_pos Helium) r (eng_fluid Helium comps s0 r Hfl Hd Hr) D c' (ru_period r) HD (period_pos comps s0 r Hd Hr)
      (fun t Ht => HT t (proj1 Ht)) (eng_motion comps s0 r Hd Hr) (s_temp s0) (rp_res a)) as (K1 & d5 & K0 & D5 & HMn).
    set (g := 3 * B * (K1 + 1)). assert (g0 : 0 < g) by (apply Rmult_lt_0_compat; lra).
    set (d := Rmin d4 (Rmin (d5 / (2 * B)) (w / g))). assert (d0 : 0 < d) by (unfold d; repeat apply Rmin_pos; try assumption; apply Rdiv_lt_0_compat; lra).
    assert (DL : d <= d4 /\ d <= d5 / (2 * B) /\ d <= w / g).
    { pose proof (Rle_refl d) as A. unfold d in A at 2. apply below_min in A as (A & A'). apply below_min in A'. tauto. }
    destruct DL as (M1 & M2 & M3).
    exists d. split; [exact d0|]. intros E settings e h k vs n Ht HF0 He A2 An Hse Hst Hh.
    destruct (HB E settings e h k vs HF0 He A2 An ltac:(lra) ltac:(unfold err, rev, q in Hst; lra)) as (T0 & NE & dl & S2 & S3 & S4 & dl0 & dl1).
    pose proof (steps_nonneg _ _ _ S2 S3) as h0.
    assert (DB : dl <= B * (2 * d)) by (apply Rle_trans with (1 := dl1); apply Rmult_le_compat_l; unfold err, rev, q in Hst; lra).
    assert (KW : K1 * (h + dl) <= w).
    { apply Rle_trans with ((K1 + 1) * (3 * B * d)).
      - apply Rmult_le_compat; try lra. assert (1 * d <= B * d) by (apply Rmult_le_compat_r; lra). lra.
      - apply Rle_trans with (g * (w / g)); [|right; field; lra]. unfold g. replace ((K1 + 1) * (3 * B * d)) with (3 * B * (K1 + 1) * d) by ring.
        apply Rmult_le_compat_l; [fold g; lra|exact M3]. }
    cbn [run_loop]. rewrite Hr. unfold search_of in HF0. cbv zeta in HF0. rewrite HF0. rewrite Ht.
    destruct (State_update s0 comps (Values_from vs) tol') as [[s'|s']|p] eqn:Hu.
    - exfalso. apply State_update_spec in Hu as (_ & Hrec & Hnc & _). apply Hnc. apply HW.
      set (P := pr_avg (s_pres s')) in *. set (m := s_mass_flow s') in *. set (q0 := s_heat_flow s') in *.
      destruct Hrec as (res & b_k & b_r & b_l & Q1 & Q2 & Q3 & Q4 & Q5 & Q6 & Q7 & Q8).
      assert (res = rp_res a).
      { destruct (HA (Values_from [])) as (_ & _ & _ & HA4 & _). cbn [en_components en_state] in HA4. congruence. }
      subst res.
      assert (N : averages_within (K1 * (h + dl)) M P m q0).
      { apply (HMn s M vs (Values_from vs) h dl D P m q0); try assumption; [apply Values_from_series|].
        apply Rle_trans with (1 := DB). apply Rle_trans with (B * (2 * (d5 / (2 * B)))); [apply Rmult_le_compat_l; lra|right; field; lra]. }
      destruct N as (N1 & N2 & N3 & N4 & N5 & N6 & N7).
      apply (HN _ _ _ _ Q8); [apply (C1 P (mf_chx m) (hf_chx q0))|apply (C2 P (mf_regen m) (hf_regen q0))|apply (C3 P (mf_hhx m) (hf_hhx q0))];
        try assumption; lra.
    - apply State_update_spec in Hu as (-> & _). reflexivity.
    - exfalso. apply (State_update_panic _ _ _ _ _ _ (Values_from_series vs)) in Hu as [[_ Hu]|[Hu|Hu]].
      + exact (NE Hu).
      + destruct (HA (Values_from [])) as (_ & _ & _ & HA4 & _). cbn [en_components en_state] in HA4. congruence.
      + exact (NP p Hu).
  Qed.
  Theorem consistent_run tol' : 0 < ct_abs tol' -> 0 < ct_rel tol' -> exists K d, 0 <= K /\ 0 < d /\
    forall (E : Env R) (fl : Fluid R) (inputs : RunInputs R) (settings : RunSettings R) (e h : R) (n : nat) (X : Totals),
    State_new_hint comps fl inputs = Ret s0 -> lt_outer (rs_loop_tol settings) = tol' ->
    0 <= e -> accurate E D r outer (rs_ode_tol settings) 2 (ru_period r) e ->
    accurate E D r outer (rs_ode_tol settings) (rs_resolution settings) h e ->
    passes_test (lt_inner (rs_loop_tol settings)) (hottest_start r ch' eh') (change_after q (rev e) (spread ic (c' 0)) n) ->
    (n < N.to_nat (mi_inner (rs_max_iters settings)))%nat -> (0 < mi_outer (rs_max_iters settings))%N ->
    e <= d -> err e settings <= d -> h <= d ->
    totals (IdealGas_Fluid he) (s_temp s0) a c' s (ru_period r) X ->
    exists k en rep, Engine_run_counted E D comps fl inputs settings = (k, Ret (Ok en)) /\ (k <= n + 2)%nat /\ en_state en = s0 /\
      RunResults_from en = Ret rep /\ report_within a X (K * (h + e + err e settings)) rep.
  Proof.
    intros TA TR. destruct (accepts tol' TA TR) as (d1 & D1 & HAcc).
    destruct (returned_report comps s0 r D cl ch el eh cl' ch' el' eh' T_low V_hi v_hi rho rv c' a Hfl Hd Hr Hn HD HC HX HP0 VC VE O1 O2 O3 O4 HS HQ W1 W2 SC WT CP HA)
      as (K & d2 & K0 & D2 & HRep).
    destruct (dependable comps s0 r D cl ch el eh cl' ch' el' eh' T_low V_hi v_hi rho rv c' Hfl Hd Hr Hn HD HC HX HP0 VC VE O1 O2 O3 O4 HS HQ W1 W2 WT)
      as (d3 & D3 & HDep). fold P0 in HDep. fold outer in HDep.
    pose proof SC as (HT & HP). assert (E0 : c' (ru_period r) = c' 0) by (rewrite <- (HP 0) by lra; f_equal; ring).
    pose proof (low_pos r T_low V_hi v_hi rho rv HS) as LP. pose proof (q_pos D r T_low V_hi v_hi rho rv c' HS WT) as Q0.
    assert (TT : 0 < T_low * T_low) by (apply Rmult_lt_0_compat; exact LP).
    exists K, (Rmin d1 (Rmin d2 d3)). split; [exact K0|]. split; [repeat apply Rmin_pos; assumption|].
    intros E fl inputs settings e h n X H0 Ht He A2 An Hpass Hni Ho Hse Hst Hh HX'.
    apply below_min in Hse as (E1 & E2). apply below_min in E2 as (E2 & E3). apply below_min in Hst as (F1 & F2). apply below_min in F2 as (F2 & _).
    apply below_min in Hh as (G1 & _).
    assert (RE : 0 <= rev e) by (unfold rev; apply Rle_mult_inv_pos; lra).
    destruct (search_finds E D r T_low V_hi v_hi rho rv (rev e) P0 c' HS HQ HD WT E0
      (about s0 r cl ch el eh cl' ch' el' eh' (rev e / (1 - q))) (hottest_start r ch' eh') (search_of s0 settings) HC RE
      (HDep E (rs_ode_tol settings) (rs_resolution settings) h e (conj He E3) A2 An) eq_refl) with (n := n) as (k & vs & S1 & S2 & _).
    { intros c (HO' & _). destruct HO' as (U0 & (_ & U1) & (_ & U2)). split; [exact U0|].
      unfold hottest_start. split; [apply Rle_trans with (1 := U1), Rmax_l|apply Rle_trans with (1 := U2), Rmax_r]. }
    { pose proof (starts_inside comps s0 r cl ch el eh cl' ch' el' eh' T_low V_hi v_hi rho rv Hr HX VC VE HS HQ W1 W2) as HI.
      split; [exact (inner_outer s0 r cl ch el eh cl' ch' el' eh' HX VC VE O1 O2 O3 O4 _ HI)|]. exists ic. split; [exact HI|].
      unfold spread. rewrite !Rminus_diag_eq, Rabs_R0 by reflexivity.
      rewrite Rplus_0_r. apply Rle_mult_inv_pos; unfold q in *; lra. }
    { exact Hni. }
    { exact Hpass. }
    assert (HRun : Engine_run_counted E D comps fl inputs settings = (k, Ret (Ok (mkEngine comps s0 (Values_from vs))))).
    { unfold Engine_run_counted. rewrite H0.
      replace (N.to_nat (mi_outer (rs_max_iters settings))) with (S (pred (N.to_nat (mi_outer (rs_max_iters settings))))) by lia.
      apply (HAcc E settings e h k vs); assumption. }
    destruct (HRep E fl inputs settings e h k _ s X HRun eq_refl He A2 An E2 F2 Hs HX') as (rep & R1 & R2).
    exists k, (mkEngine comps s0 (Values_from vs)), rep. auto.
  Qed.

  Theorem consistent_limit tol' X : 0 < ct_abs tol' -> 0 < ct_rel tol' ->
    totals (IdealGas_Fluid he) (s_temp s0) a c' s (ru_period r) X ->
    forall eps, 0 < eps -> exists dl, 0 < dl /\
    forall tol, 0 < ct_abs tol -> 0 < ct_rel tol <= dl -> exists e0 n, 0 < e0 /\
    forall (E : Env R) (fl : Fluid R) (inputs : RunInputs R) (settings : RunSettings R) (h : R),
    State_new_hint comps fl inputs = Ret s0 ->
    lt_inner (rs_loop_tol settings) = tol -> lt_outer (rs_loop_tol settings) = tol' ->
    accurate E D r outer (rs_ode_tol settings) 2 (ru_period r) e0 ->
    accurate E D r outer (rs_ode_tol settings) (rs_resolution settings) h e0 -> h <= dl ->
    (n < N.to_nat (mi_inner (rs_max_iters settings)))%nat -> (0 < mi_outer (rs_max_iters settings))%N ->
    exists k en rep, Engine_run_counted E D comps fl inputs settings = (k, Ret (Ok en)) /\ (k <= n + 2)%nat /\ en_state en = s0 /\
      RunResults_from en = Ret rep /\ report_within a X eps rep.
  Proof.
    intros TA' TR' HX'.
    destruct (gas_levels Tk (proj1 HX)) as (_ & (F0 & _) & _).
    destruct (consistent_run tol' TA' TR') as (K & d & K0 & D0 & H).
    pose proof (low_pos r T_low V_hi v_hi rho rv HS) as LP. pose proof (q_pos D r T_low V_hi v_hi rho rv c' HS WT) as Q0. fold q in Q0.
    set (B := (1 + 2 / T_low) / (1 - q)).
    assert (B0 : 0 < B).
    { unfold B. apply Rdiv_lt_0_compat; [|lra]. assert (0 < 2 / T_low) by (apply Rdiv_lt_0_compat; lra). lra. }
    intros eps He. set (dl := Rmin (d / (B + 1)) (eps / ((K + 1) * (B + 2)))).
    assert (KB : 0 < (K + 1) * (B + 2)) by (apply Rmult_lt_0_compat; lra).
    pose proof (Rmin_l (d / (B + 1)) (eps / ((K + 1) * (B + 2)))) as M1. pose proof (Rmin_r (d / (B + 1)) (eps / ((K + 1) * (B + 2)))) as M2.
    fold dl in M1, M2.
    assert (DL : 0 < dl) by (apply Rmin_pos; apply Rdiv_lt_0_compat; lra). exists dl. split; [exact DL|].
    intros tol A1 (A2 & A3).
    assert (TH : 0 < hottest_start r ch' eh').
    { unfold hottest_start. apply Rlt_le_trans with (2 := Rmax_l _ _). apply level_pos. apply Rlt_le_trans with (1 := F0).
      apply Rle_trans with T_ref; [apply Rmin_l|apply Rmax_l]. }
    set (C := (1 + q) / (1 - q) + 1). assert (C0' : 0 < C).
    { unfold C. assert (0 < (1 + q) / (1 - q)) by (apply Rdiv_lt_0_compat; lra). lra. }
    set (Th := hottest_start r ch' eh') in *. assert (Th2 : 0 < Th * Th) by (apply Rmult_lt_0_compat; exact TH).
    set (mt := Rmin (ct_rel tol) (ct_abs tol)). assert (MT : 0 < mt) by (apply Rmin_pos; assumption).
    pose proof (Rmin_l (ct_rel tol) (ct_abs tol)) as MT1. pose proof (Rmin_r (ct_rel tol) (ct_abs tol)) as MT2. fold mt in MT1, MT2.
    set (g := C * (Th + Th * Th)). assert (g0 : 0 < g) by (apply Rmult_lt_0_compat; lra).
    set (x := mt / (2 * g)). assert (x0 : 0 < x) by (apply Rdiv_lt_0_compat; lra).
    assert (gx : g * x < mt).
    { unfold x. replace (g * (mt / (2 * g))) with (mt / 2) by (field; lra). lra. }
    assert (TT : 0 < T_low * T_low) by (apply Rmult_lt_0_compat; exact LP).
    set (e0 := Rmin dl (T_low * T_low * Rmin dl x)).
    assert (e00 : 0 < e0) by (apply Rmin_pos; [exact DL|apply Rmult_lt_0_compat; [exact TT|apply Rmin_pos; assumption]]).
    assert (rv0 : 0 <= e0 / (T_low * T_low)) by (apply Rle_mult_inv_pos; lra).
    assert (rv1 : e0 / (T_low * T_low) <= Rmin dl x).
    { apply (Rmult_le_reg_r (T_low * T_low)); [exact TT|]. replace (e0 / (T_low * T_low) * (T_low * T_low)) with e0 by (field; lra).
      rewrite Rmult_comm. apply Rmin_r. }
    pose proof (Rmin_l dl x) as X1. pose proof (Rmin_r dl x) as X2. pose proof (Rmin_l dl (T_low * T_low * Rmin dl x)) as X3. fold e0 in X3.
    set (re := e0 / (T_low * T_low)) in *.
    destruct (some_limit tol q re (spread ic (c' 0)) Th) as (n & Hpass).
    { lra. } { apply spread_pos. } { lra. }
    { assert (CE : change_after q re 0 0 = C * re) by (unfold change_after, C; rewrite pow_O; field; lra).
      rewrite CE. assert (GR : g * re <= g * x) by (apply Rmult_le_compat_l; lra).
      assert (PC1 : 0 <= C * re * Th) by (apply Rmult_le_pos; [apply Rmult_le_pos|]; lra).
      assert (PC2 : 0 <= C * re * (Th * Th)) by (apply Rmult_le_pos; [apply Rmult_le_pos|]; lra).
      assert (GS : g * re = C * re * Th + C * re * (Th * Th)) by (unfold g; ring). split; lra. }
    exists e0, n. split; [exact e00|].
    intros E fl inputs settings h S1 S2 S3 S5 S6 S7 S8 S9.
    assert (TE : test_error T_low q re tol <= B * dl).
    { unfold test_error, B. apply (Rmult_le_reg_r (1 - q)); [lra|].
      replace ((re + 2 * (Rmin (ct_rel tol) (ct_abs tol / T_low) / T_low)) / (1 - q) * (1 - q))
        with (re + 2 * (Rmin (ct_rel tol) (ct_abs tol / T_low) / T_low)) by (field; lra).
      replace ((1 + 2 / T_low) / (1 - q) * dl * (1 - q)) with (dl + 2 * (dl / T_low)) by (field; lra).
      apply Rplus_le_compat; [lra|]. apply Rmult_le_compat_l; [lra|]. unfold Rdiv.
      apply Rmult_le_compat_r; [left; apply Rinv_0_lt_compat; exact LP|]. eapply Rle_trans; [apply Rmin_l|exact A3]. }
    assert (DD : (B + 1) * dl <= d).
    { apply Rle_trans with ((B + 1) * (d / (B + 1))); [apply Rmult_le_compat_l; lra|]. right. field. lra. }
    assert (EE : (K + 1) * (B + 2) * dl <= eps).
    { apply Rle_trans with ((K + 1) * (B + 2) * (eps / ((K + 1) * (B + 2)))); [apply Rmult_le_compat_l; lra|]. right. field. lra. }
    assert (BD : 0 <= B * dl) by (apply Rmult_le_pos; lra).
    destruct (H E fl inputs settings e0 h n X) as (k & en & rep & R1 & R2 & R3 & R4 & R5); try assumption; try lra.
    { rewrite S2. exact Hpass. }
    { unfold err. rewrite S2. fold re. unfold rev. fold re. lra. }
    exists k, en, rep. split; [exact R1|]. split; [exact R2|]. split; [exact R3|]. split; [exact R4|]. apply (report_wider a X _ _ rep R5).
    unfold err. rewrite S2. unfold rev. fold re. apply Rle_trans with (K * ((B + 2) * dl)); [apply Rmult_le_compat_l; lra|].
    apply Rle_trans with ((K + 1) * ((B + 2) * dl)); [apply Rmult_le_compat_r; [apply Rmult_le_pos; lra|lra]|]. lra.
  Qed.
End Consistent.
