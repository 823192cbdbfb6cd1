(** * Heat and work of hydrogen engines over a cycle *)
From Coq Require Import ZArith NArith List Reals Lra Lia.
From Verif Require Import Num ModelTypes ModelWs ModelHx ModelStateEq ModelEngine RNum Spec SpecR SpecGas SpecKin
  SpecTraj SpecLaws SpecUnique SpecSpaces SpecHydro SpecBounds SpecSteady SpecRegen SpecH2Cycle Fixture PolySolve RSolve RGauss RFluid RKin RMass RSpaces
  RPairs RPicard RLocal RExist RBounds RLaws RHydro RLeak RSettle RRegen RStart RCase RCase3 RPeriod RH2 RH2Case RH2Steady.
Import ListNotations.
Local Open Scope R_scope.

Lemma mean_enth (T P : R) : (T - 250) * mean_cp T = ig_enth h2 T P.
Proof. rewrite h2_enth. unfold mean_cp, h2_c. reflexivity. Qed.
Definition mean_slope (T : R) : R :=
  13.3194432 / 2 + - 0.0347782806 / 3 * (2 * T) + 0.0000431784838 / 4 * (3 * T^2)
  + - 0.0000000242883335 / 5 * (4 * T^3) + 0.00000000000514289838 / 6 * (5 * T^4).
Lemma poly_deriv (a b c d e f T : R) : has_deriv (fun t => a + b * t + c * t^2 + d * t^3 + e * t^4 + f * t^5) T
  (b + c * (2 * T) + d * (3 * T^2) + e * (4 * T^3) + f * (5 * T^4)).
Proof.
  unfold has_deriv. eapply deriv_eq.
  - repeat apply deriv_plus; try apply deriv_const; (apply deriv_mult; [apply deriv_const|]); [apply deriv_id|..]; apply derivable_pt_lim_pow.
  - cbn [pred INR]. ring.
Qed.
Lemma mean_deriv (T : R) : has_deriv mean_cp T (mean_slope T).
Proof. exact (poly_deriv 12471.4839 (13.3194432 / 2) (- 0.0347782806 / 3) (0.0000431784838 / 4) (- 0.0000000242883335 / 5) (0.00000000000514289838 / 6) T). Qed.
Lemma slope_gap (T P : R) : ig_du_dT_P h2 T P - h2_true_du T = 250 * mean_slope T.
Proof. rewrite h2_du_dT, h2_cp. unfold h2_true_du, mean_slope, h2_c. lra. Qed.

Section Cycle.
  Variable r : Run R.
  Hypothesis Hf : ru_fluid r = IdealGas_Fluid h2.
  Variable D : Decomp R.
  Hypothesis HD : sound D.
  Variable c : R -> Conditions R.

  Lemma norm_of t : physical_trajectory D r c t -> ru_enth_norm r <> 0.
  Proof. intros (_ & (Hn & _) & _). unfold Run_calculate_inputs in Hn. destruct (ru_ws_vol_fn r t). exact Hn. Qed.

  Lemma held_deriv t hint s : physical_trajectory D r c t -> solve D (Run_calculate_inputs r t (c t)) hint = Ok s -> follows c s t ->
    has_deriv (fun u => held r u (c u)) t
      (energy_leak r t (c t) h2_true_du s - 250 * (mean_cp (cd_T_c (c t)) * so_m_dot_ck s - mean_cp (cd_T_e (c t)) * so_m_dot_le s)).
  Proof.
    intros ((HT & HV & _) & _) Hs HF.
    destruct (masses _ (gas_R_pos Hydrogen) r Hf D c t hint s HD Hs HF HT HV) as (M1 & _ & _ & _ & M5).
    destruct HF as (_ & F1 & F2). unfold has_deriv in *.
    pose proof (deriv_comp (fun u => cd_T_c (c u)) mean_cp t _ _ F1 (mean_deriv (cd_T_c (c t)))) as G1.
    pose proof (deriv_comp (fun u => cd_T_e (c u)) mean_cp t _ _ F2 (mean_deriv (cd_T_e (c t)))) as G2.
    eapply deriv_eq.
    - apply (deriv_mult (fun _ => 250)); [apply deriv_const|]. apply deriv_plus; apply deriv_mult; [exact M1|exact G1|exact M5|exact G2].
    - cbv beta. unfold energy_leak. rewrite Hf. cbn [IdealGas_Fluid fl_dens fl_du_dT_P]. rewrite !slope_gap. unfold stored_mass.
      rewrite ?Hf. cbn [IdealGas_Fluid fl_dens]. ring.
  Qed.
  Theorem h2_interval heat work carried a b : a <= b ->
    (forall t, a <= t <= b -> physical_trajectory D r c t /\ h2_books D r c heat work carried t) ->
    (gas_energy r b (c b) + held r b (c b)) - (gas_energy r a (c a) + held r a (c a)) =
    (heat b - heat a) - (work b - work a) - (carried b - carried a).
  Proof.
    intros Hab H. destruct Hab as [Hab|<-]; [|lra].
    destruct (MVT_cor2 (fun u => gas_energy r u (c u) + held r u (c u) - (heat u - work u - carried u)) (fun _ => 0) a b Hab) as (x & E & _); [|lra].
    intros t Ht. destruct (H t Ht) as (HP & hint & s & Hs & HF & Hh & Hw & Hc).
    pose proof (held_deriv t hint s HP Hs HF) as Hd. pose proof (norm_of t HP) as Hn. destruct HP as ((HT & HV & _) & _).
    pose proof (hydrogen_leak r D c t hint s Hf HD Hn HT HV Hs HF) as Hg. unfold has_deriv in *.
    eapply deriv_eq.
    - apply deriv_minus; [apply deriv_plus; [exact Hg|exact Hd]|]. apply deriv_minus; [apply deriv_minus; [exact Hh|exact Hw]|exact Hc].
    - cbv beta. ring.
  Qed.
  Theorem h2_cycle heat work carried a b : a <= b ->
    (forall t, a <= t <= b -> physical_trajectory D r c t /\ h2_books D r c heat work carried t) ->
    spaces_return r c a b -> cd_P (c b) = cd_P (c a) ->
    (heat b - heat a) - (work b - work a) = carried b - carried a.
  Proof.
    intros Hab H (V1 & V2 & T1 & T2) HP. pose proof (h2_interval heat work carried a b Hab H) as E.
    assert (E1 : gas_energy r b (c b) = gas_energy r a (c a)) by (unfold gas_energy; rewrite V1, V2, T1, T2, HP; reflexivity).
    assert (E2 : held r b (c b) = held r a (c a)) by (unfold held; rewrite V1, V2, T1, T2, HP; reflexivity).
    lra.
  Qed.
  Theorem h2_books_exist a b : a <= b -> (forall t, a <= t <= b -> physical_trajectory D r c t) ->
    exists heat work carried, forall t, a <= t <= b -> h2_books D r c heat work carried t.
  Proof.
    intros Hab H.
    assert (C : forall f, In f parts -> forall t, a <= t <= b -> continuity_pt (fun u => f (sol_at r c u)) t).
    { intros f I t Ht. exact (proj2 (proj2 (continuously Hydrogen r Hf D HD c t (H t Ht))) f I). }
    assert (S : forall t, a <= t <= b -> continuity_pt (fun u => cd_P (c u)) t /\ continuity_pt (fun u => cd_T_c (c u)) t /\
      continuity_pt (fun u => cd_T_e (c u)) t /\ continuous_rates (ru_ws_vol_fn r) t).
    { intros t Ht. destruct (H t Ht) as ((HT & _ & hint & s & _ & F0 & F1 & F2) & _ & HC). unfold has_deriv in *.
      split; [exact (deriv_cont _ t _ F0)|]. split; [exact (deriv_cont _ t _ F1)|]. split; [exact (deriv_cont _ t _ F2)|]. exact HC. }
    assert (K : forall x t, continuity_pt (fun _ => x) t) by (intros x t; apply continuity_pt_const; intros u v; reflexivity).
    assert (M : forall f t, continuity_pt f t -> continuity_pt (fun u => mean_cp (f u)) t).
    { intros f t Cf. exact (continuity_pt_comp f mean_cp t Cf (deriv_cont _ _ _ (mean_deriv (f t)))). }
    destruct (primitive_exists (fun u => so_Q_dot_l (sol_at r c u) - so_Q_dot_k (sol_at r c u) - so_Q_dot_r (sol_at r c u)
       - pp_thermal (par_comp (ru_ws_parasitics r)) - pp_thermal (par_exp (ru_ws_parasitics r))) a b Hab) as (heat & H1).
    { intros t Ht. repeat apply continuity_pt_minus; try apply K; apply C; try assumption; unfold parts; cbn; tauto. }
    destruct (primitive_exists (fun u => cd_P (c u) * (v_deriv (fst (ru_ws_vol_fn r u)) + v_deriv (snd (ru_ws_vol_fn r u)))) a b Hab) as (work & H2).
    { intros t Ht. destruct (S t Ht) as (S1 & _ & _ & S2 & S3). apply continuity_pt_mult; [exact S1|apply continuity_pt_plus; assumption]. }
    destruct (primitive_exists (fun u => 250 * (mean_cp (cd_T_c (c u)) * so_m_dot_ck (sol_at r c u) - mean_cp (cd_T_e (c u)) * so_m_dot_le (sol_at r c u))) a b Hab)
      as (carried & H3).
    { intros t Ht. destruct (S t Ht) as (_ & S1 & S2 & _). apply continuity_pt_mult; [apply K|]. apply continuity_pt_minus; apply continuity_pt_mult;
        [apply (M (fun u => cd_T_c (c u))); exact S1|apply C; [unfold parts; cbn; tauto|exact Ht]
        |apply (M (fun u => cd_T_e (c u))); exact S2|apply C; [unfold parts; cbn; tauto|exact Ht]]. }
    exists heat, work, carried. intros t Ht. destruct (H t Ht) as ((_ & _ & hint & s & Hs & HF) & Hp & _).
    pose proof (sol_is r D HD c t hint s Hp Hs) as E. exists hint, s. split; [exact Hs|]. split; [exact HF|].
    rewrite E. split; [exact (H1 t Ht)|]. split; [exact (H2 t Ht)|exact (H3 t Ht)].
  Qed.
End Cycle.

(** steady cycles of driven engines *)
Theorem h2_steady_books comps s r D c : driven (co_ws comps) -> Run_new comps s = Ret r -> s_fluid s = IdealGas_Fluid h2 -> sound D ->
  steady_cycle D r c -> exists heat work carried,
  (forall t, 0 <= t <= ru_period r -> h2_books D r c heat work carried t) /\
  (heat (ru_period r) - heat 0) - (work (ru_period r) - work 0) = carried (ru_period r) - carried 0.
Proof.
  intros Hd Hr Hf HD (HT & HR). destruct (driven_run comps s r Hd Hr) as (Ht & HV & _ & Hfl). rewrite Hf in Hfl.
  assert (HT' : forall t, 0 <= t <= ru_period r -> physical_trajectory D r c t) by (intros t I; apply HT; lra).
  destruct (h2_books_exist r Hfl D HD c 0 (ru_period r) Ht HT') as (heat & work & carried & HB).
  exists heat, work, carried. split; [exact HB|].
  assert (E : c (ru_period r) = c 0) by (rewrite <- (HR 0 (Rle_refl 0)), Rplus_0_l; reflexivity).
  assert (EV : ru_ws_vol_fn r (ru_period r) = ru_ws_vol_fn r 0) by (rewrite <- (HV 0), Rplus_0_l; reflexivity).
  apply (h2_cycle r Hfl D HD c); [exact Ht|intros t I; exact (conj (HT' t I) (HB t I))| |rewrite E; reflexivity].
  unfold spaces_return. rewrite E, EV. auto.
Qed.
(** the engine of C129: a steady cycle with its totals *)
Lemma hy_cycle (P0 : R) : 0 < P0 -> exists c heat work carried, cd_P (c 0) = P0 /\ steady_cycle gauss hy_run c /\
  (forall t, 0 <= t <= ru_period hy_run -> h2_books gauss hy_run c heat work carried t) /\
  (heat (ru_period hy_run) - heat 0) - (work (ru_period hy_run) - work 0) = carried (ru_period hy_run) - carried 0.
Proof.
  intros HP. destruct (hy_steady P0 HP) as (c & H0 & HS).
  destruct (h2_steady_books gl_comps h2_state hy_run gauss c gl_driven hy_new eq_refl gauss_sound HS) as (heat & work & carried & HB).
  exists c, heat, work, carried. split; [exact H0|]. split; [exact HS|exact HB].
Qed.
