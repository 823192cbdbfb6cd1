(** * Approaches of the exchangers depend continuously on mean flow and heat *)
From Coq Require Import ZArith NArith List Reals Lra Lia.
From Verif Require Import Num ModelTypes ModelWs ModelHx ModelStateEq ModelEngine RNum Spec SpecR SpecGas SpecLaws SpecSpaces SpecBounds SpecSample SpecMeans
  RFluid RBounds.
Import ListNotations.
Local Open Scope R_scope.

Lemma steady_scaled (g : R -> R) (ap : R -> R -> R -> outcome R) P m Q :
  (forall P' m' Q', ap P' m' Q' = Ret (Q' * g m')) -> continuity_pt g m -> steady_approach ap P m Q (Q * g m).
Proof.
  intros E C. split; [apply E|]. intros eps He. pose proof (Rabs_pos Q) as Q0. pose proof (Rabs_pos (g m)) as G0.
  set (w := Rmin 1 (eps / (2 * (Rabs Q + 1)))). assert (W0 : 0 < w) by (unfold w; apply Rmin_pos; [lra|apply Rdiv_lt_0_compat; lra]).
  destruct (C w W0) as (d & D0 & H). 
  set (x := Rmin (d / 2) (eps / (2 * (Rabs (g m) + 1)))). assert (X0 : 0 < x) by (unfold x; apply Rmin_pos; [lra|apply Rdiv_lt_0_compat; lra]).
  exists x. split; [exact X0|]. intros P' m' Q' a' _ Hm HQ Ha. rewrite E in Ha. injection Ha as <-.
  pose proof (Rmin_l (d / 2) (eps / (2 * (Rabs (g m) + 1)))) as X1. pose proof (Rmin_r (d / 2) (eps / (2 * (Rabs (g m) + 1)))) as X2. fold x in X1, X2.
  pose proof (Rmin_l 1 (eps / (2 * (Rabs Q + 1)))) as W1. pose proof (Rmin_r 1 (eps / (2 * (Rabs Q + 1)))) as W2. fold w in W1, W2.
  assert (N : Rabs (g m' - g m) < w).
  { destruct (Req_dec m' m) as [->|Z]; [rewrite Rminus_diag_eq, Rabs_R0 by reflexivity; exact W0|].
    apply (H m'). split; [split; [exact I|auto]|]. unfold dist, R_met, R_dist; cbn. unfold R_dist. lra. }
  replace (Q' * g m' - Q * g m) with ((Q' - Q) * g m' + Q * (g m' - g m)) by ring.
  assert (Gm : Rabs (g m') <= Rabs (g m) + 1).
  { replace (g m') with (g m + (g m' - g m)) by ring. pose proof (Rabs_triang (g m) (g m' - g m)). lra. }
  apply Rle_trans with (1 := Rabs_triang _ _). rewrite !Rabs_mult.
  assert (A1 : Rabs (Q' - Q) * Rabs (g m') <= eps / (2 * (Rabs (g m) + 1)) * (Rabs (g m) + 1)).
  { apply Rmult_le_compat; try apply Rabs_pos; lra. }
  assert (A2 : Rabs Q * Rabs (g m' - g m) <= (Rabs Q + 1) * (eps / (2 * (Rabs Q + 1)))).
  { apply Rmult_le_compat; try apply Rabs_pos; lra. }
  replace (eps / (2 * (Rabs (g m) + 1)) * (Rabs (g m) + 1)) with (eps / 2) in A1 by (field; lra).
  replace ((Rabs Q + 1) * (eps / (2 * (Rabs Q + 1)))) with (eps / 2) in A2 by (field; lra). lra.
Qed.

Lemma steady_span (g : R -> R) (ap : R -> R -> R -> outcome R) k P m Q :
  (forall P' m' Q', ap P' m' Q' = Ret (k * g m')) -> continuity_pt g m -> steady_approach ap P m Q (k * g m).
Proof.
  intros E C. destruct (steady_scaled g (fun _ m Q => Ret (Q * g m)) P m k (fun _ _ _ => eq_refl) C) as (_ & H).
  split; [apply E|]. intros eps He. destruct (H eps He) as (d & D0 & H1). exists d. split; [exact D0|].
  intros P' m' Q' a' _ Hm _ Ha. rewrite E in Ha. apply (H1 P m' k a'); [| exact Hm| |exact Ha];
    rewrite Rminus_diag_eq, Rabs_R0 by reflexivity; lra.
Qed.
Lemma cont_ratio cp UA m : 0 < cp -> 0 < m -> continuity_pt (fun x => UA / (cp * x)) m.
Proof.
  intros C M. unfold Rdiv. apply (continuity_pt_mult (fun _ => UA) (fun x => / (cp * x))); [apply continuity_pt_const; intros x y; reflexivity|].
  apply (continuity_pt_inv (fun x => cp * x)); [|apply Rgt_not_eq, Rmult_lt_0_compat; assumption].
  apply (continuity_pt_mult (fun _ => cp) (fun x => x)); [apply continuity_pt_const; intros x y; reflexivity|].
  apply derivable_continuous_pt, derivable_pt_id.
Qed.
Lemma cont_fixed k m : continuity_pt (fun _ => k) m.
Proof. apply continuity_pt_const. intros x y; reflexivity. Qed.
Lemma cont_heat cp UA m : 0 < cp -> 0 < UA -> 0 < m -> continuity_pt (fun x => per_heat (cp * x) UA) m.
Proof.
  intros C U M. assert (CM : 0 < cp * m) by (apply Rmult_lt_0_compat; assumption). unfold per_heat.
  apply (continuity_pt_mult (fun x => / (cp * x)) (fun x => / (1 - exp (- (UA / (cp * x)))) - 1)).
  - apply (continuity_pt_inv (fun x => cp * x)); [|lra].
    apply (continuity_pt_mult (fun _ => cp) (fun x => x)); [apply cont_fixed|apply derivable_continuous_pt, derivable_pt_id].
  - apply (continuity_pt_minus (fun x => / (1 - exp (- (UA / (cp * x))))) (fun _ => 1)); [|apply cont_fixed].
    apply (continuity_pt_inv (fun x => 1 - exp (- (UA / (cp * x))))).
    + apply (continuity_pt_minus (fun _ => 1) (fun x => exp (- (UA / (cp * x))))); [apply cont_fixed|].
      apply (continuity_pt_comp (fun x => - (UA / (cp * x))) exp); [|apply derivable_continuous_pt, derivable_pt_exp].
      apply (continuity_pt_opp (fun x => UA / (cp * x))). apply cont_ratio; assumption.
    + assert (0 < UA / (cp * m)) by (apply Rdiv_lt_0_compat; assumption).
      assert (exp (- (UA / (cp * m))) < exp 0) by (apply exp_increasing; lra). rewrite exp_0 in *. lra.
Qed.
Lemma cont_span cp UA m : 0 < cp -> 0 < UA -> 0 < m -> continuity_pt (fun x => per_span (cp * x) UA) m.
Proof.
  intros C U M. assert (CM : 0 < cp * m) by (apply Rmult_lt_0_compat; assumption). unfold per_span.
  assert (H2 : continuity_pt (fun x => UA / (cp * x) / 2) m).
  { unfold Rdiv at 1. apply (continuity_pt_mult (fun x => UA / (cp * x)) (fun _ => / 2)); [apply cont_ratio; assumption|apply cont_fixed]. }
  apply (continuity_pt_minus (fun _ => 1) (fun x => UA / (cp * x) / 2 / (1 + UA / (cp * x) / 2))); [apply cont_fixed|].
  apply (continuity_pt_div (fun x => UA / (cp * x) / 2) (fun x => 1 + UA / (cp * x) / 2)); [exact H2| |].
  - apply (continuity_pt_plus (fun _ => 1) (fun x => UA / (cp * x) / 2)); [apply cont_fixed|exact H2].
  - assert (0 < UA / (cp * m)) by (apply Rdiv_lt_0_compat; assumption). lra.
Qed.

Section Exchangers.
  Variables (fl : Fluid R) (P m Q : R).
  Hypothesis Hfl : fl = IdealGas_Fluid he.
  Lemma cp_is T P' : fl_cp fl T P' = cp_he.
  Proof. rewrite Hfl. exact (he_cp T P'). Qed.
  Hypothesis Hm : 0 < m.
  Lemma steady_chx f T sink : 0 < fc_UA f ->
    steady_approach (fun P m Q => ex_approach (chx_FixedConductance f) (mkChxState (hx_state fl T P m Q) sink)) P m Q
      (Q * per_heat (cp_he * m) (fc_UA f)).
  Proof.
    intros U. assert (C : 0 < cp_he) by (unfold cp_he; lra).
    apply (steady_scaled (fun x => per_heat (cp_he * x) (fc_UA f))); [|apply cont_heat; assumption].
    intros P' m' Q'. cbn [chx_FixedConductance ex_approach]. f_equal. unfold chx_fc_approach, hx_state.
    cbn [chs_hxr hx_cp hx_m_dot hx_Q_dot]. rewrite cp_is, R_n1. cbn [n_mul n_div n_sub n_opp n_exp R_ops]. unfold per_heat, Rdiv. ring.
  Qed.
  Lemma steady_hhx f T source : 0 < fc_UA f ->
    steady_approach (fun P m Q => ex_approach (hhx_FixedConductance f) (mkHhxState (hx_state fl T P m Q) source)) P m Q
      (Q * per_heat (cp_he * m) (fc_UA f)).
  Proof.
    intros U. assert (C : 0 < cp_he) by (unfold cp_he; lra).
    apply (steady_scaled (fun x => per_heat (cp_he * x) (fc_UA f))); [|apply cont_heat; assumption].
    intros P' m' Q'. cbn [hhx_FixedConductance ex_approach]. f_equal. unfold hhx_fc_approach, hx_state.
    cbn [hhs_hxr hx_cp hx_m_dot hx_Q_dot]. rewrite cp_is, R_n1. cbn [n_mul n_div n_sub n_opp n_exp R_ops]. unfold per_heat, Rdiv. ring.
  Qed.
  Lemma steady_regen f T Tk Tl : 0 < fc_UA f ->
    steady_approach (fun P m Q => ex_approach (regen_FixedConductance f) (mkRegenState (hx_state fl T P m Q) Tk Tl)) P m Q
      ((Tl - Tk) * per_span (cp_he * m) (fc_UA f)).
  Proof.
    intros U. assert (C : 0 < cp_he) by (unfold cp_he; lra).
    apply (steady_span (fun x => per_span (cp_he * x) (fc_UA f))); [|apply cont_span; assumption].
    intros P' m' Q'. cbn [regen_FixedConductance ex_approach]. f_equal. unfold regen_fc_approach, hx_state.
    cbn [res_hxr res_temp_hhx res_temp_chx hx_cp hx_m_dot hx_Q_dot]. rewrite cp_is, R_n1, R_n2. cbn [n_mul n_div n_sub n_add R_ops]. unfold per_span. ring.
  Qed.
End Exchangers.
Lemma steady_fixed a P m Q : steady_approach (fun _ _ _ => Ret a) P m Q a.
Proof.
  split; [reflexivity|]. intros eps He. exists 1. split; [lra|]. intros P' m' Q' a' _ _ _ H. injection H as <-.
  rewrite Rminus_diag_eq, Rabs_R0 by reflexivity. lra.
Qed.
Lemma steady_conducting (comps : Components R) (s : State R) (M : Means) u_k u_r u_l :
  s_fluid s = IdealGas_Fluid he -> 0 < mn_flow_k M -> 0 < mn_flow_r M -> 0 < mn_flow_l M -> conducting comps u_k u_r u_l ->
  steady_approaches comps s M (mn_heat_k M * per_heat (cp_he * mn_flow_k M) u_k)
    ((te_hhx (s_temp s) - te_chx (s_temp s)) * per_span (cp_he * mn_flow_r M) u_r)
    (mn_heat_l M * per_heat (cp_he * mn_flow_l M) u_l).
Proof.
  intros Hfl M1 M2 M3 (f_k & f_r & f_l & E1 & E2 & E3 & <- & <- & <- & U1 & U2 & U3).
  unfold steady_approaches. cbv zeta. rewrite E1, E2, E3.
  split; [apply steady_chx; assumption|]. split; [apply steady_regen; assumption|apply steady_hhx; assumption].
Qed.
Lemma steady_keeping comps s M a_k a_r a_l : keeping comps a_k a_r a_l -> steady_approaches comps s M a_k a_r a_l.
Proof.
  intros (f_k & f_r & f_l & E1 & E2 & E3 & <- & <- & <-). unfold steady_approaches. cbv zeta. rewrite E1, E2, E3.
  split; [apply steady_fixed|]. split; apply steady_fixed.
Qed.
