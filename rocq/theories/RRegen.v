(** * Heat of the regenerator over a cycle *)
From Coq Require Import ZArith NArith List Reals Lra Lia.
From Verif Require Import Num ModelTypes ModelWs ModelHx ModelStateEq ModelEngine RNum Spec SpecR SpecGas SpecKin
  SpecTraj SpecLaws SpecUnique SpecSpaces SpecBounds SpecRegen Fixture PolySolve RSolve RGauss RFluid RKin RMass RSpaces
  RPairs RPicard RLocal RExist.
Import ListNotations.
Local Open Scope R_scope.

(** ** Solutions are continuous along trajectories *)
Section Tame.
  Variable y0 : C7 -> R.
  Lemma tame_near f h dl : 0 < dl -> tame y0 f -> (forall y, inside y0 dl y -> h y = f y) -> tame y0 h.
  Proof.
    intros D0 (K & d & K0 & E0 & H) E. exists K, (Rmin dl d). split; [exact K0|]. split; [apply Rmin_pos; assumption|].
    intros y z Hy Hz. rewrite !E by (eapply inside_le; [apply Rmin_l|eassumption]).
    apply H; (eapply inside_le; [apply Rmin_r|eassumption]).
  Qed.
  Lemma tame_abs f : tame y0 f -> tame y0 (fun y => Rabs (f y)).
  Proof.
    intros (K & d & K0 & E0 & H). exists K, d. split; [exact K0|]. split; [exact E0|]. intros y z Hy Hz.
    destruct (H y z Hy Hz) as (A & B). split; [rewrite Rabs_Rabsolu; exact A|].
    eapply Rle_trans; [apply Rabs_triang_inv2|exact B].
  Qed.
  (** enthalpy carried by a stream *)
  Lemma tame_upwind m a b : tame y0 m -> tame y0 a -> tame y0 b ->
    tame y0 (fun y => by_direction (sign_of (m y)) (a y) (b y) * m y).
  Proof.
    intros Hm Ha Hb.
    apply (tame_ext y0 (fun y => / 2 * ((m y + Rabs (m y)) * a y) + / 2 * ((m y - Rabs (m y)) * b y))).
    - apply tame_plus; (apply tame_mult; [apply tame_const|]); (apply tame_mult; [|assumption]).
      + apply tame_plus; [exact Hm|apply tame_abs; exact Hm].
      + apply tame_minus; [exact Hm|apply tame_abs; exact Hm].
    - intros y. destruct (Rle_lt_dec 0 (m y)) as [L|L].
      + rewrite (proj2 (sign_of_pos _) L), (Rabs_pos_eq _ L). cbn [by_direction]. lra.
      + rewrite (proj2 (sign_of_neg _) L), (Rabs_left _ L). cbn [by_direction]. lra.
  Qed.
  (** a tame function is continuous along a continuous path *)
  Lemma tame_cont f (Y : R -> C7 -> R) t : tame y0 f -> (forall i, Y t i = y0 i) ->
    (forall i, continuity_pt (fun s => Y s i) t) -> continuity_pt (fun s => f (Y s)) t.
  Proof.
    intros (K & d & K0 & D0 & H) E HC. apply cont_iff. intros e He.
    set (e' := Rmin d (e / (2 * (7 * K + 1)))).
    assert (He' : 0 < e') by (unfold e'; apply Rmin_pos; [exact D0|apply Rdiv_lt_0_compat; lra]).
    assert (A : forall i, exists dl, 0 < dl /\ forall y, Rabs (y - t) < dl -> Rabs (Y y i - Y t i) < e').
    { intros i. exact (proj1 (cont_iff _ _) (HC i) e' He'). }
    destruct (A yP) as (d1 & D1 & A1). destruct (A yC) as (d2 & D2 & A2). destruct (A yE) as (d3 & D3 & A3).
    destruct (A vC) as (d4 & D4 & A4). destruct (A vE) as (d5 & D5 & A5). destruct (A wC) as (d6 & D6 & A6).
    destruct (A wE) as (d7 & D7 & A7). clear A.
    set (m := Rmin d1 (Rmin d2 (Rmin d3 (Rmin d4 (Rmin d5 (Rmin d6 d7)))))).
    assert (LE : m <= d1 /\ m <= d2 /\ m <= d3 /\ m <= d4 /\ m <= d5 /\ m <= d6 /\ m <= d7).
    { unfold m. repeat split; repeat first [apply Rle_refl | apply Rmin_l | apply Rmin_r | eapply Rle_trans; [apply Rmin_r|]]. }
    exists m. split; [unfold m; repeat apply Rmin_pos; assumption|]. intros s Hs.
    assert (B : forall i, Rabs (Y s i - Y t i) < e').
    { intros i. destruct i; [apply A1|apply A2|apply A3|apply A4|apply A5|apply A6|apply A7]; lra. }
    pose proof (Rmin_l d (e / (2 * (7 * K + 1)))) as L1. pose proof (Rmin_r d (e / (2 * (7 * K + 1)))) as L2. fold e' in L1, L2.
    assert (I1 : inside y0 d (Y s)) by (intros i; rewrite <- E; specialize (B i); lra).
    assert (I2 : inside y0 d (Y t)) by (intros i; rewrite E, Rminus_diag_eq, Rabs_R0 by reflexivity; lra).
    eapply Rle_lt_trans; [apply (H _ _ I1 I2)|].
    assert (DD : dist7 (Y s) (Y t) <= 7 * e') by (apply dist7_le; intros i; left; apply B).
    apply Rle_lt_trans with (K * (7 * e')); [apply Rmult_le_compat_l; assumption|].
    assert (F : (7 * K + 1) * (e / (2 * (7 * K + 1))) = e / 2) by (field; lra).
    assert ((7 * K + 1) * e' <= (7 * K + 1) * (e / (2 * (7 * K + 1)))) by (apply Rmult_le_compat_l; lra). lra.
  Qed.
End Tame.

Section Continuous.
  Variable g : IdealGas R.
  Let Rg := ig_gas_constant g.
  Hypothesis HR : 0 < Rg.
  Variable r : Run R.
  Hypothesis Hf : ru_fluid r = IdealGas_Fluid g.
  Variable y0 : C7 -> R.
  Hypothesis HTc : 0 < y0 yC.
  Hypothesis HTe : 0 < y0 yE.
  Hypothesis Hph : physical (inp7 r y0).

  Lemma parts_tame f : In f parts -> tame y0 (fun y => f (sol7 r y)).
  Proof.
    destruct (flows_tame g HR r Hf y0 HTc HTe Hph) as (Tm & Tp & Tn).
    pose proof (rates_tame g HR r Hf y0 HTc HTe Hph) as TR.
    destruct (physical7 g HR r Hf y0 HTc HTe Hph) as (dl & D0 & HD).
    assert (EL : forall y, inside y0 dl y -> eliminated (inp7 r y) (signs (sol7 r y)) (sol7 r y)).
    { intros y Hy. destruct (HD y Hy) as (Hy' & _). pose proof (sol7_solves r y Hy') as Hs.
      apply solve_upwind in Hs. apply solves_for_upwind in Hs.
      exact (eliminated_of (inp7 r y) Hy' gauss _ _ gauss_sound Hs). }
    set (kk := fun y => hi_vol (in_chx (inp7 r y)) * hi_dd_dP_T (in_chx (inp7 r y))).
    set (kr := fun y => gi_vol (in_regen (inp7 r y)) * gi_dd_dP_T (in_regen (inp7 r y))).
    assert (Kc : forall y, kk y = kk y0 /\ kr y = kr y0).
    { intros y. destruct (i7_hx g r Hf y y0) as (_ & X2 & X3 & X4 & X5 & _ & _). unfold kk, kr.
      rewrite X2, X3, X4, X5. split; reflexivity. }
    assert (Tkr : tame y0 (fun y => so_m_dot_kr (sol7 r y))).
    { apply (tame_near y0 (fun y => so_m_dot_ck (sol7 r y) - kk y0 * so_dP_dt (sol7 r y)) _ dl D0).
      - apply tame_minus; [exact Tm|]. apply tame_mult; [apply tame_const|exact Tp].
      - intros y Hy. destruct (EL y Hy) as (_ & _ & E & _). rewrite E. rewrite <- (proj1 (Kc y)). reflexivity. }
    assert (Trl : tame y0 (fun y => so_m_dot_rl (sol7 r y))).
    { apply (tame_near y0 (fun y => so_m_dot_kr (sol7 r y) - kr y0 * so_dP_dt (sol7 r y)) _ dl D0).
      - apply tame_minus; [exact Tkr|]. apply tame_mult; [apply tame_const|exact Tp].
      - intros y Hy. destruct (EL y Hy) as (_ & _ & _ & E & _). rewrite E. rewrite <- (proj2 (Kc y)). reflexivity. }
    assert (Gc : tame y0 (fun y => ig_enth g (y yC) (y yP))) by exact (enth_tame g y0 yC).
    assert (Ge : tame y0 (fun y => ig_enth g (y yE) (y yP))) by exact (enth_tame g y0 yE).
    assert (GX : forall T, tame y0 (fun y => ig_enth g T (y yP))).
    { intros T. apply (tame_ext y0 (fun _ => (T - ig_ref_temp g) * poly (ig_enth_coefs g) T)); [apply tame_const|].
      intros y. apply enth_eq. }
    assert (WE : tame y0 (fun y => energy_rate_hx (in_chx (inp7 r y)) (so_dP_dt (sol7 r y))) /\
                 tame y0 (fun y => energy_rate_regen (in_regen (inp7 r y)) (so_dP_dt (sol7 r y))) /\
                 tame y0 (fun y => energy_rate_hx (in_hhx (inp7 r y)) (so_dP_dt (sol7 r y)))).
    { assert (Q : forall V T h, (forall y, h y = V * (ig_inte g T (y yP) * (ig_dd_dP_T g T (y yP) * so_dP_dt (sol7 r y)))) -> tame y0 h).
      { intros V T h E. apply (tame_ext y0 _ h) with (2 := E). apply tame_mult; [apply tame_const|].
        apply tame_mult.
        - apply (tame_ext y0 (fun y => ig_enth g T (y yP) - Rg * (T - ig_ref_temp g))).
          + apply tame_minus; [apply GX|apply tame_const].
          + intros y. reflexivity.
        - apply tame_mult; [|exact Tp]. apply (tame_ext y0 (fun _ => 1 / (Rg * T))); [apply tame_const|].
          intros y. apply dd_dP_T_eq. }
      unfold energy_rate_hx, energy_rate_regen, mass_rate_hx, mass_rate_regen, inp7, Run_calculate_inputs, frozen.
      cbn [ru_ws_vol_fn in_chx in_regen in_hhx]. unfold chx_inputs, regen_inputs, hhx_inputs.
      cbn [ru_fluid cd_P ru_temp ru_vol_chx ru_vol_regen ru_vol_hhx hi_vol hi_dens hi_inte hi_du_dP_T hi_dd_dP_T
           gi_vol gi_dens gi_inte gi_du_dP_T gi_dd_dP_T]. rewrite Hf. cbn [IdealGas_Fluid fl_dens fl_inte fl_dd_dP_T fl_du_dP_T].
      split; [apply (Q (ru_vol_chx r) (te_chx (ru_temp r)))|split;
        [apply (Q (ru_vol_regen r) (rt_avg (te_regen (ru_temp r))))|apply (Q (ru_vol_hhx r) (te_hhx (ru_temp r)))]];
        intros y; cbv beta;
        match goal with |- context [ig_du_dP_T g ?a ?b] => change (ig_du_dP_T g a b) with 0 end; ring. }
    destruct WE as (W1 & W2 & W3).
    assert (ST : tame y0 (fun y => h_ck (inp7 r y) (signs (sol7 r y)) * so_m_dot_ck (sol7 r y)) /\
                 tame y0 (fun y => h_kr (inp7 r y) (signs (sol7 r y)) * so_m_dot_kr (sol7 r y)) /\
                 tame y0 (fun y => h_rl (inp7 r y) (signs (sol7 r y)) * so_m_dot_rl (sol7 r y)) /\
                 tame y0 (fun y => h_le (inp7 r y) (signs (sol7 r y)) * so_m_dot_le (sol7 r y))).
    { unfold h_ck, h_kr, h_rl, h_le, signs. cbn [fd_ck fd_kr fd_rl fd_le].
      split; [|split; [|split]].
      - apply tame_upwind; [exact Tm| |].
        + apply (tame_ext y0 (fun y => ig_enth g (y yC) (y yP)) _ Gc). intros y. rewrite (i7_comp g r Hf). reflexivity.
        + apply (tame_ext y0 _ _ (GX (te_chx (ru_temp r)))). intros y. rewrite (i7_hk g r Hf), enth_eq. reflexivity.
      - apply tame_upwind; [exact Tkr| |].
        + apply (tame_ext y0 _ _ (GX (te_chx (ru_temp r)))). intros y. rewrite (i7_hk g r Hf), enth_eq. reflexivity.
        + apply (tame_ext y0 _ _ (GX (rt_cold (te_regen (ru_temp r))))). intros y.
          unfold inp7, Run_calculate_inputs, frozen. cbn [ru_ws_vol_fn in_regen]. unfold regen_inputs.
          cbn [gi_enth_cold ru_fluid ru_temp cd_P]. rewrite Hf. reflexivity.
      - apply tame_upwind; [exact Trl| |].
        + apply (tame_ext y0 _ _ (GX (rt_hot (te_regen (ru_temp r))))). intros y.
          unfold inp7, Run_calculate_inputs, frozen. cbn [ru_ws_vol_fn in_regen]. unfold regen_inputs.
          cbn [gi_enth_hot ru_fluid ru_temp cd_P]. rewrite Hf. reflexivity.
        + apply (tame_ext y0 _ _ (GX (te_hhx (ru_temp r)))). intros y. rewrite (i7_hl g r Hf), enth_eq. reflexivity.
      - apply tame_upwind; [exact Tn| |].
        + apply (tame_ext y0 _ _ (GX (te_hhx (ru_temp r)))). intros y. rewrite (i7_hl g r Hf), enth_eq. reflexivity.
        + apply (tame_ext y0 (fun y => ig_enth g (y yE) (y yP)) _ Ge). intros y. rewrite (i7_exp g r Hf). reflexivity. }
    destruct ST as (S1 & S2 & S3 & S4).
    intros I. repeat (destruct I as [<-|I]); [..|destruct I].
    - exact (TR uP).
    - exact (TR uC).
    - exact (TR uE).
    - exact Tm.
    - exact Tkr.
    - exact Trl.
    - exact Tn.
    - apply (tame_near y0 (fun y => h_ck (inp7 r y) (signs (sol7 r y)) * so_m_dot_ck (sol7 r y)
          - h_kr (inp7 r y) (signs (sol7 r y)) * so_m_dot_kr (sol7 r y)
          - energy_rate_hx (in_chx (inp7 r y)) (so_dP_dt (sol7 r y))) _ dl D0).
      + apply tame_minus; [apply tame_minus|]; assumption.
      + intros y Hy. exact (proj1 (proj2 (proj2 (proj2 (proj2 (proj2 (proj2 (proj2 (EL y Hy))))))))).
    - apply (tame_near y0 (fun y => h_kr (inp7 r y) (signs (sol7 r y)) * so_m_dot_kr (sol7 r y)
          - h_rl (inp7 r y) (signs (sol7 r y)) * so_m_dot_rl (sol7 r y)
          - energy_rate_regen (in_regen (inp7 r y)) (so_dP_dt (sol7 r y))) _ dl D0).
      + apply tame_minus; [apply tame_minus|]; assumption.
      + intros y Hy. exact (proj1 (proj2 (proj2 (proj2 (proj2 (proj2 (proj2 (proj2 (proj2 (EL y Hy)))))))))).
    - apply (tame_near y0 (fun y => energy_rate_hx (in_hhx (inp7 r y)) (so_dP_dt (sol7 r y))
          - h_rl (inp7 r y) (signs (sol7 r y)) * so_m_dot_rl (sol7 r y)
          + h_le (inp7 r y) (signs (sol7 r y)) * so_m_dot_le (sol7 r y)) _ dl D0).
      + apply tame_plus; [apply tame_minus|]; assumption.
      + intros y Hy. exact (proj2 (proj2 (proj2 (proj2 (proj2 (proj2 (proj2 (proj2 (proj2 (EL y Hy)))))))))).
  Qed.
End Continuous.

Section Along.
  Variable name : GasName.
  Let g : IdealGas R := IdealGas_new name.
  Variable r : Run R.
  Hypothesis Hf : ru_fluid r = IdealGas_Fluid g.
  Variable D : Decomp R.
  Hypothesis HD : sound D.
  Variable c : R -> Conditions R.
  Definition sol_at (t : R) : Solution R := sol7 r (join r (c t) t).
  Lemma sol_is t hint s : physical (Run_calculate_inputs r t (c t)) ->
    solve D (Run_calculate_inputs r t (c t)) hint = Ok s -> s = sol_at t.
  Proof.
    intros Hp Hs. symmetry.
    apply (solve_unique _ Hp gauss D (mkFD Positive Positive Positive Positive) hint _ _ gauss_sound HD); [|exact Hs].
    rewrite <- (inp7_join r (c t) t). apply sol7_solves. rewrite inp7_join. exact Hp.
  Qed.
  Lemma continuously t : physical_trajectory D r c t -> solves_continuously D r c sol_at t.
  Proof.
    intros ((HT & (V1 & V2) & hint & s & Hs & F1 & F2 & F3) & Hp & (W1 & W2)).
    split; [exists hint; rewrite <- (sol_is t hint s Hp Hs); exact Hs|].
    split; [intros h s'; apply sol_is; exact Hp|]. intros f Hin.
    pose proof (gas_R_pos name) as HR.
    unfold sol_at. apply (tame_cont (join r (c t) t) (fun y => f (sol7 r y)) (fun u => join r (c u) u) t).
    - apply (parts_tame g HR r Hf); [apply HT|apply HT|rewrite inp7_join; exact Hp|exact Hin].
    - reflexivity.
    - apply deriv_cont in V1, V2, F1, F2, F3. intros i. destruct i; assumption.
  Qed.
  Lemma along a b : (forall t, a <= t <= b -> physical_trajectory D r c t) ->
    exists S, forall t, a <= t <= b -> solves_continuously D r c S t.
  Proof. intros H. exists sol_at. intros t Ht. apply continuously, H, Ht. Qed.
  Lemma meters_exist a b : a <= b -> (forall t, a <= t <= b -> physical_trajectory D r c t) ->
    exists heat gas_kr gas_rl, forall t, a <= t <= b -> meters D r c heat gas_kr gas_rl t.
  Proof.
    intros Hab H.
    assert (C : forall f, In f parts -> forall t, a <= t <= b -> continuity_pt (fun u => f (sol_at u)) t).
    { intros f I t Ht. exact (proj2 (proj2 (continuously t (H t Ht))) f I). }
    assert (CA : forall f, In f parts -> forall t, a <= t <= b -> continuity_pt (fun u => Rabs (f (sol_at u))) t).
    { intros f I t Ht. exact (continuity_pt_comp (fun u => f (sol_at u)) Rabs t (C f I t Ht) (Rcontinuity_abs _)). }
    destruct (primitive_exists (fun u => so_Q_dot_r (sol_at u)) a b Hab) as (F1 & H1); [apply C; unfold parts; cbn; tauto|].
    destruct (primitive_exists (fun u => Rabs (so_m_dot_kr (sol_at u))) a b Hab) as (F2 & H2); [apply CA; unfold parts; cbn; tauto|].
    destruct (primitive_exists (fun u => Rabs (so_m_dot_rl (sol_at u))) a b Hab) as (F3 & H3); [apply CA; unfold parts; cbn; tauto|].
    exists F1, F2, F3. intros t Ht.
    destruct (H t Ht) as ((_ & _ & hint & s & Hs & HF) & Hp & _). exists hint, s. split; [exact Hs|]. split; [exact HF|].
    rewrite (sol_is t hint s Hp Hs). split; [apply H1, Ht|]. split; [apply H2, Ht|apply H3, Ht].
  Qed.

  (** ** Balance over a cycle *)
  Lemma same_ends (f : R -> R) a b : a <= b -> (forall t, a <= t <= b -> has_deriv f t 0) -> f b = f a.
  Proof.
    intros Hab H. destruct (Rle_lt_or_eq_dec a b Hab) as [L| ->]; [|reflexivity].
    destruct (MVT_cor2 f (fun _ => 0) a b L) as (x & E & _); [exact H|]. lra.
  Qed.
  Lemma carried_abs P m T1 T2 : carried r P m T1 T2 =
    / 2 * (fl_enth (ru_fluid r) T1 P + fl_enth (ru_fluid r) T2 P) * m
    + / 2 * (fl_enth (ru_fluid r) T1 P - fl_enth (ru_fluid r) T2 P) * Rabs m.
  Proof.
    unfold carried. destruct (Rle_lt_dec 0 m) as [L|L].
    - rewrite Rmax_left, Rmin_right, Rabs_pos_eq by lra. field.
    - rewrite Rmax_right, Rmin_left, Rabs_left by lra. field.
  Qed.
  Lemma enth_at T P Q : fl_enth (ru_fluid r) T P = fl_enth (ru_fluid r) T Q.
  Proof. rewrite Hf. cbn [IdealGas_Fluid fl_enth]. rewrite !enth_eq. reflexivity. Qed.

  Lemma regen_balance a b heat gas_kr gas_rl Q : ru_enth_norm r <> 0 -> a <= b ->
    (forall t, a <= t <= b -> positive_temps r (c t) /\ true_derivatives (ru_ws_vol_fn r) t /\ meters D r c heat gas_kr gas_rl t) ->
    spaces_return r c a b -> cd_P (c b) = cd_P (c a) ->
    2 * (heat b - heat a) = step_hot r Q * (gas_rl b - gas_rl a) - step_cold r Q * (gas_kr b - gas_kr a).
  Proof.
    intros Hn Hab H HS HP. pose proof (gas_R_pos name) as HR. fold g in HR.
    set (hk := fl_enth (ru_fluid r) (te_chx (ru_temp r)) Q). set (hc := fl_enth (ru_fluid r) (rt_cold (te_regen (ru_temp r))) Q).
    set (hh := fl_enth (ru_fluid r) (rt_hot (te_regen (ru_temp r))) Q). set (hl := fl_enth (ru_fluid r) (te_hhx (ru_temp r)) Q).
    set (Mc := fun u => stored_mass r (v_value (fst (ru_ws_vol_fn r u))) (cd_T_c (c u)) (cd_P (c u))).
    set (Mk := fun u => stored_mass r (ru_vol_chx r) (te_chx (ru_temp r)) (cd_P (c u))).
    set (Ml := fun u => stored_mass r (ru_vol_hhx r) (te_hhx (ru_temp r)) (cd_P (c u))).
    set (Me := fun u => stored_mass r (v_value (snd (ru_ws_vol_fn r u))) (cd_T_e (c u)) (cd_P (c u))).
    set (Er := fun u => stored_energy r (ru_vol_regen r) (rt_avg (te_regen (ru_temp r))) (cd_P (c u))).
    (* streams at the cold end: - (Mc + Mk)', at the hot end: (Ml + Me)' *)
    set (F := fun u => Er u + heat u + / 2 * (hk + hc) * (Mc u + Mk u) + / 2 * (hh + hl) * (Ml u + Me u)
                       - / 2 * (hk - hc) * gas_kr u + / 2 * (hh - hl) * gas_rl u).
    assert (E : F b = F a).
    { apply same_ends; [exact Hab|]. intros t Ht.
      destruct (H t Ht) as (HT & HV & hint & s & Hs & HF & G1 & G2 & G3).
      destruct (masses g HR r Hf D c t hint s HD Hs HF HT HV) as (M1 & M2 & M3 & M4 & M5).
      destruct (exchangers g HR r Hf D c t hint s HD Hs HF HT Hn) as (_ & E2 & _).
      unfold has_deriv in *. unfold F. eapply deriv_eq.
      - apply deriv_plus; [apply deriv_minus; [apply deriv_plus; [apply deriv_plus; [apply deriv_plus; [exact E2|exact G1]|]|]|]|].
        + apply deriv_mult; [apply deriv_const|]. apply deriv_plus; [exact M1|exact M2].
        + apply deriv_mult; [apply deriv_const|]. apply deriv_plus; [exact M4|exact M5].
        + apply deriv_mult; [apply deriv_const|exact G2].
        + apply deriv_mult; [apply deriv_const|exact G3].
      - cbv beta. unfold stream_kr, stream_rl. rewrite !carried_abs.
        rewrite (enth_at (te_chx (ru_temp r)) (cd_P (c t)) Q), (enth_at (rt_cold (te_regen (ru_temp r))) (cd_P (c t)) Q),
          (enth_at (rt_hot (te_regen (ru_temp r))) (cd_P (c t)) Q), (enth_at (te_hhx (ru_temp r)) (cd_P (c t)) Q).
        fold hk hc hh hl. ring. }
    destruct HS as (R1 & R2 & R3 & R4). unfold F, Er, Mc, Mk, Ml, Me in E. rewrite HP, R1, R2, R3, R4 in E.
    unfold step_hot, step_cold. fold hk hc hh hl. lra.
  Qed.
End Along.
