(** * Exact trajectories start at every physical state *)
From Coq Require Import ZArith NArith List Reals Lra Lia.
From Verif Require Import Num ModelTypes ModelWs ModelHx ModelStateEq ModelEngine RNum Spec SpecR SpecGas
  SpecKin SpecTraj SpecLaws SpecUnique Fixture PolySolve RSolve RGauss RFluid RKin RMass RLaws RClose RPairs
  RPicard RLocal.
Local Open Scope R_scope.

Section TameSpace.
  Variable g : IdealGas R.
  Let Rg := ig_gas_constant g.
  Hypothesis HR : 0 < Rg.
  Variables (y0 : C7 -> R) (iT iV iW : C7) (q : R).
  Hypothesis HT0 : 0 < y0 iT.
  Let tame := tame y0.
  Let P (y : C7 -> R) := y yP.
  Let T (y : C7 -> R) := y iT.

  Lemma P_tame : tame P.
  Proof. apply tame_coord. Qed.
  Lemma T_tame : tame T.
  Proof. apply tame_coord. Qed.
  Lemma RT_tame : tame (fun y => Rg * T y).
  Proof. exact (tame_mult y0 _ _ (tame_const y0 Rg) T_tame). Qed.
  Lemma RT_pos7 : 0 < Rg * T y0.
  Proof. apply Rmult_lt_0_compat; assumption. Qed.
  Lemma dens_tame : tame (fun y => ig_dens g (T y) (P y)).
  Proof. exact (tame_div y0 _ _ P_tame RT_tame RT_pos7). Qed.
  Lemma dd_dP_tame : tame (fun y => ig_dd_dP_T g (T y) (P y)).
  Proof. exact (tame_div y0 _ _ (tame_const y0 1) RT_tame RT_pos7). Qed.
  Lemma dd_dT_tame : tame (fun y => ig_dd_dT_P g (T y) (P y)).
  Proof.
    assert (TT : tame (fun y => Rg * (T y * T y))).
    { exact (tame_mult y0 _ _ (tame_const y0 Rg) (tame_mult y0 _ _ T_tame T_tame)). }
    apply (tame_div y0 _ _ (tame_opp y0 _ P_tame) TT).
    apply Rmult_lt_0_compat; [exact HR|apply Rmult_lt_0_compat; exact HT0].
  Qed.
  Lemma poly_tame (k : arr6 R) : tame (fun y => poly k (T y)).
  Proof.
    apply (tame_ext y0 (fun y => a6_0 k + a6_1 k * T y + a6_2 k * T y ^2 + a6_3 k * T y ^3
                             + a6_4 k * T y ^4 + a6_5 k * T y ^5)); [|intros; apply poly_eq].
    assert (M : forall x n, tame (fun y => x * T y ^ n)).
    { intros x n. exact (tame_mult y0 _ _ (tame_const y0 x) (tame_pow y0 _ n T_tame)). }
    assert (M1 : tame (fun y => a6_1 k * T y)) by exact (tame_mult y0 _ _ (tame_const y0 _) T_tame).
    repeat (apply tame_plus; [|solve [apply M|exact M1]]). apply tame_const.
  Qed.
  Lemma enth_tame : tame (fun y => ig_enth g (T y) (P y)).
  Proof.
    apply (tame_ext y0 (fun y => (T y - ig_ref_temp g) * poly (ig_enth_coefs g) (T y))); [|intros; apply enth_eq].
    exact (tame_mult y0 _ _ (tame_minus y0 _ _ T_tame (tame_const y0 _)) (poly_tame _)).
  Qed.
  Lemma inte_tame : tame (fun y => ig_inte g (T y) (P y)).
  Proof.
    apply (tame_minus y0 _ _ enth_tame).
    exact (tame_mult y0 _ _ (tame_const y0 Rg) (tame_minus y0 _ _ T_tame (tame_const y0 _))).
  Qed.
  Lemma du_dT_tame : tame (fun y => ig_du_dT_P g (T y) (P y)).
  Proof. exact (tame_minus y0 _ _ (poly_tame _) (tame_const y0 Rg)). Qed.

  Definition space7 (y : C7 -> R) : WorkingSpaceIn R :=
    mkWsIn (y iV) (ig_dens g (T y) (P y)) (ig_inte g (T y) (P y)) (ig_enth g (T y) (P y))
      (ig_dd_dP_T g (T y) (P y)) (ig_dd_dT_P g (T y) (P y)) (ig_du_dP_T g (T y) (P y))
      (ig_du_dT_P g (T y) (P y)) (y iW) q.

  Lemma pivot_tame h : tame h -> tame (fun y => pivot (space7 y) (h y)).
  Proof.
    intros Hh. apply (tame_minus y0).
    - exact (tame_mult y0 _ _ dens_tame du_dT_tame).
    - exact (tame_mult y0 _ _ dd_dT_tame (tame_minus y0 _ _ Hh inte_tame)).
  Qed.
  Lemma stiff_tame : tame (fun y => stiff (space7 y)).
  Proof.
    apply (tame_mult y0).
    - exact (tame_mult y0 _ _ (tame_coord y0 iV) dens_tame).
    - apply (tame_minus y0).
      + exact (tame_mult y0 _ _ dd_dP_tame du_dT_tame).
      + exact (tame_mult y0 _ _ dd_dT_tame (tame_const y0 0)).
  Qed.
  Lemma drive_tame : tame (fun y => drive (P y) (space7 y)).
  Proof.
    apply (tame_plus y0).
    - apply (tame_opp y0). apply (tame_mult y0); [|exact (tame_coord y0 iW)].
      apply (tame_mult y0); [|exact du_dT_tame]. exact (tame_mult y0 _ _ dens_tame dens_tame).
    - apply (tame_mult y0 _ _ dd_dT_tame).
      exact (tame_plus y0 _ _ (tame_mult y0 _ _ P_tame (tame_coord y0 iW)) (tame_const y0 q)).
  Qed.

  (** a physical space stays physical nearby *)
  Lemma physical_near h : physical_space (space7 y0) h ->
    exists dl, 0 < dl /\ forall y, inside y0 dl y -> physical_space (space7 y) h /\ 0 < T y.
  Proof.
    intros (H1 & H2 & H3 & H4 & H5 & H6). unfold space7 in H1, H2, H3, H4, H5, H6.
    cbn [wi_vol wi_dens wi_du_dT_P wi_dd_dT_P wi_dd_dP_T wi_du_dP_T wi_enth wi_inte] in H1, H2, H3, H4, H5, H6.
    destruct (eventually_pos y0 _ (tame_coord y0 iV) H1) as (d1 & D1 & A1).
    destruct (eventually_pos y0 _ dens_tame H2) as (d2 & D2 & A2).
    destruct (eventually_pos y0 _ du_dT_tame H3) as (d3 & D3 & A3).
    destruct (eventually_pos y0 (fun y => ig_dd_dP_T g (T y) (P y) * ig_du_dT_P g (T y) (P y)
      - ig_dd_dT_P g (T y) (P y) * ig_du_dP_T g (T y) (P y))) as (d4 & D4 & A4); [|lra|].
    { apply tame_minus; [exact (tame_mult y0 _ _ dd_dP_tame du_dT_tame)|].
      exact (tame_mult y0 _ _ dd_dT_tame (tame_const y0 0)). }
    destruct (eventually_pos y0 (fun y => ig_dens g (T y) (P y) * ig_du_dT_P g (T y) (P y)
      - ig_dd_dT_P g (T y) (P y) * (ig_enth g (T y) (P y) - ig_inte g (T y) (P y)))) as (d5 & D5 & A5); [|lra|].
    { exact (pivot_tame _ enth_tame). }
    destruct (eventually_pos y0 (fun y => ig_dens g (T y) (P y) * ig_du_dT_P g (T y) (P y)
      - ig_dd_dT_P g (T y) (P y) * (h - ig_inte g (T y) (P y)))) as (d6 & D6 & A6); [|lra|].
    { exact (pivot_tame _ (tame_const y0 h)). }
    destruct (eventually_pos y0 _ T_tame HT0) as (d7 & D7 & A7).
    set (e := Rmin d1 (Rmin d2 (Rmin d3 (Rmin d4 (Rmin d5 (Rmin d6 d7)))))).
    assert (LE : e <= d1 /\ e <= d2 /\ e <= d3 /\ e <= d4 /\ e <= d5 /\ e <= d6 /\ e <= d7).
    { unfold e. repeat split; repeat first [apply Rle_refl | apply Rmin_l | apply Rmin_r | eapply Rle_trans; [apply Rmin_r|]]. }
    destruct LE as (L1 & L2 & L3 & L4 & L5 & L6 & L7).
    exists e. split; [unfold e; repeat apply Rmin_pos; assumption|]. intros y Hy.
    specialize (A1 y (inside_le y0 _ _ _ L1 Hy)). specialize (A2 y (inside_le y0 _ _ _ L2 Hy)).
    specialize (A3 y (inside_le y0 _ _ _ L3 Hy)). specialize (A4 y (inside_le y0 _ _ _ L4 Hy)).
    specialize (A5 y (inside_le y0 _ _ _ L5 Hy)). specialize (A6 y (inside_le y0 _ _ _ L6 Hy)).
    specialize (A7 y (inside_le y0 _ _ _ L7 Hy)). cbv beta in A4, A5, A6.
    split; [|exact A7]. unfold physical_space, space7.
    cbn [wi_vol wi_dens wi_du_dT_P wi_dd_dT_P wi_dd_dP_T wi_du_dP_T wi_enth wi_inte].
    repeat split; try assumption; lra.
  Qed.

  (** the temperature follows from the mass balance *)
  Variables (m p dT : (C7 -> R) -> R) (d0 : R).
  Hypothesis D0 : 0 < d0.
  Hypothesis Hm : tame m.
  Hypothesis Hp : tame p.
  Hypothesis HV0 : 0 < y0 iV.
  Hypothesis HP0 : 0 < P y0.
  Hypothesis HM : forall y, inside y0 d0 y -> mass_rate_space (space7 y) (dT y) (p y) = m y.
  Lemma dT_tame : tame dT.
  Proof.
    pose (den := fun y => y iV * - ig_dd_dT_P g (T y) (P y)).
    assert (Hq : tame den) by exact (tame_mult y0 _ _ (tame_coord y0 iV) (tame_opp y0 _ dd_dT_tame)).
    assert (Hq0 : 0 < den y0).
    { apply Rmult_lt_0_compat; [exact HV0|]. rewrite dd_dT_P_eq. fold Rg. unfold T.
      replace (- (- P y0 / (Rg * (y0 iT * y0 iT)))) with (P y0 / (Rg * (y0 iT * y0 iT))) by (field; split; lra).
      apply Rdiv_lt_0_compat; [assumption|]. apply Rmult_lt_0_compat; [exact HR|apply Rmult_lt_0_compat; assumption]. }
    pose (num := fun y => y iV * (ig_dd_dP_T g (T y) (P y) * p y) + ig_dens g (T y) (P y) * y iW - m y).
    assert (Hn : tame num).
    { apply tame_minus; [|exact Hm]. apply tame_plus.
      - exact (tame_mult y0 _ _ (tame_coord y0 iV) (tame_mult y0 _ _ dd_dP_tame Hp)).
      - exact (tame_mult y0 _ _ dens_tame (tame_coord y0 iW)). }
    destruct (tame_div y0 _ _ Hn Hq Hq0) as (K & d1 & K0 & D1 & HK).
    destruct (eventually_pos y0 _ Hq Hq0) as (d2 & D2 & HQ).
    exists K, (Rmin d0 (Rmin d1 d2)). split; [exact K0|]. split; [repeat apply Rmin_pos; assumption|].
    assert (E : forall y, inside y0 (Rmin d0 (Rmin d1 d2)) y -> dT y = num y / den y /\ inside y0 d1 y).
    { intros y Hy.
      assert (Z : 0 < den y).
      { apply HQ. eapply inside_le; [|exact Hy]. eapply Rle_trans; apply Rmin_r. }
      pose proof (HM y (inside_le y0 _ _ _ (Rmin_l _ _) Hy)) as E. split.
      - unfold mass_rate_space, space7 in E. cbn [wi_vol wi_dens wi_dd_dP_T wi_dd_dT_P wi_dV_dt] in E.
        unfold num. rewrite <- E. unfold den in *. field. split; intros F; rewrite F in Z; lra.
      - eapply inside_le; [|exact Hy]. eapply Rle_trans; [apply Rmin_r|apply Rmin_l]. }
    intros y z Hy Hz. destruct (E y Hy) as (Ey & Iy). destruct (E z Hz) as (Ez & Iz).
    rewrite Ey, Ez. exact (HK y z Iy Iz).
  Qed.
End TameSpace.

Section Frozen.
  Variable g : IdealGas R.
  Let Rg := ig_gas_constant g.
  Hypothesis HR : 0 < Rg.
  Variable r : Run R.
  Hypothesis Hf : ru_fluid r = IdealGas_Fluid g.
  (** the inputs of the state equations as a function of seven numbers *)
  Definition frozen (y : C7 -> R) : Run R :=
    mkRun (ru_enth_norm r) (ru_fluid r) (ru_period r) (ru_pres r) (ru_temp r) (ru_vol_chx r) (ru_vol_hhx r)
      (ru_vol_regen r) (ru_ws_parasitics r) (fun _ => (mkVolume (y vC) (y wC), mkVolume (y vE) (y wE))).
  Definition inp7 (y : C7 -> R) : Inputs R := Run_calculate_inputs (frozen y) 0 (mkCond (y yP) (y yC) (y yE)).
  Definition join (c : Conditions R) (t : R) (i : C7) : R :=
    match i with
    | yP => cd_P c | yC => cd_T_c c | yE => cd_T_e c
    | vC => v_value (fst (ru_ws_vol_fn r t)) | vE => v_value (snd (ru_ws_vol_fn r t))
    | wC => v_deriv (fst (ru_ws_vol_fn r t)) | wE => v_deriv (snd (ru_ws_vol_fn r t))
    end.
  Lemma inp7_join c t : inp7 (join c t) = Run_calculate_inputs r t c.
  Proof.
    unfold inp7, Run_calculate_inputs, frozen, join. cbn [ru_ws_vol_fn].
    destruct (ru_ws_vol_fn r t) as [[v v1] [w w1]], c. reflexivity.
  Qed.
  Lemma inp7_ext y z : (forall i, y i = z i) -> inp7 y = inp7 z.
  Proof. intros H. unfold inp7, frozen. rewrite !H. reflexivity. Qed.

  Let qc := pp_thermal (par_comp (ru_ws_parasitics r)).
  Let qe := pp_thermal (par_exp (ru_ws_parasitics r)).
  Let comp7 := space7 g yC vC wC qc.
  Let exp7 := space7 g yE vE wE qe.
  Let Tk := te_chx (ru_temp r).
  Let Tr := rt_avg (te_regen (ru_temp r)).
  Let Tl := te_hhx (ru_temp r).
  Let hk := (Tk - ig_ref_temp g) * poly (ig_enth_coefs g) Tk.
  Let hl := (Tl - ig_ref_temp g) * poly (ig_enth_coefs g) Tl.
  Let K := ru_vol_chx r * (1 / (Rg * Tk)) + ru_vol_regen r * (1 / (Rg * Tr)) + ru_vol_hhx r * (1 / (Rg * Tl)).
  Lemma i7_comp y : in_comp (inp7 y) = comp7 y.
  Proof.
    unfold inp7, Run_calculate_inputs, frozen. cbn [ru_ws_vol_fn in_comp]. unfold comp_inputs. cbn [ru_fluid]. rewrite Hf. reflexivity.
  Qed.
  Lemma i7_exp y : in_exp (inp7 y) = exp7 y.
  Proof.
    unfold inp7, Run_calculate_inputs, frozen. cbn [ru_ws_vol_fn in_exp]. unfold exp_inputs. cbn [ru_fluid]. rewrite Hf. reflexivity.
  Qed.
  Lemma i7_hk y : hi_enth (in_chx (inp7 y)) = hk.
  Proof.
    unfold inp7, Run_calculate_inputs, frozen. cbn [ru_ws_vol_fn in_chx]. unfold chx_inputs. cbn [ru_fluid]. rewrite Hf.
    cbn [hi_enth IdealGas_Fluid fl_enth]. apply enth_eq.
  Qed.
  Lemma i7_hl y : hi_enth (in_hhx (inp7 y)) = hl.
  Proof.
    unfold inp7, Run_calculate_inputs, frozen. cbn [ru_ws_vol_fn in_hhx]. unfold hhx_inputs. cbn [ru_fluid]. rewrite Hf.
    cbn [hi_enth IdealGas_Fluid fl_enth]. apply enth_eq.
  Qed.
  Lemma i7_K y : hi_vol (in_chx (inp7 y)) * hi_dd_dP_T (in_chx (inp7 y))
    + gi_vol (in_regen (inp7 y)) * gi_dd_dP_T (in_regen (inp7 y))
    + hi_vol (in_hhx (inp7 y)) * hi_dd_dP_T (in_hhx (inp7 y)) = K.
  Proof.
    unfold inp7, Run_calculate_inputs, frozen. cbn [ru_ws_vol_fn in_hhx in_chx in_regen].
    unfold chx_inputs, hhx_inputs, regen_inputs. cbn [ru_fluid]. rewrite Hf.
    cbn [hi_vol hi_dd_dP_T gi_vol gi_dd_dP_T IdealGas_Fluid fl_dd_dP_T]. rewrite !dd_dP_T_eq. reflexivity.
  Qed.
  Lemma i7_hx y z : in_enth_norm (inp7 y) = in_enth_norm (inp7 z) /\
    hi_vol (in_chx (inp7 y)) = hi_vol (in_chx (inp7 z)) /\ hi_dd_dP_T (in_chx (inp7 y)) = hi_dd_dP_T (in_chx (inp7 z)) /\
    gi_vol (in_regen (inp7 y)) = gi_vol (in_regen (inp7 z)) /\ gi_dd_dP_T (in_regen (inp7 y)) = gi_dd_dP_T (in_regen (inp7 z)) /\
    hi_vol (in_hhx (inp7 y)) = hi_vol (in_hhx (inp7 z)) /\ hi_dd_dP_T (in_hhx (inp7 y)) = hi_dd_dP_T (in_hhx (inp7 z)).
  Proof.
    unfold inp7, Run_calculate_inputs, frozen. cbn [ru_ws_vol_fn in_enth_norm in_hhx in_chx in_regen ru_enth_norm].
    unfold chx_inputs, hhx_inputs, regen_inputs. cbn [ru_fluid]. rewrite Hf.
    cbn [hi_vol hi_dd_dP_T gi_vol gi_dd_dP_T IdealGas_Fluid fl_dd_dP_T]. rewrite !dd_dP_T_eq. repeat split; reflexivity.
  Qed.

  Variable y0 : C7 -> R.
  Hypothesis HTc : 0 < y0 yC.
  Hypothesis HTe : 0 < y0 yE.
  Hypothesis Hph : physical (inp7 y0).
  Lemma physical7 : exists dl, 0 < dl /\ forall y, inside y0 dl y -> physical (inp7 y) /\ 0 < y yC /\ 0 < y yE.
  Proof.
    destruct Hph as (H0 & Hc & He & Hx). rewrite i7_hk, i7_comp in Hc. rewrite i7_hl, i7_exp in He.
    destruct (physical_near g HR y0 yC vC wC qc HTc hk Hc) as (d1 & D1 & A1).
    destruct (physical_near g HR y0 yE vE wE qe HTe hl He) as (d2 & D2 & A2).
    exists (Rmin d1 d2). split; [apply Rmin_pos; assumption|]. intros y Hy.
    destruct (A1 y (inside_le y0 _ _ _ (Rmin_l _ _) Hy)) as (B1 & C1).
    destruct (A2 y (inside_le y0 _ _ _ (Rmin_r _ _) Hy)) as (B2 & C2).
    split; [|split; assumption].
    destruct (i7_hx y y0) as (X1 & X2 & X3 & X4 & X5 & X6 & X7).
    unfold physical. rewrite i7_hk, i7_comp, i7_hl, i7_exp, X1, X2, X3, X4, X5, X6, X7.
    split; [exact H0|]. split; [exact B1|]. split; [exact B2|exact Hx].
  Qed.

  Definition sol7 (y : C7 -> R) : Solution R :=
    match solve gauss (inp7 y) (mkFD Positive Positive Positive Positive) with Ok s => s | Err _ => at_rest end.
  Lemma sol7_solves y : physical (inp7 y) ->
    solve gauss (inp7 y) (mkFD Positive Positive Positive Positive) = Ok (sol7 y).
  Proof.
    intros Hy. destruct (solve_succeeds (inp7 y) Hy gauss (mkFD Positive Positive Positive Positive)
      gauss_sound gauss_complete) as (s & Hs).
    unfold sol7. rewrite Hs. reflexivity.
  Qed.
  Definition rate7 (y : C7 -> R) (i : C3) : R :=
    match i with uP => so_dP_dt (sol7 y) | uC => so_dTc_dt (sol7 y) | uE => so_dTe_dt (sol7 y) end.

  Lemma flows_tame : tame y0 (fun y => so_m_dot_ck (sol7 y)) /\ tame y0 (fun y => so_dP_dt (sol7 y)) /\
    tame y0 (fun y => so_m_dot_le (sol7 y)).
  Proof.
    destruct physical7 as (dl & D0 & HD).
    pose proof (proj1 (HD y0 (center y0 dl D0))) as (_ & Pc & Pe & _).
    rewrite i7_hk, i7_comp in Pc. rewrite i7_hl, i7_exp in Pe.
    apply (solutions_tame y0
      (fun y => pivot (comp7 y) (ig_enth g (y yC) (y yP))) (fun y => pivot (comp7 y) hk)
      (fun y => pivot (exp7 y) hl) (fun y => pivot (exp7 y) (ig_enth g (y yE) (y yP)))
      (fun y => stiff (comp7 y)) (fun y => stiff (exp7 y))
      (fun y => drive (y yP) (comp7 y)) (fun y => - drive (y yP) (exp7 y)) K
      (fun y => so_m_dot_ck (sol7 y)) (fun y => so_dP_dt (sol7 y)) (fun y => so_m_dot_le (sol7 y)) dl D0).
    - split; [exact (pivot_tame g HR y0 yC vC wC qc HTc _ (enth_tame g y0 yC))|].
      exact (proj1 (pivot_pos _ _ Positive Pc)).
    - split; [exact (pivot_tame g HR y0 yC vC wC qc HTc _ (tame_const y0 hk))|].
      exact (proj2 (pivot_pos _ _ Positive Pc)).
    - split; [exact (pivot_tame g HR y0 yE vE wE qe HTe _ (tame_const y0 hl))|].
      exact (proj2 (pivot_pos _ _ Positive Pe)).
    - split; [exact (pivot_tame g HR y0 yE vE wE qe HTe _ (enth_tame g y0 yE))|].
      exact (proj1 (pivot_pos _ _ Positive Pe)).
    - split; [exact (stiff_tame g HR y0 yC vC wC qc HTc)|]. exact (stiff_pos _ _ Pc).
    - split; [exact (stiff_tame g HR y0 yE vE wE qe HTe)|]. exact (stiff_pos _ _ Pe).
    - rewrite <- (i7_K y0). pose proof (K_nonneg _ Hph) as (K1 & K2 & K3). lra.
    - exact (drive_tame g HR y0 yC vC wC qc HTc).
    - exact (tame_opp y0 _ (drive_tame g HR y0 yE vE wE qe HTe)).
    - intros y Hy. destruct (HD y Hy) as (Hy' & _). pose proof (sol7_solves y Hy') as Hs.
      apply solve_upwind in Hs. apply solves_for_upwind in Hs.
      pose proof (eliminated_of (inp7 y) Hy' gauss _ _ gauss_sound Hs) as (E1 & E2 & E3 & E4 & E5 & _).
      change (in_pres (inp7 y)) with (y yP) in E1, E2.
      unfold Gc, Ge, h_ck, h_le in E1, E2. rewrite i7_hk, i7_comp in E1. rewrite i7_hl, i7_exp in E2.
      unfold solved, sys7, chi. cbn [y_g1 y_g2 y_h1 y_h2 y_B y_B' y_K y_C y_C'].
      unfold signs in E1, E2. cbn [fd_ck fd_le] in E1, E2.
      split; [|split].
      + destruct (Rle_dec 0 (so_m_dot_ck (sol7 y))) as [C|C].
        * rewrite (proj2 (sign_of_pos _) C) in E1. cbn [by_direction] in E1. change (wi_enth (comp7 y)) with (ig_enth g (y yC) (y yP)) in E1. lra.
        * assert (C' : so_m_dot_ck (sol7 y) < 0) by lra. rewrite (proj2 (sign_of_neg _) C') in E1. cbn [by_direction] in E1. lra.
      + destruct (Rle_dec 0 (so_m_dot_le (sol7 y))) as [C|C].
        * rewrite (proj2 (sign_of_pos _) C) in E2. cbn [by_direction] in E2. lra.
        * assert (C' : so_m_dot_le (sol7 y) < 0) by lra. rewrite (proj2 (sign_of_neg _) C') in E2. cbn [by_direction] in E2.
          change (wi_enth (exp7 y)) with (ig_enth g (y yE) (y yP)) in E2. lra.
      + rewrite E5, E4, E3, <- (i7_K y). ring.
  Qed.
  Lemma rates_tame i : tame y0 (fun y => rate7 y i).
  Proof.
    destruct flows_tame as (Tm & Tp & Tn). destruct physical7 as (dl & D0 & HD).
    pose proof (proj1 (HD y0 (center y0 dl D0))) as (_ & Pc & Pe & _).
    rewrite i7_hk, i7_comp in Pc. rewrite i7_hl, i7_exp in Pe.
    assert (HP0 : 0 < y0 yP).
    { destruct Pc as (_ & H & _). unfold comp7, space7 in H. cbn [wi_dens] in H.
      rewrite (dens_law g HR (y0 yC) (y0 yP) HTc).
      apply Rmult_lt_0_compat; [apply Rmult_lt_0_compat; [exact H|exact HR]|exact HTc]. }
    assert (BAL : forall y, inside y0 dl y -> mass_balances (inp7 y) (sol7 y)).
    { intros y Hy. exact (proj1 (mass_conserved gauss (inp7 y) _ _ gauss_sound (sol7_solves y (proj1 (HD y Hy))))). }
    destruct i; cbn [rate7].
    - exact Tp.
    - apply (dT_tame g HR y0 yC vC wC qc HTc (fun y => - so_m_dot_ck (sol7 y)) (fun y => so_dP_dt (sol7 y)) _ dl D0
        (tame_opp y0 _ Tm) Tp (proj1 Pc) HP0).
      intros y Hy. destruct (BAL y Hy) as (E & _). fold comp7. rewrite <- i7_comp. exact E.
    - apply (dT_tame g HR y0 yE vE wE qe HTe (fun y => so_m_dot_le (sol7 y)) (fun y => so_dP_dt (sol7 y)) _ dl D0
        Tn Tp (proj1 Pe) HP0).
      intros y Hy. destruct (BAL y Hy) as (_ & _ & _ & _ & E). fold exp7. rewrite <- i7_exp. exact E.
  Qed.
End Frozen.

Lemma cont7 (f : (C7 -> R) -> R) (Y : R -> C7 -> R) K t : 0 <= K ->
  (forall s, Rabs (f (Y s) - f (Y t)) <= K * dist7 (Y s) (Y t)) ->
  (forall i, continuity_pt (fun s => Y s i) t) -> continuity_pt (fun s => f (Y s)) t.
Proof.
  intros K0 H HC. apply cont_iff. intros e He.
  set (e' := e / (2 * (7 * K + 1))).
  assert (He' : 0 < e') by (unfold e'; apply Rdiv_lt_0_compat; lra).
  assert (A : forall i, exists dl, 0 < dl /\ forall y, Rabs (y - t) < dl -> Rabs (Y y i - Y t i) < e').
  { intros i. exact (proj1 (cont_iff _ _) (HC i) e' He'). }
  destruct (A yP) as (d1 & D1 & A1). destruct (A yC) as (d2 & D2 & A2). destruct (A yE) as (d3 & D3 & A3).
  destruct (A vC) as (d4 & D4 & A4). destruct (A vE) as (d5 & D5 & A5). destruct (A wC) as (d6 & D6 & A6).
  destruct (A wE) as (d7 & D7 & A7). clear A.
  set (m := Rmin d1 (Rmin d2 (Rmin d3 (Rmin d4 (Rmin d5 (Rmin d6 d7)))))).
  assert (LE : m <= d1 /\ m <= d2 /\ m <= d3 /\ m <= d4 /\ m <= d5 /\ m <= d6 /\ m <= d7).
  { unfold m. repeat split; repeat first [apply Rle_refl | apply Rmin_l | apply Rmin_r | eapply Rle_trans; [apply Rmin_r|]]. }
  exists m. split; [unfold m; repeat apply Rmin_pos; assumption|]. intros s Hs.
  eapply Rle_lt_trans; [apply H|].
  assert (D : dist7 (Y s) (Y t) <= 7 * e').
  { apply dist7_le. intros i. left.
    destruct i; [apply A1|apply A2|apply A3|apply A4|apply A5|apply A6|apply A7]; lra. }
  apply Rle_lt_trans with (K * (7 * e')); [apply Rmult_le_compat_l; assumption|].
  apply Rlt_le_trans with ((7 * K + 1) * e' + e'); [|].
  - assert (0 <= K * (7 * e')) by (apply Rmult_le_pos; lra). lra.
  - assert (E : (7 * K + 1) * e' = e / 2) by (unfold e'; field; lra).
    assert (0 <= K * e') by (apply Rmult_le_pos; lra). lra.
Qed.

Section Local.
  Variable name : GasName.
  Let g : IdealGas R := IdealGas_new name.
  Variable r : Run R.
  Hypothesis Hf : ru_fluid r = IdealGas_Fluid g.
  Variables (t0 eta : R) (c0 : Conditions R).
  Hypothesis Heta : 0 < eta.
  Hypothesis HT : positive_temps r c0.
  Hypothesis Hph : physical (Run_calculate_inputs r t0 c0).
  Hypothesis Hv : forall t, t0 - eta <= t <= t0 + eta ->
    true_derivatives (ru_ws_vol_fn r) t /\ continuous_rates (ru_ws_vol_fn r) t.
  Let y0 := join r c0 t0.
  Definition cond3 (x : C3 -> R) : Conditions R := mkCond (x uP) (x uC) (x uE).
  Let clk t := clamp (t0 - eta) (t0 + eta) t.

  Lemma join_dist x z t : dist7 (join r (cond3 x) t) (join r (cond3 z) t) = dist3 x z.
  Proof.
    unfold dist7, dist3, join. cbn [cond3 cd_P cd_T_c cd_T_e].
    assert (Z : forall u, Rabs (u - u) = 0) by (intros u; rewrite Rminus_diag_eq by reflexivity; apply Rabs_R0).
    rewrite !Z. ring.
  Qed.
  Lemma join_cont X t : smooth X -> forall i, continuity_pt (fun s => join r (cond3 (X s)) (clk s) i) t.
  Proof.
    intros HX i.
    assert (I : t0 - eta <= clk t <= t0 + eta) by (apply clamp_in; lra).
    destruct (Hv _ I) as ((V1 & V2) & (W1 & W2)).
    pose proof (clamp_cont (t0 - eta) (t0 + eta) t) as C. fold clk in C.
    destruct i; cbn [join cond3 cd_P cd_T_c cd_T_e]; try apply HX.
    - exact (continuity_pt_comp clk _ t C (deriv_cont _ _ _ V1)).
    - exact (continuity_pt_comp clk _ t C (deriv_cont _ _ _ V2)).
    - exact (continuity_pt_comp clk _ t C W1).
    - exact (continuity_pt_comp clk _ t C W2).
  Qed.
  (** the volumes near the starting time *)
  Lemma volumes_near dl : 0 < dl -> exists h, 0 < h /\ forall t, Rabs (t - t0) < h -> forall i,
    match i with vC | vE | wC | wE => Rabs (join r c0 t i - y0 i) <= dl | _ => True end.
  Proof.
    intros D0. destruct (Hv t0 ltac:(lra)) as ((V1 & V2) & (W1 & W2)).
    apply deriv_cont in V1, V2.
    destruct (proj1 (cont_iff _ _) V1 dl D0) as (h1 & H1 & A1).
    destruct (proj1 (cont_iff _ _) V2 dl D0) as (h2 & H2 & A2).
    destruct (proj1 (cont_iff _ _) W1 dl D0) as (h3 & H3 & A3).
    destruct (proj1 (cont_iff _ _) W2 dl D0) as (h4 & H4 & A4).
    exists (Rmin h1 (Rmin h2 (Rmin h3 h4))). split; [repeat apply Rmin_pos; assumption|]. intros t Ht.
    assert (LE : Rabs (t - t0) < h1 /\ Rabs (t - t0) < h2 /\ Rabs (t - t0) < h3 /\ Rabs (t - t0) < h4).
    { repeat split; (eapply Rlt_le_trans; [exact Ht|]);
        repeat first [apply Rle_refl | apply Rmin_l | apply Rmin_r | eapply Rle_trans; [apply Rmin_r|]]. }
    destruct LE as (L1 & L2 & L3 & L4).
    intros i; destruct i; try exact I; left; [apply A1|apply A2|apply A3|apply A4]; assumption.
  Qed.

  Definition close3 (e : R) (c c' : Conditions R) : Prop :=
    Rabs (cd_P c - cd_P c') <= e /\ Rabs (cd_T_c c - cd_T_c c') <= e /\ Rabs (cd_T_e c - cd_T_e c') <= e.

  (** trajectories starting near the given time and state last equally long *)
  Lemma starts : exists h, 0 < h /\ forall t1 c1, Rabs (t1 - t0) <= h -> close3 h c1 c0 ->
    exists c, c t1 = c1 /\ forall D, sound D -> complete D ->
    forall t, t1 - h < t < t1 + h -> physical_trajectory D r c t.
  Proof.
    pose proof (gas_R_pos name) as HR. fold g in HR.
    assert (HPy : physical (inp7 r y0)) by (unfold y0; rewrite inp7_join; exact Hph).
    assert (HTc : 0 < y0 yC) by apply HT. assert (HTe : 0 < y0 yE) by apply HT.
    destruct (physical7 g HR r Hf y0 HTc HTe HPy) as (e0 & E0 & A0).
    destruct (rates_tame g HR r Hf y0 HTc HTe HPy uP) as (K1 & e1 & K1p & E1 & A1).
    destruct (rates_tame g HR r Hf y0 HTc HTe HPy uC) as (K2 & e2 & K2p & E2 & A2).
    destruct (rates_tame g HR r Hf y0 HTc HTe HPy uE) as (K3 & e3 & K3p & E3 & A3).
    set (K := K1 + K2 + K3 + 1). set (dl := Rmin e0 (Rmin e1 (Rmin e2 e3))).
    assert (D0 : 0 < dl) by (unfold dl; repeat apply Rmin_pos; assumption).
    assert (LE : dl <= e0 /\ dl <= e1 /\ dl <= e2 /\ dl <= e3).
    { unfold dl. repeat split; repeat first [apply Rle_refl | apply Rmin_l | apply Rmin_r | eapply Rle_trans; [apply Rmin_r|]]. }
    destruct LE as (L0 & L1 & L2 & L3).
    assert (RB : forall y z i, inside y0 dl y -> inside y0 dl z ->
      Rabs (rate7 r y i) <= K /\ Rabs (rate7 r y i - rate7 r z i) <= K * dist7 y z).
    { intros y z i Hy Hz. pose proof (dist7_nonneg y z) as Hd.
      destruct (A1 y z) as (B1 & C1); try (eapply inside_le; [exact L1|assumption]).
      destruct (A2 y z) as (B2 & C2); try (eapply inside_le; [exact L2|assumption]).
      destruct (A3 y z) as (B3 & C3); try (eapply inside_le; [exact L3|assumption]).
      assert (W : forall k x w, k <= K -> x <= k -> w <= k * dist7 y z -> x <= K /\ w <= K * dist7 y z).
      { intros k x w Hk Hx Hw. split; [lra|]. eapply Rle_trans; [exact Hw|]. apply Rmult_le_compat_r; assumption. }
      destruct i; [apply (W K1)|apply (W K2)|apply (W K3)]; try assumption; unfold K; lra. }
    destruct (volumes_near dl D0) as (hv & HV0 & HV).
    assert (KP : 1 <= K) by (unfold K; lra).
    set (h := Rmin (Rmin (hv / 2) (eta / 2)) (Rmin (/ (6 * K)) (dl / (4 * K)))).
    assert (I6 : 0 < / (6 * K)) by (apply Rinv_0_lt_compat; lra).
    assert (I2 : 0 < dl / (4 * K)) by (apply Rdiv_lt_0_compat; lra).
    assert (Hh : 0 < h) by (unfold h; repeat apply Rmin_pos; lra).
    assert (LH : h <= hv / 2 /\ h <= eta / 2 /\ h <= / (6 * K) /\ h <= dl / (4 * K)).
    { unfold h. repeat split;
      [eapply Rle_trans; [apply Rmin_l|apply Rmin_l]|eapply Rle_trans; [apply Rmin_l|apply Rmin_r]
      |eapply Rle_trans; [apply Rmin_r|apply Rmin_l]|eapply Rle_trans; [apply Rmin_r|apply Rmin_r]]. }
    destruct LH as (H1 & H2 & H3 & H4).
    assert (Hd4 : h <= dl / 4).
    { apply Rle_trans with (dl / (4 * K)); [exact H4|]. unfold Rdiv. apply Rmult_le_compat_l; [lra|].
      apply Rinv_le_contravar; lra. }
    exists h. split; [exact Hh|]. intros t1 c1 Ht1 Hc1.
    assert (It1 : - h <= t1 - t0 <= h).
    { pose proof (Rle_abs (t1 - t0)). pose proof (Rle_abs (- (t1 - t0))) as Q. rewrite Rabs_Ropp in Q. lra. }
    pose (G := fun t x i => rate7 r (clamp7 y0 dl (join r (cond3 x) (clk t))) i).
    destruct (picard G t1 h K K (fun i => match i with uP => cd_P c1 | uC => cd_T_c c1 | uE => cd_T_e c1 end))
      as (X & X0 & XB & XD).
    - exact Hh.
    - lra.
    - apply Rle_trans with (3 * (K * / (6 * K))); [|right; field; lra].
      apply Rmult_le_compat_l; [lra|]. apply Rmult_le_compat_l; [lra|exact H3].
    - intros t x z i. unfold G.
      destruct (RB (clamp7 y0 dl (join r (cond3 x) (clk t))) (clamp7 y0 dl (join r (cond3 z) (clk t))) i) as (_ & B);
        try (apply clamp7_inside, D0).
      eapply Rle_trans; [exact B|]. apply Rmult_le_compat_l; [lra|].
      eapply Rle_trans; [apply clamp7_lip|]. rewrite join_dist. lra.
    - intros t x i. unfold G. apply (RB _ _ i (clamp7_inside y0 dl (join r (cond3 x) (clk t)) D0) (clamp7_inside y0 dl y0 D0)).
    - intros X HX t i. unfold G.
      apply (cont7 (fun y => rate7 r (clamp7 y0 dl y) i) (fun s => join r (cond3 (X s)) (clk s)) K); [lra| |apply join_cont, HX].
      intros s. destruct (RB (clamp7 y0 dl (join r (cond3 (X s)) (clk s))) (clamp7 y0 dl (join r (cond3 (X t)) (clk t))) i)
        as (_ & B); try (apply clamp7_inside, D0).
      eapply Rle_trans; [exact B|]. apply Rmult_le_compat_l; [lra|apply clamp7_lip].
    - exists (fun t => cond3 (X t)). split.
      { unfold cond3. rewrite !X0. destruct c1. reflexivity. }
      intros D HS HC t Ht.
      assert (Et : clk t = t) by (apply clamp_id; lra).
      assert (IN : inside y0 dl (join r (cond3 (X t)) t)).
      { assert (B : 2 * (K * h) <= dl / 2).
        { apply Rle_trans with (2 * (K * (dl / (4 * K)))); [|right; field; lra].
          apply Rmult_le_compat_l; [lra|]. apply Rmult_le_compat_l; [lra|exact H4]. }
        assert (Ht' : Rabs (t - t0) < hv) by (apply Rabs_def1; lra).
        destruct Hc1 as (Q1 & Q2 & Q3).
        assert (TR : forall x y z, Rabs (x - y) <= 2 * (K * h) -> Rabs (y - z) <= h -> Rabs (x - z) <= dl).
        { intros x y z Hx Hy. replace (x - z) with ((x - y) + (y - z)) by ring.
          eapply Rle_trans; [apply Rabs_triang|lra]. }
        intros i. pose proof (HV t Ht' i) as Q.
        destruct i; cbn [join cond3 cd_P cd_T_c cd_T_e] in Q |- *; try exact Q.
        - exact (TR _ _ _ (XB t uP) Q1).
        - exact (TR _ _ _ (XB t uC) Q2).
        - exact (TR _ _ _ (XB t uE) Q3). }
      destruct (A0 _ (inside_le y0 _ _ _ L0 IN)) as (P1 & P2 & P3).
      destruct (Hv t ltac:(lra)) as (V1 & V2).
      assert (EI : inp7 r (clamp7 y0 dl (join r (cond3 (X t)) (clk t))) = Run_calculate_inputs r t (cond3 (X t))).
      { rewrite Et, <- inp7_join. apply inp7_ext. intros i. apply clamp7_id, IN. }
      pose proof P1 as P1'. rewrite inp7_join in P1'.
      split; [|split; [exact P1'|exact V2]].
      split; [|split; [exact V1|]].
      { destruct HT as (_ & _ & Q). split; [exact P2|]. split; [exact P3|exact Q]. }
      destruct (solve_succeeds _ P1' D FlowDirection_default HS HC) as (s & Hs).
      exists FlowDirection_default, s. split; [exact Hs|].
      assert (ES : sol7 r (clamp7 y0 dl (join r (cond3 (X t)) (clk t))) = s).
      { apply (solve_unique _ P1' gauss D (mkFD Positive Positive Positive Positive) FlowDirection_default _ _ gauss_sound HS); [|exact Hs].
        rewrite <- EI. apply sol7_solves. rewrite EI. exact P1'. }
      rewrite <- ES.
      split; [|split]; [exact (XD t uP ltac:(lra))|exact (XD t uC ltac:(lra))|exact (XD t uE ltac:(lra))].
  Qed.
End Local.
