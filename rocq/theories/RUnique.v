(** * Exact trajectories are determined by one of their states *)
From Coq Require Import ZArith NArith List Reals Lra Lia.
From Verif Require Import Num ModelTypes ModelWs ModelHx ModelStateEq ModelEngine RNum Spec SpecR SpecGas
  SpecKin SpecTraj SpecLaws Fixture PolySolve RSolve RGauss RFluid RKin RMass RLaws RClose RPairs.
Local Open Scope R_scope.

Section Space.
  Variable g : IdealGas R.
  Let Rg := ig_gas_constant g.
  Hypothesis HR : 0 < Rg.
  Variables (a b : R) (d : R -> R).
  Hypothesis Hab : a <= b.
  Hypothesis Hd : forall t, a <= t <= b -> 0 <= d t.
  Variables (P T : bool -> R -> R) (V V' : R -> R) (q : R).
  Hypothesis HP : pair a b d P.
  Hypothesis HT : pair a b d T.
  Hypothesis HT0 : forall t j, a <= t <= b -> 0 < T j t.
  Hypothesis HV : cont_on a b V.
  Hypothesis HV' : cont_on a b V'.
  Let good := good a b d.

  Lemma both (f : bool -> R -> R) : (forall t j, a <= t <= b -> 0 < f j t) -> pos a b f.
  Proof. intros H t Ht. split; apply H, Ht. Qed.

  Lemma RT_pos t j : a <= t <= b -> 0 < Rg * T j t.
  Proof. intros Ht. apply Rmult_lt_0_compat; [exact HR|apply HT0, Ht]. Qed.
  Lemma RT_good : pair a b d (fun j t => Rg * T j t).
  Proof. apply (good_mult a b d Hd (fun _ => Rg) (fun _ => Rg)); [apply good_const; assumption|exact HT]. Qed.

  Lemma dens_good : pair a b d (fun j t => ig_dens g (T j t) (P j t)).
  Proof.
    exact (good_div a b d Hab Hd _ _ _ _ HP RT_good (both _ RT_pos)).
  Qed.
  Lemma dd_dP_good : pair a b d (fun j t => ig_dd_dP_T g (T j t) (P j t)).
  Proof.
    exact (good_div a b d Hab Hd _ _ _ _ (good_const a b d Hab Hd 1) RT_good (both _ RT_pos)).
  Qed.
  Lemma dd_dT_good : pair a b d (fun j t => ig_dd_dT_P g (T j t) (P j t)).
  Proof.
    assert (TT : pair a b d (fun j t => Rg * (T j t * T j t))).
    { apply (good_mult a b d Hd (fun _ => Rg) (fun _ => Rg)); [apply good_const; assumption|].
      apply (good_mult a b d Hd); exact HT. }
    apply (good_div a b d Hab Hd _ _ _ _ (good_opp a b d _ _ HP) TT).
    apply (both (fun j t => Rg * (T j t * T j t))). intros t j Ht. pose proof (HT0 t j Ht).
    apply Rmult_lt_0_compat; [exact HR|apply Rmult_lt_0_compat; assumption].
  Qed.
  Lemma poly_good (k : arr6 R) : pair a b d (fun j t => poly k (T j t)).
  Proof.
    apply (good_ext a b d (fun t => a6_0 k + a6_1 k * T true t + a6_2 k * T true t ^2 + a6_3 k * T true t ^3
                             + a6_4 k * T true t ^4 + a6_5 k * T true t ^5)
                          (fun t => a6_0 k + a6_1 k * T false t + a6_2 k * T false t ^2 + a6_3 k * T false t ^3
                             + a6_4 k * T false t ^4 + a6_5 k * T false t ^5)); [|intros; apply poly_eq..].
    assert (M : forall x n, RPairs.good a b d (fun t => x * T true t ^ n) (fun t => x * T false t ^ n)).
    { intros x n. apply (good_mult a b d Hd (fun _ => x) (fun _ => x)); [apply good_const; assumption|].
      apply good_pow; assumption. }
    assert (M1 : RPairs.good a b d (fun t => a6_1 k * T true t) (fun t => a6_1 k * T false t)).
    { apply (good_mult a b d Hd (fun _ => a6_1 k) (fun _ => a6_1 k)); [apply good_const; assumption|exact HT]. }
    repeat (apply good_plus; [|solve [apply M|exact M1]]).
    apply good_const; assumption.
  Qed.
  Lemma enth_good : pair a b d (fun j t => ig_enth g (T j t) (P j t)).
  Proof.
    apply (good_ext a b d (fun t => (T true t - ig_ref_temp g) * poly (ig_enth_coefs g) (T true t))
                          (fun t => (T false t - ig_ref_temp g) * poly (ig_enth_coefs g) (T false t)));
      [|intros; apply enth_eq..].
    apply (good_mult a b d Hd); [|exact (poly_good _)].
    exact (good_minus a b d _ _ _ _ HT (good_const a b d Hab Hd (ig_ref_temp g))).
  Qed.
  Lemma inte_good : pair a b d (fun j t => ig_inte g (T j t) (P j t)).
  Proof.
    apply (good_minus a b d _ _ _ _ enth_good).
    apply (good_mult a b d Hd (fun _ => Rg) (fun _ => Rg)); [apply good_const; assumption|].
    exact (good_minus a b d _ _ _ _ HT (good_const a b d Hab Hd (ig_ref_temp g))).
  Qed.
  Lemma du_dT_good : pair a b d (fun j t => ig_du_dT_P g (T j t) (P j t)).
  Proof.
    exact (good_minus a b d _ _ _ _ (poly_good (ig_cp_coefs g)) (good_const a b d Hab Hd Rg)).
  Qed.

  Definition space j t : WorkingSpaceIn R :=
    mkWsIn (V t) (ig_dens g (T j t) (P j t)) (ig_inte g (T j t) (P j t)) (ig_enth g (T j t) (P j t))
      (ig_dd_dP_T g (T j t) (P j t)) (ig_dd_dT_P g (T j t) (P j t)) (ig_du_dP_T g (T j t) (P j t))
      (ig_du_dT_P g (T j t) (P j t)) (V' t) q.

  Lemma V_good : pair a b d (fun _ => V).
  Proof. apply good_same; assumption. Qed.
  Lemma V'_good : pair a b d (fun _ => V').
  Proof. apply good_same; assumption. Qed.

  Lemma pivot_good (h : bool -> R -> R) : pair a b d h -> pair a b d (fun j t => pivot (space j t) (h j t)).
  Proof.
    intros Hh. apply (good_minus a b d).
    - exact (good_mult a b d Hd _ _ _ _ dens_good du_dT_good).
    - apply (good_mult a b d Hd _ _ _ _ dd_dT_good).
      exact (good_minus a b d _ _ _ _ Hh inte_good).
  Qed.
  Lemma stiff_good : pair a b d (fun j t => stiff (space j t)).
  Proof.
    apply (good_mult a b d Hd).
    - exact (good_mult a b d Hd _ _ _ _ V_good dens_good).
    - apply (good_minus a b d).
      + exact (good_mult a b d Hd _ _ _ _ dd_dP_good du_dT_good).
      + apply (good_mult a b d Hd _ _ _ _ dd_dT_good). exact (good_const a b d Hab Hd 0).
  Qed.
  Lemma drive_good : pair a b d (fun j t => drive (P j t) (space j t)).
  Proof.
    apply (good_plus a b d).
    - apply (good_opp a b d). apply (good_mult a b d Hd _ _ _ _); [|exact V'_good].
      apply (good_mult a b d Hd _ _ _ _); [|exact du_dT_good].
      exact (good_mult a b d Hd _ _ _ _ dens_good dens_good).
    - apply (good_mult a b d Hd _ _ _ _ dd_dT_good). apply (good_plus a b d).
      + exact (good_mult a b d Hd _ _ _ _ HP V'_good).
      + exact (good_const a b d Hab Hd q).
  Qed.

  (** the temperature follows from the mass balance *)
  Variables (m p dT : bool -> R -> R).
  Hypothesis Hm : near a b d (m true) (m false).
  Hypothesis Hp : near a b d (p true) (p false).
  Hypothesis HV0 : forall t, a <= t <= b -> 0 < V t.
  Hypothesis HP0 : forall t j, a <= t <= b -> 0 < P j t.
  Hypothesis HM : forall t j, a <= t <= b -> mass_rate_space (space j t) (dT j t) (p j t) = m j t.
  Lemma dT_near : near a b d (dT true) (dT false).
  Proof.
    assert (Hq : pair a b d (fun j t => V t * - ig_dd_dT_P g (T j t) (P j t))).
    { exact (good_mult a b d Hd _ _ _ _ V_good (good_opp a b d _ _ dd_dT_good)). }
    assert (Hq0 : pos a b (fun j t => V t * - ig_dd_dT_P g (T j t) (P j t))).
    { apply both. intros t j Ht. apply Rmult_lt_0_compat; [apply HV0, Ht|].
      rewrite dd_dT_P_eq. fold Rg. pose proof (HT0 t j Ht). pose proof (HP0 t j Ht).
      replace (- (- P j t / (Rg * (T j t * T j t)))) with (P j t / (Rg * (T j t * T j t))) by (field; split; lra).
      apply Rdiv_lt_0_compat; [assumption|]. apply Rmult_lt_0_compat; [exact HR|apply Rmult_lt_0_compat; assumption]. }
    pose (num := fun j t => V t * (ig_dd_dP_T g (T j t) (P j t) * p j t) + ig_dens g (T j t) (P j t) * V' t - m j t).
    assert (Hn : near a b d (num true) (num false)).
    { apply (near_minus a b d); [|exact Hm]. apply (near_plus a b d).
      - apply (near_mult a b d Hd _ _ _ _ (good_near a b d _ _ V_good)).
        exact (near_mult a b d Hd _ _ _ _ (good_near a b d _ _ dd_dP_good) Hp).
      - exact (near_mult a b d Hd _ _ _ _ (good_near a b d _ _ dens_good) (good_near a b d _ _ V'_good)). }
    pose proof (near_mult a b d Hd _ _ _ _ Hn
      (near_inv a b d Hd _ _ (good_near a b d _ _ Hq) (positive a b d Hab _ _ Hq Hq0))) as (K & K0 & HK).
    exists K. split; [exact K0|]. intros t Ht.
    assert (E : forall j, dT j t = num j t * / (V t * - ig_dd_dT_P g (T j t) (P j t))).
    { intros j. pose proof (HM t j Ht) as E. unfold mass_rate_space, space in E.
      cbn [wi_vol wi_dens wi_dd_dP_T wi_dd_dT_P wi_dV_dt] in E.
      assert (Z : 0 < V t * - ig_dd_dT_P g (T j t) (P j t)) by (destruct (Hq0 t Ht), j; assumption).
      unfold num. rewrite <- E. field. split; intros F; rewrite F in Z; lra. }
    rewrite !E. exact (HK t Ht).
  Qed.
End Space.

Section Two.
  Variable g : IdealGas R.
  Let Rg := ig_gas_constant g.
  Hypothesis HR : 0 < Rg.
  Variable r : Run R.
  Hypothesis Hf : ru_fluid r = IdealGas_Fluid g.
  Variables (a b : R) (c : bool -> R -> Conditions R) (D : bool -> Decomp R).
  Hypothesis Hab : a <= b.
  Hypothesis HD : forall j, sound (D j).
  Hypothesis Htr : forall j t, a <= t <= b -> on_trajectory (D j) r (c j) t.
  Hypothesis Hph : forall j t, a <= t <= b -> physical (Run_calculate_inputs r t (c j t)).
  Let Vc t := v_value (fst (ru_ws_vol_fn r t)).
  Let Ve t := v_value (snd (ru_ws_vol_fn r t)).
  Let Vc' t := v_deriv (fst (ru_ws_vol_fn r t)).
  Let Ve' t := v_deriv (snd (ru_ws_vol_fn r t)).
  Hypothesis HVc' : cont_on a b Vc'.
  Hypothesis HVe' : cont_on a b Ve'.
  Let P j t := cd_P (c j t).
  Let Tc j t := cd_T_c (c j t).
  Let Te j t := cd_T_e (c j t).
  Let d t := Rabs (P true t - P false t) + Rabs (Tc true t - Tc false t) + Rabs (Te true t - Te false t).
  Let inp j t := Run_calculate_inputs r t (c j t).
  Let S j t := match solve gauss (inp j t) (mkFD Positive Positive Positive Positive) with
               | Ok s => s | Err _ => at_rest end.

  Lemma S_eliminated j t : a <= t <= b -> eliminated (inp j t) (signs (S j t)) (S j t).
  Proof.
    intros Ht. destruct (solve_succeeds (inp j t) (Hph j t Ht) gauss (mkFD Positive Positive Positive Positive)
      gauss_sound gauss_complete) as (s & Hs).
    unfold S. rewrite Hs. apply solve_upwind in Hs. apply solves_for_upwind in Hs.
    exact (eliminated_of (inp j t) (Hph j t Ht) gauss _ s gauss_sound Hs).
  Qed.
  Lemma S_balances j t : a <= t <= b -> mass_balances (inp j t) (S j t).
  Proof.
    intros Ht. destruct (solve_succeeds (inp j t) (Hph j t Ht) gauss (mkFD Positive Positive Positive Positive)
      gauss_sound gauss_complete) as (s & Hs).
    unfold S. rewrite Hs. exact (proj1 (mass_conserved gauss (inp j t) _ s gauss_sound Hs)).
  Qed.
  Lemma S_follows j t : a <= t <= b -> follows (c j) (S j t) t.
  Proof.
    intros Ht. destruct (solve_succeeds (inp j t) (Hph j t Ht) gauss (mkFD Positive Positive Positive Positive)
      gauss_sound gauss_complete) as (s & Hs).
    destruct (Htr j t Ht) as (_ & _ & hint & s' & Hs' & HF).
    unfold S. rewrite Hs.
    rewrite (solve_unique (inp j t) (Hph j t Ht) gauss (D j) _ _ s s' gauss_sound (HD j) Hs Hs'). exact HF.
  Qed.

  Lemma d_nonneg t : a <= t <= b -> 0 <= d t.
  Proof.
    intros _. unfold d. pose proof (Rabs_pos (P true t - P false t)).
    pose proof (Rabs_pos (Tc true t - Tc false t)). pose proof (Rabs_pos (Te true t - Te false t)). lra.
  Qed.
  Lemma state_good (X : bool -> R -> R) : (forall j, cont_on a b (X j)) ->
    (forall t, Rabs (X true t - X false t) <= d t) -> pair a b d X.
  Proof.
    intros HC HX. split; [apply HC|]. split; [apply HC|].
    destruct (bounded a b Hab _ (HC true)) as (K & K0 & HK).
    destruct (bounded a b Hab _ (HC false)) as (M & M0 & HM).
    exists (K + M + 1). split; [lra|]. intros t Ht. specialize (HK t Ht). specialize (HM t Ht).
    split; [lra|]. split; [lra|]. specialize (HX t). pose proof (d_nonneg t Ht).
    assert (0 <= K * d t) by (apply Rmult_le_pos; lra). assert (0 <= M * d t) by (apply Rmult_le_pos; lra). lra.
  Qed.
  Ltac in_d := intros t; unfold d; pose proof (Rabs_pos (P true t - P false t));
    pose proof (Rabs_pos (Tc true t - Tc false t)); pose proof (Rabs_pos (Te true t - Te false t)); lra.
  Lemma P_good : pair a b d P.
  Proof. apply state_good; [|in_d]. intros j t Ht. exact (deriv_cont _ _ _ (proj1 (S_follows j t Ht))). Qed.
  Lemma Tc_good : pair a b d Tc.
  Proof. apply state_good; [|in_d]. intros j t Ht. exact (deriv_cont _ _ _ (proj1 (proj2 (S_follows j t Ht)))). Qed.
  Lemma Te_good : pair a b d Te.
  Proof. apply state_good; [|in_d]. intros j t Ht. exact (deriv_cont _ _ _ (proj2 (proj2 (S_follows j t Ht)))). Qed.
  Lemma Vc_cont : cont_on a b Vc.
  Proof. intros t Ht. destruct (Htr true t Ht) as (_ & (H & _) & _). exact (deriv_cont _ _ _ H). Qed.
  Lemma Ve_cont : cont_on a b Ve.
  Proof. intros t Ht. destruct (Htr true t Ht) as (_ & (_ & H) & _). exact (deriv_cont _ _ _ H). Qed.
  Lemma Tc_pos t j : a <= t <= b -> 0 < Tc j t.
  Proof. intros Ht. apply (Htr j t Ht). Qed.
  Lemma Te_pos t j : a <= t <= b -> 0 < Te j t.
  Proof. intros Ht. apply (Htr j t Ht). Qed.

  Let qc := pp_thermal (par_comp (ru_ws_parasitics r)).
  Let qe := pp_thermal (par_exp (ru_ws_parasitics r)).
  Lemma inp_comp j t : in_comp (inp j t) = space g P Tc Vc Vc' qc j t.
  Proof.
    unfold inp, Run_calculate_inputs, Vc, Vc', space. destruct (ru_ws_vol_fn r t) as [v w].
    cbn [in_comp fst]. unfold comp_inputs. rewrite Hf. reflexivity.
  Qed.
  Lemma inp_exp j t : in_exp (inp j t) = space g P Te Ve Ve' qe j t.
  Proof.
    unfold inp, Run_calculate_inputs, Ve, Ve', space. destruct (ru_ws_vol_fn r t) as [v w].
    cbn [in_exp snd]. unfold exp_inputs. rewrite Hf. reflexivity.
  Qed.
  Lemma inp_pres j t : in_pres (inp j t) = P j t.
  Proof. unfold inp, Run_calculate_inputs. destruct (ru_ws_vol_fn r t). reflexivity. Qed.
  Let Tk := te_chx (ru_temp r).
  Let Tr := rt_avg (te_regen (ru_temp r)).
  Let Tl := te_hhx (ru_temp r).
  Let hk := (Tk - ig_ref_temp g) * poly (ig_enth_coefs g) Tk.
  Let hl := (Tl - ig_ref_temp g) * poly (ig_enth_coefs g) Tl.
  Let K := ru_vol_chx r * (1 / (Rg * Tk)) + ru_vol_regen r * (1 / (Rg * Tr)) + ru_vol_hhx r * (1 / (Rg * Tl)).
  Lemma inp_hk j t : hi_enth (in_chx (inp j t)) = hk.
  Proof.
    unfold inp, Run_calculate_inputs. destruct (ru_ws_vol_fn r t). cbn [in_chx]. unfold chx_inputs. rewrite Hf.
    cbn [hi_enth IdealGas_Fluid fl_enth]. apply enth_eq.
  Qed.
  Lemma inp_hl j t : hi_enth (in_hhx (inp j t)) = hl.
  Proof.
    unfold inp, Run_calculate_inputs. destruct (ru_ws_vol_fn r t). cbn [in_hhx]. unfold hhx_inputs. rewrite Hf.
    cbn [hi_enth IdealGas_Fluid fl_enth]. apply enth_eq.
  Qed.
  Lemma inp_K j t : hi_vol (in_chx (inp j t)) * hi_dd_dP_T (in_chx (inp j t))
    + gi_vol (in_regen (inp j t)) * gi_dd_dP_T (in_regen (inp j t))
    + hi_vol (in_hhx (inp j t)) * hi_dd_dP_T (in_hhx (inp j t)) = K.
  Proof.
    unfold inp, Run_calculate_inputs. destruct (ru_ws_vol_fn r t). cbn [in_hhx in_chx in_regen].
    unfold chx_inputs, hhx_inputs, regen_inputs. rewrite Hf.
    cbn [hi_vol hi_dd_dP_T gi_vol gi_dd_dP_T IdealGas_Fluid fl_dd_dP_T]. rewrite !dd_dP_T_eq. reflexivity.
  Qed.
  Lemma phys_comp j t : a <= t <= b -> physical_space (space g P Tc Vc Vc' qc j t) hk.
  Proof.
    intros Ht. destruct (Hph j t Ht) as (_ & H & _). rewrite <- (inp_hk j t), <- inp_comp. exact H.
  Qed.
  Lemma phys_exp j t : a <= t <= b -> physical_space (space g P Te Ve Ve' qe j t) hl.
  Proof.
    intros Ht. destruct (Hph j t Ht) as (_ & _ & H & _). rewrite <- (inp_hl j t), <- inp_exp. exact H.
  Qed.
  Lemma Vc_pos t : a <= t <= b -> 0 < Vc t.
  Proof. intros Ht. exact (proj1 (phys_comp true t Ht)). Qed.
  Lemma Ve_pos t : a <= t <= b -> 0 < Ve t.
  Proof. intros Ht. exact (proj1 (phys_exp true t Ht)). Qed.
  Lemma P_pos t j : a <= t <= b -> 0 < P j t.
  Proof.
    intros Ht. destruct (phys_comp j t Ht) as (_ & H & _). unfold space in H. cbn [wi_dens] in H.
    pose proof (Tc_pos t j Ht) as HT. pose proof (dens_law g HR (Tc j t) (P j t) HT) as E.
    rewrite E. fold Rg. apply Rmult_lt_0_compat; [apply Rmult_lt_0_compat; [exact H|exact HR]|exact HT].
  Qed.

  Lemma flows_near : near a b d (fun t => so_m_dot_ck (S true t)) (fun t => so_m_dot_ck (S false t)) /\
    near a b d (fun t => so_dP_dt (S true t)) (fun t => so_dP_dt (S false t)) /\
    near a b d (fun t => so_m_dot_le (S true t)) (fun t => so_m_dot_le (S false t)).
  Proof.
    pose proof (enth_good g a b d Hab d_nonneg P Tc Tc_good) as Ec.
    pose proof (enth_good g a b d Hab d_nonneg P Te Te_good) as Ee.
    apply (solutions_near a b d Hab d_nonneg
      (fun j t => pivot (space g P Tc Vc Vc' qc j t) (ig_enth g (Tc j t) (P j t)))
      (fun j t => pivot (space g P Tc Vc Vc' qc j t) hk)
      (fun j t => pivot (space g P Te Ve Ve' qe j t) hl)
      (fun j t => pivot (space g P Te Ve Ve' qe j t) (ig_enth g (Te j t) (P j t)))
      (fun j t => stiff (space g P Tc Vc Vc' qc j t)) (fun j t => stiff (space g P Te Ve Ve' qe j t))
      (fun _ _ => K) (fun j t => drive (P j t) (space g P Tc Vc Vc' qc j t))
      (fun j t => - drive (P j t) (space g P Te Ve Ve' qe j t))
      (fun j t => so_m_dot_ck (S j t)) (fun j t => so_dP_dt (S j t)) (fun j t => so_m_dot_le (S j t))).
    - split; [exact (pivot_good g HR a b d Hab d_nonneg P Tc Vc Vc' qc P_good Tc_good Tc_pos _ Ec)|].
      apply both. intros t j Ht. pose proof (phys_comp j t Ht) as H. exact (proj1 (pivot_pos _ _ Positive H)).
    - split; [exact (pivot_good g HR a b d Hab d_nonneg P Tc Vc Vc' qc P_good Tc_good Tc_pos (fun _ _ => hk)
        (good_const a b d Hab d_nonneg hk))|].
      apply both. intros t j Ht. pose proof (phys_comp j t Ht) as H. exact (proj2 (pivot_pos _ _ Positive H)).
    - split; [exact (pivot_good g HR a b d Hab d_nonneg P Te Ve Ve' qe P_good Te_good Te_pos (fun _ _ => hl)
        (good_const a b d Hab d_nonneg hl))|].
      apply both. intros t j Ht. pose proof (phys_exp j t Ht) as H. exact (proj2 (pivot_pos _ _ Positive H)).
    - split; [exact (pivot_good g HR a b d Hab d_nonneg P Te Ve Ve' qe P_good Te_good Te_pos _ Ee)|].
      apply both. intros t j Ht. pose proof (phys_exp j t Ht) as H. exact (proj1 (pivot_pos _ _ Positive H)).
    - split; [exact (stiff_good g HR a b d Hab d_nonneg P Tc Vc Vc' qc P_good Tc_good Tc_pos Vc_cont)|].
      apply both. intros t j Ht. exact (stiff_pos _ _ (phys_comp j t Ht)).
    - split; [exact (stiff_good g HR a b d Hab d_nonneg P Te Ve Ve' qe P_good Te_good Te_pos Ve_cont)|].
      apply both. intros t j Ht. exact (stiff_pos _ _ (phys_exp j t Ht)).
    - exact (good_const a b d Hab d_nonneg K).
    - intros t j Ht. rewrite <- (inp_K j t). pose proof (K_nonneg _ (Hph j t Ht)) as (K1 & K2 & K3). unfold inp. lra.
    - exact (drive_good g HR a b d Hab d_nonneg P Tc Vc Vc' qc P_good Tc_good Tc_pos HVc').
    - exact (good_opp a b d _ _ (drive_good g HR a b d Hab d_nonneg P Te Ve Ve' qe P_good Te_good Te_pos HVe')).
    - intros t j Ht. pose proof (S_eliminated j t Ht) as (E1 & E2 & E3 & E4 & E5 & _).
      unfold Gc, Ge, h_ck, h_le in E1, E2. rewrite inp_hk, inp_comp, inp_pres in E1. rewrite inp_hl, inp_exp, inp_pres in E2.
      unfold solved, sys, chi. cbn [y_g1 y_g2 y_h1 y_h2 y_B y_B' y_K y_C y_C'].
      unfold signs in E1, E2. cbn [fd_ck fd_le] in E1, E2.
      split; [|split].
      + destruct (Rle_dec 0 (so_m_dot_ck (S j t))) as [C|C].
        * rewrite (proj2 (sign_of_pos _) C) in E1. cbn [by_direction] in E1. unfold space in E1 at 2. cbn [wi_enth] in E1. lra.
        * assert (C' : so_m_dot_ck (S j t) < 0) by lra. rewrite (proj2 (sign_of_neg _) C') in E1. cbn [by_direction] in E1. lra.
      + destruct (Rle_dec 0 (so_m_dot_le (S j t))) as [C|C].
        * rewrite (proj2 (sign_of_pos _) C) in E2. cbn [by_direction] in E2. lra.
        * assert (C' : so_m_dot_le (S j t) < 0) by lra. rewrite (proj2 (sign_of_neg _) C') in E2. cbn [by_direction] in E2.
          unfold space in E2 at 2. cbn [wi_enth] in E2. lra.
      + rewrite E5, E4, E3, <- (inp_K j t). ring.
  Qed.

  Lemma rates_near : near a b d (fun t => so_dP_dt (S true t)) (fun t => so_dP_dt (S false t)) /\
    near a b d (fun t => so_dTc_dt (S true t)) (fun t => so_dTc_dt (S false t)) /\
    near a b d (fun t => so_dTe_dt (S true t)) (fun t => so_dTe_dt (S false t)).
  Proof.
    destruct flows_near as (Nm & Np & Nn). split; [exact Np|]. split.
    - apply (dT_near g HR a b d Hab d_nonneg P Tc Vc Vc' qc P_good Tc_good Tc_pos Vc_cont HVc'
        (fun j t => - so_m_dot_ck (S j t)) (fun j t => so_dP_dt (S j t)) (fun j t => so_dTc_dt (S j t))
        (near_opp a b d _ _ Nm) Np Vc_pos P_pos).
      intros t j Ht. destruct (S_balances j t Ht) as (E & _). rewrite <- inp_comp. exact E.
    - apply (dT_near g HR a b d Hab d_nonneg P Te Ve Ve' qe P_good Te_good Te_pos Ve_cont HVe'
        (fun j t => so_m_dot_le (S j t)) (fun j t => so_dP_dt (S j t)) (fun j t => so_dTe_dt (S j t))
        Nn Np Ve_pos P_pos).
      intros t j Ht. destruct (S_balances j t Ht) as (_ & _ & _ & _ & E). rewrite <- inp_exp. exact E.
  Qed.

  Definition z t := Rsqr (P true t - P false t) + Rsqr (Tc true t - Tc false t) + Rsqr (Te true t - Te false t).
  Lemma z_zero t : z t = 0 <-> c true t = c false t.
  Proof.
    unfold z. split.
    - intros H. pose proof (Rle_0_sqr (P true t - P false t)) as H1. pose proof (Rle_0_sqr (Tc true t - Tc false t)) as H2.
      pose proof (Rle_0_sqr (Te true t - Te false t)) as H3.
      assert (Z1 : P true t - P false t = 0) by (apply Rsqr_eq_0; lra).
      assert (Z2 : Tc true t - Tc false t = 0) by (apply Rsqr_eq_0; lra).
      assert (Z3 : Te true t - Te false t = 0) by (apply Rsqr_eq_0; lra).
      unfold P, Tc, Te in Z1, Z2, Z3. destruct (c true t) as [x1 x2 x3], (c false t) as [y1 y2 y3].
      cbn [cd_P cd_T_c cd_T_e] in Z1, Z2, Z3. f_equal; lra.
    - intros E. unfold P, Tc, Te. rewrite E. replace (cd_P (c false t) - cd_P (c false t)) with 0 by ring.
      replace (cd_T_c (c false t) - cd_T_c (c false t)) with 0 by ring.
      replace (cd_T_e (c false t) - cd_T_e (c false t)) with 0 by ring. unfold Rsqr. ring.
  Qed.
  Lemma z_deriv : exists L, forall t, a <= t <= b -> exists dz, derivable_pt_lim z t dz /\ Rabs dz <= L * z t.
  Proof.
    destruct rates_near as ((K1 & P1 & R1) & (K2 & P2 & R2) & (K3 & P3 & R3)).
    exists (6 * (K1 + K2 + K3)). intros t Ht.
    destruct (R1 t Ht) as (_ & _ & B1). destruct (R2 t Ht) as (_ & _ & B2). destruct (R3 t Ht) as (_ & _ & B3).
    destruct (S_follows true t Ht) as (F1 & F2 & F3). destruct (S_follows false t Ht) as (G1 & G2 & G3).
    pose proof (d_nonneg t Ht) as Hd.
    set (x := P true t - P false t) in *. set (y := Tc true t - Tc false t) in *. set (w := Te true t - Te false t) in *.
    set (dx := so_dP_dt (S true t) - so_dP_dt (S false t)) in *.
    set (dy := so_dTc_dt (S true t) - so_dTc_dt (S false t)) in *.
    set (dw := so_dTe_dt (S true t) - so_dTe_dt (S false t)) in *.
    exists ((dx * x + x * dx) + (dy * y + y * dy) + (dw * w + w * dw)). split.
    - unfold z, Rsqr. apply deriv_plus; [apply deriv_plus|]; apply deriv_mult; apply deriv_minus; assumption.
    - assert (Ed : d t = Rabs x + Rabs y + Rabs w) by reflexivity.
      assert (Ez : z t = Rabs x * Rabs x + Rabs y * Rabs y + Rabs w * Rabs w).
      { unfold z. fold x y w. rewrite (Rsqr_abs x), (Rsqr_abs y), (Rsqr_abs w). reflexivity. }
      rewrite Ez. set (KK := K1 + K2 + K3) in *.
      assert (A1 : Rabs dx <= KK * d t) by (eapply Rle_trans; [exact B1|apply Rmult_le_compat_r; unfold KK; lra]).
      assert (A2 : Rabs dy <= KK * d t) by (eapply Rle_trans; [exact B2|apply Rmult_le_compat_r; unfold KK; lra]).
      assert (A3 : Rabs dw <= KK * d t) by (eapply Rle_trans; [exact B3|apply Rmult_le_compat_r; unfold KK; lra]).
      rewrite Ed in A1, A2, A3.
      pose proof (Rabs_pos x) as X1. pose proof (Rabs_pos y) as X2. pose proof (Rabs_pos w) as X3.
      assert (S1 : Rabs (dx * x + x * dx) <= 2 * (Rabs x * (KK * (Rabs x + Rabs y + Rabs w)))).
      { replace (dx * x + x * dx) with (2 * (x * dx)) by ring. rewrite Rabs_mult, (Rabs_pos_eq 2), Rabs_mult by lra.
        apply Rmult_le_compat_l; [lra|]. apply Rmult_le_compat_l; assumption. }
      assert (S2 : Rabs (dy * y + y * dy) <= 2 * (Rabs y * (KK * (Rabs x + Rabs y + Rabs w)))).
      { replace (dy * y + y * dy) with (2 * (y * dy)) by ring. rewrite Rabs_mult, (Rabs_pos_eq 2), Rabs_mult by lra.
        apply Rmult_le_compat_l; [lra|]. apply Rmult_le_compat_l; assumption. }
      assert (S3 : Rabs (dw * w + w * dw) <= 2 * (Rabs w * (KK * (Rabs x + Rabs y + Rabs w)))).
      { replace (dw * w + w * dw) with (2 * (w * dw)) by ring. rewrite Rabs_mult, (Rabs_pos_eq 2), Rabs_mult by lra.
        apply Rmult_le_compat_l; [lra|]. apply Rmult_le_compat_l; assumption. }
      eapply Rle_trans; [apply Rabs_triang|]. eapply Rle_trans; [apply Rplus_le_compat_r, Rabs_triang|].
      set (X := Rabs x) in *. set (Y := Rabs y) in *. set (W := Rabs w) in *.
      assert (Q : (X + Y + W) * (X + Y + W) <= 3 * (X * X + Y * Y + W * W)).
      { pose proof (Rle_0_sqr (X - Y)). pose proof (Rle_0_sqr (Y - W)). pose proof (Rle_0_sqr (X - W)). unfold Rsqr in *. lra. }
      assert (HK0 : 0 <= KK) by (unfold KK; lra).
      pose proof (Rmult_le_compat_l KK _ _ HK0 Q). lra.
  Qed.

  Lemma agree t0 : a <= t0 <= b -> c true t0 = c false t0 -> forall t, a <= t <= b -> c true t = c false t.
  Proof.
    intros H0 E0 t Ht. apply z_zero. destruct z_deriv as (L & HL).
    apply (stays_zero z a b t0 L H0); [|exact HL|apply z_zero, E0|exact Ht].
    intros u _. unfold z. pose proof (Rle_0_sqr (P true u - P false u)). pose proof (Rle_0_sqr (Tc true u - Tc false u)).
    pose proof (Rle_0_sqr (Te true u - Te false u)). lra.
  Qed.
End Two.
