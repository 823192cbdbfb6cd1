(** * Hydrogen engines have a steady cycle *)
From Coq Require Import ZArith NArith List Reals Lra Lia.
From Verif Require Import Num ModelTypes ModelWs ModelHx ModelStateEq ModelEngine RNum Spec SpecR SpecGas
  SpecKin SpecTraj SpecLaws SpecUnique SpecExist SpecDepend SpecSpaces SpecHydro SpecBounds SpecSteady SpecH2 Fixture PolySolve RSolve RGauss RFluid
  RKin RMass RSpaces RClose RStart RPeriod RDepend RHydro RCase RCase3 RCase4 RReturn RBrouwer RBounds RSteady RH2 RH2Case.
Import ListNotations.
Local Open Scope R_scope.

Lemma s_solve V B lo hi : 0 < lo -> lo <= hi -> s_h2 V lo <= B <= s_h2 V hi -> exists x, lo <= x <= hi /\ s_h2 V x = B.
Proof.
  intros H1 H2 H3. set (g := fun w => s_h2 V (exp w) - B).
  assert (E : forall x, 0 < x -> g (ln x) = s_h2 V x - B) by (intros x Hx; unfold g; rewrite exp_ln by exact Hx; reflexivity).
  assert (L : ln lo <= ln hi).
  { destruct H2 as [H2| ->]; [left; apply ln_increasing; assumption|apply Rle_refl]. }
  assert (C : continuity g).
  { intros w. apply derivable_continuous_pt. eexists.
    apply (derivable_pt_lim_minus (fun w => s_h2 V (exp w)) (fun _ => B)); [|apply derivable_pt_lim_const].
    apply (derivable_pt_lim_comp exp (fun t => s_h2 V t)); [apply derivable_pt_lim_exp|apply s_deriv_T, exp_pos]. }
  destruct (IVT_cor g (ln lo) (ln hi) C L) as (w & W1 & W2).
  - rewrite !E by lra.
    assert (0 <= (B - s_h2 V lo) * (s_h2 V hi - B)) by (apply Rmult_le_pos; lra). lra.
  - exists (exp w). split.
    + rewrite <- (exp_ln lo), <- (exp_ln hi) by lra.
      split; [destruct (proj1 W1) as [X| <-]|destruct (proj2 W1) as [X| ->]]; try apply Rle_refl; left; apply exp_increasing, X.
    + unfold g in W2. lra.
Qed.

Section Steady.
  Variables (comps : Components R) (s : State R) (r : Run R) (D : Decomp R) (P0 cl ch el eh tcl tch tel teh : R).
  Hypothesis Hfl : s_fluid s = IdealGas_Fluid h2.
  Hypothesis Hd : driven (co_ws comps).
  Hypothesis Hr : Run_new comps s = Ret r.
  Hypothesis Hk : 250 <= te_sink (s_temp s).
  Hypothesis Hl : 250 < te_source (s_temp s).
  Hypothesis HS : sound D.
  Hypothesis HC : complete D.
  Hypothesis VC : forall T, between (V_comp r) cl ch 0 T.
  Hypothesis VE : forall T, between (V_exp r) el eh 0 T.
  Hypothesis QC : heat_lost_comp r = 0.
  Hypothesis QE : heat_lost_exp r = 0.
  Hypothesis HX : h2_exchangers r.
  Hypothesis HP0 : 0 < P0.
  Let Tk := te_chx (ru_temp r).
  Let Tl := te_hhx (ru_temp r).
  Hypothesis WC : T_cold <= tcl.
  Hypothesis WE : T_cold <= tel.
  Hypothesis UC : 0 < tch.
  Hypothesis UE : 0 < teh.
  (** temperatures that bound the gas that flows in *)
  Variables yc xc ye xe : R.
  Hypothesis Yc : 0 < yc <= T_ref /\ u_h2 yc <= h_h2 Tk /\ s_h2 ch tcl <= s_h2 cl yc.
  Hypothesis Xc : T_ref <= xc /\ h_h2 Tk <= u_h2 xc /\ s_h2 ch xc <= s_h2 cl tch.
  Hypothesis Ye : 0 < ye <= T_ref /\ u_h2 ye <= h_h2 Tl /\ s_h2 eh tel <= s_h2 el ye.
  Hypothesis Xe : T_ref <= xe /\ h_h2 Tl <= u_h2 xe /\ s_h2 eh xe <= s_h2 el teh.
  Let vc := V_comp r 0.
  Let ve := V_exp r 0.
  (** the temperatures to start from *)
  Variables xa xb ya yb : R.
  Hypothesis Ra : 0 < xa <= yc /\ s_h2 vc xa = s_h2 cl yc.
  Hypothesis Rb : xc <= xb /\ s_h2 vc xb = s_h2 ch xc.
  Hypothesis Sa : 0 < ya <= ye /\ s_h2 ve ya = s_h2 el ye.
  Hypothesis Sb : xe <= yb /\ s_h2 ve yb = s_h2 eh xe.
  Let start x y := mkCond P0 x y.
  Lemma h2_vols_c t : 0 <= t -> 0 < cl /\ cl <= V_comp r t <= ch.
  Proof. intros Ht. destruct (VC t) as (H1 & H2). split; [exact H1|apply H2; lra]. Qed.
  Lemma h2_vols_e t : 0 <= t -> 0 < el /\ el <= V_exp r t <= eh.
  Proof. intros Ht. destruct (VE t) as (H1 & H2). split; [exact H1|apply H2; lra]. Qed.
  Lemma h2_rect : xa <= xb /\ ya <= yb.
  Proof. split; lra. Qed.
  Lemma h2_level_c x : xa <= x <= xb -> s_h2 cl yc <= s_h2 vc x <= s_h2 ch xc.
  Proof.
    intros Hx. destruct Ra as (A1 & <-). destruct Rb as (B1 & <-). split; apply s_rising; lra.
  Qed.
  Lemma h2_level_e y : ya <= y <= yb -> s_h2 el ye <= s_h2 ve y <= s_h2 eh xe.
  Proof.
    intros Hx. destruct Sa as (A1 & <-). destruct Sb as (B1 & <-). split; apply s_rising; lra.
  Qed.
  Lemma h2_in_c x : 0 < x -> s_h2 cl yc <= s_h2 vc x <= s_h2 ch xc -> xa <= x <= xb.
  Proof.
    intros Hx (H1 & H2). destruct Ra as (A1 & A2). destruct Rb as (B1 & B2). unfold T_ref in *.
    split; apply (s_below vc); try lra.
  Qed.
  Lemma h2_in_e y : 0 < y -> s_h2 el ye <= s_h2 ve y <= s_h2 eh xe -> ya <= y <= yb.
  Proof.
    intros Hx (H1 & H2). destruct Sa as (A1 & A2). destruct Sb as (B1 & B2). unfold T_ref in *.
    split; apply (s_below ve); try lra.
  Qed.
  Lemma h2_start_low x y : xa <= x <= xb -> ya <= y <= yb -> h2_lowest r (start x y) cl ch el eh tcl tel.
  Proof.
    intros Hx Hy. apply h2_level_c in Hx. apply h2_level_e in Hy. unfold vc, ve in *.
    split; [exists yc|exists ye]; cbn [start cd_T_c cd_T_e]; fold Tk Tl; repeat split; try apply Yc; try apply Ye; lra.
  Qed.
  Lemma h2_start_high x y : xa <= x <= xb -> ya <= y <= yb -> h2_highest r (start x y) cl ch el eh tch teh.
  Proof.
    intros Hx Hy. apply h2_level_c in Hx. apply h2_level_e in Hy. unfold vc, ve in *.
    split; [exists xc|exists xe]; cbn [start cd_T_c cd_T_e]; fold Tk Tl; repeat split; try apply Xc; try apply Xe; lra.
  Qed.
  Lemma h2_start_conditions x y : xa <= x <= xb -> ya <= y <= yb -> hydrogen_conditions r 0 (start x y).
  Proof.
    intros Hx Hy. pose proof (h2_level_c x Hx) as L1. pose proof (h2_level_e y Hy) as L2.
    destruct (h2_vols_c 0 ltac:(lra)) as (C1 & C2). destruct (h2_vols_e 0 ltac:(lra)) as (D1 & D2). fold vc in C2. fold ve in D2.
    assert (B1 : tcl <= x).
    { unfold T_cold in *. apply (s_below vc); [lra|lra|]. apply Rle_trans with (2 := proj1 L1). apply Rle_trans with (2 := proj2 (proj2 Yc)).
      apply s_volume; lra. }
    assert (B2 : tel <= y).
    { unfold T_cold in *. apply (s_below ve); [lra|lra|]. apply Rle_trans with (2 := proj1 L2). apply Rle_trans with (2 := proj2 (proj2 Ye)).
      apply s_volume; lra. }
    unfold vc, ve, V_comp, V_exp in *.
    destruct HX as (H1 & H2 & H3 & H4 & H5 & H6). unfold hydrogen_conditions, start. cbn [cd_P cd_T_c cd_T_e].
    split; [exact HP0|]. split; [lra|]. split; [lra|].
    split; [exact H1|]. split; [exact H2|]. split; [exact H3|]. split; [lra|]. split; [lra|]. auto.
  Qed.
  Let tau := ru_period r.
  Let good x y c := c 0 = start x y /\ forall t, 0 <= t <= tau -> physical_trajectory D r c t.
  Lemma h2_tau : 0 <= tau.
  Proof. exact (proj1 (driven_run comps s r Hd Hr)). Qed.
  Lemma h2_from_start x y : xa <= x <= xb -> ya <= y <= yb ->
    exists c, c 0 = start x y /\ forall t, 0 <= t -> physical_trajectory D r c t.
  Proof.
    intros Hx Hy.
    exact (h2_forever comps s r D (start x y) cl ch el eh tcl tch tel teh Hfl Hd Hr HS VC VE QC QE (h2_start_conditions x y Hx Hy)
      (h2_start_low x y Hx Hy) (h2_start_high x y Hx Hy) WC WE UC UE HC Hk Hl).
  Qed.
  Lemma h2_fluid : ru_fluid r = IdealGas_Fluid h2.
  Proof. rewrite <- Hfl. apply (driven_run comps s r Hd Hr). Qed.
  Lemma h2_same_end x y c c' : good x y c -> good x y c' -> c tau = c' tau.
  Proof.
    intros (E & A) (E' & A'). pose proof h2_tau.
    apply (trajectories_agree Hydrogen r D D c c' 0 tau 0 h2_fluid HS HS); [lra| |rewrite E, E'; reflexivity|lra].
    intros u Hu. split; [apply A; lra|apply A'; lra].
  Qed.
  Lemma h2_end_named (p : Conditions R -> R) x y :
    {v | xa <= x <= xb -> ya <= y <= yb -> forall c, good x y c -> v = p (c tau)}.
  Proof.
    destruct (Rle_dec xa x) as [X1|]; [|exists 0; lra]. destruct (Rle_dec x xb) as [X2|]; [|exists 0; lra].
    destruct (Rle_dec ya y) as [Y1|]; [|exists 0; lra]. destruct (Rle_dec y yb) as [Y2|]; [|exists 0; lra].
    destruct (named_real (fun v => exists c, good x y c /\ v = p (c tau))) as (v & Hv).
    - destruct (h2_from_start x y (conj X1 X2) (conj Y1 Y2)) as (c & E & H). exists (p (c tau)). split.
      + exists c. split; [|reflexivity]. split; [exact E|]. intros t Ht. apply H. lra.
      + intros v (c' & G' & ->). f_equal. apply (h2_same_end x y); [exact G'|]. split; [exact E|]. intros t Ht. apply H. lra.
    - exists v. intros _ _ c G. destruct Hv as (c' & G' & ->). f_equal. exact (h2_same_end x y c' c G' G).
  Qed.
  Let f1 x y := proj1_sig (h2_end_named cd_T_c x y).
  Let f2 x y := proj1_sig (h2_end_named cd_T_e x y).
  Lemma h2_f_eq x y c : xa <= x <= xb -> ya <= y <= yb -> good x y c -> f1 x y = cd_T_c (c tau) /\ f2 x y = cd_T_e (c tau).
  Proof.
    intros Hx Hy G. unfold f1, f2. destruct (h2_end_named cd_T_c x y) as (v & Hv). destruct (h2_end_named cd_T_e x y) as (w & Hw).
    cbn [proj1_sig]. split; [apply Hv|apply Hw]; assumption.
  Qed.
  Lemma h2_volumes_return : V_comp r tau = vc /\ V_exp r tau = ve.
  Proof.
    destruct (driven_run comps s r Hd Hr) as (_ & HR & _). unfold vc, ve, V_comp, V_exp, tau.
    rewrite <- (Rplus_0_l (ru_period r)), HR. auto.
  Qed.
  Lemma h2_into x y : xa <= x <= xb -> ya <= y <= yb -> xa <= f1 x y <= xb /\ ya <= f2 x y <= yb.
  Proof.
    intros Hx Hy. destruct (h2_from_start x y Hx Hy) as (c & E & H). pose proof h2_tau as TP. pose proof h2_fluid as HF.
    assert (G : good x y c) by (split; [exact E|intros t Ht; apply H; lra]).
    destruct (h2_f_eq x y c Hx Hy G) as (-> & ->). destruct h2_volumes_return as (E1 & E2).
    assert (W : forall t, 0 <= t <= tau -> _ /\ _) by (intros t Ht; exact (h2_both_warm r HF D HS c t (H t (proj1 Ht)))).
    assert (VC' : forall t, 0 <= t <= tau -> cl <= V_comp r t <= ch) by (intros t Ht; apply h2_vols_c; lra).
    assert (VE' : forall t, 0 <= t <= tau -> el <= V_exp r t <= eh) by (intros t Ht; apply h2_vols_e; lra).
    destruct (h2_vols_c 0 ltac:(lra)) as (C1 & _). destruct (h2_vols_e 0 ltac:(lra)) as (D1 & _).
    pose proof (h2_level_c x Hx) as L1. pose proof (h2_level_e y Hy) as L2.
    assert (S1 : s_h2 (V_comp r 0) (cd_T_c (c 0)) = s_h2 vc x) by (rewrite E; reflexivity).
    assert (S2 : s_h2 (V_exp r 0) (cd_T_e (c 0)) = s_h2 ve y) by (rewrite E; reflexivity).
    destruct Yc as (Y1 & Y2 & _). destruct Ye as (Y3 & Y4 & _). destruct Xc as (X1 & X2 & _). destruct Xe as (X3 & X4 & _).
    pose proof (level_ceiling (V_comp r) (fun u => cd_T_c (c u)) _ _ 0 tau cl ch (fun t Ht => proj1 (W t Ht)) C1 VC'
      xc (s_h2 ch xc) tau ltac:(rewrite QC; lra) X1 X2 ltac:(cbv beta; lra) (Rle_refl _) ltac:(lra)) as A1.
    pose proof (level_floor (V_comp r) (fun u => cd_T_c (c u)) _ _ 0 tau cl ch (fun t Ht => proj1 (W t Ht)) C1 VC'
      yc (s_h2 cl yc) tau ltac:(rewrite QC; lra) Y1 Y2 ltac:(cbv beta; lra) (Rle_refl _) ltac:(lra)) as A2.
    pose proof (level_ceiling (V_exp r) (fun u => cd_T_e (c u)) _ _ 0 tau el eh (fun t Ht => proj2 (W t Ht)) D1 VE'
      xe (s_h2 eh xe) tau ltac:(rewrite QE; lra) X3 X4 ltac:(cbv beta; lra) (Rle_refl _) ltac:(lra)) as A3.
    pose proof (level_floor (V_exp r) (fun u => cd_T_e (c u)) _ _ 0 tau el eh (fun t Ht => proj2 (W t Ht)) D1 VE'
      ye (s_h2 el ye) tau ltac:(rewrite QE; lra) Y3 Y4 ltac:(cbv beta; lra) (Rle_refl _) ltac:(lra)) as A4.
    cbv beta in A1, A2, A3, A4. rewrite E1 in A1, A2. rewrite E2 in A3, A4.
    destruct (H tau TP) as ((TT & _) & _). destruct TT as (T1 & T2 & _).
    split; [apply h2_in_c|apply h2_in_e]; try assumption; lra.
  Qed.
  (** one box for all of them *)
  Let rlo := cl / tch + fixed_ratio r + el / teh.
  Let rhi := ch / tcl + fixed_ratio r + eh / tel.
  Let lo := mkCond (P0 * rlo / rhi) tcl tel.
  Let hi := mkCond (P0 * rhi / rlo) tch teh.
  Lemma h2_ratios x y : xa <= x <= xb -> ya <= y <= yb -> 0 < rlo /\ rlo <= ratio r 0 (start x y) <= rhi.
  Proof.
    intros Hx Hy. pose proof (h2_start_conditions x y Hx Hy) as H0. pose proof (h2_start_low x y Hx Hy) as L.
    pose proof (h2_start_high x y Hx Hy) as U.
    destruct (h2_temps0 r (start x y) cl ch el eh tcl tch tel teh VC VE H0 L U WC WE UC UE) as (T1 & T2).
    split; [exact (h2_rlo_pos r (start x y) cl ch el eh tch teh VC VE H0 UC UE)|].
    apply (h2_ratio_range r cl ch el eh tcl tch tel teh VC VE WC WE); [lra|exact T1|exact T2].
  Qed.
  Lemma h2_common_box x y c : xa <= x <= xb -> ya <= y <= yb -> good x y c -> forall t, 0 <= t <= tau -> in_box lo hi (c t).
  Proof.
    intros Hx Hy (E & H) t Ht. pose proof h2_tau as TP. destruct (h2_ratios x y Hx Hy) as (RP & RR).
    pose proof (h2_stays comps s r D (start x y) cl ch el eh tcl tch tel teh Hfl Hd Hr HS VC VE QC QE (h2_start_conditions x y Hx Hy)
      (h2_start_low x y Hx Hy) (h2_start_high x y Hx Hy) WC WE UC UE c tau TP E H t Ht) as B.
    unfold in_box, h2_range_lo, h2_range_hi in B. cbn [cd_P cd_T_c cd_T_e] in B. fold rlo rhi in B.
    unfold in_box, lo, hi. cbn [cd_P cd_T_c cd_T_e]. split; [|apply B]. destruct B as ((B1 & B2) & _).
    change (cd_P (start x y)) with P0 in B1, B2.
    assert (M1 : P0 * rlo <= P0 * ratio r 0 (start x y)) by (apply Rmult_le_compat_l; lra).
    assert (M2 : P0 * ratio r 0 (start x y) <= P0 * rhi) by (apply Rmult_le_compat_l; lra).
    split; [apply Rle_trans with (2 := B1)|apply Rle_trans with (1 := B2)]; apply div_le; lra.
  Qed.
  Lemma h2_low_ok t : 0 <= t <= tau -> hydrogen_conditions r t lo.
  Proof.
    intros Ht. destruct HX as (H1 & H2 & H3 & H4 & H5 & H6). unfold hydrogen_conditions, lo. cbn [cd_P cd_T_c cd_T_e].
    destruct (h2_vols_c t ltac:(lra)) as (C1 & C2). destruct (h2_vols_e t ltac:(lra)) as (D1 & D2). unfold V_comp, V_exp in *.
    destruct h2_rect as (R1 & R2). destruct (h2_ratios xa ya ltac:(lra) ltac:(lra)) as (RP & RR).
    split; [apply Rdiv_lt_0_compat; [apply Rmult_lt_0_compat; lra|lra]|].
    split; [exact WC|]. split; [exact WE|]. split; [exact H1|]. split; [exact H2|]. split; [exact H3|].
    split; [lra|]. split; [lra|]. auto.
  Qed.
  Lemma h2_returns_lip : exists L, 0 <= L /\ forall x y x' y', xa <= x <= xb -> ya <= y <= yb -> xa <= x' <= xb -> ya <= y' <= yb ->
    Rabs (f1 x y - f1 x' y') <= L * (Rabs (x - x') + Rabs (y - y')) /\
    Rabs (f2 x y - f2 x' y') <= L * (Rabs (x - x') + Rabs (y - y')).
  Proof.
    pose proof h2_tau as TP.
    destruct (depends_exactly Hydrogen r 0 tau lo hi h2_fluid (driven_smooth comps s r Hd Hr)
      (hydrogen_physical_box comps s r lo hi 0 tau Hfl Hd Hr Hk Hl h2_low_ok)) as (L & HL & HLip).
    exists (2 * exp (L * (tau - 0))). split; [pose proof (exp_pos (L * (tau - 0))); lra|].
    intros x y x' y' Hx Hy Hx' Hy'.
    destruct (h2_from_start x y Hx Hy) as (c & E & H). destruct (h2_from_start x' y' Hx' Hy') as (c' & E' & H').
    assert (G : good x y c) by (split; [exact E|intros t Ht; apply H; lra]).
    assert (G' : good x' y' c') by (split; [exact E'|intros t Ht; apply H'; lra]).
    destruct (h2_f_eq x y c Hx Hy G) as (-> & ->). destruct (h2_f_eq x' y' c' Hx' Hy' G') as (-> & ->).
    assert (B : gap (c tau) (c' tau) <= 2 * exp (L * (tau - 0)) * gap (c 0) (c' 0)).
    { apply (HLip D D c c' 0 tau HS HS); try lra. intros t Ht. split; [apply H; lra|]. split; [apply H'; lra|].
      split; [apply (h2_common_box x y)|apply (h2_common_box x' y')]; assumption. }
    rewrite E, E' in B. unfold gap at 2 in B. cbn [start cd_P cd_T_c cd_T_e] in B.
    rewrite (Rminus_diag_eq P0 P0 eq_refl), Rabs_R0, Rplus_0_l in B. unfold gap in B.
    pose proof (Rabs_pos (cd_P (c tau) - cd_P (c' tau))). pose proof (Rabs_pos (cd_T_c (c tau) - cd_T_c (c' tau))).
    pose proof (Rabs_pos (cd_T_e (c tau) - cd_T_e (c' tau))). split; lra.
  Qed.
  Lemma h2_steady_at : exists c, cd_P (c 0) = P0 /\ steady_cycle D r c /\ forall t, 0 <= t <= tau -> in_box lo hi (c t).
  Proof.
    destruct h2_rect as (R1 & R2). destruct h2_returns_lip as (L & HL & HLip).
    destruct (fixed_point f1 f2 xa xb ya yb L R1 R2 HL h2_into HLip) as (x & y & (Hx & Hy) & E1 & E2).
    destruct (h2_from_start x y Hx Hy) as (c & E & H). exists c.
    assert (G : good x y c) by (split; [exact E|intros t Ht; apply H; lra]).
    destruct (h2_f_eq x y c Hx Hy G) as (F1 & F2).
    split; [rewrite E; reflexivity|]. split; [|apply (h2_common_box x y); assumption]. split; [exact H|]. intros t Ht.
    pose proof (engine_repeats Hydrogen comps s r D c Hfl Hd Hr HS) as ER.
    specialize (ER (fun u Hu => conj (proj1 (H u Hu)) (proj1 (proj2 (H u Hu))))).
    fold tau in ER. rewrite E in ER. cbn [start cd_T_c cd_T_e] in ER.
    specialize (ER ltac:(congruence) ltac:(congruence) t 1%nat Ht). cbn [INR] in ER. rewrite Rmult_1_l in ER. exact ER.
  Qed.
End Steady.

Lemma rest_corners V lo hi y x tl th : 0 < lo -> lo <= V <= hi -> 0 < tl -> 0 < th -> 0 < y <= T_ref -> T_ref <= x ->
  s_h2 hi tl <= s_h2 lo y -> s_h2 hi x <= s_h2 lo th ->
  (exists a, 0 < a <= y /\ s_h2 V a = s_h2 lo y) /\ (exists b, x <= b /\ s_h2 V b = s_h2 hi x).
Proof.
  intros H1 H2 H3 H4 H5 H6 H7 H8. assert (X : 0 < x) by (unfold T_ref in *; lra). split.
  - destruct (s_solve V (s_h2 lo y) tl y) as (a & A1 & A2).
    + exact H3.
    + apply (s_below hi); [lra|lra|]. apply Rle_trans with (1 := H7). apply s_volume; lra.
    + split; [apply Rle_trans with (2 := H7); apply s_volume; lra|apply s_volume; lra].
    + exists a. split; [lra|exact A2].
  - destruct (s_solve V (s_h2 hi x) x th) as (b & B1 & B2).
    + exact X.
    + apply (s_below lo); [lra|lra|]. apply Rle_trans with (2 := H8). apply s_volume; lra.
    + split; [apply s_volume; lra|apply Rle_trans with (1 := H8); apply s_volume; lra].
    + exists b. split; [lra|exact B2].
Qed.
Lemma h2_steady comps s r D P0 cl ch el eh tcl tch tel teh :
  s_fluid s = IdealGas_Fluid h2 -> driven (co_ws comps) -> Run_new comps s = Ret r ->
  250 <= te_sink (s_temp s) -> 250 < te_source (s_temp s) -> sound D -> complete D ->
  (forall T, between (V_comp r) cl ch 0 T) -> (forall T, between (V_exp r) el eh 0 T) ->
  heat_lost_comp r = 0 -> heat_lost_exp r = 0 -> h2_exchangers r -> 0 < P0 ->
  T_cold <= tcl -> T_cold <= tel -> 0 < tch -> 0 < teh ->
  rest_floor cl ch (te_chx (ru_temp r)) tcl -> rest_ceiling cl ch (te_chx (ru_temp r)) tch ->
  rest_floor el eh (te_hhx (ru_temp r)) tel -> rest_ceiling el eh (te_hhx (ru_temp r)) teh ->
  exists c, cd_P (c 0) = P0 /\ steady_cycle D r c /\ forall t, 0 <= t <= ru_period r ->
    tcl <= cd_T_c (c t) <= tch /\ tel <= cd_T_e (c t) <= teh.
Proof.
  intros H1 H2 H3 H4 H5 H6 H7 H8 H9 H10 H11 H12 H13 H14 H15 H16 H17 (yc & Y1 & Y2 & Y3) (xc & X1 & X2 & X3) (ye & Y4 & Y5 & Y6) (xe & X4 & X5 & X6).
  destruct (H8 0) as (C1 & C2). specialize (C2 0 ltac:(lra)). destruct (H9 0) as (E1 & E2). specialize (E2 0 ltac:(lra)).
  assert (T1 : 0 < tcl) by (unfold T_cold in *; lra). assert (T2 : 0 < tel) by (unfold T_cold in *; lra).
  destruct (rest_corners (V_comp r 0) cl ch yc xc tcl tch) as ((xa & A) & (xb & B)); try assumption.
  destruct (rest_corners (V_exp r 0) el eh ye xe tel teh) as ((ya & A') & (yb & B')); try assumption.
  destruct (h2_steady_at comps s r D P0 cl ch el eh tcl tch tel teh H1 H2 H3 H4 H5 H6 H7 H8 H9 H10 H11 H12 H13 H14 H15 H16 H17
    yc xc ye xe (conj Y1 (conj Y2 Y3)) (conj X1 (conj X2 X3)) (conj Y4 (conj Y5 Y6)) (conj X4 (conj X5 X6)) xa xb ya yb A B A' B')
    as (c & P1 & P2 & P3).
  exists c. split; [exact P1|]. split; [exact P2|]. intros t Ht. exact (proj2 (P3 t Ht)).
Qed.

(** ** A hydrogen engine with a steady cycle *)
Lemma hy_exchangers : h2_exchangers hy_run.
Proof. unfold h2_exchangers, T_cold. cbn. repeat split; lra. Qed.
Lemma hy_rest : rest_floor 0.0001 0.0002 (te_chx (ru_temp hy_run)) 100 /\ rest_ceiling 0.0001 0.0002 (te_chx (ru_temp hy_run)) 800 /\
  rest_floor 0.0001 0.0002 (te_hhx (ru_temp hy_run)) 100 /\ rest_ceiling 0.0001 0.0002 (te_hhx (ru_temp hy_run)) 2600.
Proof.
  destruct hy_low as ((y1 & A1 & A2 & _ & A3) & (y2 & B1 & B2 & _ & B3)).
  destruct hy_high as ((x1 & C1 & C2 & _ & C3) & (x2 & D1 & D2 & _ & D3)).
  split; [exists y1; auto|]. split; [exists x1; auto|]. split; [exists y2; auto|exists x2; auto].
Qed.
Lemma hy_steady P0 : 0 < P0 -> exists c, cd_P (c 0) = P0 /\ steady_cycle gauss hy_run c.
Proof.
  intros HP. destruct hy_rest as (R1 & R2 & R3 & R4).
  destruct (h2_steady gl_comps h2_state hy_run gauss P0 0.0001 0.0002 0.0001 0.0002 100 800 100 2600) as (c & H1 & H2 & _);
    try reflexivity; try assumption; try (unfold T_cold; cbn; lra).
  - exact gl_driven.
  - exact gauss_sound.
  - exact gauss_complete.
  - intros T. apply hy_volumes.
  - intros T. apply hy_volumes.
  - exact hy_exchangers.
  - eauto.
Qed.
