(** * Helium engines have a steady cycle *)
From Coq Require Import ZArith NArith List Reals Lra Lia.
From Verif Require Import Num ModelTypes ModelWs ModelHx ModelStateEq ModelEngine RNum Spec SpecR SpecGas
  SpecKin SpecTraj SpecLaws SpecUnique SpecExist SpecDepend SpecSpaces SpecBounds SpecSteady Fixture PolySolve RSolve RGauss RFluid
  RKin RMass RSpaces RClose RStart RPeriod RDepend RCase RCase4 RReturn RBrouwer RBounds PolyLoop.
Import ListNotations.
Local Open Scope R_scope.

Lemma div_le x y w : 0 < w -> x <= y -> x / w <= y / w.
Proof. intros Hw H. apply Rmult_le_compat_r; [left; apply Rinv_0_lt_compat, Hw|exact H]. Qed.
Section Steady.
  Variables (comps : Components R) (s : State R) (r : Run R) (D : Decomp R) (P0 cl ch el eh : R).
  Hypothesis Hfl : s_fluid s = IdealGas_Fluid he.
  Hypothesis Hd : driven (co_ws comps).
  Hypothesis Hr : Run_new comps s = Ret r.
  Hypothesis Hn : te_sink (s_temp s) + te_source (s_temp s) <> 500.
  Hypothesis HS : sound D.
  Hypothesis HC : complete D.
  Hypothesis VC : forall T, between (V_comp r) cl ch 0 T.
  Hypothesis VE : forall T, between (V_exp r) el eh 0 T.
  Hypothesis QC : heat_lost_comp r = 0.
  Hypothesis QE : heat_lost_exp r = 0.
  Hypothesis HX : sane_exchangers r.
  Hypothesis HP0 : 0 < P0.
  Let Tk := te_chx (ru_temp r).
  Let Tl := te_hhx (ru_temp r).
  Hypothesis WC : warm (expanded cl ch Tk).
  Hypothesis WE : warm (expanded el eh Tl).
  Let pw v := Rpower v (R_he / cv_he).
  Let bcl := adiabat cl (Rmin T_ref (filling Tk)).
  Let bch := adiabat ch (Rmax T_ref (filling Tk)).
  Let bel := adiabat el (Rmin T_ref (filling Tl)).
  Let beh := adiabat eh (Rmax T_ref (filling Tl)).
  Let vc := V_comp r 0.
  Let ve := V_exp r 0.
  (** the temperatures to start from *)
  Let xa := bcl / pw vc.
  Let xb := bch / pw vc.
  Let ya := bel / pw ve.
  Let yb := beh / pw ve.
  Let start x y := mkCond P0 x y.
  Lemma volumes_c t : 0 <= t -> 0 < cl /\ cl <= V_comp r t <= ch.
  Proof. intros Ht. destruct (VC t) as (H1 & H2). split; [exact H1|apply H2; lra]. Qed.
  Lemma volumes_e t : 0 <= t -> 0 < el /\ el <= V_exp r t <= eh.
  Proof. intros Ht. destruct (VE t) as (H1 & H2). split; [exact H1|apply H2; lra]. Qed.
  Lemma fill_pos : 0 < filling Tk /\ 0 < filling Tl.
  Proof. destruct HX as (H1 & H2 & _). split; apply warm_filling; assumption. Qed.
  Lemma level_le V W T : 0 < T -> 0 < V -> V <= W -> adiabat V T <= adiabat W T.
  Proof. intros HT HV H. unfold adiabat. apply Rmult_le_compat_l; [lra|apply Rpower_mono; assumption]. Qed.
  Lemma level_lt V W T T' : 0 < T -> T <= T' -> 0 < V -> V <= W -> 0 < adiabat V T /\ adiabat V T <= adiabat W T'.
  Proof.
    intros HT HT' HV H. split; [unfold adiabat; apply Rmult_lt_0_compat; [exact HT|apply pw_gt]|].
    apply Rle_trans with (1 := level_le V W T HT HV H). unfold adiabat. apply Rmult_le_compat_r; [left; apply pw_gt|exact HT'].
  Qed.
  Lemma min_max T_in : 0 < filling T_in -> 0 < Rmin T_ref (filling T_in) /\ Rmin T_ref (filling T_in) <= Rmax T_ref (filling T_in).
  Proof.
    intros H. split; [apply Rmin_pos; [unfold T_ref; lra|exact H]|]. apply Rle_trans with T_ref; [apply Rmin_l|apply Rmax_l].
  Qed.
  Lemma levels : (0 < bcl /\ bcl <= bch) /\ 0 < bel /\ bel <= beh.
  Proof.
    destruct fill_pos as (F1 & F2). apply min_max in F1, F2.
    destruct (volumes_c 0 ltac:(lra)). destruct (volumes_e 0 ltac:(lra)).
    split; apply level_lt; lra.
  Qed.
  Lemma rect : xa <= xb /\ ya <= yb /\ 0 < xa /\ 0 < ya.
  Proof.
    destruct levels as ((L1 & L2) & L3 & L4). unfold xa, xb, ya, yb, pw.
    split; [apply div_le; [apply pw_gt|exact L2]|]. split; [apply div_le; [apply pw_gt|exact L4]|].
    split; apply Rdiv_lt_0_compat; try assumption; apply pw_gt.
  Qed.
  Lemma in_level V T lo hi : lo / Rpower V (R_he / cv_he) <= T <= hi / Rpower V (R_he / cv_he) <-> lo <= adiabat V T <= hi.
  Proof.
    unfold adiabat. set (w := Rpower V (R_he / cv_he)). assert (W : 0 < w) by apply pw_gt. split; intros (H1 & H2).
    - apply (Rmult_le_compat_r w) in H1, H2; try lra.
      replace (lo / w * w) with lo in H1 by (field; lra). replace (hi / w * w) with hi in H2 by (field; lra). lra.
    - split; apply (Rmult_le_reg_r w); try exact W; [replace (lo / w * w) with lo by (field; lra)|replace (hi / w * w) with hi by (field; lra)];
        assumption.
  Qed.
  Lemma T_lo_eq x y : xa <= x <= xb -> ya <= y <= yb ->
    T_c_lo r (start x y) cl ch = expanded cl ch Tk /\ T_e_lo r (start x y) el eh = expanded el eh Tl /\
    T_c_hi r (start x y) cl ch = compressed cl ch Tk /\ T_e_hi r (start x y) el eh = compressed el eh Tl.
  Proof.
    intros Hx Hy. apply in_level in Hx, Hy.
    unfold T_c_lo, T_e_lo, T_c_hi, T_e_hi, coldest, hottest, expanded, compressed. cbn [start cd_T_c cd_T_e].
    unfold bcl, bch, bel, beh, vc, ve, Tk, Tl in Hx, Hy. fold Tk Tl in Hx, Hy. fold Tk Tl.
    rewrite (Rmin_right (adiabat (V_comp r 0) x)) by lra. rewrite (Rmin_right (adiabat (V_exp r 0) y)) by lra.
    rewrite (Rmax_right (adiabat (V_comp r 0) x)) by lra. rewrite (Rmax_right (adiabat (V_exp r 0) y)) by lra. auto.
  Qed.
  Lemma start_conditions x y : xa <= x <= xb -> ya <= y <= yb -> helium_conditions r 0 (start x y).
  Proof.
    intros Hx Hy. destruct (T_lo_eq x y Hx Hy) as (E1 & E2 & _). destruct rect as (_ & _ & R1 & R2).
    destruct (volumes_c 0 ltac:(lra)) as (C1 & C2). destruct (volumes_e 0 ltac:(lra)) as (D1 & D2).
    assert (B1 : T_c_lo r (start x y) cl ch <= x) by (apply coldest_start; [exact C1|exact C2|cbn; lra]).
    assert (B2 : T_e_lo r (start x y) el eh <= y) by (apply coldest_start; [exact D1|exact D2|cbn; lra]).
    rewrite E1 in B1. rewrite E2 in B2. unfold V_comp, V_exp in *.
    destruct HX as (H1 & H2 & H3 & H4 & H5 & H6). unfold helium_conditions, start. cbn [cd_P cd_T_c cd_T_e].
    split; [exact HP0|]. split; [unfold warm, cp_he in *; lra|]. split; [unfold warm, cp_he in *; lra|].
    split; [exact H1|]. split; [exact H2|]. split; [exact H3|]. split; [lra|]. split; [lra|]. auto.
  Qed.
  Let tau := ru_period r.
  Let good x y c := c 0 = start x y /\ forall t, 0 <= t <= tau -> physical_trajectory D r c t.
  Lemma tau_nonneg : 0 <= tau.
  Proof. exact (proj1 (driven_run comps s r Hd Hr)). Qed.
  Lemma from_start x y : xa <= x <= xb -> ya <= y <= yb ->
    exists c, c 0 = start x y /\ forall t, 0 <= t -> physical_trajectory D r c t.
  Proof.
    intros Hx Hy. destruct (T_lo_eq x y Hx Hy) as (E1 & E2 & _).
    apply (forever comps s r D (start x y) cl ch el eh Hfl Hd Hr Hn HS HC VC VE QC QE (start_conditions x y Hx Hy));
      [rewrite E1; exact WC|rewrite E2; exact WE].
  Qed.
  Lemma Hf : ru_fluid r = IdealGas_Fluid he.
  Proof. rewrite <- Hfl. apply (driven_run comps s r Hd Hr). Qed.
  Lemma same_end x y c c' : good x y c -> good x y c' -> c tau = c' tau.
  Proof.
    intros (E & A) (E' & A'). pose proof tau_nonneg.
    apply (trajectories_agree Helium r D D c c' 0 tau 0 Hf HS HS); [lra| |rewrite E, E'; reflexivity|lra].
    intros u Hu. split; [apply A; lra|apply A'; lra].
  Qed.
  Lemma end_named (p : Conditions R -> R) x y :
    {v | xa <= x <= xb -> ya <= y <= yb -> forall c, good x y c -> v = p (c tau)}.
  Proof.
    destruct (Rle_dec xa x) as [X1|]; [|exists 0; lra]. destruct (Rle_dec x xb) as [X2|]; [|exists 0; lra].
    destruct (Rle_dec ya y) as [Y1|]; [|exists 0; lra]. destruct (Rle_dec y yb) as [Y2|]; [|exists 0; lra].
    destruct (named_real (fun v => exists c, good x y c /\ v = p (c tau))) as (v & Hv).
    - destruct (from_start x y (conj X1 X2) (conj Y1 Y2)) as (c & E & H). exists (p (c tau)). split.
      + exists c. split; [|reflexivity]. split; [exact E|]. intros t Ht. apply H. lra.
      + intros v (c' & G' & ->). f_equal. apply (same_end x y); [exact G'|]. split; [exact E|]. intros t Ht. apply H. lra.
    - exists v. intros _ _ c G. destruct Hv as (c' & G' & ->). f_equal. exact (same_end x y c' c G' G).
  Qed.
  Let f1 x y := proj1_sig (end_named cd_T_c x y).
  Let f2 x y := proj1_sig (end_named cd_T_e x y).
  Lemma f_eq x y c : xa <= x <= xb -> ya <= y <= yb -> good x y c -> f1 x y = cd_T_c (c tau) /\ f2 x y = cd_T_e (c tau).
  Proof.
    intros Hx Hy G. unfold f1, f2. destruct (end_named cd_T_c x y) as (v & Hv). destruct (end_named cd_T_e x y) as (w & Hw).
    cbn [proj1_sig]. split; [apply Hv|apply Hw]; assumption.
  Qed.
  Lemma volumes_return : V_comp r tau = vc /\ V_exp r tau = ve.
  Proof.
    destruct (driven_run comps s r Hd Hr) as (_ & HR & _). unfold vc, ve, V_comp, V_exp, tau.
    rewrite <- (Rplus_0_l (ru_period r)), HR. auto.
  Qed.
  Lemma into x y : xa <= x <= xb -> ya <= y <= yb -> xa <= f1 x y <= xb /\ ya <= f2 x y <= yb.
  Proof.
    intros Hx Hy. destruct (from_start x y Hx Hy) as (c & E & H). pose proof tau_nonneg as TP. pose proof Hf as HF.
    assert (G : good x y c) by (split; [exact E|intros t Ht; apply H; lra]).
    destruct (f_eq x y c Hx Hy G) as (-> & ->). destruct volumes_return as (E1 & E2). destruct fill_pos as (F1 & F2).
    assert (W : forall t, 0 <= t <= tau -> _ /\ _) by (intros t Ht; exact (both_warm r HF D HS c t (H t (proj1 Ht)))).
    assert (VC' : forall t, 0 <= t <= tau -> cl <= V_comp r t <= ch) by (intros t Ht; apply volumes_c; lra).
    assert (VE' : forall t, 0 <= t <= tau -> el <= V_exp r t <= eh) by (intros t Ht; apply volumes_e; lra).
    destruct (volumes_c 0 ltac:(lra)) as (C1 & _). destruct (volumes_e 0 ltac:(lra)) as (D1 & _).
    pose proof (level_hotter (V_comp r) (fun u => cd_T_c (c u)) _ _ 0 tau cl ch (fun t Ht => proj1 (W t Ht)) C1 VC'
      (some_pos _) tau ltac:(rewrite QC; lra) ltac:(lra)) as A1.
    pose proof (level_colder (V_comp r) (fun u => cd_T_c (c u)) _ _ 0 tau cl ch (fun t Ht => proj1 (W t Ht)) C1 VC'
      tau ltac:(rewrite QC; lra) F1 ltac:(lra)) as A2.
    pose proof (level_hotter (V_exp r) (fun u => cd_T_e (c u)) _ _ 0 tau el eh (fun t Ht => proj2 (W t Ht)) D1 VE'
      (some_pos _) tau ltac:(rewrite QE; lra) ltac:(lra)) as A3.
    pose proof (level_colder (V_exp r) (fun u => cd_T_e (c u)) _ _ 0 tau el eh (fun t Ht => proj2 (W t Ht)) D1 VE'
      tau ltac:(rewrite QE; lra) F2 ltac:(lra)) as A4.
    cbv beta in A1, A2, A3, A4. rewrite E in A1, A2, A3, A4. rewrite E1 in A1, A2. rewrite E2 in A3, A4.
    cbn [start cd_T_c cd_T_e] in A1, A2, A3, A4. fold Tk bch vc in A1. fold Tk bcl vc in A2. fold Tl beh ve in A3. fold Tl bel ve in A4.
    apply in_level in Hx, Hy.
    rewrite Rmax_right in A1, A3 by lra. rewrite Rmin_right in A2, A4 by lra.
    split; apply in_level; lra.
  Qed.
  (** one box for all of them *)
  Let tcl := expanded cl ch Tk.
  Let tch := compressed cl ch Tk.
  Let tel := expanded el eh Tl.
  Let teh := compressed el eh Tl.
  Let rlo := cl / tch + fixed_ratio r + el / teh.
  Let rhi := ch / tcl + fixed_ratio r + eh / tel.
  Let lo := mkCond (P0 * rlo / rhi) tcl tel.
  Let hi := mkCond (P0 * rhi / rlo) tch teh.
  Lemma t_pos : 0 < tcl /\ 0 < tel.
  Proof. split; apply warm_gt; assumption. Qed.
  Lemma fixed_nonneg' : 0 <= fixed_ratio r.
  Proof.
    destruct HX as (W1 & W2 & W3 & N1 & N2 & N3). apply warm_gt in W1, W2. unfold fixed_ratio, Rdiv.
    repeat apply Rplus_le_le_0_compat; apply Rmult_le_pos; try assumption; left; apply Rinv_0_lt_compat; assumption.
  Qed.
  Lemma common_box x y c : xa <= x <= xb -> ya <= y <= yb -> good x y c -> forall t, 0 <= t <= tau -> in_box lo hi (c t).
  Proof.
    intros Hx Hy (E & H) t Ht. destruct (T_lo_eq x y Hx Hy) as (E1 & E2 & E3 & E4). pose proof tau_nonneg as TP.
    pose proof (start_conditions x y Hx Hy) as H0.
    assert (WC' : warm (T_c_lo r (start x y) cl ch)) by (rewrite E1; exact WC).
    assert (WE' : warm (T_e_lo r (start x y) el eh)) by (rewrite E2; exact WE).
    pose proof (stays comps s r D (start x y) cl ch el eh Hfl Hd Hr HS VC VE QC QE H0 WC' WE'
      c tau ltac:(lra) E H t Ht) as B.
    unfold in_box, range_lo, range_hi in B. cbn [cd_P cd_T_c cd_T_e] in B. rewrite E1, E2, E3, E4 in B.
    pose proof (ratio_range r (start x y) cl ch el eh VC VE WC' WE' 0 (start x y) ltac:(lra)) as RR.
    pose proof (temps0 r (start x y) cl ch el eh VC VE H0) as TT. rewrite E1, E2, E3, E4 in TT, RR.
    fold tcl tch tel teh in B, RR, TT. fold rlo rhi in B, RR. specialize (RR (proj1 TT) (proj2 TT)).
    pose proof (rlo_pos r (start x y) cl ch el eh VC VE H0 WC' WE') as RP. rewrite E3, E4 in RP. fold tch teh in RP. fold rlo in RP.
    unfold in_box, lo, hi. cbn [cd_P cd_T_c cd_T_e]. split; [|apply B]. destruct B as ((B1 & B2) & _).
    change (cd_P (start x y)) with P0 in B1, B2.
    assert (M1 : P0 * rlo <= P0 * ratio r 0 (start x y)) by (apply Rmult_le_compat_l; lra).
    assert (M2 : P0 * ratio r 0 (start x y) <= P0 * rhi) by (apply Rmult_le_compat_l; lra).
    split; [apply Rle_trans with (2 := B1)|apply Rle_trans with (1 := B2)]; apply div_le; lra.
  Qed.
  Lemma low_ok t : 0 <= t <= tau -> helium_conditions r t lo.
  Proof.
    intros Ht. destruct HX as (H1 & H2 & H3 & H4 & H5 & H6). unfold helium_conditions, lo. cbn [cd_P cd_T_c cd_T_e].
    destruct (volumes_c t ltac:(lra)) as (C1 & C2). destruct (volumes_e t ltac:(lra)) as (D1 & D2). unfold V_comp, V_exp in *.
    destruct rect as (R1 & R2 & _). pose proof (start_conditions xa ya ltac:(lra) ltac:(lra)) as H0.
    destruct (T_lo_eq xa ya ltac:(lra) ltac:(lra)) as (E1 & E2 & E3 & E4).
    assert (WC' : warm (T_c_lo r (start xa ya) cl ch)) by (rewrite E1; exact WC).
    assert (WE' : warm (T_e_lo r (start xa ya) el eh)) by (rewrite E2; exact WE).
    pose proof (rlo_pos r (start xa ya) cl ch el eh VC VE H0 WC' WE') as RP. rewrite E3, E4 in RP. fold tch teh in RP. fold rlo in RP.
    pose proof (ratio_range r (start xa ya) cl ch el eh VC VE WC' WE' 0 (start xa ya) ltac:(lra)) as RR.
    pose proof (temps0 r (start xa ya) cl ch el eh VC VE H0) as TT. rewrite E1, E2, E3, E4 in TT, RR.
    fold tcl tch tel teh in RR, TT. fold rlo rhi in RR. specialize (RR (proj1 TT) (proj2 TT)).
    split; [apply Rdiv_lt_0_compat; [apply Rmult_lt_0_compat; lra|lra]|].
    split; [exact WC|]. split; [exact WE|]. split; [exact H1|]. split; [exact H2|]. split; [exact H3|].
    split; [lra|]. split; [lra|]. auto.
  Qed.
  Lemma returns_lip : exists L, 0 <= L /\ forall x y x' y', xa <= x <= xb -> ya <= y <= yb -> xa <= x' <= xb -> ya <= y' <= yb ->
    Rabs (f1 x y - f1 x' y') <= L * (Rabs (x - x') + Rabs (y - y')) /\
    Rabs (f2 x y - f2 x' y') <= L * (Rabs (x - x') + Rabs (y - y')).
  Proof.
    pose proof tau_nonneg as TP.
    destruct (depends_exactly Helium r 0 tau lo hi Hf (driven_smooth comps s r Hd Hr)
      (helium_physical_box comps s r lo hi 0 tau Hfl Hd Hr Hn low_ok)) as (L & HL & HLip).
    exists (2 * exp (L * (tau - 0))). split; [pose proof (exp_pos (L * (tau - 0))); lra|].
    intros x y x' y' Hx Hy Hx' Hy'.
    destruct (from_start x y Hx Hy) as (c & E & H). destruct (from_start x' y' Hx' Hy') as (c' & E' & H').
    assert (G : good x y c) by (split; [exact E|intros t Ht; apply H; lra]).
    assert (G' : good x' y' c') by (split; [exact E'|intros t Ht; apply H'; lra]).
    destruct (f_eq x y c Hx Hy G) as (-> & ->). destruct (f_eq x' y' c' Hx' Hy' G') as (-> & ->).
    assert (B : gap (c tau) (c' tau) <= 2 * exp (L * (tau - 0)) * gap (c 0) (c' 0)).
    { apply (HLip D D c c' 0 tau HS HS); try lra. intros t Ht. split; [apply H; lra|]. split; [apply H'; lra|].
      split; [apply (common_box x y)|apply (common_box x' y')]; assumption. }
    rewrite E, E' in B. unfold gap at 2 in B. cbn [start cd_P cd_T_c cd_T_e] in B.
    rewrite (Rminus_diag_eq P0 P0 eq_refl), Rabs_R0, Rplus_0_l in B. unfold gap in B.
    pose proof (Rabs_pos (cd_P (c tau) - cd_P (c' tau))). pose proof (Rabs_pos (cd_T_c (c tau) - cd_T_c (c' tau))).
    pose proof (Rabs_pos (cd_T_e (c tau) - cd_T_e (c' tau))). split; lra.
  Qed.
  Lemma steady : exists c, cd_P (c 0) = P0 /\ steady_cycle D r c /\ forall t, 0 <= t <= tau -> in_box lo hi (c t).
  Proof.
    destruct rect as (R1 & R2 & _). destruct returns_lip as (L & HL & HLip).
    destruct (fixed_point f1 f2 xa xb ya yb L R1 R2 HL into HLip) as (x & y & (Hx & Hy) & E1 & E2).
    destruct (from_start x y Hx Hy) as (c & E & H). exists c.
    assert (G : good x y c) by (split; [exact E|intros t Ht; apply H; lra]).
    destruct (f_eq x y c Hx Hy G) as (F1 & F2).
    split; [rewrite E; reflexivity|]. split; [|apply (common_box x y); assumption]. split; [exact H|]. intros t Ht.
    pose proof (engine_repeats Helium comps s r D c Hfl Hd Hr HS) as ER.
    specialize (ER (fun u Hu => conj (proj1 (H u Hu)) (proj1 (proj2 (H u Hu))))).
    fold tau in ER. rewrite E in ER. cbn [start cd_T_c cd_T_e] in ER.
    specialize (ER ltac:(congruence) ltac:(congruence) t 1%nat Ht). cbn [INR] in ER. rewrite Rmult_1_l in ER. exact ER.
  Qed.
End Steady.

(** ** The engine's own test accepts such a cycle, whatever its tolerance *)
Lemma accepted D r c (tol : ConvergenceTolerance R) pts first last pre post :
  steady_cycle D r c -> 0 < ct_abs tol -> 0 < ct_rel tol -> pts = first :: post -> pts = pre ++ [last] ->
  pt_conditions first = c 0 -> pt_conditions last = c (ru_period r) -> integration_is_converged pts tol = Ret true.
Proof.
  intros (_ & HS) Ha Hr E1 E2 F1 F2.
  assert (L1 : first_unwrap pts = Ret first) by (rewrite E1; reflexivity).
  assert (L2 : last_unwrap pts = Ret last).
  { apply last_unwrap_Ret. exists pre. exact E2. }
  assert (E : c (ru_period r) = c 0) by (rewrite <- (HS 0 (Rle_refl 0)), Rplus_0_l; reflexivity).
  unfold integration_is_converged. rewrite L1, L2. cbn [obind]. rewrite F1, F2, E. f_equal.
  apply andb_true_intro. unfold is_converged.
  split; apply andb_true_intro; exact (close_self tol _ _ Ha Hr eq_refl).
Qed.

(** ** An engine with a steady cycle *)
Lemma gl_expanded T_in : 250 <= T_in -> warm (expanded 0.0001 0.0002 T_in).
Proof.
  intros H. assert (E : expanded 0.0001 0.0002 T_in = coldest 0.0002 (Rmin T_ref (filling T_in)) 0.0001 0.0002 T_in).
  { unfold expanded, coldest. f_equal. symmetry. apply Rmin_right.
    apply level_le; [apply min_max|lra|lra]. unfold filling, T_ref. pose proof cv_pos.
    assert (0 <= cp_he / cv_he * (T_in - 250)).
    { apply Rmult_le_pos; [|lra]. left. apply Rdiv_lt_0_compat; [unfold cp_he; lra|exact cv_pos]. } lra. }
  rewrite E. apply gl_cold; [lra| |exact H]. apply Rmin_glb; [unfold T_ref; lra|].
  unfold filling, T_ref. pose proof cv_pos.
  assert (0 <= cp_he / cv_he * (T_in - 250)).
  { apply Rmult_le_pos; [|lra]. left. apply Rdiv_lt_0_compat; [unfold cp_he; lra|exact cv_pos]. } lra.
Qed.
Lemma gl_sane : sane_exchangers gl_run.
Proof. unfold sane_exchangers. split; [apply gl_exchangers|]. split; [apply gl_exchangers|]. cbn. repeat split; lra. Qed.
Lemma gl_both : warm (expanded 0.0001 0.0002 (te_chx (ru_temp gl_run))) /\ warm (expanded 0.0001 0.0002 (te_hhx (ru_temp gl_run))).
Proof. split; apply gl_expanded; cbn; lra. Qed.
Lemma gl_steady P0 : 0 < P0 -> exists c, cd_P (c 0) = P0 /\ steady_cycle gauss gl_run c.
Proof.
  intros HP. destruct (steady gl_comps case_state gl_run gauss P0 0.0001 0.0002 0.0001 0.0002) as (c & H1 & H2 & _);
    try reflexivity; try assumption.
  - exact gl_driven.
  - cbn. lra.
  - exact gauss_sound.
  - exact gauss_complete.
  - intros T. apply gl_volumes.
  - intros T. apply gl_volumes.
  - exact gl_sane.
  - apply gl_both.
  - apply gl_both.
  - eauto.
Qed.
Lemma steady_ranges comps s r D P0 cl ch el eh :
  s_fluid s = IdealGas_Fluid he -> driven (co_ws comps) -> Run_new comps s = Ret r ->
  te_sink (s_temp s) + te_source (s_temp s) <> 500 -> sound D -> complete D ->
  (forall T, between (V_comp r) cl ch 0 T) -> (forall T, between (V_exp r) el eh 0 T) ->
  heat_lost_comp r = 0 -> heat_lost_exp r = 0 -> sane_exchangers r -> 0 < P0 ->
  warm (expanded cl ch (te_chx (ru_temp r))) -> warm (expanded el eh (te_hhx (ru_temp r))) ->
  exists c, cd_P (c 0) = P0 /\ steady_cycle D r c /\ forall t, 0 <= t <= ru_period r ->
    expanded cl ch (te_chx (ru_temp r)) <= cd_T_c (c t) <= compressed cl ch (te_chx (ru_temp r)) /\
    expanded el eh (te_hhx (ru_temp r)) <= cd_T_e (c t) <= compressed el eh (te_hhx (ru_temp r)).
Proof.
  intros H1 H2 H3 H4 H5 H6 H7 H8 H9 H10 H11 H12 H13 H14.
  destruct (steady comps s r D P0 cl ch el eh H1 H2 H3 H4 H5 H6 H7 H8 H9 H10 H11 H12 H13 H14) as (c & A & B & C).
  exists c. split; [exact A|]. split; [exact B|]. intros t Ht. exact (proj2 (C t Ht)).
Qed.
