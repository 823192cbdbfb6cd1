(** * Runs with an accurate integrator succeed and report the exact steady cycle *)
From Coq Require Import ZArith NArith List Reals Lra Lia.
From Verif Require Import Num ModelTypes ModelWs ModelHx ModelStateEq ModelEngine ModelApi RNum Spec SpecR SpecGas
  SpecKin SpecTraj SpecLaws SpecUnique SpecExist SpecDepend SpecSeries SpecQuad SpecReport SpecSpaces SpecBounds SpecSteady SpecContract
  SpecSample SpecGlobal SpecSearch SpecConverge SpecAccurate Fixture PolySolve PolyLoop PolyReport RSolve RGauss RFluid RKin RPeriod RSeries
  RCase4 RDepend RBounds RSteady RSample RSampleReport RMotion RSampleCase RGlobal RGlobalReport RContractEngine RSettle RSearch RConverge.
Import ListNotations.
Local Open Scope R_scope.

Lemma level_pos V V' T : 0 < T -> 0 < level V V' T.
Proof. intros H. unfold level, adiabat. apply Rdiv_lt_0_compat; [apply Rmult_lt_0_compat; [exact H|apply pw_gt]|apply pw_gt]. Qed.
Lemma level_lt V V1 V2 T : 0 < T -> 0 < V1 -> V1 < V2 -> level V V1 T < level V V2 T.
Proof.
  intros HT H1 H2. unfold level, adiabat. apply Rmult_lt_compat_r; [apply Rinv_0_lt_compat, pw_gt|].
  apply Rmult_lt_compat_l; [exact HT|]. apply Rlt_Rpower_l; [exact k_pos|lra].
Qed.
(** reciprocals of temperatures that are close *)
Lemma inv_near x y m : 0 < m -> m <= x -> m <= y -> Rabs (/ x - / y) <= Rabs (x - y) / (m * m).
Proof.
  intros Hm Hx Hy. replace (/ x - / y) with ((y - x) / (x * y)) by (field; lra). unfold Rdiv. rewrite Rabs_mult, Rabs_minus_sym.
  apply Rmult_le_compat_l; [apply Rabs_pos|]. assert (M : m * m <= x * y) by (apply Rmult_le_compat; lra).
  assert (0 < m * m) by (apply Rmult_lt_0_compat; exact Hm).
  rewrite Rabs_pos_eq; [apply Rinv_le_contravar; assumption|]. left. apply Rinv_0_lt_compat. lra.
Qed.
Lemma gap_spread c c' m : 0 < m -> m <= cd_T_c c -> m <= cd_T_c c' -> m <= cd_T_e c -> m <= cd_T_e c' -> spread c c' <= gap c c' / (m * m).
Proof.
  intros Hm A B C D. pose proof (inv_near _ _ m Hm A B) as H1. pose proof (inv_near _ _ m Hm C D) as H2. unfold spread, gap.
  assert (0 < / (m * m)) by (apply Rinv_0_lt_compat, Rmult_lt_0_compat; exact Hm).
  assert (0 <= Rabs (cd_P c - cd_P c') * / (m * m)) by (apply Rmult_le_pos; [apply Rabs_pos|lra]).
  unfold Rdiv in *. rewrite !Rmult_plus_distr_r. lra.
Qed.
(** temperatures near a range of temperatures lie in a wider one *)
Lemma widened lo lo' hi hi' T T' x : 0 < lo' -> lo' < lo -> hi < hi' -> 0 < T -> lo <= T' <= hi -> Rabs (/ T - / T') <= x ->
  x <= / lo' - / lo -> x <= / hi - / hi' -> lo' <= T <= hi'.
Proof.
  intros L0 L H HT HT' Hx A B. apply abs_le_iff in Hx.
  assert (I1 : / hi <= / T') by (apply Rinv_le_contravar; lra). assert (I2 : / T' <= / lo) by (apply Rinv_le_contravar; lra).
  assert (J1 : 0 < / hi') by (apply Rinv_0_lt_compat; lra). assert (J2 : 0 < / T) by (apply Rinv_0_lt_compat; lra).
  split.
  - rewrite <- (Rinv_inv lo'), <- (Rinv_inv T). apply Rinv_le_contravar; [exact J2|lra].
  - rewrite <- (Rinv_inv hi'), <- (Rinv_inv T). apply Rinv_le_contravar; [exact J1|lra].
Qed.
Lemma gap_sym c c' : gap c c' = gap c' c.
Proof. unfold gap. rewrite (Rabs_minus_sym (cd_P c)), (Rabs_minus_sym (cd_T_c c)), (Rabs_minus_sym (cd_T_e c)). reflexivity. Qed.
Lemma gap_tri a b c : gap a c <= gap a b + gap b c.
Proof.
  unfold gap. pose proof (Rabs_triang (cd_P a - cd_P b) (cd_P b - cd_P c)) as H1.
  pose proof (Rabs_triang (cd_T_c a - cd_T_c b) (cd_T_c b - cd_T_c c)) as H2.
  pose proof (Rabs_triang (cd_T_e a - cd_T_e b) (cd_T_e b - cd_T_e c)) as H3.
  replace (cd_P a - cd_P b + (cd_P b - cd_P c)) with (cd_P a - cd_P c) in H1 by ring.
  replace (cd_T_c a - cd_T_c b + (cd_T_c b - cd_T_c c)) with (cd_T_c a - cd_T_c c) in H2 by ring.
  replace (cd_T_e a - cd_T_e b + (cd_T_e b - cd_T_e c)) with (cd_T_e a - cd_T_e c) in H3 by ring. lra.
Qed.
Lemma gap_parts c c' e : gap c c' <= e -> Rabs (cd_P c - cd_P c') <= e /\ Rabs (cd_T_c c - cd_T_c c') <= e /\ Rabs (cd_T_e c - cd_T_e c') <= e.
Proof.
  unfold gap. intros H. pose proof (Rabs_pos (cd_P c - cd_P c')). pose proof (Rabs_pos (cd_T_c c - cd_T_c c')).
  pose proof (Rabs_pos (cd_T_e c - cd_T_e c')). lra.
Qed.

(** ** Revolutions that start between levels *)
Section Levels.
  Variables (comps : Components R) (s0 : State R) (r : Run R) (D : Decomp R) (P0 cl ch el eh : R).
  Hypothesis Hfl : s_fluid s0 = IdealGas_Fluid he.
  Hypothesis Hd : driven (co_ws comps).
  Hypothesis Hr : Run_new comps s0 = Ret r.
  Hypothesis Hn : te_sink (s_temp s0) + te_source (s_temp s0) <> 500.
  Hypothesis HD : sound D.
  Hypothesis HC : complete D.
  Hypothesis VC : forall T, between (V_comp r) cl ch 0 T.
  Hypothesis VE : forall T, between (V_exp r) el eh 0 T.
  Hypothesis QC : heat_lost_comp r = 0.
  Hypothesis QE : heat_lost_exp r = 0.
  Hypothesis HX : sane_exchangers r.
  Hypothesis HP0 : 0 < P0.
  Let Tk := te_chx (ru_temp r).
  Let Tl := te_hhx (ru_temp r).
  Hypothesis WC : warm (expanded cl ch Tk).
  Hypothesis WE : warm (expanded el eh Tl).
  Let levels := within_levels r P0 cl ch el eh.
  Definition lowest_pressure : R :=
    P0 * (cl / compressed cl ch Tk + fixed_ratio r + el / compressed el eh Tl)
       / (ch / expanded cl ch Tk + fixed_ratio r + eh / expanded el eh Tl).
  Lemma lowest_pos : 0 < lowest_pressure.
  Proof.
    pose proof (low_ok r P0 cl ch el eh VC VE HX HP0 WC WE 0) as H.
    apply H. split; [lra|]. exact (tau_nonneg comps s0 r Hd Hr).
  Qed.
  Lemma round ic : levels ic -> exists c, c 0 = ic /\ (forall t, 0 <= t <= ru_period r -> physical_trajectory D r c t) /\
    levels (mkCond P0 (cd_T_c (c (ru_period r))) (cd_T_e (c (ru_period r)))) /\
    forall t, 0 <= t <= ru_period r -> lowest_pressure <= cd_P (c t) /\ expanded cl ch Tk <= cd_T_c (c t) /\ expanded el eh Tl <= cd_T_e (c t).
  Proof.
    destruct ic as [p x y]. intros (HP & Hx & Hy). cbn [cd_P cd_T_c cd_T_e] in *. subst p.
    destruct (from_start comps s0 r D P0 cl ch el eh Hfl Hd Hr Hn HD HC VC VE QC QE HX HP0 WC WE x y Hx Hy) as (c & E & H).
    assert (G : forall t, 0 <= t <= ru_period r -> physical_trajectory D r c t) by (intros t Ht; apply H; lra).
    exists c. split; [exact E|]. split; [exact G|]. split.
    - split; [reflexivity|]. cbn [cd_T_c cd_T_e].
      destruct (f_eq comps s0 r D P0 cl ch el eh Hfl Hd Hr Hn HD HC VC VE QC QE HX HP0 WC WE x y c Hx Hy (conj E G)) as (<- & <-).
      exact (into comps s0 r D P0 cl ch el eh Hfl Hd Hr Hn HD HC VC VE QC QE HX HP0 WC WE _ _ Hx Hy).
    - intros t Ht. pose proof (common_box comps s0 r D P0 cl ch el eh Hfl Hd Hr HD VC VE QC QE HX HP0 WC WE x y c Hx Hy (conj E G) t Ht)
        as ((B0 & _) & (B1 & _) & (B2 & _)). auto.
  Qed.
  (** states not too far away from such a trajectory are physical *)
  Lemma near_physical t c : 0 <= t <= ru_period r -> 0 < cd_P c -> warm (cd_T_c c) -> warm (cd_T_e c) ->
    physical (Run_calculate_inputs r t c).
  Proof.
    intros Ht HP H1 H2. apply (helium_physical_box comps s0 r c c t t Hfl Hd Hr Hn); [|lra|unfold in_box; lra].
    intros u Hu. replace u with t by lra. destruct HX as (X1 & X2 & X3 & X4 & X5 & X6).
    destruct (VC t) as (C1 & C2). specialize (C2 t ltac:(lra)). destruct (VE t) as (E1 & E2). specialize (E2 t ltac:(lra)).
    unfold V_comp, V_exp in *. unfold helium_conditions.
    repeat (split; [assumption || lra|]). assumption.
  Qed.
End Levels.

(** ** The run *)
Section Run.
  Variables (comps : Components R) (s0 : State R) (r : Run R) (D : Decomp R) (cl ch el eh cl' ch' el' eh' : R)
    (T_low V_hi v_hi rho rv : R) (c' : R -> Conditions R) (a : Replies R).
  Hypothesis Fk : fixed_approach (co_chx comps).
  Hypothesis Fr : fixed_approach (co_regen comps).
  Hypothesis Fl : fixed_approach (co_hhx comps).
  Hypothesis Hfl : s_fluid s0 = IdealGas_Fluid he.
  Hypothesis Hd : driven (co_ws comps).
  Hypothesis Hr : Run_new comps s0 = Ret r.
  Hypothesis Hn : te_sink (s_temp s0) + te_source (s_temp s0) <> 500.
  Hypothesis HD : sound D.
  Hypothesis HC : complete D.
  Hypothesis HX : sane_exchangers r.
  Let P0 := pr_t_zero (s_pres s0).
  Hypothesis HP0 : 0 < P0.
  Hypothesis VC : forall T, between (V_comp r) cl ch 0 T.
  Hypothesis VE : forall T, between (V_exp r) el eh 0 T.
  Hypothesis O1 : 0 < cl' < cl.
  Hypothesis O2 : ch < ch'.
  Hypothesis O3 : 0 < el' < el.
  Hypothesis O4 : eh < eh'.
  Let q := left_over r T_low V_hi v_hi rho rv.
  Let ic := mkCond P0 (te_chx (s_temp s0)) (te_hhx (s_temp s0)).
  Hypothesis HS : settles r T_low V_hi v_hi rho rv.
  Hypothesis HQ : q < 1.
  Let Tk := te_chx (ru_temp r).
  Let Tl := te_hhx (ru_temp r).
  Hypothesis W1 : T_low < expanded cl' ch' Tk.
  Hypothesis W2 : T_low < expanded el' eh' Tl.
  Hypothesis SC : steady_cycle D r c'.
  Hypothesis WT : warm_trajectory D r T_low c'.
  Hypothesis CP : cd_P (c' 0) = P0.
  Hypothesis HA : forall vals, replies (mkEngine comps s0 vals) a.
  Let inner := within_levels r P0 cl ch el eh.
  Let outer := within_levels r P0 cl' ch' el' eh'.
  Let tau := ru_period r.
  Lemma VC' T : between (V_comp r) cl' ch' 0 T.
  Proof. destruct (VC T) as (H1 & H2). split; [lra|]. intros t Ht. specialize (H2 t Ht). lra. Qed.
  Lemma VE' T : between (V_exp r) el' eh' 0 T.
  Proof. destruct (VE T) as (H1 & H2). split; [lra|]. intros t Ht. specialize (H2 t Ht). lra. Qed.
  Lemma fills_pos : 0 < Rmin T_ref (filling Tk) /\ 0 < Rmax T_ref (filling Tk) /\ 0 < Rmin T_ref (filling Tl) /\ 0 < Rmax T_ref (filling Tl).
  Proof.
    destruct HX as (H1 & H2 & _). pose proof (warm_filling _ H1). pose proof (warm_filling _ H2). unfold Tk, Tl.
    repeat split; try apply some_pos; apply Rmin_pos; try assumption; unfold T_ref; lra.
  Qed.
  Lemma low_warm : warm T_low.
  Proof. destruct HS as (_ & _ & _ & _ & H & _). apply nil_warm, H. Qed.
  Lemma warm_le T T' : warm T -> T <= T' -> warm T'.
  Proof. unfold warm. intros H H'. pose proof cp_pos. apply (Rmult_le_compat_l cp_he) in H'; lra. Qed.
  Lemma WC' : warm (expanded cl' ch' Tk).
  Proof. apply (warm_le T_low); [exact low_warm|lra]. Qed.
  Lemma WE' : warm (expanded el' eh' Tl).
  Proof. apply (warm_le T_low); [exact low_warm|lra]. Qed.
  Lemma rim : exists x, 0 < x /\ forall c i, inner i -> cd_P c = P0 -> 0 < cd_T_c c -> 0 < cd_T_e c -> spread c i <= x -> outer c.
  Proof.
    destruct fills_pos as (M1 & M2 & M3 & M4). destruct (VC 0) as (C0 & C1), (VE 0) as (E0 & E1).
    specialize (C1 0 ltac:(lra)). specialize (E1 0 ltac:(lra)).
    set (vc := V_comp r 0) in *. set (ve := V_exp r 0) in *.
    pose proof (level_pos vc cl' _ M1) as B1. pose proof (level_lt vc cl' cl _ M1 (proj1 O1) (proj2 O1)) as B2.
    pose proof (level_lt vc ch ch' _ M2 ltac:(lra) O2) as B3. pose proof (level_pos vc ch _ M2) as B3'.
    pose proof (level_pos ve el' _ M3) as B4. pose proof (level_lt ve el' el _ M3 (proj1 O3) (proj2 O3)) as B5.
    pose proof (level_lt ve eh eh' _ M4 ltac:(lra) O4) as B6. pose proof (level_pos ve eh _ M4) as B6'.
    set (lc' := level vc cl' (Rmin T_ref (filling Tk))) in *. set (lc := level vc cl (Rmin T_ref (filling Tk))) in *.
    set (hc := level vc ch (Rmax T_ref (filling Tk))) in *. set (hc' := level vc ch' (Rmax T_ref (filling Tk))) in *.
    set (le' := level ve el' (Rmin T_ref (filling Tl))) in *. set (le := level ve el (Rmin T_ref (filling Tl))) in *.
    set (he0 := level ve eh (Rmax T_ref (filling Tl))) in *. set (he' := level ve eh' (Rmax T_ref (filling Tl))) in *.
    assert (I : forall p p', 0 < p -> p < p' -> 0 < / p - / p').
    { intros p p' Hp Hp'. assert (/ p' < / p); [|lra]. apply Rinv_lt_contravar; [apply Rmult_lt_0_compat; lra|exact Hp']. }
    set (x1 := Rmin (/ lc' - / lc) (/ hc - / hc')). set (x2 := Rmin (/ le' - / le) (/ he0 - / he')).
    exists (Rmin x1 x2). split; [unfold x1, x2; repeat apply Rmin_pos; apply I; assumption|].
    intros c i (_ & I1 & I2) HP T1 T2 Hx. fold Tk vc lc hc in I1. fold Tl ve le he0 in I2. unfold spread in Hx.
    pose proof (Rmin_l x1 x2). pose proof (Rmin_r x1 x2).
    pose proof (Rmin_l (/ lc' - / lc) (/ hc - / hc')) as N1. pose proof (Rmin_r (/ lc' - / lc) (/ hc - / hc')) as N2.
    pose proof (Rmin_l (/ le' - / le) (/ he0 - / he')) as N3. pose proof (Rmin_r (/ le' - / le) (/ he0 - / he')) as N4. fold x1 in N1, N2. fold x2 in N3, N4.
    pose proof (Rabs_pos (/ cd_T_c c - / cd_T_c i)). pose proof (Rabs_pos (/ cd_T_e c - / cd_T_e i)).
    split; [exact HP|]. split.
    - apply (widened lc lc' hc hc' _ (cd_T_c i) (Rmin x1 x2)); try assumption; lra.
    - apply (widened le le' he0 he' _ (cd_T_e i) (Rmin x1 x2)); try assumption; lra.
  Qed.
  Lemma inner_outer i : inner i -> outer i.
  Proof.
    intros H. destruct rim as (x & X0 & HX'). pose proof H as (HP & (H1 & _) & (H2 & _)). destruct fills_pos as (M1 & _ & M3 & _).
    apply (HX' i i H HP).
    - apply Rlt_le_trans with (2 := H1). apply level_pos. exact M1.
    - apply Rlt_le_trans with (2 := H2). apply level_pos. exact M3.
    - unfold spread. rewrite !Rminus_diag_eq, Rabs_R0 by reflexivity. lra.
  Qed.
  Let outer_round := round comps s0 r D P0 cl' ch' el' eh' Hfl Hd Hr Hn HD HC VC' VE' (proj1 (proj2 HS)) (proj1 (proj2 (proj2 HS))) HX HP0 WC' WE'.
  Let inner_VC := VC.
  Lemma WC0 : warm (expanded cl ch Tk) /\ warm (expanded el eh Tl).
  Proof.
    destruct fills_pos as (M1 & M2 & M3 & M4). destruct (VC 0) as (C0 & C1), (VE 0) as (E0 & E1).
    specialize (C1 0 ltac:(lra)). specialize (E1 0 ltac:(lra)).
    assert (Q : forall lo lo' hi hi' T, 0 < T -> 0 < lo' -> lo' < lo -> lo <= hi -> hi < hi' ->
      adiabat lo' T / Rpower hi' (R_he / cv_he) <= adiabat lo T / Rpower hi (R_he / cv_he)).
    { intros lo lo' hi hi' T HT A1 A2 A3 A4. unfold Rdiv, adiabat. pose proof (pw_gt lo'). pose proof (pw_gt hi'). pose proof (pw_gt hi).
      apply Rmult_le_compat; [apply Rmult_le_pos; lra|left; apply Rinv_0_lt_compat; lra| |].
      - apply Rmult_le_compat_l; [lra|]. apply Rpower_mono; lra.
      - apply Rinv_le_contravar; [lra|]. apply Rpower_mono; lra. }
    split; [apply (warm_le _ _ WC')|apply (warm_le _ _ WE')]; unfold expanded; apply Q; try assumption; lra.
  Qed.
  Let inner_round := round comps s0 r D P0 cl ch el eh Hfl Hd Hr Hn HD HC VC VE (proj1 (proj2 HS)) (proj1 (proj2 (proj2 HS))) HX HP0 (proj1 WC0) (proj2 WC0).
  Let rev e := e / (T_low * T_low).
  Lemma T_low_pos : 0 < T_low.
  Proof. exact (low_pos r T_low V_hi v_hi rho rv HS). Qed.
  (** near the inner levels *)
  Definition about (x : R) (c : Conditions R) : Prop := outer c /\ exists i, inner i /\ spread c i <= x.
  Lemma dependable : exists d, 0 < d /\ forall E tol n h e, 0 <= e <= d -> accurate E D r outer tol 2 (ru_period r) e -> accurate E D r outer tol n h e ->
    reliable E D r T_low (rev e) P0 (about (rev e / (1 - q))) tol n.
  Proof.
    destruct rim as (x & X0 & HR). pose proof T_low_pos as TP. pose proof (q_pos D r T_low V_hi v_hi rho rv c' HS WT) as Q0.
    set (m := Rmin (expanded cl' ch' Tk - T_low) (expanded el' eh' Tl - T_low)).
    assert (M0 : 0 < m) by (apply Rmin_pos; lra).
    pose proof (Rmin_l (expanded cl' ch' Tk - T_low) (expanded el' eh' Tl - T_low)) as M1.
    pose proof (Rmin_r (expanded cl' ch' Tk - T_low) (expanded el' eh' Tl - T_low)) as M2. fold m in M1, M2.
    pose proof (lowest_pos comps s0 r P0 cl' ch' el' eh' Hd Hr VC' VE' HX HP0 WC' WE') as LP.
    set (lp := lowest_pressure r P0 cl' ch' el' eh') in *.
    assert (TT : 0 < T_low * T_low) by (apply Rmult_lt_0_compat; exact TP).
    assert (XX : 0 < x * (1 - q) * (T_low * T_low)) by (repeat apply Rmult_lt_0_compat; lra).
    set (d := Rmin (Rmin m (lp / 2)) (x * (1 - q) * (T_low * T_low))).
    pose proof (Rmin_l (Rmin m (lp / 2)) (x * (1 - q) * (T_low * T_low))) as D1. pose proof (Rmin_r (Rmin m (lp / 2)) (x * (1 - q) * (T_low * T_low))) as D2.
    pose proof (Rmin_l m (lp / 2)) as D3. pose proof (Rmin_r m (lp / 2)) as D4. fold d in D1, D2.
    exists d. split; [unfold d; repeat apply Rmin_pos; lra|]. intros E tol n h e (e0 & ed) A2 An i (HO & i' & HI & HN).
    pose proof (tau_nonneg comps s0 r Hd Hr) as T0.
    assert (RE : 0 <= rev e) by (unfold rev; apply Rle_mult_inv_pos; lra).
    destruct (outer_round i HO) as (z & Z0 & Z1 & _ & ZB). split.
    - destruct (A2 i HO) as (pts & E1 & S1 & G1 & _ & N1). specialize (N1 z Z0 Z1).
      destruct G1 as (_ & _ & (pre & G2) & _). destruct (map_eq_app _ _ _ _ (eq_trans G2 eq_refl)) as (l1 & l2 & -> & _ & G3).
      destruct l2 as [|p [|? ?]]; [discriminate G3| |discriminate G3]. injection G3 as G3.
      rewrite Forall_forall in N1. specialize (N1 p ltac:(apply in_or_app; right; left; reflexivity)). rewrite G3 in N1.
      exists (l1 ++ [p]), (pt_conditions p). split; [exact E1|]. destruct (ZB (ru_period r) ltac:(lra)) as (_ & ZC & ZE). fold Tk in ZC. fold Tl in ZE.
      destruct (gap_parts _ _ _ N1) as (_ & NC & NE). apply abs_le_iff in NC, NE.
      assert (SP : spread (pt_conditions p) (z (ru_period r)) <= rev e).
      { eapply Rle_trans; [apply (gap_spread _ _ T_low TP); lra|]. unfold rev, Rdiv. apply Rmult_le_compat_r; [|exact N1].
        left. apply Rinv_0_lt_compat, TT. }
      assert (RV : revolution D r T_low i (z (ru_period r))).
      { exists z. split; [exact Z0|]. split; [reflexivity|]. split; [|exact Z1]. intros t Ht. destruct (ZB t Ht) as (_ & B1 & B2). fold Tk in B1. fold Tl in B2. lra. }
      split.
      + split; [exact S1|]. split; [exists l1, p; auto|]. split; [lra|]. split; [lra|]. exists (z (ru_period r)). split; [exact RV|exact SP].
      + destruct (inner_round i' HI) as (z' & Z0' & Z1' & ZL' & _).
        destruct (outer_round i' (inner_outer i' HI)) as (z2 & Z02 & Z12 & _ & ZB2).
        assert (ZZ : forall t, 0 <= t <= ru_period r -> z' t = z2 t).
        { intros t Ht. apply (trajectories_agree Helium r D D z' z2 0 (ru_period r) 0 (Hf comps s0 r Hfl Hd Hr) HD HD); [lra| |congruence|exact Ht].
          intros u Hu. split; [apply Z1'|apply Z12]; lra. }
        assert (CT : spread (z (ru_period r)) (z' (ru_period r)) <= q * spread i i').
        { rewrite <- Z0, <- Z0'. apply (settled D D r T_low V_hi v_hi rho rv z z' HS HD HD Z1 Z1').
          - intros t Ht. destruct (ZB t Ht) as (_ & B1 & B2). fold Tk in B1. fold Tl in B2. lra.
          - intros t Ht. rewrite (ZZ t Ht). destruct (ZB2 t Ht) as (_ & B1 & B2). fold Tk in B1. fold Tl in B2. lra. }
        set (i2 := mkCond P0 (cd_T_c (z' (ru_period r))) (cd_T_e (z' (ru_period r)))) in *.
        set (fin := mkCond P0 (cd_T_c (pt_conditions p)) (cd_T_e (pt_conditions p))).
        assert (SF : spread fin i2 <= rev e / (1 - q)).
        { change (spread fin i2) with (spread (pt_conditions p) (z' (ru_period r))).
          pose proof (spread_tri (pt_conditions p) (z (ru_period r)) (z' (ru_period r))) as S3.
          assert (M : q * spread i i' <= q * (rev e / (1 - q))) by (apply Rmult_le_compat_l; assumption).
          replace (rev e / (1 - q)) with (q * (rev e / (1 - q)) + rev e) by (field; lra). lra. }
        split; [|exists i2; split; [exact ZL'|exact SF]].
        apply (HR fin i2 ZL' eq_refl); cbn [fin cd_T_c cd_T_e]; try lra.
        eapply Rle_trans; [exact SF|]. apply (Rmult_le_reg_r (1 - q)); [lra|]. apply (Rmult_le_reg_r (T_low * T_low)); [exact TT|].
        unfold rev. replace (e / (T_low * T_low) / (1 - q) * (1 - q) * (T_low * T_low)) with e by (field; lra). lra.
    - destruct (An i HO) as (pts & E1 & S1 & G1 & _ & N1). specialize (N1 z Z0 Z1). exists pts. split; [exact E1|]. split; [exact S1|].
      apply Forall_forall. intros p Hp. rewrite Forall_forall in N1. specialize (N1 p Hp).
      pose proof (grid_range _ _ G1 (pt_time p) (in_map _ _ _ Hp)) as Ht. destruct (ZB _ Ht) as (B0 & B1 & B2). fold lp in B0. fold Tk in B1. fold Tl in B2.
      destruct (gap_parts _ _ _ N1) as (NP & NC & NE). apply abs_le_iff in NP, NC, NE.
      apply (near_physical comps s0 r cl' ch' el' eh' Hfl Hd Hr Hn VC' VE' HX); [exact Ht|lra| |].
      + apply (warm_le T_low); [exact low_warm|lra].
      + apply (warm_le T_low); [exact low_warm|lra].
  Qed.
  Let err (e : R) (settings : RunSettings R) := test_error T_low q (rev e) (lt_inner (rs_loop_tol settings)).
  Theorem accurate_run : exists K d, 0 <= K /\ 0 < d /\
    forall (E : Env R) (fl : Fluid R) (inputs : RunInputs R) (settings : RunSettings R) (e h T_hi : R) (n : nat) (s : R -> Solution R) (X : Totals),
    State_new_hint comps fl inputs = Ret s0 ->
    0 < ct_abs (lt_outer (rs_loop_tol settings)) -> 0 < ct_rel (lt_outer (rs_loop_tol settings)) ->
    0 <= e -> accurate E D r outer (rs_ode_tol settings) 2 (ru_period r) e ->
    accurate E D r outer (rs_ode_tol settings) (rs_resolution settings) h e ->
    (forall c, outer c -> cd_T_c c <= T_hi /\ cd_T_e c <= T_hi) -> inner ic ->
    passes_test (lt_inner (rs_loop_tol settings)) T_hi (change_after q (rev e) (spread ic (c' 0)) n) ->
    (n < N.to_nat (mi_inner (rs_max_iters settings)))%nat -> (0 < mi_outer (rs_max_iters settings))%N ->
    e <= d -> err e settings <= d ->
    (forall t, 0 <= t <= ru_period r -> solved_at D r t (c' t) (s t)) ->
    totals (IdealGas_Fluid he) (s_temp s0) a c' s (ru_period r) X ->
    exists k en rep, Engine_run_counted E D comps fl inputs settings = (k, Ret (Ok en)) /\ (k <= n + 2)%nat /\
      RunResults_from en = Ret rep /\ report_within a X (K * (h + e + err e settings)) rep.
  Proof.
    pose proof SC as (HT & HP). assert (E0 : c' (ru_period r) = c' 0) by (rewrite <- (HP 0) by lra; f_equal; ring).
    destruct (reply_volumes (mkEngine comps s0 (Values_from [])) a s0 r Hd Hr (HA _)) as (HV & _).
    pose proof T_low_pos as LP. destruct (WT 0 (Rle_refl 0)) as (_ & L1 & L2).
    destruct (eng_report Helium comps s0 r D c' Hfl Hd Hr HD (fun t Ht => HT t (proj1 Ht)) (s_temp s0) a HV) as (K1 & d1 & D1 & HRep).
    destruct (near_gap (c' 0) ltac:(lra) ltac:(lra)) as (K2 & d2 & P2 & D2 & HG).
    destruct (stays_near he (gas_R_pos Helium) r (eng_fluid Helium comps s0 r Hfl Hd Hr) D c' (ru_period r) HD (fun t Ht => HT t (proj1 Ht)))
      as (K3 & d3 & P3 & D3 & HN).
    destruct dependable as (d4 & D4 & HDep).
    assert (K32 : 0 <= K3 * K2) by (apply Rmult_le_pos; assumption).
    set (B := 1 + K3 * K2) in *. assert (B1 : 1 <= B) by (unfold B; lra).
    set (d := Rmin (Rmin d2 (d3 / (K2 + 1))) (Rmin d4 (d1 / (2 * B)))).
    pose proof (Rmin_l (Rmin d2 (d3 / (K2 + 1))) (Rmin d4 (d1 / (2 * B)))) as M1. pose proof (Rmin_r (Rmin d2 (d3 / (K2 + 1))) (Rmin d4 (d1 / (2 * B)))) as M2.
    pose proof (Rmin_l d2 (d3 / (K2 + 1))) as M3. pose proof (Rmin_r d2 (d3 / (K2 + 1))) as M4.
    pose proof (Rmin_l d4 (d1 / (2 * B))) as M5. pose proof (Rmin_r d4 (d1 / (2 * B))) as M6. fold d in M1, M2.
    exists (Rabs K1 * B), d. split; [apply Rmult_le_pos; [apply Rabs_pos|lra]|].
    split; [unfold d; repeat apply Rmin_pos; try assumption; apply Rdiv_lt_0_compat; lra|].
    intros E fl inputs settings e h T_hi n s X H0 Ha Hl He A2 An HB HI Hpass Hni Ho Hse Hst Hs HX'.
    pose proof (q_pos D r T_low V_hi v_hi rho rv c' HS WT) as Q0.
    assert (TT : 0 < T_low * T_low) by (apply Rmult_lt_0_compat; exact LP).
    assert (RE : 0 <= rev e) by (unfold rev; apply Rle_mult_inv_pos; lra).
    set (te := err e settings) in *.
    destruct (run_finds E D comps fl inputs settings s0 r Fk Fr Fl H0 Hr) with (T_low := T_low) (V_hi := V_hi) (v_hi := v_hi) (rho := rho)
      (rv := rv) (e := rev e) (T_hi := T_hi) (c' := c') (region := about (rev e / (1 - q))) (n := n)
      as (k & en & vs & F1 & F2 & F3 & F4 & F5 & F6 & F7); try assumption.
    { intros p. destruct (HA (Values_from [])) as (_ & _ & _ & HA4 & _). cbn [en_components en_state] in HA4. rewrite HA4. discriminate. }
    { apply (HDep E _ _ h e); try assumption. split; [exact He|lra]. }
    { intros c (HO & _). split; [apply HO|apply HB, HO]. }
    { split; [apply inner_outer, HI|]. exists ic. split; [exact HI|]. unfold spread. rewrite !Rminus_diag_eq, Rabs_R0 by reflexivity.
      rewrite Rplus_0_r. apply Rle_mult_inv_pos; lra. }
    destruct F7 as (ic' & pts & (RO & _) & R2 & R3). destruct (An ic' RO) as (pts' & R2' & (p & rest & G0 & GC) & G1 & G2 & G3).
    assert (pts' = pts) as -> by congruence. rewrite <- (values_times D r pts vs R3) in G1, G2.
    assert (EN : en = mkEngine comps s0 (en_values en)) by (destruct en; cbn in *; congruence).
    assert (ST : gap ic' (c' 0) <= K2 * te).
    { destruct F6 as (v & rest' & -> & S1 & S2). rewrite G0 in R3. inversion R3 as [|? ? ? ? (_ & V2 & _) _]; subst. rewrite V2 in S1, S2.
      apply HG; [rewrite S1; symmetry; exact CP|exact S2|lra]. }
    destruct (outer_round ic' RO) as (z & Z0 & Z1 & _). specialize (G3 z Z0 Z1).
    assert (SD : K2 * te <= d3).
    { apply Rle_trans with ((K2 + 1) * (d3 / (K2 + 1))); [|right; field; lra].
      apply Rle_trans with (K2 * (d3 / (K2 + 1))); [apply Rmult_le_compat_l; lra|].
      apply Rmult_le_compat_r; [left; apply Rdiv_lt_0_compat|]; lra. }
    assert (CL : forall t, 0 <= t <= ru_period r -> gap (z t) (c' t) <= K3 * (K2 * te)).
    { intros t Ht. apply Rle_trans with (K3 * gap (z 0) (c' 0)).
      - apply (HN D z 0 (ru_period r) HD); [lra|lra|intros u Hu; apply Z1, Hu|rewrite Z0; lra|exact Ht].
      - apply Rmult_le_compat_l; [exact P3|rewrite Z0; exact ST]. }
    set (dl := e + K3 * (K2 * te)).
    assert (SA : sampled D r c' dl vs).
    { pose proof (values_solved D r pts vs R3) as SV.
      assert (GG : Forall (fun v => gap (sv_conditions v) (c' (sv_time v)) <= dl) vs).
      { pose proof (grid_range _ _ G1) as GR. clear - G3 R3 GR CL.
        induction R3 as [|p v pts vs (H1 & H2 & _) _ IH]; constructor.
        - apply Forall_inv in G3. rewrite H1, H2. pose proof (gap_tri (pt_conditions p) (z (pt_time p)) (c' (pt_time p))) as GT.
          specialize (CL (pt_time p)). rewrite <- H1 in CL at 1 2. specialize (CL (GR _ (or_introl eq_refl))). unfold dl. lra.
        - apply IH; [exact (Forall_inv_tail G3)|]. intros t Ht. apply GR. right. exact Ht. }
      clear - SV GG. induction GG as [|v vs H _ IH]; [constructor|]. pose proof (Forall_inv SV). constructor; [split; assumption|]. apply IH, (Forall_inv_tail SV). }
    assert (T0 : 0 <= te) by (destruct F6 as (v & rest' & _ & _ & S); apply Rle_trans with (2 := S), spread_pos).
    assert (DL : dl <= B * (e + te)).
    { unfold dl, B. rewrite Rmult_plus_distr_r, Rmult_1_l. assert (0 <= K3 * K2 * e) by (apply Rmult_le_pos; assumption). lra. }
    destruct (HRep s X en vs h dl D Hs HX') as (rep & ER & Bd); try assumption.
    - rewrite F4. exact Hfl.
    - rewrite F4. reflexivity.
    - rewrite EN. apply HA.
    - apply Rle_trans with (1 := DL). apply Rle_trans with (B * (2 * (d1 / (2 * B)))); [apply Rmult_le_compat_l; lra|right; field; lra].
    - exists k, en, rep. split; [exact F1|]. split; [exact F2|]. split; [exact ER|].
      pose proof (steps_nonneg _ _ _ G1 G2) as h0. assert (0 <= K3 * (K2 * te)) by (rewrite <- Rmult_assoc; apply Rmult_le_pos; assumption).
      apply (report_wider a X _ _ rep Bd). apply Rle_trans with (Rabs K1 * (h + dl)); [apply Rmult_le_compat_r; [unfold dl; lra|apply Rle_abs]|].
      rewrite Rmult_assoc. apply Rmult_le_compat_l; [apply Rabs_pos|].
      assert (h <= B * h) by (rewrite <- (Rmult_1_l h) at 1; apply Rmult_le_compat_r; assumption). lra.
  Qed.
End Run.

(** ** Runs of engines that settle *)
Lemma expanded_wider lo lo' hi hi' T : 0 < Rmin T_ref (filling T) -> 0 < lo' -> lo' < lo -> lo <= hi -> hi < hi' -> expanded lo' hi' T <= expanded lo hi T.
Proof.
  intros HT A1 A2 A3 A4. unfold expanded, Rdiv, adiabat. pose proof (pw_gt lo'). pose proof (pw_gt hi'). pose proof (pw_gt hi).
  apply Rmult_le_compat; [apply Rmult_le_pos; lra|left; apply Rinv_0_lt_compat; lra| |].
  - apply Rmult_le_compat_l; [lra|]. apply Rpower_mono; lra.
  - apply Rinv_le_contravar; [lra|]. apply Rpower_mono; lra.
Qed.
Section Limit.
  Variables (comps : Components R) (s0 : State R) (r : Run R) (D : Decomp R) (cl ch el eh cl' ch' el' eh' : R)
    (T_low V_hi v_hi rho rv : R) (a : Replies R).
  Hypothesis Fk : fixed_approach (co_chx comps).
  Hypothesis Fr : fixed_approach (co_regen comps).
  Hypothesis Fl : fixed_approach (co_hhx comps).
  Hypothesis Hfl : s_fluid s0 = IdealGas_Fluid he.
  Hypothesis Hd : driven (co_ws comps).
  Hypothesis Hr : Run_new comps s0 = Ret r.
  Hypothesis Hn : te_sink (s_temp s0) + te_source (s_temp s0) <> 500.
  Hypothesis HD : sound D.
  Hypothesis HC : complete D.
  Hypothesis HX : sane_exchangers r.
  Let P0 := pr_t_zero (s_pres s0).
  Hypothesis HP0 : 0 < P0.
  Hypothesis VC : forall T, between (V_comp r) cl ch 0 T.
  Hypothesis VE : forall T, between (V_exp r) el eh 0 T.
  Hypothesis O1 : 0 < cl' < cl.
  Hypothesis O2 : ch < ch'.
  Hypothesis O3 : 0 < el' < el.
  Hypothesis O4 : eh < eh'.
  Let q := left_over r T_low V_hi v_hi rho rv.
  Let ic := mkCond P0 (te_chx (s_temp s0)) (te_hhx (s_temp s0)).
  Hypothesis HS : settles r T_low V_hi v_hi rho rv.
  Hypothesis HQ : q < 1.
  Let Tk := te_chx (ru_temp r).
  Let Tl := te_hhx (ru_temp r).
  Hypothesis W1 : T_low < expanded cl' ch' Tk.
  Hypothesis W2 : T_low < expanded el' eh' Tl.
  Hypothesis HA : forall vals, replies (mkEngine comps s0 vals) a.
  Let outer := within_levels r P0 cl' ch' el' eh'.
  Lemma same_temps : s_temp s0 = ru_temp r.
  Proof.
    pose proof Hr as H. unfold Run_new in H. destruct (ex_volume (co_chx comps)); [|discriminate H]. destruct (ex_volume (co_regen comps)); [|discriminate H].
    destruct (ex_volume (co_hhx comps)); [|discriminate H]. cbn [obind] in H.
    destruct (ws_frequency (co_ws comps) (State_ws s0)); [|discriminate H]. cbn [obind] in H.
    destruct (ws_volumes (co_ws comps) (State_ws s0)); [|discriminate H]. cbn [obind] in H.
    destruct (ws_parasitics (co_ws comps) (State_ws s0)); [|discriminate H]. cbn [obind] in H. injection H as <-. reflexivity.
  Qed.
  Lemma gas_levels T : warm T -> 0 < T /\ 0 < Rmin T_ref (filling T) <= T /\ T <= Rmax T_ref (filling T).
  Proof.
    intros H. pose proof (warm_filling _ H) as F. pose proof (warm_gt _ H) as TP. split; [exact TP|].
    pose proof cv_pos as C1. pose proof cv_le as C2.
    assert (K : 1 <= cp_he / cv_he).
    { apply (Rmult_le_reg_r cv_he); [assumption|]. replace (cp_he / cv_he * cv_he) with cp_he by (field; lra). lra. }
    pose proof (Rmin_l T_ref (filling T)). pose proof (Rmin_r T_ref (filling T)). pose proof (Rmax_l T_ref (filling T)). pose proof (Rmax_r T_ref (filling T)).
    assert (FT : filling T = T_ref + cp_he / cv_he * (T - T_ref)) by (unfold filling, T_ref; ring).
    split; [split; [apply Rmin_pos; [unfold T_ref; lra|exact F]|]|].
    - destruct (Rle_lt_dec T_ref T) as [L|L]; [lra|].
      assert (1 * (T_ref - T) <= cp_he / cv_he * (T_ref - T)) by (apply Rmult_le_compat_r; lra). lra.
    - destruct (Rle_lt_dec T T_ref) as [L|L]; [lra|].
      assert (1 * (T - T_ref) <= cp_he / cv_he * (T - T_ref)) by (apply Rmult_le_compat_r; lra). lra.
  Qed.
  Lemma start_level lo hi V T : 0 < lo -> lo <= V <= hi -> warm T ->
    level V lo (Rmin T_ref (filling T)) <= T <= level V hi (Rmax T_ref (filling T)).
  Proof.
    intros L0 HV HT. destruct (gas_levels T HT) as (TP & (F0 & F1) & F2). apply in_level. unfold adiabat.
    assert (P1 : 0 < Rpower lo (R_he / cv_he)) by apply pw_gt.
    assert (P2 : Rpower lo (R_he / cv_he) <= Rpower V (R_he / cv_he)) by (apply Rpower_mono; lra).
    assert (P3 : Rpower V (R_he / cv_he) <= Rpower hi (R_he / cv_he)) by (apply Rpower_mono; lra).
    split; apply Rmult_le_compat; lra.
  Qed.
  (** the run starts between the levels *)
  Lemma starts_inside : within_levels r P0 cl ch el eh ic.
  Proof.
    destruct HX as (H1 & H2 & _). destruct (VC 0) as (C0 & C1), (VE 0) as (E0 & E1).
    unfold within_levels, ic. cbn [cd_P cd_T_c cd_T_e]. rewrite same_temps. split; [reflexivity|].
    split; apply start_level; try assumption; [apply C1|apply E1]; lra.
  Qed.
  Definition hottest_start : R :=
    Rmax (level (V_comp r 0) ch' (Rmax T_ref (filling Tk))) (level (V_exp r 0) eh' (Rmax T_ref (filling Tl))).
  Theorem accurate_limit : exists c' s X, steady_cycle D r c' /\ warm_trajectory D r T_low c' /\ cd_P (c' 0) = P0 /\
    (forall t, 0 <= t <= ru_period r -> solved_at D r t (c' t) (s t)) /\
    totals (IdealGas_Fluid he) (s_temp s0) a c' s (ru_period r) X /\
    forall eps, 0 < eps -> exists dl, 0 < dl /\
    forall tol, 0 < ct_abs tol -> 0 < ct_rel tol <= dl -> exists e0 n, 0 < e0 /\
    forall (E : Env R) (fl : Fluid R) (inputs : RunInputs R) (settings : RunSettings R) (h : R),
    State_new_hint comps fl inputs = Ret s0 ->
    lt_inner (rs_loop_tol settings) = tol ->
    0 < ct_abs (lt_outer (rs_loop_tol settings)) -> 0 < ct_rel (lt_outer (rs_loop_tol settings)) ->
    accurate E D r outer (rs_ode_tol settings) 2 (ru_period r) e0 ->
    accurate E D r outer (rs_ode_tol settings) (rs_resolution settings) h e0 -> h <= dl ->
    (n < N.to_nat (mi_inner (rs_max_iters settings)))%nat -> (0 < mi_outer (rs_max_iters settings))%N ->
    exists k en rep, Engine_run_counted E D comps fl inputs settings = (k, Ret (Ok en)) /\ (k <= n + 2)%nat /\
      RunResults_from en = Ret rep /\ report_within a X eps rep.
  Proof.
    assert (HX1 := proj1 HX). assert (HX2 := proj1 (proj2 HX)).
    destruct (gas_levels Tk HX1) as (_ & (F0 & _) & _). destruct (gas_levels Tl HX2) as (_ & (G0 & _) & _).
    destruct (VC 0) as (C0 & C1), (VE 0) as (E0 & E1). specialize (C1 0 ltac:(lra)). specialize (E1 0 ltac:(lra)).
    destruct (engine_settles comps s0 r D cl ch el eh T_low V_hi v_hi rho rv Hfl Hd Hr Hn HD HC VC VE HX HS) with (P0 := P0) as (c' & PC & SC & WT & _).
    { fold Tk. apply Rlt_le, Rlt_le_trans with (1 := W1). apply expanded_wider; lra. }
    { fold Tl. apply Rlt_le, Rlt_le_trans with (1 := W2). apply expanded_wider; lra. }
    { exact HP0. }
    pose proof SC as (HT & _).
    destruct (reply_volumes (mkEngine comps s0 (Values_from [])) a s0 r Hd Hr (HA _)) as (HV & _).
    destruct (eng_totals Helium comps s0 r D c' Hfl Hd Hr HD (fun t Ht => HT t (proj1 Ht)) (s_temp s0) a HV) as (s & X & Hs & HX').
    exists c', s, X. repeat (split; [assumption|]).
    destruct (accurate_run comps s0 r D cl ch el eh cl' ch' el' eh' T_low V_hi v_hi rho rv c' a Fk Fr Fl Hfl Hd Hr Hn HD HC HX HP0 VC VE O1 O2 O3 O4
      HS HQ W1 W2 SC WT PC HA) as (K & d & K0 & D0 & H). fold q P0 ic in H. fold outer in H.
    pose proof (low_pos r T_low V_hi v_hi rho rv HS) as LP. pose proof (q_pos D r T_low V_hi v_hi rho rv c' HS WT) as Q0. fold q in Q0.
    set (B := (1 + 2 / T_low) / (1 - q)).
    assert (B0 : 0 < B).
    { unfold B. apply Rdiv_lt_0_compat; [|lra]. assert (0 < 2 / T_low) by (apply Rdiv_lt_0_compat; lra). lra. }
    intros eps He. set (dl := Rmin (d / (B + 1)) (eps / ((K + 1) * (B + 2)))).
    assert (KB : 0 < (K + 1) * (B + 2)) by (apply Rmult_lt_0_compat; lra).
    pose proof (Rmin_l (d / (B + 1)) (eps / ((K + 1) * (B + 2)))) as M1. pose proof (Rmin_r (d / (B + 1)) (eps / ((K + 1) * (B + 2)))) as M2.
    fold dl in M1, M2.
    assert (DL : 0 < dl) by (apply Rmin_pos; apply Rdiv_lt_0_compat; lra). exists dl. split; [exact DL|].
    intros tol A1 (A2 & A3).
    assert (TH : 0 < hottest_start).
    { unfold hottest_start. apply Rlt_le_trans with (2 := Rmax_l _ _). apply level_pos. apply Rlt_le_trans with (1 := F0).
      apply Rle_trans with T_ref; [apply Rmin_l|apply Rmax_l]. }
    set (C := (1 + q) / (1 - q) + 1). assert (C0' : 0 < C).
    { unfold C. assert (0 < (1 + q) / (1 - q)) by (apply Rdiv_lt_0_compat; lra). lra. }
    set (Th := hottest_start) in *. assert (Th2 : 0 < Th * Th) by (apply Rmult_lt_0_compat; exact TH).
    set (mt := Rmin (ct_rel tol) (ct_abs tol)). assert (MT : 0 < mt) by (apply Rmin_pos; assumption).
    pose proof (Rmin_l (ct_rel tol) (ct_abs tol)) as MT1. pose proof (Rmin_r (ct_rel tol) (ct_abs tol)) as MT2. fold mt in MT1, MT2.
    set (g := C * (Th + Th * Th)). assert (g0 : 0 < g) by (apply Rmult_lt_0_compat; lra).
    set (x := mt / (2 * g)). assert (x0 : 0 < x) by (apply Rdiv_lt_0_compat; lra).
    assert (gx : g * x < mt).
    { unfold x. replace (g * (mt / (2 * g))) with (mt / 2) by (field; lra). lra. }
    assert (TT : 0 < T_low * T_low) by (apply Rmult_lt_0_compat; exact LP).
    set (e0 := Rmin dl (T_low * T_low * Rmin dl x)).
    assert (e00 : 0 < e0) by (apply Rmin_pos; [exact DL|apply Rmult_lt_0_compat; [exact TT|apply Rmin_pos; assumption]]).
    assert (rv0 : 0 <= e0 / (T_low * T_low)) by (apply Rle_mult_inv_pos; lra).
    assert (rv1 : e0 / (T_low * T_low) <= Rmin dl x).
    { apply (Rmult_le_reg_r (T_low * T_low)); [exact TT|]. replace (e0 / (T_low * T_low) * (T_low * T_low)) with e0 by (field; lra).
      rewrite Rmult_comm. apply Rmin_r. }
    pose proof (Rmin_l dl x) as X1. pose proof (Rmin_r dl x) as X2. pose proof (Rmin_l dl (T_low * T_low * Rmin dl x)) as X3. fold e0 in X3.
    set (re := e0 / (T_low * T_low)) in *.
    destruct (some_limit tol q re (spread ic (c' 0)) Th) as (n & Hpass).
    { lra. } { apply spread_pos. } { lra. }
    { assert (CE : change_after q re 0 0 = C * re) by (unfold change_after, C; rewrite pow_O; field; lra).
      rewrite CE. assert (GR : g * re <= g * x) by (apply Rmult_le_compat_l; lra).
      assert (PC1 : 0 <= C * re * Th) by (apply Rmult_le_pos; [apply Rmult_le_pos|]; lra).
      assert (PC2 : 0 <= C * re * (Th * Th)) by (apply Rmult_le_pos; [apply Rmult_le_pos|]; lra).
      assert (GS : g * re = C * re * Th + C * re * (Th * Th)) by (unfold g; ring). split; lra. }
    exists e0, n. split; [exact e00|].
    intros E fl inputs settings h S1 S2 S3 S4 S5 S6 S7 S8 S9. 
    assert (TE : test_error T_low q re tol <= B * dl).
    { unfold test_error, B. apply (Rmult_le_reg_r (1 - q)); [lra|].
      replace ((re + 2 * (Rmin (ct_rel tol) (ct_abs tol / T_low) / T_low)) / (1 - q) * (1 - q))
        with (re + 2 * (Rmin (ct_rel tol) (ct_abs tol / T_low) / T_low)) by (field; lra).
      replace ((1 + 2 / T_low) / (1 - q) * dl * (1 - q)) with (dl + 2 * (dl / T_low)) by (field; lra).
      apply Rplus_le_compat; [lra|]. apply Rmult_le_compat_l; [lra|]. unfold Rdiv.
      apply Rmult_le_compat_r; [left; apply Rinv_0_lt_compat; exact LP|]. eapply Rle_trans; [apply Rmin_l|exact A3]. }
    assert (DD : (B + 1) * dl <= d).
    { apply Rle_trans with ((B + 1) * (d / (B + 1))); [apply Rmult_le_compat_l; lra|]. right. field. lra. }
    assert (EE : (K + 1) * (B + 2) * dl <= eps).
    { apply Rle_trans with ((K + 1) * (B + 2) * (eps / ((K + 1) * (B + 2)))); [apply Rmult_le_compat_l; lra|]. right. field. lra. }
    assert (BD : 0 <= B * dl) by (apply Rmult_le_pos; lra).
    destruct (H E fl inputs settings e0 h Th n s X) as (k & en & rep & R1 & R2 & R3 & R4); try assumption; try lra.
    { intros c (_ & (_ & U1) & (_ & U2)). unfold Th, hottest_start.
      split; [apply Rle_trans with (1 := U1), Rmax_l|apply Rle_trans with (1 := U2), Rmax_r]. }
    { exact starts_inside. }
    { rewrite S2. exact Hpass. }
    { rewrite S2. fold re. lra. }
    exists k, en, rep. split; [exact R1|]. split; [exact R2|]. split; [exact R3|]. apply (report_wider a X _ _ rep R4).
    rewrite S2. fold re. apply Rle_trans with (K * ((B + 2) * dl)); [apply Rmult_le_compat_l; lra|].
    apply Rle_trans with ((K + 1) * ((B + 2) * dl)); [apply Rmult_le_compat_r; [apply Rmult_le_pos; lra|lra]|]. lra.
  Qed.
End Limit.
