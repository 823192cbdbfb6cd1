(** * Runs of engines with effective heat exchangers *)
From Coq Require Import ZArith NArith List Reals Lra Lia.
From Verif Require Import Num ModelTypes ModelWs ModelHx ModelStateEq ModelEngine ModelApi RNum Spec SpecLoop SpecR SpecGas
  SpecKin SpecTraj SpecLaws SpecUnique SpecExist SpecDepend SpecSeries SpecQuad SpecReport SpecSpaces SpecBounds SpecSteady SpecContract
  SpecSample SpecGlobal SpecSearch SpecConverge SpecAccurate SpecApi SpecMeans SpecPush SpecMixed SpecEffective Fixture PolySolve PolyLoop PolyPanic PolyRun PolyReport RSolve RGauss RFluid RKin RPeriod RSeries
  RCase4 RDepend RBounds RSteady RSample RSampleReport RMotion RSampleCase RSearchCase RGlobal RGlobalReport RContractEngine RSettle RSearch RConverge RAccurate RMeans
  RReturned RApproach RConsistent RPush RFlowBound RMixed.
Import ListNotations.
Local Open Scope R_scope.

(** ** Levels *)
Definition pw (v : R) : R := Rpower v (R_he / cv_he).
Lemma pw_pos v : 0 < pw v.
Proof. apply pw_gt. Qed.
Lemma pw_le v v' : 0 < v -> v <= v' -> pw v <= pw v'.
Proof. intros. apply Rpower_mono; lra. Qed.
Lemma pw_lt v v' : 0 < v -> v < v' -> pw v < pw v'.
Proof.
  intros H H'. pose proof (level_lt 1 v v' 1 ltac:(lra) H H') as L. unfold level, adiabat in L. fold (pw 1) (pw v) (pw v') in L.
  pose proof (pw_pos 1) as P. apply (Rmult_lt_compat_r (pw 1)) in L; [|exact P].
  replace (1 * pw v / pw 1 * pw 1) with (pw v) in L by (field; lra). replace (1 * pw v' / pw 1 * pw 1) with (pw v') in L by (field; lra). exact L.
Qed.
Definition step (m Tb v v' : R) : R := pw m / Tb * (/ pw v - / pw v').
Lemma step_pos m Tb v v' : 0 < Tb -> 0 < v -> v < v' -> 0 < step m Tb v v'.
Proof.
  intros HT H H'. unfold step. pose proof (pw_pos m). pose proof (pw_pos v). pose proof (pw_lt v v' H H').
  apply Rmult_lt_0_compat; [apply Rdiv_lt_0_compat; assumption|].
  assert (/ pw v' < / pw v); [|lra]. apply Rinv_lt_contravar; [apply Rmult_lt_0_compat; lra|assumption].
Qed.
Lemma step_le V m v v' T Tb : 0 < T -> T <= Tb -> 0 < m -> m <= V -> 0 < v -> v < v' ->
  step m Tb v v' <= / level V v T - / level V v' T.
Proof.
  intros T0 TB M0 MV H H'. pose proof (pw_pos v) as P1. pose proof (pw_lt v v' H H') as P2. pose proof (pw_pos m) as P3. pose proof (pw_le m V M0 MV) as P4.
  unfold level, adiabat. fold (pw V) (pw v) (pw v').
  replace (/ (T * pw v / pw V) - / (T * pw v' / pw V)) with (pw V / T * (/ pw v - / pw v')) by (field; repeat split; lra).
  unfold step. apply Rmult_le_compat_r.
  - assert (/ pw v' < / pw v); [|lra]. apply Rinv_lt_contravar; [apply Rmult_lt_0_compat; lra|assumption].
  - unfold Rdiv. apply Rmult_le_compat; [lra|left; apply Rinv_0_lt_compat; lra|exact P4|apply Rinv_le_contravar; assumption].
Qed.
Lemma level_le_compressed V lo hi T : 0 < lo -> lo <= V -> 0 < Rmax T_ref (filling T) -> level V hi (Rmax T_ref (filling T)) <= compressed lo hi T.
Proof.
  intros L0 LV T0. unfold level, compressed, adiabat. fold (pw V) (pw hi) (pw lo). pose proof (pw_pos hi). pose proof (pw_pos lo). pose proof (pw_le lo V L0 LV).
  unfold Rdiv. apply Rmult_le_compat_l; [apply Rmult_le_pos; lra|]. apply Rinv_le_contravar; lra.
Qed.
Lemma fill_le_compressed lo hi T : 0 < lo -> lo <= hi -> 0 < Rmax T_ref (filling T) -> Rmax T_ref (filling T) <= compressed lo hi T.
Proof.
  intros L0 LH T0. unfold compressed, adiabat. fold (pw hi) (pw lo). pose proof (pw_pos lo) as P. pose proof (pw_le lo hi L0 LH).
  set (x := Rmax T_ref (filling T)) in *. apply (Rmult_le_reg_r (pw lo)); [exact P|]. replace (x * pw hi / pw lo * pw lo) with (x * pw hi) by (field; lra).
  apply Rmult_le_compat_l; lra.
Qed.
Lemma change_mono q q' e d n : 0 <= q -> q <= q' -> q' < 1 -> 0 <= e -> 0 <= d -> change_after q e d n <= change_after q' e d n.
Proof.
  intros Q0 Q1 Q2 E0 D0. unfold change_after. apply Rplus_le_compat_r. pose proof (pow_le q n Q0) as P0. pose proof (pow_incr q q' n (conj Q0 Q1)) as P1.
  assert (0 <= e / (1 - q)) by (apply Rle_mult_inv_pos; lra).
  assert (e / (1 - q) <= e / (1 - q')) by (apply Rmult_le_compat_l; [exact E0|]; apply Rinv_le_contravar; lra).
  assert (0 <= q ^ n * d) by (apply Rmult_le_pos; assumption). assert (q ^ n * d <= q' ^ n * d) by (apply Rmult_le_compat_r; assumption).
  apply Rmult_le_compat; lra.
Qed.
Lemma change_far q e d d' n : 0 <= q -> d <= d' -> change_after q e d n <= change_after q e d' n.
Proof.
  intros Q0 H. unfold change_after. apply Rplus_le_compat_r. apply Rmult_le_compat_l; [lra|]. apply Rplus_le_compat_r.
  apply Rmult_le_compat_l; [apply pow_le, Q0|exact H].
Qed.
Lemma passes_less tol T_hi x y : 0 <= T_hi -> x <= y -> passes_test tol T_hi y -> passes_test tol T_hi x.
Proof.
  intros T0 H (A & B). split.
  - apply Rle_lt_trans with (2 := A). apply Rmult_le_compat_l; assumption.
  - apply Rle_lt_trans with (2 := B). apply Rmult_le_compat_l; [apply Rmult_le_pos; assumption|exact H].
Qed.

(** ** Means of samples *)
Lemma integrate_pos (f : SeValues R -> R) vs x y h : nondecreasing (map (@sv_time R) vs) -> steps_within h (map (@sv_time R) vs) ->
  (forall v, In v vs -> 0 <= f v) -> (forall v, In v vs -> x < sv_time v < y -> 0 < f v) -> 0 <= h < (y - x) / 2 ->
  (exists v rest, vs = v :: rest /\ sv_time v <= (x + y) / 2) -> (exists v pre, vs = pre ++ [v] /\ (x + y) / 2 < sv_time v) ->
  0 < integrate (map (@sv_time R) vs) (map f vs).
Proof.
  intros Hn Hs Hp Hq Hh Hf Hl. rewrite integrate_trapezoid.
  assert (NN : forall l, nondecreasing (map (@sv_time R) l) -> (forall v, In v l -> 0 <= f v) -> 0 <= trapezoid (combine (map (@sv_time R) l) (map f l))).
  { induction l as [|a [|b l] IH]; intros H1 H2; [cbn; lra|cbn; lra|]. destruct H1 as (H1 & H1').
    change (0 <= (f a + f b) / 2 * (sv_time b - sv_time a) + trapezoid (combine (map (@sv_time R) (b :: l)) (map f (b :: l)))).
    pose proof (IH H1' (fun v Hv => H2 v (or_intror Hv))). pose proof (H2 a (or_introl eq_refl)). pose proof (H2 b (or_intror (or_introl eq_refl))).
    assert (0 <= (f a + f b) / 2 * (sv_time b - sv_time a)) by (apply Rmult_le_pos; lra). lra. }
  revert Hn Hs Hp Hq Hf Hl. induction vs as [|a [|b l] IH]; intros Hn Hs Hp Hq (v & rest & E & Hv) (w & pre & E' & Hw).
  - discriminate E.
  - injection E as -> <-. destruct pre as [|? [|? ?]]; [injection E' as ->; lra|discriminate E'|discriminate E'].
  - injection E as -> <-. destruct Hn as (N1 & N2), Hs as (S1 & S2).
    change (0 < (f v + f b) / 2 * (sv_time b - sv_time v) + trapezoid (combine (map (@sv_time R) (b :: l)) (map f (b :: l)))).
    pose proof (Hp v (or_introl eq_refl)) as A1. pose proof (Hp b (or_intror (or_introl eq_refl))) as A2.
    destruct (Rle_lt_dec (sv_time b) ((x + y) / 2)) as [C|C].
    + assert (0 < trapezoid (combine (map (@sv_time R) (b :: l)) (map f (b :: l)))).
      { apply IH; try assumption; [intros u Hu; apply Hp; right; exact Hu|intros u Hu; apply Hq; right; exact Hu|exists b, l; auto|].
        destruct pre as [|? pre]; [discriminate E'|]. injection E' as _ E'. exists w, pre. auto. }
      assert (0 <= (f v + f b) / 2 * (sv_time b - sv_time v)) by (apply Rmult_le_pos; lra). lra.
    + pose proof (NN (b :: l) N2 (fun u Hu => Hp u (or_intror Hu))).
      pose proof (Hq b (or_intror (or_introl eq_refl)) ltac:(lra)) as B.
      assert (0 < (f v + f b) / 2 * (sv_time b - sv_time v)) by (apply Rmult_lt_0_compat; lra). lra.
Qed.
Lemma mean_within (f : SeValues R -> R) vs tau B : grid_to (map (@sv_time R) vs) tau -> (forall v, In v vs -> Rabs (f v) <= B) ->
  Rabs (integrate (map (@sv_time R) vs) (map f vs) / tau) <= B.
Proof.
  intros HG H. rewrite integrate_trapezoid. change (trapezoid _ / tau) with (average (map (@sv_time R) vs) (map f vs) tau).
  apply abs_le_iff. rewrite Rminus_0_r || idtac. apply average_bounds; [exact HG|rewrite !map_length; reflexivity|].
  intros b Hb. apply in_map_iff in Hb as (v & <- & Hv). apply abs_le_iff, H, Hv.
Qed.
(** ** One state *)
(** a state whose approaches are at most [w] away from these *)
Definition approaches_near (s0 : State R) (c_k c_r c_l w z : R) (s : State R) : Prop :=
  s_fluid s = s_fluid s0 /\ pr_t_zero (s_pres s) = pr_t_zero (s_pres s0) /\ s_regen_imbalance s = s_regen_imbalance s0 /\
  exists a_k a_r a_l, (Rabs (a_k - c_k) <= w /\ Rabs a_k <= z) /\ (Rabs (a_r - c_r) <= w /\ Rabs a_r <= z) /\ (Rabs (a_l - c_l) <= w /\ Rabs a_l <= z) /\
    temperatures_follow (te_sink (s_temp s0)) (te_source (s_temp s0)) a_k a_r a_l (s_regen_imbalance s0) (s_temp s).
Definition bases (B w z : R) (g_k g_r g_l : R -> R -> R) (c_k c_r c_l : R) : Prop :=
  (forall Q m, Rabs Q <= B -> 0 < m -> Rabs (g_k Q m - c_k) <= w /\ Rabs (g_k Q m) <= z) /\
  (forall F T S m, Rabs S <= T -> 0 < m <= F -> T * (2 * cp_he * F) <= B -> Rabs (g_r S m - c_r) <= w /\ Rabs (g_r S m) <= z) /\
  (forall Q m, Rabs Q <= B -> 0 < m -> Rabs (g_l Q m - c_l) <= w /\ Rabs (g_l Q m) <= z).
Lemma laws_bases comps U B kept g_k g_r g_l : 0 < U -> 0 <= kept -> laws comps U kept g_k g_r g_l ->
  exists c_k c_r c_l, bases B (B / U) (Rmax kept (B / U)) g_k g_r g_l c_k c_r c_l.
Proof.
  intros U0 K0 (L1 & L2 & L3 & _). destruct (heat_law_base U kept B U0 g_k K0 L1) as (c_k & H1). destruct (span_law_base U kept B U0 g_r K0 L2) as (c_r & H2).
  destruct (heat_law_base U kept B U0 g_l K0 L3) as (c_l & H3). exists c_k, c_r, c_l. split; [exact H1|]. split; [exact H2|exact H3].
Qed.
Section State.
  Variables (comps : Components R) (s0 : State R) (r : Run R) (D : Decomp R) (cl ch el eh cl' ch' el' eh' : R)
    (T_low T_top V_hi v_hi rho rv q mg : R).
  Hypothesis Hfl : s_fluid s0 = IdealGas_Fluid he.
  Hypothesis Hd : driven (co_ws comps).
  Hypothesis Hr : Run_new comps s0 = Ret r.
  Hypothesis Hn : te_sink (s_temp s0) + te_source (s_temp s0) <> 500.
  Hypothesis HD : sound D.
  Hypothesis HC : complete D.
  Let P0 := pr_t_zero (s_pres s0).
  Hypothesis HP0 : 0 < P0.
  Hypothesis O1 : 0 < cl' < cl.
  Hypothesis O2 : ch < ch'.
  Hypothesis O3 : 0 < el' < el.
  Hypothesis O4 : eh < eh'.
  Hypothesis HB : settles_between r cl ch el eh cl' ch' el' eh' T_low T_top V_hi v_hi rho rv q mg.
  Hypothesis HQ : q < 1.
  Hypothesis Hmg : 0 < mg.
  Let HX : sane_exchangers r := proj1 HB.
  Let VC : forall T, between (V_comp r) cl ch 0 T := proj1 (proj2 HB).
  Let VE : forall T, between (V_exp r) el eh 0 T := proj1 (proj2 (proj2 HB)).
  Let HS : settles r T_low V_hi v_hi rho rv := proj1 (proj2 (proj2 (proj2 HB))).
  Let qr := left_over r T_low V_hi v_hi rho rv.
  Let HQr : qr < 1 := Rle_lt_trans _ _ _ (proj1 (proj2 (proj2 (proj2 (proj2 HB))))) HQ.
  Let Tk := te_chx (ru_temp r).
  Let Tl := te_hhx (ru_temp r).
  Lemma M1 : T_low + mg <= expanded cl' ch' Tk. Proof. apply HB. Qed.
  Lemma M2 : T_low + mg <= expanded el' eh' Tl. Proof. apply HB. Qed.
  Lemma M3 : compressed cl' ch' Tk + mg <= T_top. Proof. apply HB. Qed.
  Lemma M4 : compressed el' eh' Tl + mg <= T_top. Proof. apply HB. Qed.
  Lemma W1 : T_low < expanded cl' ch' Tk. Proof. pose proof M1. lra. Qed.
  Lemma W2 : T_low < expanded el' eh' Tl. Proof. pose proof M2. lra. Qed.
  Let outer := within_levels r P0 cl' ch' el' eh'.
  Let inner := within_levels r P0 cl ch el eh.
  Let rev e := e / (T_low * T_low).
  Definition rim_width : R :=
    Rmin (Rmin (step cl T_ref cl' cl) (step cl T_top ch ch')) (Rmin (step el T_ref el' el) (step el T_top eh eh')).
  Definition least_P (P0 : R) : R := P0 * (cl' / T_top + el' / T_top) / (ch' / T_low + eh' / T_low).
  Definition most_P (P0 : R) : R := P0 * (ch' / T_low + eh' / T_low) / (cl' / T_top + el' / T_top).
  Definition accuracy (P0 : R) : R := Rmin (Rmin mg (least_P P0 / 2)) (rim_width * (1 - q) * (T_low * T_low)).
  Lemma low_T : 0 < T_low. Proof. exact (low_pos r T_low V_hi v_hi rho rv HS). Qed.
  Lemma orders : cl <= ch /\ el <= eh.
  Proof. destruct (VC 0) as (C0 & C1), (VE 0) as (E0 & E1). specialize (C1 0 ltac:(lra)). specialize (E1 0 ltac:(lra)). lra. Qed.
  Lemma fills : 0 < Rmin T_ref (filling Tk) /\ 0 < Rmax T_ref (filling Tk) /\ 0 < Rmin T_ref (filling Tl) /\ 0 < Rmax T_ref (filling Tl).
  Proof. exact (fills_pos r HX). Qed.
  Lemma tops : Rmax T_ref (filling Tk) <= T_top /\ Rmax T_ref (filling Tl) <= T_top /\ 0 < T_top.
  Proof.
    destruct fills as (F1 & F2 & F3 & F4). destruct orders. pose proof M3. pose proof M4.
    pose proof (fill_le_compressed cl' ch' Tk ltac:(lra) ltac:(lra) F2). pose proof (fill_le_compressed el' eh' Tl ltac:(lra) ltac:(lra) F4). lra.
  Qed.
  Lemma rim_pos : 0 < rim_width.
  Proof.
    destruct tops as (_ & _ & T0). destruct orders. assert (0 < T_ref) by (unfold T_ref; lra).
    unfold rim_width. repeat apply Rmin_pos; apply step_pos; lra.
  Qed.
  Lemma rim_by c i : inner i -> cd_P c = P0 -> 0 < cd_T_c c -> 0 < cd_T_e c -> spread c i <= rim_width -> outer c.
  Proof.
    intros (_ & I1 & I2) HP T1 T2 Hx. destruct fills as (F1 & F2 & F3 & F4). destruct tops as (U1 & U2 & U0). destruct orders as (R1 & R2).
    destruct (VC 0) as (C0 & C1), (VE 0) as (E0 & E1). specialize (C1 0 ltac:(lra)). specialize (E1 0 ltac:(lra)).
    fold Tk in I1. fold Tl in I2. set (vc := V_comp r 0) in *. set (ve := V_exp r 0) in *.
    assert (TR : 0 < T_ref) by (unfold T_ref; lra).
    pose proof (step_le vc cl cl' cl _ T_ref F1 (Rmin_l _ _) ltac:(lra) ltac:(lra) (proj1 O1) (proj2 O1)) as S1.
    pose proof (step_le vc cl ch ch' _ T_top F2 U1 ltac:(lra) ltac:(lra) ltac:(lra) O2) as S2.
    pose proof (step_le ve el el' el _ T_ref F3 (Rmin_l _ _) ltac:(lra) ltac:(lra) (proj1 O3) (proj2 O3)) as S3.
    pose proof (step_le ve el eh eh' _ T_top F4 U2 ltac:(lra) ltac:(lra) ltac:(lra) O4) as S4.
    pose proof rim_pos as X0. unfold rim_width in X0, Hx. set (x := Rmin _ _) in X0, Hx.
    assert (XB : x <= step cl T_ref cl' cl /\ x <= step cl T_top ch ch' /\ x <= step el T_ref el' el /\ x <= step el T_top eh eh').
    { pose proof (Rle_refl x) as A. unfold x in A at 2. apply below_min in A as (A1 & A2). apply below_min in A1. apply below_min in A2. tauto. }
    clearbody x. destruct XB as (X1 & X2 & X3 & X4). unfold spread in Hx.
    pose proof (Rabs_pos (/ cd_T_c c - / cd_T_c i)). pose proof (Rabs_pos (/ cd_T_e c - / cd_T_e i)).
    split; [exact HP|]. fold Tk Tl vc ve. split.
    - apply (widened (level vc cl (Rmin T_ref (filling Tk))) _ (level vc ch (Rmax T_ref (filling Tk))) _ _ (cd_T_c i) x); try assumption; try lra;
        [apply level_pos; exact F1|apply level_lt; lra|apply level_lt; lra].
    - apply (widened (level ve el (Rmin T_ref (filling Tl))) _ (level ve eh (Rmax T_ref (filling Tl))) _ _ (cd_T_e i) x); try assumption; try lra;
        [apply level_pos; exact F3|apply level_lt; lra|apply level_lt; lra].
  Qed.
  Lemma VC1 T : between (V_comp r) cl' ch' 0 T.
  Proof. exact (VC' r cl ch cl' ch' VC O1 O2 T). Qed.
  Lemma VE1 T : between (V_exp r) el' eh' 0 T.
  Proof. exact (VE' r el eh el' eh' VE O3 O4 T). Qed.
  Let low_hot : warm T_low := low_warm r T_low V_hi v_hi rho rv HS.
  Lemma WC1 : warm (expanded cl' ch' Tk).
  Proof. apply (warm_le T_low); [exact low_hot|]. pose proof W1. lra. Qed.
  Lemma WE1 : warm (expanded el' eh' Tl).
  Proof. apply (warm_le T_low); [exact low_hot|]. pose proof W2. lra. Qed.
  Lemma P_bounds : let A := cl' / T_top + el' / T_top in let B := ch' / T_low + eh' / T_low in
    let rlo := cl' / compressed cl' ch' Tk + fixed_ratio r + el' / compressed el' eh' Tl in
    let rhi := ch' / expanded cl' ch' Tk + fixed_ratio r + eh' / expanded el' eh' Tl in
    0 < least_P P0 <= P0 * rlo / rhi /\ P0 * rhi / rlo <= most_P P0 /\ least_P P0 <= most_P P0.
  Proof.
    intros A B rlo rhi. pose proof low_T as L0. destruct tops as (U1 & U2 & U0). destruct orders as (R1 & R2). destruct fills as (F1 & F2 & F3 & F4).
    pose proof M1 as N1. pose proof M2 as N2. pose proof M3 as N3. pose proof M4 as N4.
    pose proof (fill_le_compressed cl' ch' Tk ltac:(lra) ltac:(lra) F2) as G1. pose proof (fill_le_compressed el' eh' Tl ltac:(lra) ltac:(lra) F4) as G2.
    assert (FR : 0 < fixed_ratio r) by apply HS.
    assert (I : forall a b c d, 0 < a -> a <= b -> 0 < d -> d <= c -> a / c <= b / d).
    { intros a b c d H1 H2 H3 H4. unfold Rdiv. apply Rmult_le_compat; [lra|left; apply Rinv_0_lt_compat; lra|exact H2|apply Rinv_le_contravar; assumption]. }
    assert (A0 : 0 < A) by (unfold A; apply Rplus_lt_0_compat; apply Rdiv_lt_0_compat; lra).
    assert (HTT : T_low <= T_top).
    { pose proof HB as (_ & _ & _ & _ & _ & _ & _ & _ & _ & (? & ?) & _). lra. }
    assert (AB : A <= B) by (unfold A, B; apply Rplus_le_compat; apply I; lra).
    assert (RL : A + fixed_ratio r <= rlo).
    { pose proof (I cl' cl' T_top (compressed cl' ch' Tk) ltac:(lra) ltac:(lra) ltac:(lra) ltac:(lra)).
      pose proof (I el' el' T_top (compressed el' eh' Tl) ltac:(lra) ltac:(lra) ltac:(lra) ltac:(lra)). unfold A, rlo. lra. }
    assert (RH : 0 < rhi <= B + fixed_ratio r).
    { pose proof (I ch' ch' (expanded cl' ch' Tk) T_low ltac:(lra) ltac:(lra) ltac:(lra) ltac:(lra)).
      pose proof (I eh' eh' (expanded el' eh' Tl) T_low ltac:(lra) ltac:(lra) ltac:(lra) ltac:(lra)).
      assert (0 < ch' / expanded cl' ch' Tk) by (apply Rdiv_lt_0_compat; lra). assert (0 < eh' / expanded el' eh' Tl) by (apply Rdiv_lt_0_compat; lra).
      unfold B, rhi. lra. }
    assert (X : A * rhi <= B * rlo).
    { apply Rle_trans with (A * (B + fixed_ratio r)); [apply Rmult_le_compat_l; lra|]. apply Rle_trans with (B * (A + fixed_ratio r)); [|apply Rmult_le_compat_l; lra].
      assert (A * fixed_ratio r <= B * fixed_ratio r) by (apply Rmult_le_compat_r; lra). lra. }
    unfold least_P, most_P. fold A B. clearbody A B rlo rhi. assert (rlo0 : 0 < rlo) by lra.
    assert (CM : forall a b c d, 0 < b -> 0 < d -> a * d <= c * b -> P0 * a / b <= P0 * c / d).
    { intros a b c d Hb Hd' H. apply (Rmult_le_reg_r b); [exact Hb|]. apply (Rmult_le_reg_r d); [exact Hd'|].
      replace (P0 * a / b * b * d) with (P0 * (a * d)) by (field; lra). replace (P0 * c / d * b * d) with (P0 * (c * b)) by (field; lra).
      apply Rmult_le_compat_l; lra. }
    split; [split|split].
    - apply Rdiv_lt_0_compat; [apply Rmult_lt_0_compat; lra|lra].
    - apply CM; lra.
    - apply CM; lra.
    - apply CM; [lra|lra|]. apply Rmult_le_compat; lra.
  Qed.
  Lemma round_box ic : outer ic -> exists c, c 0 = ic /\ (forall t, 0 <= t <= ru_period r -> physical_trajectory D r c t) /\
    forall t, 0 <= t <= ru_period r -> least_P P0 <= cd_P (c t) <= most_P P0 /\
      T_low + mg <= cd_T_c (c t) <= T_top - mg /\ T_low + mg <= cd_T_e (c t) <= T_top - mg.
  Proof.
    destruct ic as [p x y]. intros (HP & Hx & Hy). cbn [cd_P cd_T_c cd_T_e] in *. subst p.
    pose proof (proj1 (proj2 HS)) as QC. pose proof (proj1 (proj2 (proj2 HS))) as QE.
    destruct (from_start comps s0 r D P0 cl' ch' el' eh' Hfl Hd Hr Hn HD HC VC1 VE1 QC QE HX HP0 WC1 WE1 x y Hx Hy) as (c & E & H).
    assert (G : forall t, 0 <= t <= ru_period r -> physical_trajectory D r c t) by (intros t Ht; apply H; lra).
    exists c. split; [exact E|]. split; [exact G|]. intros t Ht.
    pose proof (common_box comps s0 r D P0 cl' ch' el' eh' Hfl Hd Hr HD VC1 VE1 QC QE HX HP0 WC1 WE1 x y c Hx Hy (conj E G) t Ht)
        as (B0 & B1 & B2). cbn [cd_P cd_T_c cd_T_e] in B0, B1, B2. fold Tk in B0, B1. fold Tl in B0, B2.
    destruct P_bounds as ((_ & L1) & L2 & _). pose proof M1. pose proof M2. pose proof M3. pose proof M4. lra.
  Qed.
  Lemma steady : exists c', steady_cycle D r c' /\ warm_trajectory D r T_low c' /\ cd_P (c' 0) = P0.
  Proof.
    destruct fills as (F1 & F2 & F3 & F4). destruct orders as (R1 & R2).
    destruct (engine_settles comps s0 r D cl ch el eh T_low V_hi v_hi rho rv Hfl Hd Hr Hn HD HC VC VE HX HS) with (P0 := P0) as (c' & PC & SC & WT & _).
    { fold Tk. apply Rlt_le, Rlt_le_trans with (1 := W1). apply expanded_wider; lra. }
    { fold Tl. apply Rlt_le, Rlt_le_trans with (1 := W2). apply expanded_wider; lra. }
    { exact HP0. }
    exists c'. auto.
  Qed.
  (** an integrator with this accuracy is reliable *)
  Lemma dependable_by E tol n h e : 0 <= e <= accuracy P0 -> accurate E D r outer tol 2 (ru_period r) e -> accurate E D r outer tol n h e ->
    reliable E D r T_low (rev e) P0 (about s0 r cl ch el eh cl' ch' el' eh' (rev e / (1 - qr))) tol n.
  Proof.
    destruct steady as (c' & _ & WT & _). pose proof low_T as TP. pose proof (q_pos D r T_low V_hi v_hi rho rv c' HS WT) as Q0. fold qr in Q0.
    assert (TT : 0 < T_low * T_low) by (apply Rmult_lt_0_compat; exact TP). pose proof rim_pos as X0. destruct P_bounds as ((LP & _) & _).
    unfold accuracy. intros (e0 & ed) A2 An i (HO & i' & HI & HN). apply below_min in ed as (ed & e3). apply below_min in ed as (e1 & e2).
    assert (Qle : qr <= q) by apply HB.
    pose proof (tau_nonneg comps s0 r Hd Hr) as T0.
    assert (RE : 0 <= rev e) by (unfold rev; apply Rle_mult_inv_pos; lra).
    destruct (round_box i HO) as (z & Z0 & Z1 & ZB). split.
    - destruct (A2 i HO) as (pts & E1 & S1 & G1 & _ & N1). specialize (N1 z Z0 Z1).
      destruct G1 as (_ & _ & (pre & G2) & _). destruct (map_eq_app _ _ _ _ (eq_trans G2 eq_refl)) as (l1 & l2 & -> & _ & G3).
      destruct l2 as [|p [|? ?]]; [discriminate G3| |discriminate G3]. injection G3 as G3.
      rewrite Forall_forall in N1. specialize (N1 p ltac:(apply in_or_app; right; left; reflexivity)). rewrite G3 in N1.
      exists (l1 ++ [p]), (pt_conditions p). split; [exact E1|]. destruct (ZB (ru_period r) ltac:(lra)) as (_ & ZC & ZE).
      destruct (gap_parts _ _ _ N1) as (_ & NC & NE). apply abs_le_iff in NC, NE.
      assert (SP : spread (pt_conditions p) (z (ru_period r)) <= rev e).
      { eapply Rle_trans; [apply (gap_spread _ _ T_low TP); lra|]. unfold rev, Rdiv. apply Rmult_le_compat_r; [|exact N1].
        left. apply Rinv_0_lt_compat, TT. }
      assert (RV : revolution D r T_low i (z (ru_period r))).
      { exists z. split; [exact Z0|]. split; [reflexivity|]. split; [|exact Z1]. intros t Ht. destruct (ZB t Ht) as (_ & B1 & B2). lra. }
      split.
      + split; [exact S1|]. split; [exists l1, p; auto|]. split; [lra|]. split; [lra|]. exists (z (ru_period r)). split; [exact RV|exact SP].
      + pose proof (proj1 (proj2 HS)) as QC. pose proof (proj1 (proj2 (proj2 HS))) as QE.
        destruct (WC0 r cl ch el eh cl' ch' el' eh' T_low V_hi v_hi rho rv HX VC VE O1 O2 O3 O4 HS W1 W2) as (WCi & WEi).
        destruct (round comps s0 r D P0 cl ch el eh Hfl Hd Hr Hn HD HC VC VE QC QE HX HP0 WCi WEi i' HI) as (z' & Z0' & Z1' & ZL' & _).
        destruct (round_box i' (inner_outer s0 r cl ch el eh cl' ch' el' eh' HX VC VE O1 O2 O3 O4 i' HI)) as (z2 & Z02 & Z12 & ZB2).
        assert (ZZ : forall t, 0 <= t <= ru_period r -> z' t = z2 t).
        { intros t Ht. apply (trajectories_agree Helium r D D z' z2 0 (ru_period r) 0 (Hf comps s0 r Hfl Hd Hr) HD HD); [lra| |congruence|exact Ht].
          intros u Hu. split; [apply Z1'|apply Z12]; lra. }
        assert (CT : spread (z (ru_period r)) (z' (ru_period r)) <= qr * spread i i').
        { rewrite <- Z0, <- Z0'. apply (settled D D r T_low V_hi v_hi rho rv z z' HS HD HD Z1 Z1').
          - intros t Ht. destruct (ZB t Ht) as (_ & B1 & B2). lra.
          - intros t Ht. rewrite (ZZ t Ht). destruct (ZB2 t Ht) as (_ & B1 & B2). lra. }
        set (i2 := mkCond P0 (cd_T_c (z' (ru_period r))) (cd_T_e (z' (ru_period r)))) in *.
        set (fin := mkCond P0 (cd_T_c (pt_conditions p)) (cd_T_e (pt_conditions p))).
        assert (SF : spread fin i2 <= rev e / (1 - qr)).
        { change (spread fin i2) with (spread (pt_conditions p) (z' (ru_period r))).
          pose proof (spread_tri (pt_conditions p) (z (ru_period r)) (z' (ru_period r))) as S3.
          assert (M : qr * spread i i' <= qr * (rev e / (1 - qr))) by (apply Rmult_le_compat_l; assumption).
          replace (rev e / (1 - qr)) with (qr * (rev e / (1 - qr)) + rev e) by (field; lra). lra. }
        split; [|exists i2; split; [exact ZL'|exact SF]].
        apply (rim_by fin i2 ZL' eq_refl); cbn [fin cd_T_c cd_T_e]; try lra.
        eapply Rle_trans; [exact SF|]. apply (Rmult_le_reg_r (1 - qr)); [lra|]. apply (Rmult_le_reg_r (T_low * T_low)); [exact TT|].
        unfold rev. replace (e / (T_low * T_low) / (1 - qr) * (1 - qr) * (T_low * T_low)) with e by (field; lra).
        apply Rle_trans with (1 := e3). apply Rmult_le_compat_r; [lra|]. apply Rmult_le_compat_l; lra.
    - destruct (An i HO) as (pts & E1 & S1 & G1 & _ & N1). specialize (N1 z Z0 Z1). exists pts. split; [exact E1|]. split; [exact S1|].
      apply Forall_forall. intros p Hp. rewrite Forall_forall in N1. specialize (N1 p Hp).
      pose proof (grid_range _ _ G1 (pt_time p) (in_map _ _ _ Hp)) as Ht. destruct (ZB _ Ht) as (B0 & B1 & B2).
      destruct (gap_parts _ _ _ N1) as (NP & NC & NE). apply abs_le_iff in NP, NC, NE.
      apply (near_physical comps s0 r cl' ch' el' eh' Hfl Hd Hr Hn VC1 VE1 HX); [exact Ht|lra| |].
      + apply (warm_le T_low); [exact low_hot|lra].
      + apply (warm_le T_low); [exact low_hot|lra].
  Qed.
  (** what the search finds *)
  Definition found_sample (v : SeValues R) : Prop :=
    0 <= sv_time v <= ru_period r /\ 0 < cd_P (sv_conditions v) <= 2 * most_P P0 /\
    T_low <= cd_T_c (sv_conditions v) <= T_top /\ T_low <= cd_T_e (sv_conditions v) <= T_top /\
    physical (Run_calculate_inputs r (sv_time v) (sv_conditions v)) /\
    solved_at D r (sv_time v) (sv_conditions v) (sv_solution v).
  Lemma search_details E settings e h n : 0 <= e <= accuracy P0 -> accurate E D r outer (rs_ode_tol settings) 2 (ru_period r) e ->
    accurate E D r outer (rs_ode_tol settings) (rs_resolution settings) h e ->
    passes_test (lt_inner (rs_loop_tol settings)) T_top (change_after q (rev e) (2 / T_low) n) ->
    (n < N.to_nat (mi_inner (rs_max_iters settings)))%nat ->
    exists k vs ic pts z, find_steady_state_counted E D (Run_Cycle r) (search_of s0 settings) = (k, Ret (Ok vs)) /\ (k <= n + 2)%nat /\
      about s0 r cl ch el eh cl' ch' el' eh' (rev e / (1 - qr)) ic /\
      try_from E D (Run_Cycle r) ic (rs_resolution settings) (rs_ode_tol settings) = Ret (Ok pts) /\ values_of_points D (Run_Cycle r) pts vs /\
      (exists v rest, vs = v :: rest /\ sv_conditions v = ic) /\
      z 0 = ic /\ (forall t, 0 <= t <= ru_period r -> physical_trajectory D r z t) /\
      (forall t, 0 <= t <= ru_period r -> least_P P0 <= cd_P (z t) <= most_P P0 /\
        T_low + mg <= cd_T_c (z t) <= T_top - mg /\ T_low + mg <= cd_T_e (z t) <= T_top - mg) /\
      spread (z (ru_period r)) ic <= 2 * test_error T_low qr (rev e) (lt_inner (rs_loop_tol settings)) /\
      Forall (fun v => gap (sv_conditions v) (z (sv_time v)) <= e) vs.
  Proof.
    intros He A2 An HP Hni. destruct steady as (c' & SC & WT & CP). pose proof SC as (HT & HPr).
    assert (E0 : c' (ru_period r) = c' 0) by (rewrite <- (HPr 0) by lra; f_equal; ring).
    pose proof low_T as TP. pose proof (q_pos D r T_low V_hi v_hi rho rv c' HS WT) as Q0. fold qr in Q0.
    assert (TT : 0 < T_low * T_low) by (apply Rmult_lt_0_compat; exact TP). assert (Qle : qr <= q) by apply HB.
    assert (RE : 0 <= rev e) by (unfold rev; apply Rle_mult_inv_pos; lra).
    destruct tops as (U1 & U2 & U0). destruct fills as (F1 & F2 & F3 & F4). destruct orders as (R1 & R2).
    destruct (VC 0) as (C0 & C1), (VE 0) as (E0' & E1). specialize (C1 0 ltac:(lra)). specialize (E1 0 ltac:(lra)).
    pose proof M3 as N3. pose proof M4 as N4. pose proof M1 as N1. pose proof M2 as N2.
    set (ic := mkCond P0 (te_chx (s_temp s0)) (te_hhx (s_temp s0))).
    assert (TS : T_low <= te_chx (s_temp s0) /\ T_low <= te_hhx (s_temp s0)).
    { rewrite (same_temps comps s0 r cl ch el eh cl' ch' el' eh' T_low V_hi v_hi rho rv Hr HX VC VE HS HQr W1 W2). split; apply HB. }
    assert (SPR : spread ic (c' 0) <= 2 / T_low).
    { destruct (WT 0 (Rle_refl 0)) as (_ & L1 & L2). unfold spread, ic. cbn [cd_T_c cd_T_e].
      assert (I : forall a b, T_low <= a -> T_low <= b -> Rabs (/ a - / b) <= / T_low).
      { intros a b Ha Hb. assert (0 < / a <= / T_low) by (split; [apply Rinv_0_lt_compat|apply Rinv_le_contravar]; lra).
        assert (0 < / b <= / T_low) by (split; [apply Rinv_0_lt_compat|apply Rinv_le_contravar]; lra). apply abs_le_iff. lra. }
      replace (2 / T_low) with (/ T_low + / T_low) by (field; lra). apply Rplus_le_compat; apply I; tauto. }
    destruct (search_finds E D r T_low V_hi v_hi rho rv (rev e) P0 c' HS HQr HD WT E0
      (about s0 r cl ch el eh cl' ch' el' eh' (rev e / (1 - qr))) T_top (search_of s0 settings) HC RE
      (dependable_by E (rs_ode_tol settings) (rs_resolution settings) h e He A2 An) eq_refl) with (n := n) as (k & vs & S1 & S2 & S3 & S4).
    { intros c (HO' & _). destruct HO' as (B0 & (_ & B1) & (_ & B2)). fold Tk in B1. fold Tl in B2. split; [exact B0|].
      pose proof (level_le_compressed (V_comp r 0) cl' ch' Tk ltac:(lra) ltac:(lra) F2). pose proof (level_le_compressed (V_exp r 0) el' eh' Tl ltac:(lra) ltac:(lra) F4). lra. }
    { pose proof (starts_inside comps s0 r cl ch el eh cl' ch' el' eh' T_low V_hi v_hi rho rv Hr HX VC VE HS HQr W1 W2) as HI.
      split; [exact (inner_outer s0 r cl ch el eh cl' ch' el' eh' HX VC VE O1 O2 O3 O4 _ HI)|]. exists ic. split; [exact HI|].
      unfold spread. cbn [cd_T_c cd_T_e search_of ssi_temp_comp_hint ssi_temp_exp_hint ic]. rewrite !Rminus_diag_eq, Rabs_R0 by reflexivity.
      rewrite Rplus_0_r. apply Rle_mult_inv_pos; lra. }
    { exact Hni. }
    { apply (passes_less _ _ _ (change_after q (rev e) (2 / T_low) n)); [lra| |exact HP].
      apply Rle_trans with (change_after qr (rev e) (2 / T_low) n); [apply change_far; [exact Q0|exact SPR]|].
      apply change_mono; try assumption. left. apply Rdiv_lt_0_compat; lra. }
    destruct S4 as (i & pts & HA & T1 & T2). pose proof HA as (HO & _). cbn [search_of ssi_num_points ssi_ode_tol] in T1.
    destruct (An i HO) as (pts' & T1' & ST & G1 & G2 & G3). assert (pts' = pts) as -> by congruence.
    destruct (round_box i HO) as (z & Z0 & Z1 & ZB). specialize (G3 z Z0 Z1).
    exists k, vs, i, pts, z. split; [exact S1|]. split; [exact S2|]. split; [exact HA|]. split; [exact T1|]. split; [exact T2|].
    assert (HV : exists v rest, vs = v :: rest /\ sv_conditions v = i).
    { destruct ST as (p & rest & -> & Ep). inversion T2 as [|? v ? vs' (_ & H2 & _) _]; subst. exists v, vs'. split; [reflexivity|congruence]. }
    split; [exact HV|]. split; [exact Z0|]. split; [exact Z1|]. split; [exact ZB|]. split.
    - destruct S3 as (v & rest & E3 & _ & S3). destruct HV as (v' & rest' & E4 & HV). rewrite E3 in E4. injection E4 as <- <-. rewrite HV in S3.
      cbn [search_of ssi_conv_tol] in S3. fold qr in S3. set (te := test_error T_low qr (rev e) (lt_inner (rs_loop_tol settings))) in *.
      pose proof (tau_nonneg comps s0 r Hd Hr) as T0.
      assert (CT : spread (z (ru_period r)) (c' (ru_period r)) <= qr * spread (z 0) (c' 0)).
      { apply (settled D D r T_low V_hi v_hi rho rv z c' HS HD HD Z1).
        - intros t Ht. apply HT. lra.
        - intros t Ht. destruct (ZB t Ht) as (_ & B1 & B2). lra.
        - intros t Ht. destruct (WT t (proj1 Ht)) as (_ & L1 & L2). auto. }
      rewrite Z0, E0 in CT. pose proof (spread_tri (z (ru_period r)) (c' 0) i) as S5. rewrite (spread_sym (c' 0) i) in S5.
      assert (qr * spread i (c' 0) <= 1 * spread i (c' 0)) by (apply Rmult_le_compat_r; [apply spread_pos|lra]). lra.
    - clear - T2 G3. induction T2 as [|p v pts vs (H1 & H2 & _) _ IH]; constructor.
      + apply Forall_inv in G3. rewrite H1, H2. exact G3.
      + apply IH. exact (Forall_inv_tail G3).
  Qed.
  Lemma search_at E settings e h n : 0 <= e <= accuracy P0 -> accurate E D r outer (rs_ode_tol settings) 2 (ru_period r) e ->
    accurate E D r outer (rs_ode_tol settings) (rs_resolution settings) h e ->
    passes_test (lt_inner (rs_loop_tol settings)) T_top (change_after q (rev e) (2 / T_low) n) ->
    (n < N.to_nat (mi_inner (rs_max_iters settings)))%nat ->
    exists k vs, find_steady_state_counted E D (Run_Cycle r) (search_of s0 settings) = (k, Ret (Ok vs)) /\ (k <= n + 2)%nat /\
      (exists v rest, vs = v :: rest /\ cd_P (sv_conditions v) = P0) /\
      grid_to (map (@sv_time R) vs) (ru_period r) /\ steps_within h (map (@sv_time R) vs) /\ Forall found_sample vs.
  Proof.
    intros He A2 An HP Hni. destruct (search_details E settings e h n He A2 An HP Hni) as (k & vs & i & pts & z & S1 & S2 & (HO & _) & T1 & T2 & HV & Z0 & Z1 & ZB & _ & G4).
    exists k, vs. split; [exact S1|]. split; [exact S2|].
    destruct (An i HO) as (pts' & T1' & _ & G1 & G2 & G3). assert (pts' = pts) as -> by congruence.
    split; [destruct HV as (v & rest & -> & HV); exists v, rest; split; [reflexivity|rewrite HV; apply HO]|].
    pose proof (values_times D r pts vs T2) as VT. rewrite VT. split; [exact G1|]. split; [exact G2|].
    pose proof (values_solved D r pts vs T2) as VS.
    destruct P_bounds as ((PL & _) & _ & PM). destruct He as (e0 & ed). unfold accuracy in ed. apply below_min in ed as (ed & _). apply below_min in ed as (ed1 & ed2).
    rewrite <- VT in G1. pose proof (grid_range _ _ G1) as GR. pose proof low_T as TP.
    clear S1 T1 T1' VT G1 G2 An A2 HV G3 T2.
    induction vs as [|v vs IH]; constructor.
    - pose proof (Forall_inv VS) as SV. apply Forall_inv in G4. pose proof (GR _ (or_introl eq_refl)) as Ht.
      destruct (ZB _ Ht) as (B0 & B1 & B2). destruct (gap_parts _ _ _ G4) as (NP & NC & NE). apply abs_le_iff in NP, NC, NE.
      unfold found_sample. split; [exact Ht|]. split; [lra|]. split; [lra|]. split; [lra|]. split; [|exact SV].
      apply (near_physical comps s0 r cl' ch' el' eh' Hfl Hd Hr Hn VC1 VE1 (proj1 HB)); [exact Ht|lra| |].
      + apply (warm_le T_low); [exact low_hot|lra].
      + apply (warm_le T_low); [exact low_hot|lra].
    - apply IH; try exact (Forall_inv_tail VS); try exact (Forall_inv_tail G4). intros t Ht. apply GR. right. exact Ht.
  Qed.
  (** the samples of a search *)
  Let Vf := ru_vol_chx r + ru_vol_regen r + ru_vol_hhx r.
  Definition flow_most (Vf P0 : R) : R := flow_cap T_low (2 * most_P P0) V_hi v_hi Vf (Vf / T_top).
  Definition heat_most (Vf P0 : R) : R := heat_cap T_low T_top (2 * most_P P0) V_hi v_hi Vf (Vf / T_top).
  Let FM := flow_most Vf P0.
  Let HM := heat_most Vf P0.
  Lemma run_gas : ru_fluid r = IdealGas_Fluid he. Proof. apply HS. Qed.
  Lemma sample_sizes v : found_sample v -> let s := sv_solution v in
    Rabs (so_m_dot_ck s) <= FM /\ Rabs (so_m_dot_kr s) <= FM /\ Rabs (so_m_dot_rl s) <= FM /\ Rabs (so_m_dot_le s) <= FM /\
    Rabs (so_Q_dot_k s) <= HM /\ Rabs (so_Q_dot_l s) <= HM.
  Proof.
    intros (Ht & HP & T1 & T2 & Hph & (hint & Hs)). cbv zeta.
    destruct steady as (c' & (HT & _) & _). destruct (HT _ (proj1 Ht)) as ((_ & TD & _) & _).
    pose proof HS as (_ & L1 & L2 & _ & L3 & L4 & L5 & L6 & L7 & _). destruct (L7 _ (proj1 Ht)) as (L71 & L72 & L73 & L74).
    pose proof HX as (_ & _ & _ & X1 & X2 & X3). pose proof HB as (_ & _ & _ & _ & _ & _ & _ & _ & _ & I1 & I2 & I3 & I4 & I5).
    destruct tops as (_ & _ & U0). pose proof low_T as TP.
    assert (FR : 0 < Vf / T_top <= fixed_ratio r).
    { assert (V0 : 0 < Vf).
      { destruct (Rlt_le_dec 0 Vf) as [L|L]; [exact L|]. exfalso. unfold Vf in L. unfold fixed_ratio in L6.
        assert (Z1 : ru_vol_chx r = 0) by lra. assert (Z2 : ru_vol_regen r = 0) by lra. assert (Z3 : ru_vol_hhx r = 0) by lra.
        rewrite Z1, Z2, Z3 in L6. unfold Rdiv in L6. lra. }
      split; [apply Rdiv_lt_0_compat; assumption|]. unfold fixed_ratio, Vf.
      replace ((ru_vol_chx r + ru_vol_regen r + ru_vol_hhx r) / T_top) with (ru_vol_chx r / T_top + ru_vol_regen r / T_top + ru_vol_hhx r / T_top) by (field; lra).
      repeat apply Rplus_le_compat; unfold Rdiv; apply Rmult_le_compat_l; try assumption; apply Rinv_le_contravar; lra. }
    apply (point_bounds r run_gas L1 L2 ltac:(lra) ltac:(lra) T_low T_top (2 * most_P P0) V_hi v_hi Vf (Vf / T_top) L3 FR
      ltac:(unfold Vf; lra) (conj I1 (conj I2 (conj I3 (conj I4 I5)))) D _ _ hint _ HD TD Hph Hs); try assumption. lra.
  Qed.
  Lemma sample_pushed v : found_sample v -> pushes_at r (sv_time v) -> let s := sv_solution v in
    0 < / 2 * Rabs (so_m_dot_ck s + so_m_dot_kr s) /\ 0 < / 2 * Rabs (so_m_dot_kr s + so_m_dot_rl s) /\ 0 < / 2 * Rabs (so_m_dot_rl s + so_m_dot_le s).
  Proof.
    intros (Ht & HP & T1 & T2 & Hph & (hint & Hs)) HU. cbv zeta. set (x := sv_conditions v) in *. set (t := sv_time v) in *. set (s := sv_solution v) in *.
    destruct steady as (c' & (HT & _) & _). destruct (HT _ (proj1 Ht)) as ((_ & TD & _) & _ & CR).
    pose proof HS as (_ & L1 & L2 & _ & L3 & L4 & L5 & _). pose proof HX as (_ & _ & X3 & _). pose proof low_T as TP.
    set (c := fun u => mkCond (cd_P x + so_dP_dt s * (u - t)) (cd_T_c x + so_dTc_dt s * (u - t)) (cd_T_e x + so_dTe_dt s * (u - t))).
    assert (Ec : c t = x) by (unfold c; rewrite Rminus_diag_eq, !Rmult_0_r, !Rplus_0_r by reflexivity; destruct x; reflexivity).
    assert (HF : follows c s t) by (unfold follows, has_deriv, c; cbn [cd_P cd_T_c cd_T_e]; repeat split; apply deriv_line).
    assert (PT : physical_trajectory D r c t).
    { split; [|rewrite Ec; split; assumption]. split; [rewrite Ec; unfold positive_temps; fold Tk Tl in L4, L5 |- *; lra|]. split; [exact TD|].
      exists hint, s. rewrite Ec. auto. }
    assert (Q : forall a b, (0 < a /\ 0 < b) \/ (a < 0 /\ b < 0) -> 0 < / 2 * Rabs (a + b)).
    { intros a b H. assert (0 < Rabs (a + b)) by (apply Rabs_pos_lt; lra). lra. }
    destruct (pushed Helium D r c run_gas HD L1 L2 t s PT ltac:(exists hint; rewrite Ec; exact Hs) HU) as [(Y1 & Y2 & Y3 & Y4)|(Y1 & Y2 & Y3 & Y4)];
      (split; [apply Q; lra|]; split; apply Q; lra).
  Qed.
  (** what the outer loop makes of them *)
  Definition approach_most (Vf P0 : R) (res : ThermalResistance R) : R :=
    heat_most Vf P0 + T_top * (Rabs (/ tr_comp res) + Rabs (/ tr_exp res)) + T_top * (2 * cp_he * flow_most Vf P0).
  Lemma averages_sizes vs x y h m Q res : vs <> [] -> grid_to (map (@sv_time R) vs) (ru_period r) -> steps_within h (map (@sv_time R) vs) -> Forall found_sample vs ->
    0 <= x < y -> y <= ru_period r -> 0 <= h < (y - x) / 2 -> (forall t, x < t < y -> pushes_at r t) ->
    mass_flow_averages (Values_from vs) m -> heat_flow_averages (Values_from vs) (te_chx (s_temp s0)) (te_hhx (s_temp s0)) res Q ->
    0 < mf_chx m <= FM /\ 0 < mf_regen m <= FM /\ 0 < mf_hhx m <= FM /\
    Rabs (hf_chx Q) <= HM + T_top * (Rabs (/ tr_comp res) + Rabs (/ tr_exp res)) /\ Rabs (hf_hhx Q) <= HM + T_top * (Rabs (/ tr_comp res) + Rabs (/ tr_exp res)).
  Proof.
    intros NE HG HSt HF Hxy Hy Hh HU (A1 & A2 & A3) (q_c & q_k & q_e & q_l & (_ & B1) & (_ & B2) & B3 & B4 & _ & -> & ->).
    specialize (B1 eq_refl). specialize (B2 eq_refl). rewrite Forall_forall in HF.
    unfold Values_from in A1, A2, A3, B1, B2, B3, B4. cbn [vs_time vs_m_dot_ck vs_m_dot_kr vs_m_dot_rl vs_m_dot_le vs_Q_dot_k vs_Q_dot_l vs_T_c vs_T_e] in *.
    change (map (fun v : SeValues R => sv_time v) vs) with (map (@sv_time R) vs) in *.
    pose proof (magnitudes_map (fun v => so_m_dot_ck (sv_solution v)) (fun v => so_m_dot_kr (sv_solution v)) vs) as G1.
    pose proof (magnitudes_map (fun v => so_m_dot_kr (sv_solution v)) (fun v => so_m_dot_rl (sv_solution v)) vs) as G2.
    pose proof (magnitudes_map (fun v => so_m_dot_rl (sv_solution v)) (fun v => so_m_dot_le (sv_solution v)) vs) as G3. cbv beta in G1, G2, G3.
    rewrite G1 in A1. rewrite G2 in A2. rewrite G3 in A3. clear G1 G2 G3. rewrite !map_map in B1, B2.
    pose proof (average_is _ _ _ _ A1 HG) as E1. pose proof (average_is _ _ _ _ A2 HG) as E2. pose proof (average_is _ _ _ _ A3 HG) as E3.
    pose proof (average_is _ _ _ _ B1 HG) as E4. pose proof (average_is _ _ _ _ B2 HG) as E5. pose proof (average_is _ _ _ _ B3 HG) as E6. pose proof (average_is _ _ _ _ B4 HG) as E7.
    pose proof HG as (G1 & (rest & G2) & (pre & G3) & G4).
    assert (FL : (exists v rest, vs = v :: rest /\ sv_time v <= (x + y) / 2) /\ (exists v pre, vs = pre ++ [v] /\ (x + y) / 2 < sv_time v)).
    { split.
      - destruct vs as [|v vs']; [congruence|]. injection G2 as G2 _. exists v, vs'. split; [reflexivity|]. rewrite G2. lra.
      - destruct (map_eq_app _ _ _ _ G3) as (l1 & l2 & -> & _ & G5). destruct l2 as [|v [|? ?]]; [discriminate G5| |discriminate G5]. injection G5 as G5.
        exists v, l1. split; [reflexivity|]. rewrite G5. lra. }
    destruct FL as (FL1 & FL2).
    assert (MP : forall f, (forall v, In v vs -> 0 <= f v <= FM) -> (forall v, found_sample v -> pushes_at r (sv_time v) -> 0 < f v) ->
      0 < integrate (map (@sv_time R) vs) (map f vs) / ru_period r <= FM).
    { intros f F1 F2. split.
      - apply Rdiv_lt_0_compat; [|exact G4]. apply (integrate_pos f vs x y h G1 HSt); try assumption.
        + intros v Hv. apply F1, Hv.
        + intros v Hv Hx. apply F2; [apply HF, Hv|apply HU, Hx].
      - apply Rle_trans with (1 := Rle_abs _). apply (mean_within f vs (ru_period r) FM HG). intros v Hv. rewrite Rabs_pos_eq; apply F1; exact Hv. }
    assert (AV : forall a b, Rabs a <= FM -> Rabs b <= FM -> 0 <= / 2 * Rabs (a + b) <= FM).
    { intros a b Ha Hb. pose proof (Rabs_pos (a + b)). pose proof (abs_le_add a b FM FM Ha Hb). lra. }
    split; [rewrite E1; apply MP; [intros v Hv; destruct (sample_sizes v (HF v Hv)) as (S1 & S2 & _); apply AV; assumption|intros v Hv Hp; apply (sample_pushed v Hv Hp)]|].
    split; [rewrite E2; apply MP; [intros v Hv; destruct (sample_sizes v (HF v Hv)) as (_ & S1 & S2 & _); apply AV; assumption|intros v Hv Hp; apply (sample_pushed v Hv Hp)]|].
    split; [rewrite E3; apply MP; [intros v Hv; destruct (sample_sizes v (HF v Hv)) as (_ & _ & S1 & S2 & _); apply AV; assumption|intros v Hv Hp; apply (sample_pushed v Hv Hp)]|].
    pose proof HB as (_ & _ & _ & _ & _ & _ & _ & _ & _ & I1 & I2 & _). pose proof low_T as TP. destruct tops as (_ & _ & U0).
    pose proof (same_temps comps s0 r cl ch el eh cl' ch' el' eh' T_low V_hi v_hi rho rv Hr HX VC VE HS HQr W1 W2) as ST.
    rewrite <- ST in I1, I2.
    pose proof (Rabs_pos (/ tr_comp res)) as Z1. pose proof (Rabs_pos (/ tr_exp res)) as Z2.
    assert (Z3 : 0 <= T_top * Rabs (/ tr_comp res)) by (apply Rmult_le_pos; lra). assert (Z4 : 0 <= T_top * Rabs (/ tr_exp res)) by (apply Rmult_le_pos; lra).
    assert (QC : Rabs q_c <= T_top * Rabs (/ tr_comp res)).
    { rewrite E4. apply (mean_within (fun v => (cd_T_c (sv_conditions v) - te_chx (s_temp s0)) / tr_comp res) vs (ru_period r) _ HG).
      intros v Hv. destruct (HF v Hv) as (_ & _ & TC & _). apply abs_le_mul; [apply abs_le_iff; lra|apply Rle_refl]. }
    assert (QE : Rabs q_e <= T_top * Rabs (/ tr_exp res)).
    { rewrite E5. apply (mean_within (fun v => (te_hhx (s_temp s0) - cd_T_e (sv_conditions v)) / tr_exp res) vs (ru_period r) _ HG).
      intros v Hv. destruct (HF v Hv) as (_ & _ & _ & TE & _). apply abs_le_mul; [apply abs_le_iff; lra|apply Rle_refl]. }
    assert (QK : Rabs q_k <= HM).
    { rewrite E6. apply (mean_within (fun v => so_Q_dot_k (sv_solution v)) vs (ru_period r) _ HG). intros v Hv. apply (sample_sizes v (HF v Hv)). }
    assert (QL : Rabs q_l <= HM).
    { rewrite E7. apply (mean_within (fun v => so_Q_dot_l (sv_solution v)) vs (ru_period r) _ HG). intros v Hv. apply (sample_sizes v (HF v Hv)). }
    split.
    - replace (HM + T_top * (Rabs (/ tr_comp res) + Rabs (/ tr_exp res))) with (T_top * Rabs (/ tr_comp res) + (HM + T_top * Rabs (/ tr_exp res))) by ring.
      apply abs_le_add; [exact QC|lra].
    - replace (HM + T_top * (Rabs (/ tr_comp res) + Rabs (/ tr_exp res))) with (T_top * Rabs (/ tr_exp res) + (HM + T_top * Rabs (/ tr_comp res))) by ring.
      apply abs_le_add; [exact QE|lra].
  Qed.
  Lemma updates vs tol x y h U kept w z g_k g_r g_l c_k c_r c_l res : (exists v rest, vs = v :: rest /\ cd_P (sv_conditions v) = P0) ->
    grid_to (map (@sv_time R) vs) (ru_period r) -> steps_within h (map (@sv_time R) vs) -> Forall found_sample vs ->
    0 <= x < y -> y <= ru_period r -> 0 <= h < (y - x) / 2 -> (forall t, x < t < y -> pushes_at r t) ->
    laws comps U kept g_k g_r g_l -> bases (approach_most Vf P0 res) w z g_k g_r g_l c_k c_r c_l ->
    ws_thermal_resistance (co_ws comps) (mkWsState (s_pres s0)) = Ret res ->
    State_update s0 comps (Values_from vs) tol = Ret (Err s0) \/
    exists s1, State_update s0 comps (Values_from vs) tol = Ret (Ok s1) /\ approaches_near s0 c_k c_r c_l w z s1 /\
      ~ temperatures_close tol (s_temp s0) (s_temp s1).
  Proof.
    intros HV HG HSt HF Hxy Hy Hh HU (_ & _ & _ & C1 & C2 & C3 & D1 & D2 & D3) (B1 & B2 & B3) HR.
    assert (NE : vs <> []) by (destruct HV as (v & rest & -> & _); discriminate).
    destruct (State_update s0 comps (Values_from vs) tol) as [[s'|s']|p] eqn:Hu.
    - right. exists s'. split; [reflexivity|]. apply State_update_spec in Hu as ((_ & (P' & HP') & _) & Hrec & Hnc & F1 & F2). split; [|exact Hnc].
      split; [exact F1|]. split.
      { destruct HV as (v & rest & -> & HV). unfold Values_from in HP'. cbn [vs_P map] in HP'. injection HP' as HP' _. rewrite <- HP'. exact HV. }
      split; [exact F2|]. destruct Hrec as (res' & b_k & b_r & b_l & _ & Q2 & Q3 & Q4 & Q5 & Q6 & Q7 & Q8).
      assert (res' = res) as -> by congruence. exists b_k, b_r, b_l.
      destruct (averages_sizes vs x y h _ _ _ NE HG HSt HF Hxy Hy Hh HU Q2 Q4) as ((M1 & M1') & (M2 & M2') & (M3 & M3') & N1 & N2).
      pose proof cp_pos as CP. destruct tops as (_ & _ & TT). pose proof low_T as TP.
      pose proof (proj1 (C1 (s_fluid s0) (te_chx (s_temp s0)) (te_sink (s_temp s0)) (pr_avg (s_pres s')) _ (hf_chx (s_heat_flow s')) Hfl M1)) as E1.
      pose proof (proj1 (C2 (s_fluid s0) (rt_avg (te_regen (s_temp s0))) (te_chx (s_temp s0)) (te_hhx (s_temp s0)) (pr_avg (s_pres s')) _ (hf_regen (s_heat_flow s')) Hfl M2)) as E2.
      pose proof (proj1 (C3 (s_fluid s0) (te_hhx (s_temp s0)) (te_source (s_temp s0)) (pr_avg (s_pres s')) _ (hf_hhx (s_heat_flow s')) Hfl M3)) as E3.
      cbv beta in E1, E2, E3. rewrite Q5 in E1. rewrite Q6 in E2. rewrite Q7 in E3. injection E1 as E1. injection E2 as E2. injection E3 as E3.
      assert (W0 : 0 <= T_top * (Rabs (/ tr_comp res) + Rabs (/ tr_exp res))).
      { apply Rmult_le_pos; [lra|]. pose proof (Rabs_pos (/ tr_comp res)). pose proof (Rabs_pos (/ tr_exp res)). lra. }
      assert (W3 : 0 <= T_top * (2 * cp_he * FM)) by (apply Rmult_le_pos; [lra|]; apply Rmult_le_pos; lra).
      assert (HM0 : 0 <= HM).
      { destruct HV as (v & rest & -> & _). apply Rle_trans with (2 := proj1 (proj2 (proj2 (proj2 (proj2 (sample_sizes v (Forall_inv HF))))))). apply Rabs_pos. }
      pose proof (same_temps comps s0 r cl ch el eh cl' ch' el' eh' T_low V_hi v_hi rho rv Hr HX VC VE HS HQr W1 W2) as ST.
      pose proof HB as (_ & _ & _ & _ & _ & _ & _ & _ & _ & I1 & I2 & _). rewrite <- ST in I1, I2.
      unfold approach_most in *. fold FM HM in B1, B2, B3. fold FM HM.
      split; [rewrite E1; apply B1; [lra|assumption]|]. split; [|split; [rewrite E3; apply B3; [lra|assumption]|exact Q8]].
      rewrite E2. apply (B2 FM T_top); [apply abs_le_iff; lra|split; assumption|lra].
    - left. apply State_update_spec in Hu as (-> & _). reflexivity.
    - exfalso. apply (State_update_panic _ _ _ _ _ _ (Values_from_series vs)) in Hu as [[_ Hu]|[Hu|Hu]].
      + exact (NE Hu).
      + congruence.
      + destruct Hu as [(st & Hz)|[(st & Hz)|(st & Hz)]]; [destruct (D1 st) as (v & Hv)|destruct (D2 st) as (v & Hv)|destruct (D3 st) as (v & Hv)]; congruence.
  Qed.
End State.
