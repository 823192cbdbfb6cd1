(** * Revolutions of one engine at nearby temperatures of its exchangers stay close *)
From Coq Require Import ZArith NArith List Reals Lra Lia Psatz.
From Verif Require Import Num ModelTypes ModelWs ModelHx ModelStateEq ModelEngine RNum Spec SpecLoop SpecR SpecGas
  SpecKin SpecTraj SpecLaws SpecUnique SpecExist SpecDepend SpecSeries SpecQuad SpecReport SpecSpaces SpecBounds SpecSteady SpecContract
  SpecSample SpecGlobal SpecSearch SpecConverge SpecAccurate SpecSolver SpecApi SpecMeans SpecPush SpecEffective Fixture PolySolve RSolve RGauss RFluid RKin RMass RCase RLaws RPeriod RSeries
  RPicard RLocal RExist RStart RCase4 RDepend RSpaces RBounds RSteady RQuad RSample RSampleReport RMotion RSampleCase RSearchCase RGlobal RGlobalReport RContract RContractEngine RSettle RSearch RConverge RAccurate RMeans
  RReturned RApproach RConsistent RPush RFlowBound RFollow REffective RFamily RSolverRun RTame RUniform RVary RVaryRun.
Import ListNotations.
Local Open Scope R_scope.

(** ** Growth of the distance *)
Lemma grow_apart L eps (c c' : R -> Conditions R) a b : 0 <= L -> 0 <= eps ->
  (forall u, a <= u <= b -> exists p1 q1 w1 p2 q2 w2,
    (has_deriv (fun t => cd_P (c t)) u p1 /\ has_deriv (fun t => cd_T_c (c t)) u q1 /\ has_deriv (fun t => cd_T_e (c t)) u w1) /\
    (has_deriv (fun t => cd_P (c' t)) u p2 /\ has_deriv (fun t => cd_T_c (c' t)) u q2 /\ has_deriv (fun t => cd_T_e (c' t)) u w2) /\
    Rabs (p1 - p2) <= L * gap (c u) (c' u) + eps /\ Rabs (q1 - q2) <= L * gap (c u) (c' u) + eps /\ Rabs (w1 - w2) <= L * gap (c u) (c' u) + eps) ->
  forall t, a <= t <= b -> gap (c t) (c' t) <= 2 * exp ((6 * L + 3) / 2 * (t - a)) * (gap (c a) (c' a) + eps).
Proof.
    intros L0 E0 H t Ht.
    set (z := fun u => (cd_P (c u) - cd_P (c' u)) * (cd_P (c u) - cd_P (c' u))
      + (cd_T_c (c u) - cd_T_c (c' u)) * (cd_T_c (c u) - cd_T_c (c' u))
      + (cd_T_e (c u) - cd_T_e (c' u)) * (cd_T_e (c u) - cd_T_e (c' u)) + eps * eps).
    assert (AB : forall x : R, x * x = Rabs x * Rabs x) by (intros x; rewrite <- Rabs_mult, Rabs_pos_eq; [ring|apply (Rle_0_sqr x)]).
    assert (DZ : forall u, a <= u <= b -> exists dz, derivable_pt_lim z u dz /\ dz <= (6 * L + 3) * z u).
    { intros u Hu. destruct (H u Hu) as (p1 & q1 & w1 & p2 & q2 & w2 & (F1 & F2 & F3) & (G1 & G2 & G3) & D1 & D2 & D3).
      unfold gap in D1, D2, D3. unfold has_deriv in *.
      eexists. split.
      - unfold z. apply deriv_plus; [|apply deriv_const].
        apply deriv_plus; [apply deriv_plus|]; apply deriv_mult; apply deriv_minus; eassumption.
      - cbv beta. unfold z.
        set (x := cd_P (c u) - cd_P (c' u)) in *. set (y := cd_T_c (c u) - cd_T_c (c' u)) in *.
        set (w := cd_T_e (c u) - cd_T_e (c' u)) in *.
        set (dx := p1 - p2) in *. set (dy := q1 - q2) in *. set (dw := w1 - w2) in *.
        rewrite (AB x), (AB y), (AB w).
        pose proof (Rabs_pos x) as X1. pose proof (Rabs_pos y) as X2. pose proof (Rabs_pos w) as X3.
        set (X := Rabs x) in *. set (Y := Rabs y) in *. set (W := Rabs w) in *.
        assert (PR : forall v dv, Rabs dv <= L * (X + Y + W) + eps -> dv * v + v * dv <= 2 * (Rabs v * (L * (X + Y + W) + eps))).
        { intros v dv Q. replace (dv * v + v * dv) with (2 * (v * dv)) by ring.
          apply Rmult_le_compat_l; [lra|]. eapply Rle_trans; [apply Rle_abs|]. rewrite Rabs_mult.
          apply Rmult_le_compat_l; [apply Rabs_pos|exact Q]. }
        pose proof (PR x dx D1) as Q1. pose proof (PR y dy D2) as Q2. pose proof (PR w dw D3) as Q3.
        fold X in Q1. fold Y in Q2. fold W in Q3.
        destruct (square_sum X Y W X1 X2 X3) as (_ & SQ).
        pose proof (Rmult_le_compat_l L _ _ L0 SQ) as SQL.
        pose proof (Rle_0_sqr (X + Y + W - eps)) as S0. unfold Rsqr in S0.
        assert (0 <= L * (eps * eps)) by (apply Rmult_le_pos; [exact L0|apply (Rle_0_sqr eps)]).
        pose proof (Rle_0_sqr eps) as S9. unfold Rsqr in S9.
        lra. }
    pose proof (grows z a b _ DZ t Ht) as GZ.
    assert (Z1 : gap (c t) (c' t) * gap (c t) (c' t) <= 3 * z t).
    { unfold gap, z. set (x := cd_P (c t) - cd_P (c' t)). set (y := cd_T_c (c t) - cd_T_c (c' t)).
      set (w := cd_T_e (c t) - cd_T_e (c' t)). rewrite (AB x), (AB y), (AB w).
      destruct (square_sum (Rabs x) (Rabs y) (Rabs w) (Rabs_pos x) (Rabs_pos y) (Rabs_pos w)) as (_ & SQ).
      pose proof (Rle_0_sqr eps) as S9. unfold Rsqr in S9. lra. }
    assert (Z2 : z a <= (gap (c a) (c' a) + eps) * (gap (c a) (c' a) + eps)).
    { pose proof (gap_nonneg (c a) (c' a)) as G0. unfold gap in G0 |- *. unfold z.
      set (x := cd_P (c a) - cd_P (c' a)) in *. set (y := cd_T_c (c a) - cd_T_c (c' a)) in *.
      set (w := cd_T_e (c a) - cd_T_e (c' a)) in *. rewrite (AB x), (AB y), (AB w).
      destruct (square_sum (Rabs x) (Rabs y) (Rabs w) (Rabs_pos x) (Rabs_pos y) (Rabs_pos w)) as (SQ & _).
      assert (0 <= (Rabs x + Rabs y + Rabs w) * eps) by (apply Rmult_le_pos; [exact G0|exact E0]). lra. }
    set (k := exp ((6 * L + 3) / 2 * (t - a))).
    assert (EK : exp ((6 * L + 3) * (t - a)) = k * k).
    { unfold k. rewrite <- exp_plus. f_equal. field. }
    assert (K0 : 0 < k) by apply exp_pos. rewrite EK in GZ.
    set (u := gap (c a) (c' a) + eps) in *.
    assert (U0 : 0 <= u). { unfold u. pose proof (gap_nonneg (c a) (c' a)). lra. }
    pose proof (gap_nonneg (c t) (c' t)) as G0.
    assert (FIN : gap (c t) (c' t) * gap (c t) (c' t) <= (2 * k * u) * (2 * k * u)).
    { assert (KK : 0 <= k * k) by (apply Rmult_le_pos; lra).
      apply (Rmult_le_compat_r (k * k)) in Z2; [|exact KK].
      assert (0 <= u * u * (k * k)) by (apply Rmult_le_pos; [apply (Rle_0_sqr u)|exact KK]). lra. }
    apply Rsqr_incr_0; [exact FIN|exact G0|]. apply Rmult_le_pos; [lra|exact U0].
Qed.
Lemma clamp_near lo1 hi1 lo2 hi2 x d : lo1 <= x <= hi1 -> lo2 <= hi2 -> Rabs (lo1 - lo2) <= d -> Rabs (hi1 - hi2) <= d ->
  exists y, lo2 <= y <= hi2 /\ Rabs (x - y) <= d.
Proof.
  intros Hx H2 H3 H4. apply abs_le_iff in H3, H4. destruct (Rle_lt_dec x lo2) as [A|A].
  - exists lo2. split; [lra|]. apply abs_le_iff. lra.
  - destruct (Rle_lt_dec x hi2) as [B|B].
    + exists x. split; [lra|]. rewrite Rminus_diag_eq, Rabs_R0 by reflexivity. lra.
    + exists hi2. split; [lra|]. apply abs_le_iff. lra.
Qed.
Lemma fill_near (f : R -> R -> R) a b : (f = Rmin \/ f = Rmax) -> Rabs (f T_ref (filling a) - f T_ref (filling b)) <= cp_he / cv_he * Rabs (a - b).
Proof.
  intros Hf. pose proof cp_pos. pose proof cv_pos.
  assert (C : 0 < cp_he / cv_he) by (apply Rdiv_lt_0_compat; lra).
  apply Rle_trans with (Rabs (filling a - filling b)).
  - destruct Hf as [-> | ->]; unfold Rmin, Rmax; destruct (Rle_dec T_ref (filling a)), (Rle_dec T_ref (filling b)); unfold Rabs; repeat destruct Rcase_abs; lra.
  - unfold filling. replace (T_ref + cp_he / cv_he * (a - T_ref) - (T_ref + cp_he / cv_he * (b - T_ref))) with (cp_he / cv_he * (a - b)) by ring.
    rewrite Rabs_mult, (Rabs_pos_eq (cp_he / cv_he)) by lra. lra.
Qed.
Lemma level_near V v m M a b d : 0 < m -> m <= V -> 0 < v -> v <= M -> 0 <= d -> Rabs (a - b) <= d -> Rabs (level V v a - level V v b) <= pw M / pw m * d.
Proof.
  intros M0 MV V0 VM D0 H. unfold level, adiabat. fold (pw V) (pw v). pose proof (pw_pos V). pose proof (pw_pos m). pose proof (pw_pos M). pose proof (pw_pos v).
  pose proof (pw_le m V M0 MV). pose proof (pw_le v M V0 VM).
  replace (a * pw v / pw V - b * pw v / pw V) with (pw v / pw V * (a - b)) by (field; lra).
  apply abs_le_mul; [|exact H]. rewrite Rabs_pos_eq by (apply Rle_mult_inv_pos; lra).
  unfold Rdiv. apply Rmult_le_compat; [lra|left; apply Rinv_0_lt_compat; lra|assumption|apply Rinv_le_contravar; lra].
Qed.

Section Shadow.
  Variables (comps0 : Components R) (b : State R) (rb : Run R) (D : Decomp R) (cl ch el eh cl' ch' el' eh' T_low T_top V_hi v_hi rho rv q mg : R).
  Hypothesis Hd : driven (co_ws comps0).
  Hypothesis HD : sound D.
  Hypothesis HC : complete D.
  Let P0 := pr_t_zero (s_pres b).
  Hypothesis HP0 : 0 < P0.
  Hypothesis O1 : 0 < cl' < cl.
  Hypothesis O2 : ch < ch'.
  Hypothesis O3 : 0 < el' < el.
  Hypothesis O4 : eh < eh'.
  Hypothesis HQ : q < 1.
  Hypothesis Hmg : 0 < mg.
  Let settled_run (r : Run R) := settles_between r cl ch el eh cl' ch' el' eh' T_low T_top V_hi v_hi rho rv q mg.
  (** a state of the family, and its run *)
  Definition member (s : State R) (r : Run R) : Prop :=
    s_fluid s = IdealGas_Fluid he /\ Run_new comps0 s = Ret r /\ te_sink (s_temp s) + te_source (s_temp s) <> 500 /\ pr_t_zero (s_pres s) = P0 /\ settled_run r.
  Hypothesis Hmb : member b rb.
  Let tau := ru_period rb.
  Let outer r := within_levels r P0 cl' ch' el' eh'.
  Let inner r := within_levels r P0 cl ch el eh.
  Let lP := least_P cl' ch' el' eh' T_low T_top P0.
  Let mP := most_P cl' ch' el' eh' T_low T_top P0.
  Let rim := rim_width cl ch el eh cl' ch' el' eh' T_top.
  (** a revolution of the run *)
  Definition turn (r : Run R) (c : R -> Conditions R) : Prop := forall t, 0 <= t <= tau -> physical_trajectory D r c t /\
    lP <= cd_P (c t) <= mP /\ T_low + mg <= cd_T_c (c t) <= T_top - mg /\ T_low + mg <= cd_T_e (c t) <= T_top - mg.
  Lemma member_period s r : member s r -> ru_period r = tau.
  Proof. intros (_ & Hr & _). destruct Hmb as (_ & Hrb & _). exact (proj1 (same_motion comps0 b rb s r Hd Hrb Hr)). Qed.
  Lemma low_pos' : 0 < T_low.
  Proof. destruct Hmb as (_ & _ & _ & _ & HS). exact (low_T rb cl ch el eh cl' ch' el' eh' T_low T_top V_hi v_hi rho rv q mg HS). Qed.
  Lemma tau_pos : 0 < tau.
  Proof. destruct Hmb as (_ & Hr & _). exact (period_pos comps0 b rb Hd Hr). Qed.
  Lemma member_turn s r ic : member s r -> outer r ic -> exists c, c 0 = ic /\ turn r c.
  Proof.
    intros HM HO. pose proof HM as (H1 & H2 & H3 & H4 & H5). unfold outer in HO. rewrite <- H4 in HO.
    destruct (round_box comps0 s r D cl ch el eh cl' ch' el' eh' T_low T_top V_hi v_hi rho rv q mg H1 Hd H2 H3 HD HC ltac:(rewrite H4; exact HP0) O1 O2 O3 O4 H5 Hmg ic HO)
      as (c & C0 & C1 & C2). rewrite H4 in C2. exists c. split; [exact C0|]. intros t Ht. rewrite <- (member_period s r HM) in Ht. auto.
  Qed.
  Lemma member_inner s r i : member s r -> inner r i -> outer r i.
  Proof.
    intros (_ & _ & _ & H4 & H5) HI. unfold inner, outer in *. rewrite <- H4 in *. pose proof H5 as (HX & VC & VE & _).
    exact (inner_outer s r cl ch el eh cl' ch' el' eh' HX VC VE O1 O2 O3 O4 i HI).
  Qed.
  Lemma member_rim s r c i : member s r -> inner r i -> cd_P c = P0 -> 0 < cd_T_c c -> 0 < cd_T_e c -> spread c i <= rim -> outer r c.
  Proof.
    intros (_ & _ & _ & H4 & H5) HI H6 H7 H8 H9. unfold inner, outer in *. rewrite <- H4 in *.
    exact (rim_by s r cl ch el eh cl' ch' el' eh' T_low T_top V_hi v_hi rho rv q mg O1 O2 O3 O4 H5 Hmg c i HI H6 H7 H8 H9).
  Qed.
  Lemma rim_pos' : 0 < rim.
  Proof. destruct Hmb as (_ & _ & _ & _ & HS). exact (rim_pos rb cl ch el eh cl' ch' el' eh' T_low T_top V_hi v_hi rho rv q mg O1 O2 O3 O4 HS Hmg). Qed.

  (** two revolutions *)
  Lemma shadows : exists K, 1 <= K /\ forall s1 r1 s2 r2 c1 c2, member s1 r1 -> member s2 r2 -> turn r1 c1 -> turn r2 c2 ->
    forall t, 0 <= t <= tau -> gap (c1 t) (c2 t) <= K * (gap (c1 0) (c2 0) + tdist (ru_temp r1) (ru_temp r2)).
  Proof.
    pose proof Hmb as (_ & Hrb & _ & _ & Hsb).
    destruct (vary_runs comps0 b rb D cl ch el eh cl' ch' el' eh' T_low T_top V_hi v_hi rho rv q mg Hd HD O1 O3 Hrb Hsb mP) as (B & L & B0 & L0 & HV).
    pose proof tau_pos as TP. set (k := exp ((6 * L + 3) / 2 * tau)).
    assert (K1 : 1 <= k).
    { unfold k. rewrite <- exp_0. destruct (Rle_lt_or_eq_dec 0 ((6 * L + 3) / 2 * tau) ltac:(apply Rmult_le_pos; lra)) as [C|C]; [left; apply exp_increasing, C|rewrite <- C; lra]. }
    exists (2 * k * (1 + L)). split.
    { assert (1 * 1 <= k * (1 + L)) by (apply Rmult_le_compat; lra). lra. }
    intros s1 r1 s2 r2 c1 c2 (_ & R1 & _ & _ & S1) (_ & R2 & _ & _ & S2) T1 T2 t Ht.
    set (d := tdist (ru_temp r1) (ru_temp r2)). pose proof (tdist_nonneg (ru_temp r1) (ru_temp r2)) as D0. fold d in D0.
    pose proof (grow_apart L (L * d) c1 c2 0 tau L0 ltac:(apply Rmult_le_pos; assumption)) as GA.
    assert (G : gap (c1 t) (c2 t) <= 2 * exp ((6 * L + 3) / 2 * (t - 0)) * (gap (c1 0) (c2 0) + L * d)).
    { apply GA; [|exact Ht]. intros u Hu. destruct (T1 u Hu) as (((_ & _ & h1 & o1 & So1 & F1) & Ph1 & _) & B1 & B2 & B3).
      destruct (T2 u Hu) as (((_ & _ & h2 & o2 & So2 & F2) & Ph2 & _) & C1 & C2 & C3).
      destruct (HV s1 r1 s2 r2 u (c1 u) (c2 u) h1 h2 o1 o2 R1 R2 S1 S2 ltac:(lra) Ph1 Ph2 So1 So2 ltac:(lra) ltac:(lra) ltac:(lra) ltac:(lra) ltac:(lra) ltac:(lra))
        as ((V1 & V2 & V3) & _). fold d in V1, V2, V3.
      exists (so_dP_dt o1), (so_dTc_dt o1), (so_dTe_dt o1), (so_dP_dt o2), (so_dTc_dt o2), (so_dTe_dt o2).
      split; [exact F1|]. split; [exact F2|]. rewrite <- Rmult_plus_distr_l. destruct V1 as (_ & _ & V1), V2 as (_ & _ & V2), V3 as (_ & _ & V3). auto. }
    rewrite Rminus_0_r in G. apply Rle_trans with (1 := G). pose proof (gap_nonneg (c1 0) (c2 0)) as G0.
    assert (EK : exp ((6 * L + 3) / 2 * t) <= k).
    { unfold k. assert (M : (6 * L + 3) / 2 * t <= (6 * L + 3) / 2 * tau) by (apply Rmult_le_compat_l; lra).
      destruct M as [M|M]; [left; apply exp_increasing, M|rewrite M; lra]. }
    pose proof (exp_pos ((6 * L + 3) / 2 * t)) as EP. assert (LD : 0 <= L * d) by (apply Rmult_le_pos; assumption). assert (LG : 0 <= L * gap (c1 0) (c2 0)) by (apply Rmult_le_pos; assumption).
    replace (2 * k * (1 + L) * (gap (c1 0) (c2 0) + d)) with (2 * k * ((1 + L) * (gap (c1 0) (c2 0) + d))) by ring.
    apply Rmult_le_compat; lra.
  Qed.
  (** conditions between the levels of another run *)
  Lemma near_inner : exists K, 0 <= K /\ forall s1 r1 s2 r2 i1, member s1 r1 -> member s2 r2 -> inner r1 i1 ->
    exists i2, inner r2 i2 /\ spread i1 i2 <= K * tdist (ru_temp r1) (ru_temp r2).
  Proof.
    pose proof cp_pos as CP. pose proof cv_pos as CV. pose proof low_pos' as TP. pose proof tau_pos as TQ.
    set (g := cp_he / cv_he). assert (G0 : 0 < g) by (apply Rdiv_lt_0_compat; lra).
    set (kc := pw ch / pw cl * g). set (ke := pw eh / pw el * g).
    pose proof (pw_pos ch). pose proof (pw_pos cl). pose proof (pw_pos eh). pose proof (pw_pos el).
    assert (KC : 0 < kc) by (apply Rmult_lt_0_compat; [apply Rdiv_lt_0_compat|]; lra). assert (KE : 0 < ke) by (apply Rmult_lt_0_compat; [apply Rdiv_lt_0_compat|]; lra).
    assert (TT : 0 < T_low * T_low) by (apply Rmult_lt_0_compat; lra).
    exists ((kc + ke) / (T_low * T_low)). split; [left; apply Rdiv_lt_0_compat; lra|].
    intros s1 r1 s2 r2 i1 M1 M2 HI. set (d := tdist (ru_temp r1) (ru_temp r2)). pose proof (tdist_nonneg (ru_temp r1) (ru_temp r2)) as D0. fold d in D0.
    destruct (tdist_parts (ru_temp r1) (ru_temp r2)) as (D1 & D2 & _). fold d in D1, D2.
    pose proof M1 as (_ & R1 & _ & _ & S1). pose proof M2 as (_ & R2 & _ & _ & S2).
    destruct (same_motion comps0 s1 r1 s2 r2 Hd R1 R2) as (_ & EV).
    destruct (orders r2 cl ch el eh cl' ch' el' eh' T_low T_top V_hi v_hi rho rv q mg S2) as (Q1 & Q2).
    destruct (fills r2 cl ch el eh cl' ch' el' eh' T_low T_top V_hi v_hi rho rv q mg S2) as (F1 & F2 & F3 & F4).
    pose proof S2 as (_ & VC & VE & _). destruct (VC 0) as (C0 & C1), (VE 0) as (E0 & E1). specialize (C1 0 ltac:(lra)). specialize (E1 0 ltac:(lra)).
    pose proof HI as (HP & HTc & HTe). unfold V_comp, V_exp in *. rewrite <- EV in HTc, HTe.
    set (vc := v_value (fst (ru_ws_vol_fn r2 0))) in *. set (ve := v_value (snd (ru_ws_vol_fn r2 0))) in *.
    assert (FN : forall f Ta Tb, f = Rmin \/ f = Rmax -> Rabs (Ta - Tb) <= d -> Rabs (f T_ref (filling Ta) - f T_ref (filling Tb)) <= g * d).
    { intros f Ta Tb Hf' Hab. eapply Rle_trans; [apply fill_near, Hf'|]. apply Rmult_le_compat_l; [fold g; lra|exact Hab]. }
    assert (GD : 0 <= g * d) by (apply Rmult_le_pos; lra).
    assert (LV : forall V lo hi Ta, 0 < lo -> lo <= hi -> 0 < V -> 0 < Rmin T_ref (filling Ta) -> level V lo (Rmin T_ref (filling Ta)) <= level V hi (Rmax T_ref (filling Ta))).
    { intros V lo hi Ta L0 L1 L2 L3. unfold level, adiabat. fold (pw V) (pw lo) (pw hi). pose proof (pw_pos V). pose proof (pw_pos lo). pose proof (pw_le lo hi L0 L1).
      unfold Rdiv. apply Rmult_le_compat_r; [left; apply Rinv_0_lt_compat; lra|].
      apply Rmult_le_compat; try lra. apply Rle_trans with T_ref; [apply Rmin_l|apply Rmax_l]. }
    destruct (clamp_near _ _ (level vc cl (Rmin T_ref (filling (te_chx (ru_temp r2))))) (level vc ch (Rmax T_ref (filling (te_chx (ru_temp r2))))) (cd_T_c i1) (kc * d) HTc) as (x & X1 & X2).
    { apply LV; lra. }
    { unfold kc. rewrite Rmult_assoc. apply level_near; try lra. apply FN; auto. }
    { unfold kc. rewrite Rmult_assoc. apply level_near; try lra. apply FN; auto. }
    destruct (clamp_near _ _ (level ve el (Rmin T_ref (filling (te_hhx (ru_temp r2))))) (level ve eh (Rmax T_ref (filling (te_hhx (ru_temp r2))))) (cd_T_e i1) (ke * d) HTe) as (y & Y1 & Y2).
    { apply LV; lra. }
    { unfold ke. rewrite Rmult_assoc. apply level_near; try lra. apply FN; auto. }
    { unfold ke. rewrite Rmult_assoc. apply level_near; try lra. apply FN; auto. }
    set (i2 := mkCond P0 x y). assert (HI2 : inner r2 i2) by (split; [reflexivity|split; assumption]).
    exists i2. split; [exact HI2|].
    destruct (member_turn s1 r1 i1 M1 (member_inner s1 r1 i1 M1 HI)) as (z1 & Z1 & B1). destruct (B1 0 ltac:(lra)) as (_ & _ & A1 & A2). rewrite Z1 in A1, A2.
    destruct (member_turn s2 r2 i2 M2 (member_inner s2 r2 i2 M2 HI2)) as (z2 & Z2 & B2). destruct (B2 0 ltac:(lra)) as (_ & _ & A3 & A4). rewrite Z2 in A3, A4.
    eapply Rle_trans; [apply (gap_spread i1 i2 T_low TP); lra|]. unfold gap, i2. cbn [cd_P cd_T_c cd_T_e]. rewrite HP, Rminus_diag_eq, Rabs_R0 by reflexivity.
    unfold Rdiv. replace ((kc + ke) * / (T_low * T_low) * d) with ((kc * d + ke * d) * / (T_low * T_low)) by ring.
    apply Rmult_le_compat_r; [left; apply Rinv_0_lt_compat; exact TT|]. lra.
  Qed.
  (** starts of nearly steady revolutions *)
  Lemma starts_close : exists K d0, 0 <= K /\ 0 < d0 /\ forall s1 r1 s2 r2 i1 i2 j1 z1 z2 x, member s1 r1 -> member s2 r2 ->
    inner r1 j1 -> spread i1 j1 <= rim / 2 -> outer r1 i1 -> outer r2 i2 -> z1 0 = i1 -> z2 0 = i2 -> turn r1 z1 -> turn r2 z2 ->
    spread (z1 tau) i1 <= x -> spread (z2 tau) i2 <= x -> tdist (ru_temp r1) (ru_temp r2) <= d0 ->
    spread i1 i2 <= (2 * x + K * tdist (ru_temp r1) (ru_temp r2)) / (1 - q).
  Proof.
    destruct shadows as (K1 & K1p & SH). destruct near_inner as (K2 & K2p & NI). pose proof rim_pos' as RP. pose proof low_pos' as TP. pose proof tau_pos as TQ.
    assert (TT : 0 < T_low * T_low) by (apply Rmult_lt_0_compat; lra).
    exists (K1 / (T_low * T_low)), (rim / (2 * (K2 + 1))). split; [left; apply Rdiv_lt_0_compat; lra|]. split; [apply Rdiv_lt_0_compat; lra|].
    intros s1 r1 s2 r2 i1 i2 j1 z1 z2 x M1 M2 HJ HS1 HO1 HO2 Z1 Z2 T1 T2 X1 X2 HT.
    set (d := tdist (ru_temp r1) (ru_temp r2)) in *. pose proof (tdist_nonneg (ru_temp r1) (ru_temp r2)) as D0. fold d in D0.
    destruct (NI s1 r1 s2 r2 j1 M1 M2 HJ) as (j2 & HJ2 & HS2). fold d in HS2.
    assert (KD : K2 * d <= rim / 2).
    { apply Rle_trans with ((K2 + 1) * d); [apply Rmult_le_compat_r; lra|]. apply Rle_trans with ((K2 + 1) * (rim / (2 * (K2 + 1)))); [apply Rmult_le_compat_l; lra|right; field; lra]. }
    destruct (T1 0 ltac:(lra)) as (_ & _ & A1 & A2). rewrite Z1 in A1, A2.
    assert (O12 : outer r2 i1).
    { apply (member_rim s2 r2 i1 j2 M2 HJ2); [apply HO1|lra|lra|]. pose proof (spread_tri i1 j1 j2). lra. }
    destruct (member_turn s2 r2 i1 M2 O12) as (w & W0 & TW).
    pose proof (SH s1 r1 s2 r2 z1 w M1 M2 T1 TW tau ltac:(lra)) as SW. fold d in SW. rewrite W0, Z1 in SW.
    assert (GG : gap i1 i1 = 0) by (unfold gap; rewrite !Rminus_diag_eq, Rabs_R0 by reflexivity; ring). rewrite GG, Rplus_0_l in SW.
    destruct (T1 tau ltac:(lra)) as (_ & _ & A3 & A4). destruct (TW tau ltac:(lra)) as (_ & _ & A5 & A6).
    assert (S1 : spread (z1 tau) (w tau) <= K1 / (T_low * T_low) * d).
    { eapply Rle_trans; [apply (gap_spread _ _ T_low TP); lra|]. unfold Rdiv. rewrite (Rmult_assoc K1), (Rmult_comm (/ _) d), <- Rmult_assoc.
      apply Rmult_le_compat_r; [left; apply Rinv_0_lt_compat; exact TT|exact SW]. }
    pose proof M2 as (_ & _ & _ & _ & S2). pose proof S2 as (_ & _ & _ & HS & HL & _). pose proof (member_period s2 r2 M2) as EP.
    assert (S3 : spread (w (ru_period r2)) (z2 (ru_period r2)) <= left_over r2 T_low V_hi v_hi rho rv * spread (w 0) (z2 0)).
    { rewrite EP. pose proof (settled D D r2 T_low V_hi v_hi rho rv w z2 HS HD HD) as ST. rewrite EP in ST. apply ST.
      - intros t Ht. apply TW, Ht.
      - intros t Ht. apply T2, Ht.
      - intros t Ht. destruct (TW t Ht) as (_ & _ & B1 & B2). lra.
      - intros t Ht. destruct (T2 t Ht) as (_ & _ & B1 & B2). lra. }
    rewrite EP, W0, Z2 in S3.
    assert (S4 : left_over r2 T_low V_hi v_hi rho rv * spread i1 i2 <= q * spread i1 i2) by (apply Rmult_le_compat_r; [apply spread_pos|exact HL]).
    pose proof (spread_tri i1 (z1 tau) i2) as E1. pose proof (spread_tri (z1 tau) (w tau) i2) as E2. pose proof (spread_tri (w tau) (z2 tau) i2) as E3.
    rewrite (spread_sym i1 (z1 tau)) in E1.
    apply (Rmult_le_reg_r (1 - q)); [lra|]. replace ((2 * x + K1 / (T_low * T_low) * d) / (1 - q) * (1 - q)) with (2 * x + K1 / (T_low * T_low) * d) by (field; lra). lra.
  Qed.
  (** nearly steady revolutions *)
  Lemma turns_close : exists K d0, 0 <= K /\ 0 < d0 /\ forall s1 r1 s2 r2 i1 i2 j1 z1 z2 x, member s1 r1 -> member s2 r2 ->
    inner r1 j1 -> spread i1 j1 <= rim / 2 -> outer r1 i1 -> outer r2 i2 -> z1 0 = i1 -> z2 0 = i2 -> turn r1 z1 -> turn r2 z2 -> 0 <= x ->
    spread (z1 tau) i1 <= x -> spread (z2 tau) i2 <= x -> tdist (ru_temp r1) (ru_temp r2) <= d0 ->
    forall t, 0 <= t <= tau -> gap (z1 t) (z2 t) <= K * (x + tdist (ru_temp r1) (ru_temp r2)).
  Proof.
    destruct shadows as (K1 & K1p & SH). destruct starts_close as (K2 & d0 & K2p & D0p & SC). pose proof low_pos' as TP. pose proof tau_pos as TQ.
    assert (TTop : 0 < T_top).
    { destruct Hmb as (_ & _ & _ & _ & S). apply (tops rb cl ch el eh cl' ch' el' eh' T_low T_top V_hi v_hi rho rv q mg O1 O2 O3 O4 S Hmg). }
    assert (TT : 0 < T_top * T_top) by (apply Rmult_lt_0_compat; lra).
    set (g := T_top * T_top * (2 + K2) / (1 - q)). assert (G0 : 0 < g) by (apply Rdiv_lt_0_compat; [apply Rmult_lt_0_compat; lra|lra]).
    exists (K1 * (g + 1)), d0. split; [apply Rmult_le_pos; lra|]. split; [exact D0p|].
    intros s1 r1 s2 r2 i1 i2 j1 z1 z2 x M1 M2 HJ HS1 HO1 HO2 Z1 Z2 T1 T2 X0 X1 X2 HT t Ht.
    set (d := tdist (ru_temp r1) (ru_temp r2)) in *. pose proof (tdist_nonneg (ru_temp r1) (ru_temp r2)) as D0. fold d in D0.
    pose proof (SC s1 r1 s2 r2 i1 i2 j1 z1 z2 x M1 M2 HJ HS1 HO1 HO2 Z1 Z2 T1 T2 X1 X2 HT) as S. fold d in S.
    pose proof (SH s1 r1 s2 r2 z1 z2 M1 M2 T1 T2 t Ht) as G. fold d in G. rewrite Z1, Z2 in G. apply Rle_trans with (1 := G).
    rewrite Rmult_assoc. apply Rmult_le_compat_l; [lra|].
    assert (GS : gap i1 i2 <= T_top * T_top * spread i1 i2).
    { destruct (T1 0 ltac:(lra)) as (_ & _ & A1 & A2). rewrite Z1 in A1, A2. destruct (T2 0 ltac:(lra)) as (_ & _ & A3 & A4). rewrite Z2 in A3, A4.
      unfold gap, spread. assert (EP : cd_P i1 = cd_P i2) by (transitivity P0; [apply HO1|symmetry; apply HO2]). rewrite EP, Rminus_diag_eq, Rabs_R0 by reflexivity.
      assert (Q : forall u v, T_low <= u <= T_top -> T_low <= v <= T_top -> Rabs (u - v) <= T_top * T_top * Rabs (/ u - / v)).
      { intros u v U V. replace (u - v) with (u * v * (/ v - / u)) by (field; lra). rewrite Rabs_mult, (Rabs_minus_sym (/ v)).
        apply Rmult_le_compat_r; [apply Rabs_pos|]. rewrite Rabs_pos_eq by (apply Rmult_le_pos; lra). apply Rmult_le_compat; lra. }
      pose proof (Q (cd_T_c i1) (cd_T_c i2) ltac:(lra) ltac:(lra)) as Q1. pose proof (Q (cd_T_e i1) (cd_T_e i2) ltac:(lra) ltac:(lra)) as Q2. lra. }
    assert (GX : T_top * T_top * spread i1 i2 <= g * (x + d)).
    { apply Rle_trans with (T_top * T_top * ((2 * x + K2 * d) / (1 - q))); [apply Rmult_le_compat_l; lra|].
      unfold g, Rdiv. replace (T_top * T_top * (2 + K2) * / (1 - q) * (x + d)) with (T_top * T_top * ((2 + K2) * (x + d) * / (1 - q))) by ring.
      apply Rmult_le_compat_l; [lra|]. apply Rmult_le_compat_r; [left; apply Rinv_0_lt_compat; lra|].
      assert (0 <= K2 * x) by (apply Rmult_le_pos; lra). lra. }
    lra.
  Qed.
End Shadow.
