(** * Trajectories depend continuously on where they start, and on errors of the rates *)
From Coq Require Import ZArith NArith List Reals Lra Lia.
From Verif Require Import Num ModelTypes ModelWs ModelHx ModelStateEq ModelEngine RNum Spec SpecR SpecGas
  SpecKin SpecTraj SpecLaws SpecUnique SpecExist SpecDepend Fixture PolySolve RSolve RGauss RFluid RKin RMass RLaws
  RClose RPairs RPicard RLocal RExist RStart RPeriod RReturn.
Local Open Scope R_scope.

(** ** Gronwall's inequality *)
Lemma grows (z : R -> R) a b L : 
  (forall t, a <= t <= b -> exists dz, derivable_pt_lim z t dz /\ dz <= L * z t) ->
  forall t, a <= t <= b -> z t <= z a * exp (L * (t - a)).
Proof.
  intros H t Ht. destruct (Rle_lt_or_eq_dec a t ltac:(lra)) as [C|<-].
  2:{ replace (L * (a - a)) with 0 by ring. rewrite exp_0. lra. }
  destruct (MVT_exists (fun u => z u * exp (- L * u)) a t
    (fun c l => exists d, d <= L * z c /\ l = (d + - L * z c) * exp (- L * c)) C) as (c & l & Hc & (d & B & E) & EQ).
  { intros u Hu. destruct (H u ltac:(lra)) as (dz & D1 & D2). eexists. split; [apply exp_mult_deriv, D1|]. eauto. }
  assert (N : l * (t - a) <= 0).
  { rewrite E. pose proof (exp_pos (- L * c)) as E2. assert (0 <= exp (- L * c) * (t - a)) by (apply Rmult_le_pos; lra).
    assert (0 <= (L * z c - d) * (exp (- L * c) * (t - a))) by (apply Rmult_le_pos; lra). lra. }
  assert (Q : z t * exp (- L * t) <= z a * exp (- L * a)) by lra.
  apply (Rmult_le_compat_r (exp (L * t))) in Q; [|left; apply exp_pos].
  rewrite !Rmult_assoc, <- !exp_plus in Q.
  replace (- L * t + L * t) with 0 in Q by ring. rewrite exp_0, Rmult_1_r in Q.
  replace (- L * a + L * t) with (L * (t - a)) in Q by ring. exact Q.
Qed.

Lemma gap_nonneg c c' : 0 <= gap c c'.
Proof.
  unfold gap. pose proof (Rabs_pos (cd_P c - cd_P c')). pose proof (Rabs_pos (cd_T_c c - cd_T_c c')).
  pose proof (Rabs_pos (cd_T_e c - cd_T_e c')). lra.
Qed.
Lemma gap_dist r c c' t : dist7 (join r c t) (join r c' t) = gap c c'.
Proof.
  unfold dist7, gap, join.
  assert (Z : forall u, Rabs (u - u) = 0) by (intros u; rewrite Rminus_diag_eq by reflexivity; apply Rabs_R0).
  rewrite !Z. ring.
Qed.

Section Depend.
  Variable name : GasName.
  Let g : IdealGas R := IdealGas_new name.
  Variable r : Run R.
  Hypothesis Hf : ru_fluid r = IdealGas_Fluid g.
  Variables (t0 T : R) (lo hi : Conditions R).
  Hypothesis Hv : smooth_volumes (ru_ws_vol_fn r).
  Hypothesis Hbox : physical_box r lo hi t0 T.

  Definition rate (t : R) (c : Conditions R) (i : C3) : R := rate7 r (join r c t) i.
  Lemma rate_is D t c hint s : sound D -> t0 <= t <= T -> in_box lo hi c ->
    solve D (Run_calculate_inputs r t c) hint = Ok s ->
    so_dP_dt s = rate t c uP /\ so_dTc_dt s = rate t c uC /\ so_dTe_dt s = rate t c uE.
  Proof.
    intros HD Ht Hc Hs. destruct (Hbox t c Ht Hc) as (_ & Hp).
    assert (E : sol7 r (join r c t) = s).
    { apply (solve_unique _ Hp gauss D (mkFD Positive Positive Positive Positive) hint _ _ gauss_sound HD); [|exact Hs].
      rewrite <- (inp7_join r c t). apply sol7_solves. rewrite inp7_join. exact Hp. }
    unfold rate, rate7. rewrite E. auto.
  Qed.

  Lemma local_lip t c : t0 <= t <= T -> in_box lo hi c -> exists h, 0 < h /\ forall t' c1 c2 i,
    Rabs (t' - t) <= h -> close3 h c1 c -> close3 h c2 c ->
    Rabs (rate t' c1 i) <= / h /\ Rabs (rate t' c1 i - rate t' c2 i) <= / h * gap c1 c2.
  Proof.
    intros Ht Hc. pose proof (gas_R_pos name) as HR. fold g in HR.
    destruct (Hbox t c Ht Hc) as (HT & Hph).
    pose (y0 := join r c t).
    assert (HPy : physical (inp7 r y0)) by (unfold y0; rewrite inp7_join; exact Hph).
    assert (HTc : 0 < y0 yC) by apply HT. assert (HTe : 0 < y0 yE) by apply HT.
    destruct (rates_tame g HR r Hf y0 HTc HTe HPy uP) as (K1 & e1 & K1p & E1 & A1).
    destruct (rates_tame g HR r Hf y0 HTc HTe HPy uC) as (K2 & e2 & K2p & E2 & A2).
    destruct (rates_tame g HR r Hf y0 HTc HTe HPy uE) as (K3 & e3 & K3p & E3 & A3).
    set (K := K1 + K2 + K3 + 1). set (dl := Rmin e1 (Rmin e2 e3)).
    assert (D0 : 0 < dl) by (unfold dl; repeat apply Rmin_pos; assumption).
    assert (LE : dl <= e1 /\ dl <= e2 /\ dl <= e3).
    { unfold dl. repeat split; repeat first [apply Rle_refl | apply Rmin_l | apply Rmin_r | eapply Rle_trans; [apply Rmin_r|]]. }
    destruct LE as (L1 & L2 & L3).
    destruct (volumes_near r t 1 c Rlt_0_1 (fun u _ => Hv u) dl D0) as (hv & HV0 & HV).
    assert (KP : 1 <= K) by (unfold K; lra).
    assert (IK : 0 < / K) by (apply Rinv_0_lt_compat; lra).
    set (h := Rmin (/ K) (Rmin (hv / 2) dl)).
    assert (Hh : 0 < h) by (unfold h; repeat apply Rmin_pos; lra).
    assert (LH : h <= / K /\ h <= hv / 2 /\ h <= dl).
    { unfold h. split; [apply Rmin_l|]. split; (eapply Rle_trans; [apply Rmin_r|]); [apply Rmin_l|apply Rmin_r]. }
    destruct LH as (H1 & H2 & H3).
    assert (HK : K <= / h). { rewrite <- (Rinv_inv K). apply Rinv_le_contravar; assumption. }
    exists h. split; [exact Hh|]. intros t' c1 c2 i Ht' C1 C2.
    assert (IN : forall c', close3 h c' c -> inside y0 dl (join r c' t')).
    { intros c' (Q1 & Q2 & Q3) i'. pose proof (HV t' ltac:(lra) i') as Q.
      destruct i'; cbn [join] in Q |- *; try exact Q; unfold y0; cbn [join]; lra. }
    pose proof (IN c1 C1) as I1. pose proof (IN c2 C2) as I2.
    pose proof (gap_nonneg c1 c2) as G0.
    assert (W : forall k x w, k <= K -> x <= k -> w <= k * gap c1 c2 -> x <= / h /\ w <= / h * gap c1 c2).
    { intros k x w Hk Hx Hw. split; [lra|]. eapply Rle_trans; [exact Hw|]. apply Rmult_le_compat_r; lra. }
    unfold rate. 
    destruct (A1 (join r c1 t') (join r c2 t')) as (B1 & F1); try (eapply inside_le; [exact L1|assumption]).
    destruct (A2 (join r c1 t') (join r c2 t')) as (B2 & F2); try (eapply inside_le; [exact L2|assumption]).
    destruct (A3 (join r c1 t') (join r c2 t')) as (B3 & F3); try (eapply inside_le; [exact L3|assumption]).
    rewrite gap_dist in F1, F2, F3.
    destruct i; [apply (W K1)|apply (W K2)|apply (W K3)]; try assumption; unfold K; lra.
  Qed.

  Lemma box_lip : exists L, 0 <= L /\ forall t c1 c2 i, t0 <= t <= T -> in_box lo hi c1 -> in_box lo hi c2 ->
    Rabs (rate t c1 i - rate t c2 i) <= L * gap c1 c2.
  Proof.
    destruct (uniform4 (fun t x y z h => forall c1 c2 i, close3 h c1 (mkCond x y z) -> close3 h c2 (mkCond x y z) ->
        Rabs (rate t c1 i) <= / h /\ Rabs (rate t c1 i - rate t c2 i) <= / h * gap c1 c2)
      t0 T (cd_P lo) (cd_P hi) (cd_T_c lo) (cd_T_c hi) (cd_T_e lo) (cd_T_e hi)) as (h & Hh & H).
    - intros t x y z h k Hk A c1 c2 i (P1 & P2 & P3) (Q1 & Q2 & Q3).
      assert (IK : / h <= / k) by (apply Rinv_le_contravar; lra).
      destruct (A c1 c2 i) as (B1 & B2); [repeat split; lra|repeat split; lra|].
      split; [lra|]. eapply Rle_trans; [exact B2|]. apply Rmult_le_compat_r; [apply gap_nonneg|exact IK].
    - intros t x y z Ht Hx Hy Hz.
      assert (B : in_box lo hi (mkCond x y z)) by (split; [exact Hx|split; [exact Hy|exact Hz]]).
      destruct (local_lip t _ Ht B) as (h & Hh & H).
      exists (h / 2). split; [lra|]. intros t' x' y' z' E1 E2 E3 E4 c1 c2 i C1 C2.
      assert (IK : / h <= / (h / 2)) by (apply Rinv_le_contravar; lra).
      assert (TR : forall p q s : R, Rabs (p - q) <= h / 2 -> Rabs (q - s) <= h / 2 -> Rabs (p - s) <= h).
      { intros p q s Hp Hq. replace (p - s) with ((p - q) + (q - s)) by ring.
        eapply Rle_trans; [apply Rabs_triang|lra]. }
      assert (CC : forall c', close3 (h / 2) c' (mkCond x' y' z') -> close3 h c' (mkCond x y z)).
      { intros c' (Q1 & Q2 & Q3). split; [|split]; cbn [cd_P cd_T_c cd_T_e] in *; eapply TR; eassumption. }
      destruct (H t' c1 c2 i ltac:(lra) (CC _ C1) (CC _ C2)) as (B1 & B2).
      split; [lra|]. eapply Rle_trans; [exact B2|]. apply Rmult_le_compat_r; [apply gap_nonneg|exact IK].
    - assert (I : 0 < / h) by (apply Rinv_0_lt_compat, Hh).
      assert (I2 : 0 <= 2 * / h * / h) by (apply Rmult_le_pos; lra).
      exists (/ h + 2 * / h * / h). split; [lra|].
      intros t c1 c2 i Ht B1 B2. pose proof (gap_nonneg c1 c2) as G0.
      assert (SELF : forall c, close3 h c c).
      { intros c. unfold close3. rewrite !Rminus_diag_eq by reflexivity. rewrite Rabs_R0. lra. }
      assert (HH : forall c, in_box lo hi c -> forall c1' c2' i', close3 h c1' c -> close3 h c2' c ->
        Rabs (rate t c1' i') <= / h /\ Rabs (rate t c1' i' - rate t c2' i') <= / h * gap c1' c2').
      { intros [x y z] (Q1 & Q2 & Q3). apply H; assumption. }
      assert (NEAR : close3 h c1 c2 \/ h < gap c1 c2).
      { pose proof (Rabs_pos (cd_P c1 - cd_P c2)). pose proof (Rabs_pos (cd_T_c c1 - cd_T_c c2)).
        pose proof (Rabs_pos (cd_T_e c1 - cd_T_e c2)). unfold close3, gap.
        destruct (Rle_lt_dec (Rabs (cd_P c1 - cd_P c2)) h); [|right; lra].
        destruct (Rle_lt_dec (Rabs (cd_T_c c1 - cd_T_c c2)) h); [|right; lra].
        destruct (Rle_lt_dec (Rabs (cd_T_e c1 - cd_T_e c2)) h); [|right; lra]. left. auto. }
      destruct NEAR as [NEAR|FAR].
      + destruct (HH c2 B2 c1 c2 i NEAR (SELF c2)) as (_ & Q).
        rewrite Rmult_plus_distr_r. assert (0 <= 2 * / h * / h * gap c1 c2) by (apply Rmult_le_pos; assumption). lra.
      + destruct (HH c1 B1 c1 c1 i (SELF c1) (SELF c1)) as (Q1 & _). destruct (HH c2 B2 c2 c2 i (SELF c2) (SELF c2)) as (Q2 & _).
        apply Rle_trans with (2 * / h).
        { unfold Rminus. eapply Rle_trans; [apply Rabs_triang|]. rewrite Rabs_Ropp. lra. }
        assert (M : 2 * / h <= 2 * / h * / h * gap c1 c2).
        { replace (2 * / h) with (2 * / h * / h * h) at 1 by (field; lra). apply Rmult_le_compat_l; lra. }
        rewrite Rmult_plus_distr_r. assert (0 <= / h * gap c1 c2) by (apply Rmult_le_pos; lra). lra.
  Qed.

  Lemma square_sum x y z : 0 <= x -> 0 <= y -> 0 <= z ->
    x * x + y * y + z * z <= (x + y + z) * (x + y + z) <= 3 * (x * x + y * y + z * z).
  Proof.
    intros Hx Hy Hz. pose proof (Rle_0_sqr (x - y)). pose proof (Rle_0_sqr (y - z)). pose proof (Rle_0_sqr (x - z)).
    unfold Rsqr in *. assert (0 <= x * y) by (apply Rmult_le_pos; assumption).
    assert (0 <= x * z) by (apply Rmult_le_pos; assumption). assert (0 <= y * z) by (apply Rmult_le_pos; assumption). lra.
  Qed.
  Lemma depends : exists L, 0 <= L /\ forall D D' c c' e e' a b, sound D -> sound D' -> 0 <= e -> 0 <= e' ->
    t0 <= a -> b <= T ->
    (forall t, a <= t <= b -> near_trajectory e D r c t /\ near_trajectory e' D' r c' t /\
                              in_box lo hi (c t) /\ in_box lo hi (c' t)) ->
    forall t, a <= t <= b -> gap (c t) (c' t) <= 2 * exp (L * (t - a)) * (gap (c a) (c' a) + (e + e')).
  Proof.
    destruct box_lip as (L & L0 & HL). exists ((6 * L + 3) / 2). split; [lra|].
    intros D D' c c' e e' a b HD HD' He He' Ha Hb H t Ht.
    set (eps := e + e').
    set (z := fun u => (cd_P (c u) - cd_P (c' u)) * (cd_P (c u) - cd_P (c' u))
      + (cd_T_c (c u) - cd_T_c (c' u)) * (cd_T_c (c u) - cd_T_c (c' u))
      + (cd_T_e (c u) - cd_T_e (c' u)) * (cd_T_e (c u) - cd_T_e (c' u)) + eps * eps).
    assert (AB : forall x : R, x * x = Rabs x * Rabs x) by (intros x; rewrite <- Rabs_mult, Rabs_pos_eq; [ring|apply (Rle_0_sqr x)]).
    assert (DZ : forall u, a <= u <= b -> exists dz, derivable_pt_lim z u dz /\ dz <= (6 * L + 3) * z u).
    { intros u Hu. destruct (H u Hu) as ((h1 & s1 & p1 & q1 & w1 & S1 & F1 & F2 & F3 & N1 & N2 & N3) &
        (h2 & s2 & p2 & q2 & w2 & S2 & G1 & G2 & G3 & M1 & M2 & M3) & B1 & B2).
      destruct (rate_is D u (c u) h1 s1 HD ltac:(lra) B1 S1) as (R1 & R2 & R3).
      destruct (rate_is D' u (c' u) h2 s2 HD' ltac:(lra) B2 S2) as (R1' & R2' & R3').
      pose proof (HL u _ _ uP ltac:(lra) B1 B2) as K1. pose proof (HL u _ _ uC ltac:(lra) B1 B2) as K2.
      pose proof (HL u _ _ uE ltac:(lra) B1 B2) as K3.
      rewrite <- R1, <- R1' in K1. rewrite <- R2, <- R2' in K2. rewrite <- R3, <- R3' in K3.
      assert (TR : forall p s p' s' k, Rabs (p - s) <= e -> Rabs (p' - s') <= e' -> Rabs (s - s') <= k -> Rabs (p - p') <= k + eps).
      { intros p s p' s' k Q1 Q2 Q3. replace (p - p') with ((p - s) + (s - s') + - (p' - s')) by ring.
        eapply Rle_trans; [apply Rabs_triang|]. rewrite Rabs_Ropp.
        eapply Rle_trans; [apply Rplus_le_compat_r, Rabs_triang|]. unfold eps. lra. }
      pose proof (TR _ _ _ _ _ N1 M1 K1) as D1. pose proof (TR _ _ _ _ _ N2 M2 K2) as D2. pose proof (TR _ _ _ _ _ N3 M3 K3) as D3.
      unfold gap in D1, D2, D3. clear TR K1 K2 K3.
      eexists. split.
      - unfold z. apply deriv_plus; [|apply deriv_const].
        apply deriv_plus; [apply deriv_plus|]; apply deriv_mult; apply deriv_minus; eassumption.
      - cbv beta. unfold z.
        set (x := cd_P (c u) - cd_P (c' u)) in *. set (y := cd_T_c (c u) - cd_T_c (c' u)) in *.
        set (w := cd_T_e (c u) - cd_T_e (c' u)) in *.
        set (dx := p1 - p2) in *. set (dy := q1 - q2) in *. set (dw := w1 - w2) in *.
        rewrite (AB x), (AB y), (AB w).
        pose proof (Rabs_pos x) as X1. pose proof (Rabs_pos y) as X2. pose proof (Rabs_pos w) as X3.
        set (X := Rabs x) in *. set (Y := Rabs y) in *. set (W := Rabs w) in *.
        assert (PR : forall v dv, Rabs dv <= L * (X + Y + W) + eps -> dv * v + v * dv <= 2 * (Rabs v * (L * (X + Y + W) + eps))).
        { intros v dv Q. replace (dv * v + v * dv) with (2 * (v * dv)) by ring.
          apply Rmult_le_compat_l; [lra|]. eapply Rle_trans; [apply Rle_abs|]. rewrite Rabs_mult.
          apply Rmult_le_compat_l; [apply Rabs_pos|exact Q]. }
        pose proof (PR x dx D1) as Q1. pose proof (PR y dy D2) as Q2. pose proof (PR w dw D3) as Q3.
        fold X in Q1. fold Y in Q2. fold W in Q3.
        destruct (square_sum X Y W X1 X2 X3) as (_ & SQ).
        pose proof (Rmult_le_compat_l L _ _ L0 SQ) as SQL.
        pose proof (Rle_0_sqr (X + Y + W - eps)) as S0. unfold Rsqr in S0.
        assert (0 <= L * (eps * eps)) by (apply Rmult_le_pos; [exact L0|apply (Rle_0_sqr eps)]).
        pose proof (Rle_0_sqr eps) as S9. unfold Rsqr in S9.
        lra. }
    pose proof (grows z a b _ DZ t Ht) as GZ.
    assert (Z1 : gap (c t) (c' t) * gap (c t) (c' t) <= 3 * z t).
    { unfold gap, z. set (x := cd_P (c t) - cd_P (c' t)). set (y := cd_T_c (c t) - cd_T_c (c' t)).
      set (w := cd_T_e (c t) - cd_T_e (c' t)). rewrite (AB x), (AB y), (AB w).
      destruct (square_sum (Rabs x) (Rabs y) (Rabs w) (Rabs_pos x) (Rabs_pos y) (Rabs_pos w)) as (_ & SQ).
      pose proof (Rle_0_sqr eps) as S9. unfold Rsqr in S9. lra. }
    assert (Z2 : z a <= (gap (c a) (c' a) + eps) * (gap (c a) (c' a) + eps)).
    { pose proof (gap_nonneg (c a) (c' a)) as G0. unfold gap in G0 |- *. unfold z.
      set (x := cd_P (c a) - cd_P (c' a)) in *. set (y := cd_T_c (c a) - cd_T_c (c' a)) in *.
      set (w := cd_T_e (c a) - cd_T_e (c' a)) in *. rewrite (AB x), (AB y), (AB w).
      destruct (square_sum (Rabs x) (Rabs y) (Rabs w) (Rabs_pos x) (Rabs_pos y) (Rabs_pos w)) as (SQ & _).
      assert (0 <= (Rabs x + Rabs y + Rabs w) * eps) by (apply Rmult_le_pos; [exact G0|unfold eps; lra]). lra. }
    set (k := exp ((6 * L + 3) / 2 * (t - a))).
    assert (EK : exp ((6 * L + 3) * (t - a)) = k * k).
    { unfold k. rewrite <- exp_plus. f_equal. field. }
    assert (K0 : 0 < k) by apply exp_pos. rewrite EK in GZ.
    set (u := gap (c a) (c' a) + eps) in *.
    assert (U0 : 0 <= u). { unfold u, eps. pose proof (gap_nonneg (c a) (c' a)). lra. }
    pose proof (gap_nonneg (c t) (c' t)) as G0.
    assert (FIN : gap (c t) (c' t) * gap (c t) (c' t) <= (2 * k * u) * (2 * k * u)).
    { assert (KK : 0 <= k * k) by (apply Rmult_le_pos; lra).
      apply (Rmult_le_compat_r (k * k)) in Z2; [|exact KK].
      assert (0 <= u * u * (k * k)) by (apply Rmult_le_pos; [apply (Rle_0_sqr u)|exact KK]). lra. }
    apply Rsqr_incr_0; [exact FIN|exact G0|]. apply Rmult_le_pos; [lra|exact U0].
  Qed.
End Depend.

Lemma exact_near D r c t : on_trajectory D r c t -> near_trajectory 0 D r c t.
Proof.
  intros (_ & _ & hint & s & H & F1 & F2 & F3). exists hint, s, (so_dP_dt s), (so_dTc_dt s), (so_dTe_dt s).
  split; [exact H|]. do 3 (split; [assumption|]).
  assert (Z : forall x, Rabs (x - x) <= 0) by (intros x; rewrite Rminus_diag_eq, Rabs_R0 by reflexivity; lra). auto.
Qed.
Lemma depends_exactly name r t0 T lo hi : ru_fluid r = IdealGas_Fluid (IdealGas_new name) ->
  smooth_volumes (ru_ws_vol_fn r) -> physical_box r lo hi t0 T ->
  exists L, 0 <= L /\ forall D D' c c' a b, sound D -> sound D' -> t0 <= a -> b <= T ->
    (forall t, a <= t <= b -> on_trajectory D r c t /\ on_trajectory D' r c' t /\
                              in_box lo hi (c t) /\ in_box lo hi (c' t)) ->
    forall t, a <= t <= b -> gap (c t) (c' t) <= 2 * exp (L * (t - a)) * gap (c a) (c' a).
Proof.
  intros Hf Hv Hb. destruct (depends name r Hf t0 T lo hi Hv Hb) as (L & L0 & H). exists L. split; [exact L0|].
  intros D D' c c' a b HD HD' Ha Hb' HT t Ht.
  pose proof (H D D' c c' 0 0 a b HD HD' ltac:(lra) ltac:(lra) Ha Hb') as Q. rewrite !Rplus_0_r in Q.
  apply Q; [|exact Ht]. intros u Hu. destruct (HT u Hu) as (A & B & C & E). auto using exact_near.
Qed.

(** two successive cycles *)
Lemma nearly_steady name r lo hi : ru_fluid r = IdealGas_Fluid (IdealGas_new name) ->
  smooth_volumes (ru_ws_vol_fn r) -> 0 <= ru_period r -> repeats (ru_ws_vol_fn r) (ru_period r) ->
  physical_box r lo hi 0 (ru_period r) ->
  exists K, 0 <= K /\ forall D c tol, sound D ->
    (forall t, 0 <= t <= 2 * ru_period r -> on_trajectory D r c t /\ in_box lo hi (c t)) ->
    close tol (cd_T_c (c 0)) (cd_T_c (c (ru_period r))) -> close tol (cd_T_e (c 0)) (cd_T_e (c (ru_period r))) ->
    forall t, 0 <= t <= ru_period r -> gap (c (t + ru_period r)) (c t) <= K * ct_rel tol.
Proof.
  intros Hf Hv H0 HR Hb. set (tau := ru_period r) in *.
  destruct (depends_exactly name r 0 tau lo hi Hf Hv Hb) as (L & L0 & H).
  set (M := Rabs (cd_P hi) + Rabs (cd_T_c hi) + Rabs (cd_T_e hi)).
  assert (M0 : 0 <= M).
  { unfold M. pose proof (Rabs_pos (cd_P hi)). pose proof (Rabs_pos (cd_T_c hi)). pose proof (Rabs_pos (cd_T_e hi)). lra. }
  exists (2 * exp (L * tau) * M). pose proof (exp_pos (L * tau)) as E0. split.
  { apply Rmult_le_pos; [lra|exact M0]. }
  intros D c tol HD HT HC HE t Ht.
  assert (PH : forall u, 0 <= u <= 0 + tau -> on_trajectory D r c u /\ physical (Run_calculate_inputs r u (c u))).
  { intros u Hu. destruct (HT u ltac:(lra)) as (A & B). split; [exact A|]. apply (Hb u (c u)); [lra|exact B]. }
  assert (PC : Rabs (cd_P (c tau) - cd_P (c 0)) < ct_rel tol * cd_P (c 0)).
  { pose proof (pressure_close name r Hf D HD c 0 tau H0 HR PH tol) as Q. rewrite Rplus_0_l in Q. apply Q; assumption. }
  destruct (HT 0 ltac:(lra)) as ((T1 & _) & (BP & BC & BE)). destruct T1 as (T1 & T2 & _).
  apply close_within in HC; [|assumption]. apply close_within in HE; [|assumption].
  assert (P0 : 0 < cd_P (c 0)).
  { pose proof (return_facts name r Hf D HD c 0 tau H0 HR PH) as (_ & _ & _ & _ & _ & _ & _ & Q & _). exact Q. }
  assert (TP : 0 <= ct_rel tol).
  { apply (Rmult_le_reg_r (cd_P (c 0))); [exact P0|]. pose proof (Rabs_pos (cd_P (c tau) - cd_P (c 0))). lra. }
  pose proof (Rle_abs (cd_P hi)). pose proof (Rle_abs (cd_T_c hi)). pose proof (Rle_abs (cd_T_e hi)).
  assert (G0 : gap (c (0 + tau)) (c 0) <= ct_rel tol * M).
  { rewrite Rplus_0_l. unfold gap, M.
    assert (ct_rel tol * cd_P (c 0) <= ct_rel tol * Rabs (cd_P hi)) by (apply Rmult_le_compat_l; lra).
    assert (ct_rel tol * cd_T_c (c 0) <= ct_rel tol * Rabs (cd_T_c hi)) by (apply Rmult_le_compat_l; lra).
    assert (ct_rel tol * cd_T_e (c 0) <= ct_rel tol * Rabs (cd_T_e hi)) by (apply Rmult_le_compat_l; lra). lra. }
  assert (Q : gap (c (t + tau)) (c t) <= 2 * exp (L * (t - 0)) * gap (c (0 + tau)) (c 0)).
  { apply (H D D (fun u => c (u + tau)) c 0 tau HD HD); try lra. intros u Hu.
    destruct (HT u ltac:(lra)) as (A & B). destruct (HT (u + tau) ltac:(lra)) as (A' & B').
    destruct (Hv u) as (V1 & V2). destruct (Hb u (c (u + tau)) ltac:(lra) B') as (_ & Hp).
    split; [|split; [exact A|split; [exact B'|exact B]]].
    apply (trajectory_shift D r c tau u HR V1 V2). split; [exact A'|]. split.
    - rewrite (inputs_shift r tau u _ HR). exact Hp.
    - exact (proj2 (Hv (u + tau))). }
  eapply Rle_trans; [exact Q|]. rewrite Rminus_0_r.
  assert (X : exp (L * t) <= exp (L * tau)).
  { destruct (Rle_lt_or_eq_dec (L * t) (L * tau)) as [C|C].
    - apply Rmult_le_compat_l; lra.
    - left. apply exp_increasing, C.
    - rewrite C. lra. }
  apply Rle_trans with (2 * exp (L * tau) * (ct_rel tol * M)); [|right; ring].
  apply Rmult_le_compat; [|apply gap_nonneg|lra|exact G0]. pose proof (exp_pos (L * t)). lra.
Qed.
