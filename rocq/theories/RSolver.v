(** * Runs with a solver that keeps its promise *)
From Coq Require Import ZArith NArith List Reals Lra Lia.
From Verif Require Import Num ModelTypes ModelWs ModelHx ModelStateEq ModelEngine ModelApi RNum Spec SpecR SpecGas
  SpecKin SpecTraj SpecLaws SpecUnique SpecExist SpecDepend SpecSeries SpecQuad SpecReport SpecSpaces SpecBounds SpecSteady SpecContract
  SpecSample SpecGlobal SpecSearch SpecConverge SpecAccurate SpecSolver Fixture PolySolve RSolve RGauss RFluid RKin RMass RLaws RClose RPairs
  RPicard RLocal RExist RStart RPeriod RSeries RCase4 RDepend RBounds RSteady RQuad RSample RSampleReport RMotion RSampleCase RSettle
  RSearch RSearchCase RAccurate REuler.
Import ListNotations.
Local Open Scope R_scope.

Definition cond_of (y : vec3 R) : Conditions R := let '(p, x, w) := y in mkCond p x w.
Definition vec_of (c : Conditions R) : vec3 R := (cd_P c, cd_T_c c, cd_T_e c).
Lemma gap_apart c y : gap (cond_of y) c = apart y (vec_of c).
Proof. destruct y as [[p x] w]. reflexivity. Qed.

(** ** The right-hand side that the solver gets to see *)
Lemma served_exec D cycle asked f p xs ys : served asked f p xs ys ->
  (forall t y hint, asked t y -> exists fd, system D cycle hint t y = Ret (f t y, fd)) ->
  forall hint, snd (exec_ode D cycle p hint) = Ret (Ok (xs, ys)).
Proof.
  intros HS HA. induction HS as [xs ys|t y k xs ys Ht _ IH]; intros hint; [reflexivity|].
  cbn [exec_ode]. destruct (HA t y hint Ht) as (fd & ->). specialize (IH fd). destruct (exec_ode D cycle (k (f t y)) fd). exact IH.
Qed.

(** ** Bounds on the rates in a range of states *)
Section Rates.
  Variable name : GasName.
  Let g : IdealGas R := IdealGas_new name.
  Variable r : Run R.
  Hypothesis Hf : ru_fluid r = IdealGas_Fluid g.
  Variables (t0 T : R) (lo hi : Conditions R).
  Hypothesis H0T : t0 <= T.
  Hypothesis Hv : smooth_volumes (ru_ws_vol_fn r).
  Hypothesis HM : steady_motion (ru_ws_vol_fn r) t0 T.
  Hypothesis Hbox : physical_box r lo hi t0 T.
  Let rt := rate r.
  Let d7 c1 t1 c2 t2 := dist7 (join r c1 t1) (join r c2 t2).
  Lemma local_lip2 t c : t0 <= t <= T -> in_box lo hi c -> exists h, 0 < h /\ forall t1 t2 c1 c2 i,
    Rabs (t1 - t) <= h -> Rabs (t2 - t) <= h -> close3 h c1 c -> close3 h c2 c ->
    Rabs (rt t1 c1 i) <= / h /\ Rabs (rt t1 c1 i - rt t2 c2 i) <= / h * d7 c1 t1 c2 t2.
  Proof.
    intros Ht Hc. pose proof (gas_R_pos name) as HR. fold g in HR.
    destruct (Hbox t c Ht Hc) as (HT & Hph).
    pose (y0 := join r c t).
    assert (HPy : physical (inp7 r y0)) by (unfold y0; rewrite inp7_join; exact Hph).
    assert (HTc : 0 < y0 yC) by apply HT. assert (HTe : 0 < y0 yE) by apply HT.
    destruct (rates_tame g HR r Hf y0 HTc HTe HPy uP) as (K1 & e1 & K1p & E1 & A1).
    destruct (rates_tame g HR r Hf y0 HTc HTe HPy uC) as (K2 & e2 & K2p & E2 & A2).
    destruct (rates_tame g HR r Hf y0 HTc HTe HPy uE) as (K3 & e3 & K3p & E3 & A3).
    set (K := K1 + K2 + K3 + 1). set (dl := Rmin e1 (Rmin e2 e3)).
    assert (D0 : 0 < dl) by (unfold dl; repeat apply Rmin_pos; assumption).
    assert (LE : dl <= e1 /\ dl <= e2 /\ dl <= e3).
    { unfold dl. repeat split; repeat first [apply Rle_refl | apply Rmin_l | apply Rmin_r | eapply Rle_trans; [apply Rmin_r|]]. }
    destruct LE as (L1 & L2 & L3).
    destruct (volumes_near r t 1 c Rlt_0_1 (fun u _ => Hv u) dl D0) as (hv & HV0 & HV).
    assert (KP : 1 <= K) by (unfold K; lra).
    assert (IK : 0 < / K) by (apply Rinv_0_lt_compat; lra).
    set (h := Rmin (/ K) (Rmin (hv / 2) dl)).
    assert (Hh : 0 < h) by (unfold h; repeat apply Rmin_pos; lra).
    assert (LH : h <= / K /\ h <= hv / 2 /\ h <= dl).
    { unfold h. split; [apply Rmin_l|]. split; (eapply Rle_trans; [apply Rmin_r|]); [apply Rmin_l|apply Rmin_r]. }
    destruct LH as (H1 & H2 & H3).
    assert (HK : K <= / h). { rewrite <- (Rinv_inv K). apply Rinv_le_contravar; assumption. }
    exists h. split; [exact Hh|]. intros t1 t2 c1 c2 i Ht1 Ht2 C1 C2.
    assert (IN : forall t' c', Rabs (t' - t) <= h -> close3 h c' c -> inside y0 dl (join r c' t')).
    { intros t' c' Ht' (Q1 & Q2 & Q3) i'. pose proof (HV t' ltac:(lra) i') as Q.
      destruct i'; cbn [join] in Q |- *; try exact Q; unfold y0; cbn [join]; lra. }
    pose proof (IN t1 c1 Ht1 C1) as I1. pose proof (IN t2 c2 Ht2 C2) as I2.
    assert (G0 : 0 <= d7 c1 t1 c2 t2) by (apply Rle_trans with (2 := dist7_ge _ _ yP); apply Rabs_pos).
    assert (W : forall k x w, k <= K -> x <= k -> w <= k * d7 c1 t1 c2 t2 -> x <= / h /\ w <= / h * d7 c1 t1 c2 t2).
    { intros k x w Hk Hx Hw. split; [lra|]. eapply Rle_trans; [exact Hw|]. apply Rmult_le_compat_r; lra. }
    unfold rt, rate.
    destruct (A1 (join r c1 t1) (join r c2 t2)) as (B1 & F1); try (eapply inside_le; [exact L1|assumption]).
    destruct (A2 (join r c1 t1) (join r c2 t2)) as (B2 & F2); try (eapply inside_le; [exact L2|assumption]).
    destruct (A3 (join r c1 t1) (join r c2 t2)) as (B3 & F3); try (eapply inside_le; [exact L3|assumption]).
    destruct i; [apply (W K1)|apply (W K2)|apply (W K3)]; try assumption; unfold K; lra.
  Qed.
  (** the volumes and their rates change at bounded speed *)
  Lemma volume_speed : exists M, 0 <= M /\ forall t1 t2 c1 c2, t0 <= t1 <= T -> t0 <= t2 <= T ->
    d7 c1 t1 c2 t2 <= gap c1 c2 + M * Rabs (t1 - t2).
  Proof.
    destruct HM as (K & HC & HE).
    set (wc := fun t => v_deriv (fst (ru_ws_vol_fn r t))) in *. set (we := fun t => v_deriv (snd (ru_ws_vol_fn r t))) in *.
    set (K' := Rabs K). assert (K0 : 0 <= K') by apply Rabs_pos. assert (KK : K <= K') by apply Rle_abs.
    apply (changes_weaken _ _ _ _ _ KK) in HC, HE.
    set (M1 := Rabs (wc t0) + Rabs (we t0) + K' * (T - t0)).
    assert (KT : 0 <= K' * (T - t0)) by (apply Rmult_le_pos; lra).
    pose proof (Rabs_pos (wc t0)) as AC. pose proof (Rabs_pos (we t0)) as AE.
    assert (BW : forall w, changes_within K' w t0 T -> forall t, t0 <= t <= T -> Rabs (w t) <= Rabs (w t0) + K' * (T - t0)).
    { intros w Hw t Ht. specialize (Hw t0 t ltac:(lra) ltac:(lra) ltac:(lra)).
      replace (w t) with ((w t - w t0) + w t0) by ring. eapply Rle_trans; [apply Rabs_triang|].
      assert (K' * (t - t0) <= K' * (T - t0)) by (apply Rmult_le_compat_l; lra). lra. }
    assert (SP : forall (V w : R -> R) (M : R), (forall t, t0 <= t <= T -> has_deriv V t (w t)) -> (forall t, t0 <= t <= T -> Rabs (w t) <= M) -> 
      changes_within M V t0 T).
    { intros V w M HV HW u v U1 U2 U3. destruct U2 as [U2|U2]; [|subst v; rewrite !Rminus_diag_eq, Rabs_R0 by reflexivity; lra].
      destruct (mvt V w u v U2) as (x & E & Hx).
      { intros x Hx. apply HV. lra. }
      rewrite E, Rabs_mult, (Rabs_pos_eq (v - u)) by lra. apply Rmult_le_compat_r; [lra|]. apply HW. lra. }
    assert (S1 : changes_within M1 (fun t => v_value (fst (ru_ws_vol_fn r t))) t0 T).
    { apply (SP _ wc); [intros t _; apply Hv|]. intros t Ht. pose proof (BW wc HC t Ht). unfold M1. lra. }
    assert (S2 : changes_within M1 (fun t => v_value (snd (ru_ws_vol_fn r t))) t0 T).
    { apply (SP _ we); [intros t _; apply Hv|]. intros t Ht. pose proof (BW we HE t Ht). unfold M1. lra. }
    exists (2 * M1 + 2 * K'). split; [unfold M1; lra|]. intros t1 t2 c1 c2 H1 H2.
    pose proof (changes_abs _ _ _ _ t2 t1 S1 H2 H1) as Q1. pose proof (changes_abs _ _ _ _ t2 t1 S2 H2 H1) as Q2.
    pose proof (changes_abs _ _ _ _ t2 t1 HC H2 H1) as Q3. pose proof (changes_abs _ _ _ _ t2 t1 HE H2 H1) as Q4.
    unfold d7, dist7, gap. cbn [join]. cbv beta in *. unfold wc, we in *. lra.
  Qed.
  Lemma box_regular : exists L B, 0 <= L /\ 0 <= B /\ forall t1 t2 c1 c2 i, t0 <= t1 <= T -> t0 <= t2 <= T -> in_box lo hi c1 -> in_box lo hi c2 ->
    Rabs (rt t1 c1 i) <= B /\ Rabs (rt t1 c1 i - rt t2 c2 i) <= L * (Rabs (t1 - t2) + gap c1 c2).
  Proof.
    destruct volume_speed as (M & M0 & HMv).
    destruct (uniform4 (fun t x y z h => forall t1 t2 c1 c2 i, Rabs (t1 - t) <= h -> Rabs (t2 - t) <= h ->
        close3 h c1 (mkCond x y z) -> close3 h c2 (mkCond x y z) ->
        Rabs (rt t1 c1 i) <= / h /\ Rabs (rt t1 c1 i - rt t2 c2 i) <= / h * d7 c1 t1 c2 t2)
      t0 T (cd_P lo) (cd_P hi) (cd_T_c lo) (cd_T_c hi) (cd_T_e lo) (cd_T_e hi)) as (h & Hh & H).
    - intros t x y z h k Hk A t1 t2 c1 c2 i U1 U2 (P1 & P2 & P3) (Q1 & Q2 & Q3).
      assert (IK : / h <= / k) by (apply Rinv_le_contravar; lra).
      destruct (A t1 t2 c1 c2 i) as (B1 & B2); [lra|lra|repeat split; lra|repeat split; lra|].
      split; [lra|]. eapply Rle_trans; [exact B2|]. apply Rmult_le_compat_r; [|exact IK].
      apply Rle_trans with (2 := dist7_ge _ _ yP); apply Rabs_pos.
    - intros t x y z Ht Hx Hy Hz.
      assert (B : in_box lo hi (mkCond x y z)) by (split; [exact Hx|split; [exact Hy|exact Hz]]).
      destruct (local_lip2 t _ Ht B) as (h & Hh & H).
      exists (h / 2). split; [lra|]. intros t' x' y' z' E1 E2 E3 E4 t1 t2 c1 c2 i U1 U2 C1 C2.
      assert (IK : / h <= / (h / 2)) by (apply Rinv_le_contravar; lra).
      assert (TR : forall p q s : R, Rabs (p - q) <= h / 2 -> Rabs (q - s) <= h / 2 -> Rabs (p - s) <= h).
      { intros p q s Hp Hq. replace (p - s) with ((p - q) + (q - s)) by ring.
        eapply Rle_trans; [apply Rabs_triang|lra]. }
      assert (CC : forall c', close3 (h / 2) c' (mkCond x' y' z') -> close3 h c' (mkCond x y z)).
      { intros c' (Q1 & Q2 & Q3). split; [|split]; cbn [cd_P cd_T_c cd_T_e] in *; eapply TR; eassumption. }
      destruct (H t1 t2 c1 c2 i (TR _ _ _ U1 E1) (TR _ _ _ U2 E1) (CC _ C1) (CC _ C2)) as (B1 & B2).
      split; [lra|]. eapply Rle_trans; [exact B2|]. apply Rmult_le_compat_r; [|exact IK].
      apply Rle_trans with (2 := dist7_ge _ _ yP); apply Rabs_pos.
    - assert (I : 0 < / h) by (apply Rinv_0_lt_compat, Hh).
      assert (I2 : 0 <= 2 * / h * / h) by (apply Rmult_le_pos; lra).
      assert (IM : 0 <= / h * (1 + M)) by (apply Rmult_le_pos; lra).
      exists (/ h * (1 + M) + 2 * / h * / h), (/ h). split; [lra|]. split; [lra|].
      intros t1 t2 c1 c2 i Ht1 Ht2 B1 B2. pose proof (gap_nonneg c1 c2) as G0. pose proof (Rabs_pos (t1 - t2)) as G1.
      assert (SELF : forall c, close3 h c c).
      { intros c. unfold close3. rewrite !Rminus_diag_eq by reflexivity. rewrite Rabs_R0. lra. }
      assert (SELFt : forall t, Rabs (t - t) <= h) by (intros t; rewrite Rminus_diag_eq, Rabs_R0 by reflexivity; lra).
      assert (HH : forall t c, t0 <= t <= T -> in_box lo hi c -> forall t1' t2' c1' c2' i', Rabs (t1' - t) <= h -> Rabs (t2' - t) <= h ->
        close3 h c1' c -> close3 h c2' c ->
        Rabs (rt t1' c1' i') <= / h /\ Rabs (rt t1' c1' i' - rt t2' c2' i') <= / h * d7 c1' t1' c2' t2').
      { intros t [x y z] Ht (Q1 & Q2 & Q3). apply H; assumption. }
      destruct (HH t1 c1 Ht1 B1 t1 t1 c1 c1 i (SELFt t1) (SELFt t1) (SELF c1) (SELF c1)) as (Q1 & _).
      destruct (HH t2 c2 Ht2 B2 t2 t2 c2 c2 i (SELFt t2) (SELFt t2) (SELF c2) (SELF c2)) as (Q2 & _).
      split; [exact Q1|].
      assert (NEAR : (Rabs (t1 - t2) <= h /\ close3 h c1 c2) \/ h < Rabs (t1 - t2) + gap c1 c2).
      { pose proof (Rabs_pos (cd_P c1 - cd_P c2)). pose proof (Rabs_pos (cd_T_c c1 - cd_T_c c2)).
        pose proof (Rabs_pos (cd_T_e c1 - cd_T_e c2)). unfold close3, gap.
        destruct (Rle_lt_dec (Rabs (t1 - t2)) h); [|right; lra].
        destruct (Rle_lt_dec (Rabs (cd_P c1 - cd_P c2)) h); [|right; lra].
        destruct (Rle_lt_dec (Rabs (cd_T_c c1 - cd_T_c c2)) h); [|right; lra].
        destruct (Rle_lt_dec (Rabs (cd_T_e c1 - cd_T_e c2)) h); [|right; lra]. left. auto. }
      set (X := Rabs (t1 - t2) + gap c1 c2) in *. assert (X0 : 0 <= X) by (unfold X; lra).
      rewrite Rmult_plus_distr_r.
      destruct NEAR as [(NT & NC)|FAR].
      + destruct (HH t2 c2 Ht2 B2 t1 t2 c1 c2 i NT (SELFt t2) NC (SELF c2)) as (_ & Q).
        apply Rle_trans with (1 := Q). pose proof (HMv t1 t2 c1 c2 Ht1 Ht2) as QM.
        assert (M1 : d7 c1 t1 c2 t2 <= (1 + M) * X).
        { unfold X. assert (0 <= M * gap c1 c2) by (apply Rmult_le_pos; assumption). lra. }
        assert (/ h * d7 c1 t1 c2 t2 <= / h * ((1 + M) * X)) by (apply Rmult_le_compat_l; lra).
        assert (0 <= 2 * / h * / h * X) by (apply Rmult_le_pos; assumption). lra.
      + apply Rle_trans with (2 * / h).
        { unfold Rminus. eapply Rle_trans; [apply Rabs_triang|]. rewrite Rabs_Ropp. lra. }
        assert (M1 : 2 * / h <= 2 * / h * / h * X).
        { replace (2 * / h) with (2 * / h * / h * h) at 1 by (field; lra). apply Rmult_le_compat_l; lra. }
        assert (0 <= / h * (1 + M) * X) by (apply Rmult_le_pos; assumption). lra.
  Qed.
End Rates.
