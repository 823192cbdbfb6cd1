(** * Trajectories exist from every start near a given one *)
From Coq Require Import ZArith NArith List Reals Lra Lia.
From Verif Require Import Num ModelTypes ModelWs ModelHx ModelStateEq ModelEngine ModelApi RNum Spec SpecR SpecGas
  SpecKin SpecTraj SpecLaws SpecUnique SpecExist SpecDepend SpecSeries SpecQuad SpecReport SpecSteady SpecSample SpecGlobal Fixture PolySolve
  PolyReport RSolve RGauss RFluid RKin RMass RLaws RClose RPairs RPicard RLocal RExist RStart RDepend RQuad RSeries RSmooth RCase RBounds RSteady
  RPeriod RCase4 RSample RSampleReport RSampleCase RGlobal RGlobalReport.
Import ListNotations.
Local Open Scope R_scope.

Section Nearby.
  Variable name : GasName.
  Variable r : Run R.
  Hypothesis Hf : ru_fluid r = IdealGas_Fluid (IdealGas_new name).
  Hypothesis Hv : smooth_volumes (ru_ws_vol_fn r).
  Variables (D : Decomp R) (c : R -> Conditions R) (tau : R).
  Hypothesis HD : sound D.
  Hypothesis HT : forall t, 0 <= t <= tau -> physical_trajectory D r c t.

  Lemma gap_close h x y : gap x y <= h -> close3 h x y.
  Proof.
    unfold gap, close3. pose proof (Rabs_pos (cd_P x - cd_P y)). pose proof (Rabs_pos (cd_T_c x - cd_T_c y)).
    pose proof (Rabs_pos (cd_T_e x - cd_T_e y)). intros H3. repeat split; lra.
  Qed.
  Lemma gap_continuous t e : 0 <= t <= tau -> 0 < e -> exists h, 0 < h /\ forall u, Rabs (u - t) <= h -> close3 e (c u) (c t).
  Proof.
    intros Ht He. destruct (HT t Ht) as ((_ & _ & hint & s & _ & F1 & F2 & F3) & _).
    apply deriv_cont in F1, F2, F3.
    destruct (proj1 (cont_iff _ _) F1 e He) as (h1 & P1 & H1), (proj1 (cont_iff _ _) F2 e He) as (h2 & P2 & H2),
      (proj1 (cont_iff _ _) F3 e He) as (h3 & P3 & H3).
    exists (Rmin h1 (Rmin h2 h3) / 2).
    assert (M0 : 0 < Rmin h1 (Rmin h2 h3)) by (repeat apply Rmin_pos; assumption).
    pose proof (Rmin_l h1 (Rmin h2 h3)). pose proof (Rmin_r h1 (Rmin h2 h3)). pose proof (Rmin_l h2 h3). pose proof (Rmin_r h2 h3).
    split; [lra|]. intros u Hu. split; [|split]; left; [apply H1|apply H2|apply H3]; lra.
  Qed.
  Lemma tube_steps : exists h, 0 < h /\ forall t x, 0 <= t <= tau -> gap x (c t) <= h ->
    exists z, z t = x /\ forall D', sound D' -> complete D' -> forall u, t - h < u < t + h -> physical_trajectory D' r z u.
  Proof.
    destruct (creep (fun t h => forall x, close3 h x (c t) ->
        exists z, z t = x /\ forall D', sound D' -> complete D' -> forall u, t - h < u < t + h -> physical_trajectory D' r z u) 0 tau) as (h & H0 & H).
    - intros t h k Hk A x (Q1 & Q2 & Q3). destruct (A x) as (z & Ez & B); [repeat split; lra|]. exists z. split; [exact Ez|].
      intros D' HS HC u Hu. apply B; [exact HS|exact HC|lra].
    - intros t Ht. destruct (HT t Ht) as ((P1 & _) & P2 & _).
      destruct (starts name r Hf t 1 (c t) Rlt_0_1 P1 P2 (fun u _ => Hv u)) as (h & Hh & H).
      destruct (gap_continuous t (h / 2) Ht ltac:(lra)) as (k & K0 & HK).
      exists (Rmin (h / 2) k). pose proof (Rmin_l (h / 2) k) as M1. pose proof (Rmin_r (h / 2) k) as M2.
      split; [apply Rmin_pos; lra|]. intros u Hu Hut x (X1 & X2 & X3). destruct (HK u ltac:(lra)) as (C1 & C2 & C3).
      assert (TR : forall p q s : R, Rabs (p - q) <= Rmin (h / 2) k -> Rabs (q - s) <= h / 2 -> Rabs (p - s) <= h).
      { intros p q s Hp Hq. replace (p - s) with ((p - q) + (q - s)) by ring.
        eapply Rle_trans; [apply Rabs_triang|lra]. }
      destruct (H u x ltac:(lra)) as (z & Ez & A).
      { split; [|split]; eapply TR; eassumption. }
      exists z. split; [exact Ez|]. intros D' HS HC v Hv'. apply A; [exact HS|exact HC|lra].
    - exists h. split; [exact H0|]. intros t x Ht Hx. apply (H t Ht), gap_close, Hx.
  Qed.

  Theorem nearby : exists K d, 0 <= K /\ 0 < d /\ forall D' a x, sound D' -> complete D' -> 0 <= a <= tau -> gap x (c a) <= d ->
    exists z, z a = x /\ forall t, a <= t <= tau -> physical_trajectory D' r z t /\ gap (z t) (c t) <= K * gap x (c a).
  Proof.
    destruct (stays_near (IdealGas_new name) (gas_R_pos name) r Hf D c tau HD HT) as (K & d & K0 & D0 & HS).
    destruct tube_steps as (h & H0 & HH).
    assert (I : 0 < K + 1) by lra.
    set (d' := Rmin d (h / (K + 1))).
    assert (D1 : 0 < d') by (apply Rmin_pos; [exact D0|apply Rdiv_lt_0_compat; assumption]).
    exists K, d'. split; [exact K0|]. split; [exact D1|]. intros D' a x HD' HC' Ha Hx.
    pose proof (Rmin_l d (h / (K + 1))) as M1. pose proof (Rmin_r d (h / (K + 1))) as M2. fold d' in M1, M2.
    pose proof (gap_nonneg x (c a)) as G0.
    assert (KH : K * gap x (c a) <= h).
    { apply Rle_trans with ((K + 1) * (h / (K + 1))); [apply Rmult_le_compat; lra|].
      replace ((K + 1) * (h / (K + 1))) with h by (field; lra). lra. }
    assert (GH : gap x (c a) <= h).
    { apply Rle_trans with d'; [exact Hx|]. apply Rle_trans with (h / (K + 1)); [exact M2|].
      apply (Rmult_le_reg_r (K + 1)); [exact I|]. replace (h / (K + 1) * (K + 1)) with h by (field; lra).
      assert (0 <= h * K) by (apply Rmult_le_pos; lra). lra. }
    assert (N : forall n, exists z, z a = x /\ forall t, a <= t <= Rmin tau (a + INR n * (h / 2)) -> physical_trajectory D' r z t).
    { induction n as [|n (z & Ez & Hz)].
      - destruct (HH a x Ha GH) as (z & Ez & Hz). exists z. split; [exact Ez|]. intros t Ht.
        pose proof (Rmin_r tau (a + INR 0 * (h / 2))) as Q. cbn [INR] in Q. apply Hz; [exact HD'|exact HC'|]. cbn [INR] in Ht. lra.
      - set (t1 := Rmin tau (a + INR n * (h / 2))) in *.
        assert (N0 : 0 <= INR n * (h / 2)) by (apply Rmult_le_pos; [apply pos_INR|lra]).
        assert (T1 : a <= t1 <= tau) by (split; [apply Rmin_glb; lra|apply Rmin_l]).
        assert (G1 : gap (z t1) (c t1) <= h).
        { eapply Rle_trans; [|exact KH]. rewrite <- Ez.
          apply (HS D' z a t1 HD' (proj1 Ha) (proj2 T1)); [|rewrite Ez; lra|lra]. intros t Ht. apply (Hz t Ht). }
        destruct (HH t1 (z t1) ltac:(lra) G1) as (z' & Ez' & Hz').
        exists (RStart.glue t1 z z'). split; [rewrite glue_left by lra; exact Ez|]. intros t Ht.
        apply glue_trajectory; [exact HD'|symmetry; exact Ez'| |]; intros Q; [apply Hz; lra|].
        apply Hz'; [exact HD'|exact HC'|]. split; [lra|]. destruct Ht as (_ & Ht).
        pose proof (Rmin_l tau (a + INR (S n) * (h / 2))) as Q1. pose proof (Rmin_r tau (a + INR (S n) * (h / 2))) as Q2.
        rewrite S_INR in Q1, Q2, Ht. unfold t1, Rmin. destruct (Rle_dec tau (a + INR n * (h / 2))); lra. }
    destruct (steps_enough (h / 2) (tau - a) ltac:(lra)) as (n & Hn). destruct (N n) as (z & Ez & Hz).
    rewrite Rmin_left in Hz by lra. exists z. split; [exact Ez|]. intros t Ht. split; [exact (Hz t Ht)|].
    rewrite <- Ez. apply (HS D' z a tau HD' (proj1 Ha) (Rle_refl _)); [|rewrite Ez; lra|exact Ht].
    intros u Hu. apply (Hz u Hu).
  Qed.
End Nearby.
Lemma nearby_engine name comps s r D c : s_fluid s = IdealGas_Fluid (IdealGas_new name) -> driven (co_ws comps) ->
  Run_new comps s = Ret r -> sound D -> (forall t, 0 <= t <= ru_period r -> physical_trajectory D r c t) ->
  exists K d, 0 <= K /\ 0 < d /\ forall D' x, sound D' -> complete D' -> gap x (c 0) <= d ->
    exists z, z 0 = x /\ (forall t, 0 <= t <= ru_period r -> physical_trajectory D' r z t /\ gap (z t) (c t) <= K * gap x (c 0)) /\
      forall D'' z', sound D'' -> z' 0 = x -> (forall t, 0 <= t <= ru_period r -> physical_trajectory D'' r z' t) ->
        forall t, 0 <= t <= ru_period r -> z' t = z t.
Proof.
  intros Hfl Hd Hr HD HT. destruct (driven_run comps s r Hd Hr) as (T0 & _ & _ & Hf). rewrite Hfl in Hf.
  destruct (nearby name r Hf (driven_smooth comps s r Hd Hr) D c (ru_period r) HD HT) as (K & d & K0 & D0 & H).
  exists K, d. split; [exact K0|]. split; [exact D0|]. intros D' x HD' HC' Hx.
  destruct (H D' 0 x HD' HC' ltac:(lra) Hx) as (z & Ez & Hz). exists z. split; [exact Ez|]. split; [exact Hz|].
  intros D'' z' HD'' Ez' Hz' t Ht.
  apply (trajectories_agree name r D'' D' z' z 0 (ru_period r) 0 Hf HD'' HD'); [lra| |congruence|exact Ht].
  intros u Hu. split; [exact (Hz' u Hu)|apply (Hz u Hu)].
Qed.
Lemma gl_start : Run_new gl_comps case_state = Ret gl_run /\ driven (co_ws gl_comps) /\
  exists c, cd_P (c 0) = 1000000 /\ steady_cycle gauss gl_run c.
Proof. split; [reflexivity|]. split; [exact gl_driven|apply gl_steady; lra]. Qed.
