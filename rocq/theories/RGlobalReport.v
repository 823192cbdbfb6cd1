(** * The report of an engine whose samples are accurate step by step *)
From Coq Require Import ZArith NArith List Reals Lra Lia.
From Verif Require Import Num ModelTypes ModelWs ModelHx ModelStateEq ModelEngine ModelApi RNum Spec SpecR SpecGas
  SpecKin SpecTraj SpecLaws SpecUnique SpecExist SpecDepend SpecSeries SpecQuad SpecReport SpecSteady SpecSample SpecGlobal Fixture PolySolve
  PolyLoop PolyReport RSolve RGauss RFluid RKin RMass RLaws RPeriod RStart RDepend RQuad RSeries RCase RBounds RSteady
  RSample RSampleReport RMotion RSampleCase RGlobal.
Import ListNotations.
Local Open Scope R_scope.

Section Report.
  Variable g : IdealGas R.
  Let Rg := ig_gas_constant g.
  Hypothesis HR : 0 < Rg.
  Variable r : Run R.
  Hypothesis Hf : ru_fluid r = IdealGas_Fluid g.
  Variables (D : Decomp R) (c : R -> Conditions R) (tau : R).
  Hypothesis HD : sound D.
  Hypothesis Htau : 0 <= tau.
  Hypothesis HT : forall t, 0 <= t <= tau -> physical_trajectory D r c t.
  Hypothesis HW : steady_motion (ru_ws_vol_fn r) 0 tau.
  Context (T : Temperatures R) (a : Replies R).
  Hypothesis HV : forall t, 0 <= t <= tau -> rp_vols a t = ru_ws_vol_fn r t.

  Theorem report_of_steps : exists K d, 0 < d /\ forall s X e vs h e0 e1 D',
    (forall t, 0 <= t <= tau -> solved_at D r t (c t) (s t)) -> totals (IdealGas_Fluid g) T a c s tau X ->
    s_fluid (en_state e) = IdealGas_Fluid g -> s_temp (en_state e) = T -> replies e a -> series_of vs (en_values e) ->
    sound D' -> grid_to (map (@sv_time R) vs) tau -> steps_within h (map (@sv_time R) vs) ->
    0 <= e0 -> 0 <= e1 -> e0 + e1 <= d -> starts_near e0 c vs -> accurate_steps e1 D' r vs -> all_solved D' r vs ->
    exists rep, RunResults_from e = Ret rep /\ report_within a X (K * (h + (e0 + e1))) rep.
  Proof.
    destruct (report_near g HR r Hf D c tau HD Htau HT HW T a HV) as (K1 & d1 & D1 & HRep).
    destruct (samples_near g HR r Hf D c tau HD HT) as (K2 & d2 & P2 & D2 & HS).
    assert (I : 0 < K2 + 1) by lra.
    exists (Rabs K1 * (1 + K2)), (Rmin d2 (d1 / (K2 + 1))).
    split; [apply Rmin_pos; [exact D2|apply Rdiv_lt_0_compat; assumption]|].
    intros s X e vs h e0 e1 D' Hs HX Ef Et Hrp Hse HD' Hg Hh H0 H1 Hd Hst Hac Hall.
    pose proof (Rmin_l d2 (d1 / (K2 + 1))) as M1. pose proof (Rmin_r d2 (d1 / (K2 + 1))) as M2.
    pose proof Hg as (Hnd & _).
    pose proof (HS D' vs e0 e1 HD' Hnd (fun v Hv => grid_range _ _ Hg _ (in_map _ _ _ Hv)) H1 H0 ltac:(lra) Hst Hac) as HN.
    set (u := e0 + e1) in *. assert (U0 : 0 <= u) by (unfold u; lra).
    assert (SA : sampled D' r c (K2 * u) vs).
    { unfold sampled, all_solved in *. rewrite Forall_forall in *. intros v Hv. split; [exact (HN v Hv)|exact (Hall v Hv)]. }
    assert (DL : K2 * u <= d1).
    { apply Rle_trans with ((K2 + 1) * (d1 / (K2 + 1))); [apply Rmult_le_compat; lra|].
      replace ((K2 + 1) * (d1 / (K2 + 1))) with d1 by (field; lra). lra. }
    destruct (errors_nonneg r c tau D' vs h (K2 * u) Hg Hh SA) as (Hh0 & _).
    destruct (HRep s X e vs h (K2 * u) D' Hs HX Ef Et Hrp Hse HD' Hg Hh SA DL) as (rep & ER & B).
    exists rep. split; [exact ER|].
    assert (Q : K1 * (h + K2 * u) <= Rabs K1 * (1 + K2) * (h + u)).
    { assert (KU : 0 <= K2 * u) by (apply Rmult_le_pos; assumption).
      apply Rle_trans with (Rabs K1 * (h + K2 * u)); [apply Rmult_le_compat_r; [lra|apply Rle_abs]|].
      rewrite Rmult_assoc. apply Rmult_le_compat_l; [apply Rabs_pos|].
      assert (0 <= K2 * h) by (apply Rmult_le_pos; assumption). lra. }
    destruct B as (B1 & B2 & B3 & B4 & B5 & B6 & B7). unfold report_within.
    split; [|split; [|split; [|split; [|split; [|split]]]]]; eapply Rle_trans; try eassumption; exact Q.
  Qed.
End Report.

(** ** Samples of a steady cycle, the last one off by what a step may be off *)
Definition sample_at (c : R -> Conditions R) (s : R -> Solution R) (t : R) : SeValues R := mkSeValues t (c t) (s t).
Definition moved (e : R) (v : SeValues R) : SeValues R :=
  let x := sv_conditions v in mkSeValues (sv_time v) (mkCond (cd_P x + e) (cd_T_c x) (cd_T_e x)) (sv_solution v).
Definition moved_samples (c : R -> Conditions R) (s : R -> Solution R) (e w : R) (n : nat) : list (SeValues R) :=
  map (sample_at c s) (even w 0 n) ++ [moved (e * w) (sample_at c s (INR n * w))].
Lemma gap_refl x : gap x x = 0.
Proof. unfold gap. rewrite !Rminus_diag_eq by reflexivity. rewrite Rabs_R0. ring. Qed.
Lemma moved_accurate D r c s e w : 0 <= e -> 0 <= w -> (forall t, 0 <= t -> on_trajectory D r c t) ->
  forall m k, accurate_steps e D r (map (sample_at c s) (even w k m) ++ [moved (e * w) (sample_at c s (INR (k + m) * w))]).
Proof.
  intros He Hw HT.
  assert (TR : forall k u v, INR k * w <= u <= v -> on_trajectory D r c u).
  { intros k u v Hu. apply HT. pose proof (pos_INR k). assert (0 <= INR k * w) by (apply Rmult_le_pos; assumption). lra. }
  induction m as [|m IH]; intros k; [exact I|].
  assert (ES : INR (S k) * w = INR k * w + w) by (rewrite S_INR; ring).
  destruct m as [|m].
  - replace (k + 1)%nat with (S k) by lia. split; [|exact I]. cbn [moved sample_at sv_time sv_conditions].
    exists c. split; [reflexivity|]. split; [intros u Hu; exact (TR _ _ _ Hu)|].
    rewrite ES. replace (e * (INR k * w + w - INR k * w)) with (e * w) by ring.
    assert (0 <= e * w) by (apply Rmult_le_pos; assumption).
    unfold gap. cbn [cd_P cd_T_c cd_T_e]. rewrite !(Rminus_diag_eq (cd_T_c _)), !(Rminus_diag_eq (cd_T_e _)), Rabs_R0 by reflexivity.
    replace (cd_P (c (INR k * w + w)) + e * w - cd_P (c (INR k * w + w))) with (e * w) by ring. rewrite Rabs_pos_eq; lra.
  - specialize (IH (S k)). replace (S k + S m)%nat with (k + S (S m))%nat in IH by lia. split; [|exact IH].
    cbn [sample_at sv_time sv_conditions]. exists c. split; [reflexivity|]. split; [intros u Hu; exact (TR _ _ _ Hu)|].
    rewrite gap_refl. apply Rmult_le_pos; lra.
Qed.
Lemma moved_times c s e w n : map (@sv_time R) (moved_samples c s e w n) = even w 0 (S n).
Proof.
  unfold moved_samples. rewrite map_app, map_map. cbn [map moved sample_at sv_time]. rewrite map_id.
  unfold even. rewrite (seq_S n 0), map_app. reflexivity.
Qed.
Lemma gl_moved : exists c s, steady_cycle gauss gl_run c /\
  forall e n, 0 <= e -> (0 < n)%nat -> let vs := moved_samples c s e (ru_period gl_run / INR n) n in
    grid_to (map (@sv_time R) vs) (ru_period gl_run) /\ steps_within (ru_period gl_run / INR n) (map (@sv_time R) vs) /\
    starts_near 0 c vs /\ accurate_steps e gauss gl_run vs /\ (e = 0 -> all_solved gauss gl_run vs).
Proof.
  destruct (gl_steady 1000000 ltac:(lra)) as (c & _ & HS). pose proof HS as (HT & _).
  destruct (sol_exists gl_run gauss c (ru_period gl_run) gauss_sound (fun t Ht => HT t (proj1 Ht))) as (s & Hs).
  exists c, s. split; [exact HS|]. intros e n He Hn vs.
  assert (T0 : 0 < ru_period gl_run) by (cbn; lra).
  assert (N0 : 0 < INR n) by (apply lt_0_INR; exact Hn).
  assert (W : 0 < ru_period gl_run / INR n) by (apply Rdiv_lt_0_compat; assumption).
  unfold vs. rewrite moved_times. split; [exact (even_grid _ n T0 Hn)|]. split; [apply even_steps; lra|].
  split; [|split].
  - destruct n as [|n]; [lia|]. unfold moved_samples. cbn [even seq map app starts_near sample_at sv_conditions sv_time].
    rewrite gap_refl. lra.
  - apply (moved_accurate gauss gl_run c s e _ He (Rlt_le _ _ W) (fun t Ht => proj1 (HT t Ht)) n 0).
  - intros ->. unfold all_solved, moved_samples. apply Forall_app. split.
    + apply Forall_forall. intros v Hv. apply in_map_iff in Hv as (t & <- & Ht). cbn [sample_at sv_time sv_conditions sv_solution].
      apply Hs. apply (grid_range _ _ (even_grid _ n T0 Hn)). unfold even in *. rewrite seq_S, map_app. apply in_or_app. left. exact Ht.
    + constructor; [|constructor]. cbn [moved sample_at sv_time sv_conditions sv_solution].
      rewrite Rmult_0_l, Rplus_0_r. set (t := INR n * (ru_period gl_run / INR n)).
      replace (mkCond (cd_P (c t)) (cd_T_c (c t)) (cd_T_e (c t))) with (c t) by (destruct (c t); reflexivity).
      apply Hs. unfold t. replace (INR n * (ru_period gl_run / INR n)) with (ru_period gl_run) by (field; lra). lra.
Qed.
