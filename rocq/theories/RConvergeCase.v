(** * A run whose report can be made as accurate as desired *)
From Coq Require Import ZArith NArith List Reals Lra Lia.
From Verif Require Import Num ModelTypes ModelWs ModelHx ModelStateEq ModelEngine ModelApi RNum Spec SpecR SpecGas
  SpecKin SpecTraj SpecLaws SpecUnique SpecExist SpecDepend SpecSeries SpecQuad SpecReport SpecSpaces SpecBounds SpecSteady SpecContract
  SpecSample SpecGlobal SpecSearch SpecConverge Fixture RSolve RGauss RFluid RBounds RSteady RSampleCase RSettle RSearch RSearchCase RConverge.
Import ListNotations.
Local Open Scope R_scope.

Definition st_replies : Replies R :=
  mkReplies 60 (sin_volumes gl_drive) (mkPar (mkPP 0 10 0) (mkPP 0 10 0)) (mkTR 1 1) 1 2 3 (mkPP 0 1 0) (mkPP 5 0 0) (mkPP 6 2 0).
Lemma st_replied vals : replies (mkEngine st_comps st_state vals) st_replies.
Proof. cbv zeta. unfold replies. cbv zeta. repeat split; reflexivity. Qed.
Lemma st_steady : exists c', cd_P (c' 0) = 1000000 /\ steady_cycle gauss st_run c' /\ warm_trajectory gauss st_run 125 c'.
Proof.
  destruct (engine_settles st_comps st_state st_run gauss 0.0001 0.0002 0.0001 0.0002 125 0.0002 0.024 (/ 2) 1) with (P0 := 1000000)
    as (c' & PC & SC & WT & _).
  - reflexivity.
  - exact gl_driven.
  - exact st_new.
  - exact st_norm.
  - exact gauss_sound.
  - exact gauss_complete.
  - apply st_volumes.
  - apply st_volumes.
  - exact st_sane.
  - exact st_settles.
  - apply st_expanded.
  - apply st_expanded.
  - lra.
  - exists c'. auto.
Qed.
Lemma st_top_pos : 0 <= st_top.
Proof.
  destruct (st_bounded _ st_start) as (_ & B & _). destruct st_ends as (E1 & _).
  cbn [cd_T_c] in B. change (te_chx (s_temp st_state)) with (te_chx st_temps) in B. rewrite E1 in B. lra.
Qed.
Lemma st_converges : exists c' s X, steady_cycle gauss st_run c' /\ warm_trajectory gauss st_run 125 c' /\ cd_P (c' 0) = 1000000 /\
  (forall t, 0 <= t <= ru_period st_run -> solved_at gauss st_run t (c' t) (s t)) /\
  totals (IdealGas_Fluid he) st_temps st_replies c' s (ru_period st_run) X /\
  forall eps, 0 < eps -> exists dl, 0 < dl /\ forall m tol, (0 < m)%nat -> 1 / 60 / INR m <= dl -> 0 < ct_abs tol -> 0 < ct_rel tol <= dl ->
  exists n, forall tol' ode points inner outer, 0 < ct_abs tol' -> 0 < ct_rel tol' -> (n < N.to_nat inner)%nat -> (0 < outer)%N ->
  exists k en rep,
    Engine_run_counted (st_env m) gauss st_comps (IdealGas_Fluid he) st_inputs (st_settings tol tol' ode points inner outer) = (k, Ret (Ok en)) /\
    (k <= n + 2)%nat /\ RunResults_from en = Ret rep /\ report_within st_replies X eps rep.
Proof.
  destruct st_steady as (c' & PC & SC & WT). pose proof SC as (HT & _).
  destruct (eng_totals Helium st_comps st_state st_run gauss c' eq_refl gl_driven st_new gauss_sound (fun t Ht => HT t (proj1 Ht)) st_temps st_replies eq_refl)
    as (s & X & Hs & HX).
  exists c', s, X. repeat (split; [assumption|]). intros eps He. pose proof st_left_over as HQ.
  destruct (run_limit st_comps st_state st_run gauss 125 0.0002 0.024 (/ 2) 1 c' st_replies (fun _ => eq_refl) (fun _ => eq_refl) (fun _ => eq_refl)
    eq_refl gl_driven st_new st_settles ltac:(lra) gauss_sound gauss_complete SC WT PC st_replied eps He) as (dl & D0 & H).
  exists dl. split; [exact D0|]. intros m tol Hm Hd A1 (A2 & A3).
  pose proof (q_pos gauss st_run 125 0.0002 0.024 (/ 2) 1 c' st_settles WT) as Q0.
  destruct (some_limit tol (left_over st_run 125 0.0002 0.024 (/ 2) 1) 0
    (spread (mkCond 1000000 (te_chx (s_temp st_state)) (te_hhx (s_temp st_state))) (c' 0)) st_top) as (n & Hn); try lra.
  - apply spread_pos.
  - exact st_top_pos.
  - unfold change_after, passes_test. unfold Rdiv. rewrite !Rmult_0_r, !Rmult_0_l, !Rplus_0_r, !Rmult_0_r. split; assumption.
  - exists n. intros tol' ode points inner outer A4 A5 A6 A7.
    apply (H (st_env m) (IdealGas_Fluid he) st_inputs (st_settings tol tol' ode points inner outer) st_region 0 0 (1 / 60 / INR m) st_top n s X);
      try assumption; try lra.
    + exact st_hint.
    + apply st_reliable, Hm.
    + exact st_bounded.
    + exact st_start.
    + apply st_resolves, Hm.
Qed.
