(** * Engines turned end for end: a case *)
From Coq Require Import ZArith NArith List Reals Lra Lia.
From Verif Require Import Num ModelTypes ModelWs ModelHx ModelStateEq ModelEngine ModelApi RNum Spec SpecR SpecGas SpecDepend
  SpecKin SpecTraj SpecLaws SpecUnique SpecSteady SpecSeries SpecReport SpecSample SpecSimilar SpecTurn Fixture PolySolve PolyLoop PolyReport
  RSolve RGauss RFluid RKin RMass RSeries RLaws RCase RBounds RSteady RSampleCase RSimilar RSimilarCase RTurn.
Import ListNotations.
Local Open Scope R_scope.

(** three quarters of a revolution later *)
Definition tn_later : R := 1 / 80.
Lemma tn_by : turned_by gl_drive tn_later.
Proof. exists 1%Z. unfold tn_later. cbn. lra. Qed.
Definition tn_comps : Components R := turned_engine gl_drive sm_chx sm_regen sm_hhx.
Definition tn_state : State R :=
  mkState (IdealGas_Fluid he) (s_pres case_state) (mirror_temps case_temps) (mkMassFlows 0 0 0) (mkHeatFlows 0 0 0) 0.
Lemma tn_new : Run_new tn_comps tn_state = Ret (turned_run tn_later (s_pres case_state) gl_run).
Proof.
  apply (turned_new tn_later Helium gl_drive sm_chx sm_regen sm_hhx case_state tn_state gl_run eq_refl tn_by (conj eq_refl eq_refl)).
  rewrite <- gl_fixed. exact gl_new.
Qed.
Lemma tn_case : exists c s, steady_cycle gauss gl_run c /\
  steady_cycle gauss (turned_run tn_later (s_pres case_state) gl_run) (turned_trajectory tn_later c) /\
  (forall t, 0 <= t <= ru_period gl_run -> solved_at gauss gl_run t (c t) (s t)) /\
  forall n, (0 < n)%nat -> let vs := samples_of c s (ru_period gl_run / INR n) n in
    let e' := mkEngine tn_comps tn_state (Values_from (map (turned_sample tn_later) vs)) in
    exists rep rep', RunResults_from (gl_engine c s n) = Ret rep /\ RunResults_from e' = Ret rep' /\
      turned_report tn_later gl_replies rep rep'.
Proof.
  destruct gl_sampled as (c & s & H1 & H2 & H3). exists c, s. split; [exact H1|].
  split; [apply (turned_steady tn_later _ gl_run gauss c gauss_sound gauss_complete); [unfold tn_later; lra|exact H1]|].
  split; [exact H2|]. intros n Hn vs e'. destruct (H3 n Hn) as (A & B & _). fold vs in B.
  apply (report_turned tn_later (gl_engine c s n) e' gl_replies vs); try assumption.
  - split; reflexivity.
  - apply Values_from_series.
  - apply (turned_replied tn_later gl_drive sm_chx sm_regen sm_hhx (gl_engine c s n) e' gl_replies tn_by); [reflexivity|reflexivity|exact A].
Qed.
