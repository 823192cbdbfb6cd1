(** * Similar engines: a case *)
From Coq Require Import ZArith NArith List Reals Lra Lia.
From Verif Require Import Num ModelTypes ModelWs ModelHx ModelStateEq ModelEngine ModelApi RNum Spec SpecR SpecGas SpecDepend
  SpecKin SpecTraj SpecLaws SpecUnique SpecSteady SpecSeries SpecReport SpecSample SpecSimilar Fixture PolySolve PolyLoop PolyReport RSolve RGauss
  RFluid RKin RMass RSeries RLaws RCase RBounds RSteady RSampleCase RSimilar.
Import ListNotations.
Local Open Scope R_scope.

Definition sm_chx : FixedApproach R := mkFA 1 0.00004 10 (mkPP 0 1 0).
Definition sm_regen : FixedApproach R := mkFA 2 0.0001 10 (mkPP 5 0 0).
Definition sm_hhx : FixedApproach R := mkFA 3 0.0001 10 (mkPP 6 2 0).
Lemma gl_fixed : gl_comps = fixed_engine (SinusoidalDrive_ws gl_drive) sm_chx sm_regen sm_hhx.
Proof. reflexivity. Qed.
Section Case.
  Context (p w v : R) (Hp : 0 < p) (Hw : 0 < w) (Hv : 0 < v).
  Definition sm_comps : Components R :=
    fixed_engine (SinusoidalDrive_ws (similar_sin p w v gl_drive)) (similar_exchanger p w v sm_chx)
      (similar_exchanger p w v sm_regen) (similar_exchanger p w v sm_hhx).
  Definition sm_state : State R :=
    mkState (IdealGas_Fluid he) (similar_pressure p (s_pres case_state)) case_temps (mkMassFlows 0 0 0) (mkHeatFlows 0 0 0) 0.
  Lemma sm_new : Run_new sm_comps sm_state = Ret (similar_run p w v gl_run).
  Proof.
    apply (similar_new p w v Helium gl_comps _ case_state); [reflexivity|repeat split| |exact gl_new].
    rewrite gl_fixed. apply fixed_components. left. exists gl_drive. split; reflexivity.
  Qed.
  Lemma sm_case : exists c s, steady_cycle gauss gl_run c /\
    steady_cycle gauss (similar_run p w v gl_run) (similar_trajectory p w c) /\
    (forall t, 0 <= t <= ru_period gl_run -> solved_at gauss gl_run t (c t) (s t)) /\
    forall n, (0 < n)%nat -> let vs := samples_of c s (ru_period gl_run / INR n) n in
      let e' := mkEngine sm_comps sm_state (Values_from (map (similar_sample p w v) vs)) in
      exists rep rep', RunResults_from (gl_engine c s n) = Ret rep /\ RunResults_from e' = Ret rep' /\ similar_report p w v rep rep'.
  Proof.
    destruct gl_sampled as (c & s & H1 & H2 & H3). exists c, s. split; [exact H1|].
    split; [exact (similar_steady p w v Hp Hw Hv he gl_run eq_refl gauss c gauss_sound gauss_complete H1)|].
    split; [exact H2|]. intros n Hn vs e'. destruct (H3 n Hn) as (A & B & _). fold vs in B.
    apply (report_similar p w v Hp Hw Hv Helium (gl_engine c s n) e' gl_replies vs); try reflexivity; try assumption.
    - apply Values_from_series.
    - apply (fixed_replies p w v (gl_engine c s n) e' (SinusoidalDrive_ws gl_drive) (SinusoidalDrive_ws (similar_sin p w v gl_drive)) sm_chx sm_regen sm_hhx);
        [left; exists gl_drive; split; reflexivity|reflexivity|reflexivity|exact A].
  Qed.
End Case.
