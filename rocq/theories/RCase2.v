(** * Concrete series, engines and exchangers over the reals *)
From Coq Require Import ZArith NArith List Reals Lra Lia.
From Verif Require Import Num ModelTypes ModelWs ModelHx ModelStateEq ModelEngine ModelApi RNum Spec SpecR
  SpecGas SpecKin SpecTraj PolySolve PolyLoop Fixture RSolve RGauss RFluid RKin RMass RCase
  SpecSeries RSeries SpecPerf RPerf SpecHx RHx.
Import ListNotations.
Local Open Scope R_scope.

Lemma trapezoid_case : integrate [0; 1; 3] [1; 3; 2] = 7.
Proof. rewrite integrate_trapezoid. cbn. field. Qed.

Definition series_case : Values R :=
  mkValues [0; 1; 2] [1; 3; 2] [300; 310; 305] [800; 810; 805]
    [1; -1; 2] [1; 1; -2] [0; 0; 1] [2; 0; 0] [5; 6; 7] [0; 1; -1] [9; 8; 7].
Lemma grid_case : grid_to (vs_time series_case) 2.
Proof.
  split; [cbn; lra|]. split; [eexists; reflexivity|]. split; [exists [0; 1]; reflexivity|lra].
Qed.
Lemma pressure_case : Pressure_from_values series_case = Ret (mkPressure (9 / 4) 3 1 1).
Proof.
  destruct (pressure_total series_case ltac:(discriminate) ltac:(discriminate)) as [p Hp].
  rewrite Hp. f_equal.
  destruct (pressure_stats _ _ Hp) as ((H1 & H2) & (H3 & H4) & (rest & H5) & t & Ht & Ha).
  destruct p as [avg mx mn t0]. cbn [pr_max pr_min pr_t_zero pr_avg] in *.
  cbn [series_case vs_P vs_time last_unwrap] in *. injection Ht as <-. injection H5 as <- _.
  f_equal.
  - rewrite Ha. unfold average. cbn. field.
  - pose proof (H2 3 ltac:(cbn; tauto)). destruct H1 as [<-|[<-|[<-|[]]]]; lra.
  - pose proof (H4 1 ltac:(cbn; tauto)). destruct H3 as [<-|[<-|[<-|[]]]]; lra.
Qed.
Lemma mass_case : MassFlows_from_values series_case = Ret (mkMassFlows (1 / 4) (1 / 2) (3 / 8)).
Proof.
  unfold MassFlows_from_values, m_dot_chx, m_dot_regen, m_dot_hhx.
  rewrite !(m_dot_avg_eq series_case _ _ 2 eq_refl). cbn [obind]. do 2 f_equal;
    unfold average, interface_mean; cbn;
    repeat match goal with |- context [Rabs ?x] =>
      first [rewrite (Rabs_pos_eq x) by lra|rewrite (Rabs_left x) by lra] end; field.
Qed.
Lemma heat_case : exists h,
  HeatFlows_from_values series_case 290 820 (mkTR 2 4) = Ret h /\ hf_chx h = 113 / 8.
Proof.
  eexists. split; [reflexivity|]. cbn [hf_chx].
  destruct (heat_flows series_case 290 820 (mkTR 2 4) _ eq_refl) as (t & Ht & E & _).
  cbn [hf_chx] in E. rewrite E. injection Ht as <-. unfold average. cbn. field.
Qed.

(** ** An engine with solved values *)
Definition sampled (s0 s1 s2 : Solution R) : list (SeValues R) :=
  [mkSeValues 0 case_conditions s0; mkSeValues (1 / 240) case_conditions s1;
   mkSeValues (1 / 60) case_conditions s2].
Definition case_engine (vs : list (SeValues R)) : Engine R := mkEngine case_comps case_state (Values_from vs).
Lemma case_results s0 s1 s2 : exists r, RunResults_from (case_engine (sampled s0 s1 s2)) = Ret r.
Proof. eexists. reflexivity. Qed.
Lemma case_solved : exists vs,
  length vs = 3%nat /\ solved_engine gauss (case_engine vs) (Run_Cycle case_run) vs /\
  (exists r, RunResults_from (case_engine vs) = Ret r) /\
  fl_enth (s_fluid case_state) (te_sink (s_temp case_state)) (pr_avg (s_pres case_state))
  + fl_enth (s_fluid case_state) (te_source (s_temp case_state)) (pr_avg (s_pres case_state)) <> 0.
Proof.
  destruct (case_solves 0 FlowDirection_default) as [s0 H0].
  destruct (case_solves (1 / 240) FlowDirection_default) as [s1 H1].
  destruct (case_solves (1 / 60) FlowDirection_default) as [s2 H2].
  exists (sampled s0 s1 s2). split; [reflexivity|]. split; [|split; [apply case_results|]].
  - unfold solved_engine. cbv zeta. cbn [case_engine en_components en_state en_values].
    split; [|split].
    + exact (Run_new_cycle case_comps case_state case_run case_run_new).
    + apply Values_from_series.
    + constructor; [exact (solve_upwind _ _ _ _ H0)|]. constructor; [exact (solve_upwind _ _ _ _ H1)|].
      constructor; [exact (solve_upwind _ _ _ _ H2)|]. constructor.
  - pose proof case_norm_nonzero as H. unfold case_norm in H. rewrite R_nhalf in H. intros E. apply H.
    cbn [n_mul n_add R_ops]. change (ig_enth he 300 1000000 + ig_enth he 900 1000000 = 0) in E. rewrite E. ring.
Qed.
Lemma case_answers vs : exists a, answers (case_engine vs) a /\ an_freq a = 60 /\ an_R_chx a = 1 /\
  tr_comp (an_res a) = 1.
Proof.
  exists (mkAnswers 60 (sin_volumes case_drive) (sd_parasitics case_drive) (mkTR 1 1) 1 2 3
    (mkPP 0 1 0) (mkPP 5 0 0) (mkPP 6 2 0)).
  unfold answers. cbn zeta. repeat split.
Qed.

(** ** Exchangers *)
Lemma log_mean_case : let T := regen_temp 5 310 890 10 in cold_end T 310 = 315 /\ hot_end T 890 = 890 - 15 / 2.
Proof.
  cbn zeta. destruct (regen_differences 5 310 890 10) as (_ & _ & H & _). cbn zeta in H.
  destruct (H ltac:(lra)) as [E1 E2]. unfold cold_end, hot_end, cold_difference, hot_difference.
  rewrite E1, E2. split; field.
Qed.
Definition exchanger_case : HeatExchanger R := mkHxr 310 1000000 1 5193 0.01 1000.
Lemma capacity_case : 0 < capacity exchanger_case /\ 0 < hx_Q_dot exchanger_case.
Proof. unfold capacity. cbn. lra. Qed.
