(** * Concrete runs in f64, used as witnesses

    The runs are evaluated once each with the virtual machine; everything that
    is needed about them is collected in one boolean. *)
From Coq Require Import ZArith NArith List Reals Lia.
From Flocq Require Import Core BinarySingleNaN.
From Verif Require Import Num ModelTypes ModelWs ModelHx ModelStateEq ModelEngine ModelApi
  B64 Fixture Spec SpecLoop SpecApi.
Import ListNotations.
Local Open Scope bool_scope.

Definition demo_tol (m e : Z) : ToleranceConfig b64 := mkTolCfg (n_lit m e) (n_lit m e).
Definition demo_solver (inner_max outer_max : N) (inner outer : ToleranceConfig b64) : SolverConfig b64 :=
  mkSolverCfg (mkInnerCfg inner inner_max) (mkOuterCfg outer outer_max) (mkOdeCfg (demo_tol 1 (-3)) 4%N).
Definition loose : ToleranceConfig b64 := mkTolCfg (n_lit 20 0) (n_lit 1 (-1)).
Definition demo_conditions : ConditionsConfig b64 :=
  mkCondCfg (n_lit 300 0) (n_lit 800 0) (n_lit 10 6).
(** one substep per output interval, three for a single interval *)
Definition per_period (a : OdeArgs b64) : nat :=
  if n_le (n_add (oa_dx a) (oa_dx a)) (oa_x_end a) then 1 else 3.
Definition demo_env : Env b64 := rk4_env per_period 3 true.

(** fixed approach temperatures *)
Definition fa_engine : EngineConfig b64 :=
  mkEngineCfg (FC_Helium FM_IdealGas)
    (mkComponentsCfg (CC_FixedApproach ChxFAConfig_default) (HC_FixedApproach HhxFAConfig_default)
       (RC_FixedApproach RegenFAConfig_default) (WC_Sinusoidal SinConfig_default)).
Definition fa_comps : Components b64 :=
  mkComponents (SinusoidalDrive_ws (SinusoidalDrive_from SinConfig_default))
    (chx_FixedApproach (chx_FixedApproach_from ChxFAConfig_default))
    (regen_FixedApproach (regen_FixedApproach_from RegenFAConfig_default))
    (hhx_FixedApproach (hhx_FixedApproach_from HhxFAConfig_default)).
Definition fa_config : Config b64 :=
  mkConfig fa_engine (demo_solver 10 5 loose (demo_tol 1 0)) demo_conditions.

(** fixed conductances *)
Definition demo_chx_fc : ChxFCConfig b64 := mkChxFCCfg (n_lit 40 (-6)) (n_lit 4000 0) n0 n0.
Definition demo_hhx_fc : HhxFCConfig b64 := mkHhxFCCfg (n_lit 10 (-5)) (n_lit 4000 0) n0 n0 n0.
Definition fc_engine : EngineConfig b64 :=
  mkEngineCfg (FC_Helium FM_IdealGas)
    (mkComponentsCfg (CC_FixedConductance demo_chx_fc) (HC_FixedConductance demo_hhx_fc)
       (RC_FixedConductance RegenFCConfig_default) (WC_Sinusoidal SinConfig_default)).
Definition fc_comps : Components b64 :=
  mkComponents (SinusoidalDrive_ws (SinusoidalDrive_from SinConfig_default))
    (chx_FixedConductance (chx_FixedConductance_from demo_chx_fc))
    (regen_FixedConductance (regen_FixedConductance_from RegenFCConfig_default))
    (hhx_FixedConductance (hhx_FixedConductance_from demo_hhx_fc)).
Definition fc_config : Config b64 :=
  mkConfig fc_engine (demo_solver 10 5 loose (demo_tol 4 0)) demo_conditions.

Definition helium : Fluid b64 := IdealGas_Fluid IdealGas_helium.
Definition demo_inputs : RunInputs b64 := RunInputs_from demo_conditions.
Definition settings_of (c : Config b64) : RunSettings b64 := RunSettings_from (cf_solver c).

Definition is_zero (x : b64) : bool := Beqb x (B754_zero false).
Definition positive (x : b64) : bool := is_finite x && Bltb (B754_zero false) x.

(** the time average of [y], as a number *)
Definition average_of (t y : list b64) : b64 := n_div (trapz t y) (last t n0).

(** What is checked about a run: it succeeds with four points and a positive
    mechanical efficiency, the reported average mass flow of the cold exchanger
    is zero or not ([zero_flow]), and differs from the average of the reported
    series, which is positive. *)
Definition check_run (zero_flow : bool) (o : outcome (result (Engine b64) RunError)) : bool :=
  match o with
  | Ret (Ok eng) =>
      let v := en_values eng in
      let a := average_of (vs_time v) (mean_magnitudes (vs_m_dot_ck v) (vs_m_dot_kr v)) in
      let m := mf_chx (s_mass_flow (en_state eng)) in
      Nat.eqb (length (vs_time v)) 4 && positive a &&
      (if zero_flow then is_zero m else positive m && negb (Beqb a m)) &&
      match RunResults_from eng with
      | Ret r => positive (rre_mechanical (rr_efficiency r))
      | Panic _ => false
      end
  | _ => false
  end.

Lemma fa_checked :
  check_run true (Engine_run demo_env gauss fa_comps helium demo_inputs (settings_of fa_config)) = true.
Proof. vm_cast_no_check (eq_refl true). Qed.

Lemma fc_checked :
  check_run false (Engine_run demo_env gauss fc_comps helium demo_inputs (settings_of fc_config)) = true.
Proof. vm_cast_no_check (eq_refl true). Qed.

(** tight inner tolerance and one inner iteration: no steady state is found *)
Definition inner_config : Config b64 :=
  mkConfig fa_engine (demo_solver 1 5 (demo_tol 1 (-9)) (demo_tol 1 0)) demo_conditions.
(** fixed conductances and one outer iteration *)
Definition outer_config : Config b64 :=
  mkConfig fc_engine (demo_solver 10 1 loose (demo_tol 4 0)) demo_conditions.
Definition check_error (e : RunError) (o : outcome (result (Engine b64) RunError)) : bool :=
  match o, e with
  | Ret (Err InnerLoop), InnerLoop | Ret (Err OuterLoop), OuterLoop => true
  | _, _ => false
  end.
Lemma inner_checked :
  check_error InnerLoop
    (Engine_run demo_env gauss fa_comps helium demo_inputs (settings_of inner_config)) = true.
Proof. vm_cast_no_check (eq_refl true). Qed.
Lemma outer_checked :
  check_error OuterLoop
    (Engine_run demo_env gauss fc_comps helium demo_inputs (settings_of outer_config)) = true.
Proof. vm_cast_no_check (eq_refl true). Qed.

Lemma check_error_eq e o : check_error e o = true -> o = Ret (Err e).
Proof. destruct o as [[eng|[]]|p], e; cbn; congruence. Qed.

Lemma inner_runs :
  Engine_run demo_env gauss fa_comps helium demo_inputs (settings_of inner_config) =
  Ret (Err InnerLoop).
Proof. exact (check_error_eq _ _ inner_checked). Qed.
Lemma outer_runs :
  Engine_run demo_env gauss fc_comps helium demo_inputs (settings_of outer_config) =
  Ret (Err OuterLoop).
Proof. exact (check_error_eq _ _ outer_checked). Qed.

(** ** What the booleans say *)
Lemma time_average_eq (t y : list b64) a : time_average t y a -> a = average_of t y.
Proof.
  intros (t' & tf & -> & ->). unfold average_of. f_equal.
  rewrite last_last. reflexivity.
Qed.
Lemma positive_not_zero x : positive x = true -> is_zero x = true -> False.
Proof.
  unfold positive, is_zero, Bltb, Beqb, Bcompare. destruct x as [s|s| |s m e H]; cbn; try discriminate.
  destruct s; discriminate.
Qed.
Lemma Beqb_refl_positive x : positive x = true -> Beqb x x = true.
Proof.
  unfold positive. intros H. apply Bool.andb_true_iff in H as [H _].
  rewrite Beqb_correct by assumption. apply Raux.Req_bool_true. reflexivity.
Qed.

Definition demo_run (lag_zero : bool) (comps : Components b64) (c : Config b64) : Prop :=
  exists eng r,
    Engine_run demo_env gauss comps helium demo_inputs (settings_of c) = Ret (Ok eng) /\
    RunResults_from eng = Ret r /\
    length (vs_time (en_values eng)) = 4%nat /\
    positive (rre_mechanical (rr_efficiency r)) = true /\
    (if lag_zero then is_zero (mf_chx (s_mass_flow (en_state eng))) = true
     else positive (mf_chx (s_mass_flow (en_state eng))) = true) /\
    forall a, time_average (vs_time (en_values eng))
                (mean_magnitudes (vs_m_dot_ck (en_values eng)) (vs_m_dot_kr (en_values eng))) a ->
              a <> mf_chx (s_mass_flow (en_state eng)).

Lemma check_run_demo z comps c :
  check_run z (Engine_run demo_env gauss comps helium demo_inputs (settings_of c)) = true ->
  demo_run z comps c.
Proof.
  unfold demo_run. generalize (Engine_run demo_env gauss comps helium demo_inputs (settings_of c)).
  intros o H. destruct o as [[eng|e]|p]; try discriminate H.
  cbn [check_run] in H. repeat rewrite Bool.andb_true_iff in H.
  destruct H as [[[H1 H2] H3] H4].
  destruct (RunResults_from eng) as [r|p] eqn:Hr; [|discriminate H4].
  exists eng, r. split; [reflexivity|]. split; [exact Hr|].
  split; [apply Nat.eqb_eq; exact H1|]. split; [exact H4|].
  destruct z.
  - split; [exact H3|]. intros a Ha E. apply time_average_eq in Ha. rewrite <- E, Ha in H3.
    exact (positive_not_zero _ H2 H3).
  - apply Bool.andb_true_iff in H3 as [H3 H5].
    split; [exact H3|]. intros a Ha E. apply time_average_eq in Ha. rewrite <- E, Ha in H5.
    rewrite Beqb_refl_positive in H5; [discriminate|assumption].
Qed.

Lemma fa_run : demo_run true fa_comps fa_config.
Proof. exact (check_run_demo _ _ _ fa_checked). Qed.
Lemma fc_run : demo_run false fc_comps fc_config.
Proof. exact (check_run_demo _ _ _ fc_checked). Qed.

(** the same runs through the public entry point *)
Lemma run_engine_fa : exists r, run_engine demo_env gauss fa_config = Ret (Ok r) /\
  positive (rre_mechanical (rr_efficiency r)) = true.
Proof.
  destruct fa_run as (eng & r & He & Hr & _ & Hp & _). exists r. split; [|exact Hp].
  unfold run_engine. change (fluid_from_config (ec_fluid (cf_engine fa_config))) with (Ret (@IdealGas_helium b64 _)).
  change (Components_from (ec_components (cf_engine fa_config))) with (Ret fa_comps).
  cbn [obind]. unfold helium, demo_inputs, settings_of in He.
  change (cf_conditions fa_config) with demo_conditions.
  rewrite He. cbn [obind]. rewrite Hr. reflexivity.
Qed.
Lemma run_engine_fc : exists r, run_engine demo_env gauss fc_config = Ret (Ok r) /\
  positive (rre_mechanical (rr_efficiency r)) = true.
Proof.
  destruct fc_run as (eng & r & He & Hr & _ & Hp & _). exists r. split; [|exact Hp].
  unfold run_engine. change (fluid_from_config (ec_fluid (cf_engine fc_config))) with (Ret (@IdealGas_helium b64 _)).
  change (Components_from (ec_components (cf_engine fc_config))) with (Ret fc_comps).
  cbn [obind]. unfold helium, demo_inputs, settings_of in He.
  change (cf_conditions fc_config) with demo_conditions.
  rewrite He. cbn [obind]. rewrite Hr. reflexivity.
Qed.

(** ** The integrator of the examples reports its initial point first *)
Section Rk4.
  Context {F : Type} {ops : NumOps F}.
  Lemma substeps_first (y0 : vec3 F) m : forall t h y k,
    (forall t y, first_output_is y0 (k t y)) -> first_output_is y0 (substeps m t h y k).
  Proof.
    induction m as [|m IH]; intros t h y k Hk; [apply Hk|]. cbn. intros. apply IH. exact Hk.
  Qed.
  Lemma outputs_first (y0 : vec3 F) sub n : forall x dx xe y xs ys,
    (ys = [] /\ xs = [] /\ y = y0 \/ exists x0 xs' ys', xs = xs' ++ [x0] /\ ys = ys' ++ [y0]) ->
    first_output_is y0 (outputs sub n x dx xe y xs ys).
  Proof.
    assert (Hd : forall x y xs ys,
      (ys = [] /\ xs = [] /\ y = y0 \/ exists x0 xs' ys', xs = xs' ++ [x0] /\ ys = ys' ++ [y0]) ->
      first_output_is y0 (ODone (rev (x :: xs)) (rev (y :: ys)) : ode_prog F)).
    { intros x y xs ys [(-> & -> & ->)|(x0 & xs' & ys' & -> & ->)]; cbn.
      - split; [exists x, []; reflexivity|exists []; reflexivity].
      - rewrite !rev_app_distr. cbn. split; eauto. }
    induction n as [|n IH]; intros x dx xe y xs ys H; cbn [outputs]; [apply Hd; exact H|].
    destruct (n_le (n_add x dx) xe); [|apply Hd; exact H].
    apply substeps_first. intros _ y'. apply IH. right.
    destruct H as [(-> & -> & ->)|(x0 & xs' & ys' & -> & ->)].
    - exists x, [], []. split; reflexivity.
    - exists x0, (x :: xs'), (y :: ys'). split; reflexivity.
  Qed.
  Lemma rk4_reports_start sub n b : reports_start (rk4_env sub n b : Env F).
  Proof. intros a. cbn. apply outputs_first. left. auto. Qed.

  (** an integrator that evaluates the derivative once and reports two points *)
  Definition ask_env : Env F :=
    mkEnv (fun a => OAsk (oa_x a) (oa_y a) (fun _ => ODone [oa_x a; oa_x_end a] [oa_y a; oa_y a])) true.
  Lemma ask_env_asks a : exists t y k, env_ode ask_env a = OAsk t y k.
  Proof. cbn. eauto. Qed.
End Rk4.

Lemma fa_comps_total : comps_total fa_comps.
Proof. repeat split; eexists; reflexivity. Qed.
Lemma fc_comps_total : comps_total fc_comps.
Proof. repeat split; eexists; reflexivity. Qed.
