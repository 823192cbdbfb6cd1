(** * Configurations reach the engine unchanged *)
From Coq Require Import ZArith NArith List.
From Verif Require Import Num ModelTypes ModelWs ModelHx ModelStateEq ModelEngine ModelApi Spec SpecLoop
  SpecApi SpecCfg PolyApi.

Section Cfg.
  Context {F : Type} {ops : NumOps F}.

  Lemma settings_configured (c : SolverConfig F) : configured_settings c (RunSettings_from c).
  Proof. repeat split. Qed.
  Lemma inputs_configured (c : ConditionsConfig F) : configured_inputs c (RunInputs_from c).
  Proof. repeat split. Qed.
  Lemma settings_unique (c : SolverConfig F) s1 s2 :
    configured_settings c s1 -> configured_settings c s2 -> s1 = s2.
  Proof.
    destruct s1 as [n1 [[a1 b1] [c1 d1]] [e1 f1] [g1 h1]], s2 as [n2 [[a2 b2] [c2 d2]] [e2 f2] [g2 h2]].
    unfold configured_settings. cbn.
    intros (-> & -> & -> & -> & -> & -> & -> & -> & ->) (-> & -> & -> & -> & -> & -> & -> & -> & ->). reflexivity.
  Qed.
  Lemma inputs_unique (c : ConditionsConfig F) i1 i2 :
    configured_inputs c i1 -> configured_inputs c i2 -> i1 = i2.
  Proof.
    destruct i1, i2. unfold configured_inputs. cbn. intros (-> & -> & ->) (-> & -> & ->). reflexivity.
  Qed.
  Lemma gas_configured (c : FluidConfig) g : fluid_from_config c = Ret g <-> configured_gas c g.
  Proof.
    destruct c as [m|m], m; cbn; split; intros H; try discriminate; try contradiction;
      congruence.
  Qed.

  Lemma run_configured E U (config : Config F) : supported (cf_engine config) ->
    exists o, configured_run E U config o /\
      (forall p, o = Panic p -> run_engine E U config = Panic p) /\
      (forall e, o = Ret (Err e) -> run_engine E U config = Ret (Err e)) /\
      (forall eng r, o = Ret (Ok eng) -> RunResults_from eng = Ret r ->
         run_engine E U config = Ret (Ok r)) /\
      (forall eng p, o = Ret (Ok eng) -> RunResults_from eng = Panic p ->
         run_engine E U config = Panic p).
  Proof.
    intros HS. destruct (config_supported _ HS) as (gas & comps & Hg & Hc & _ & _ & _ & Hcar).
    unfold run_engine. rewrite Hg, Hc. cbn [obind].
    eexists. split.
    - exists gas, comps, (RunInputs_from (cf_conditions config)), (RunSettings_from (cf_solver config)).
      split; [apply gas_configured; exact Hg|]. split; [exact Hc|]. split; [exact Hcar|].
      split; [apply inputs_configured|]. split; [apply settings_configured|]. reflexivity.
    - split; [intros p ->; reflexivity|]. split; [intros e ->; reflexivity|].
      split; intros eng x -> Hr; cbn; rewrite Hr; reflexivity.
  Qed.
End Cfg.
