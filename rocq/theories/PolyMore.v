(** * More about runs, legacy configurations and the two entry points, any number type *)
From Coq Require Import ZArith NArith List Lia.
From Verif Require Import Num ModelTypes ModelWs ModelHx ModelStateEq ModelEngine ModelApi
  Spec SpecLoop SpecApi PolySolve PolyLoop PolyRun PolyPanic PolyApi.
Import ListNotations.

Section PolyMore.
  Context {F : Type} {ops : NumOps F}.

  Lemma integration_spec E T (c : Cycle F) ic n tol qs r :
    try_from_traced E T c ic n tol = (qs, r) ->
    Forall (fun q => derivative_at T c (q_time q) (q_y q) (q_dy q)) qs /\
    ((r = Panic POverflow /\ qs = [] /\ n = 0%N /\ env_overflow_checks E = true) \/
     exists k out,
       intervals_for E n k /\
       dialogue T c (env_ode E (period_args c ic k tol)) qs out /\
       match out with
       | Panic p => r = Panic p
       | Ret (Err e) => r = Ret (Err e)
       | Ret (Ok (xs, ys)) => exists pts, r = Ret (Ok pts) /\ points_are xs ys pts
       end).
  Proof.
    intros H. apply try_from_traced_spec in H as [(-> & -> & -> & H)|(k & out & Hk & HD & Hr)].
    - split; [constructor|]. left. auto.
    - split; [exact (dialogue_Forall _ _ _ _ _ HD)|]. right. exists k, out.
      split; [exact Hk|]. split; [exact HD|].
      destruct out as [[[xs ys]|e]|p]; cbn in Hr; try exact Hr.
      eexists. split; [exact Hr|]. split; [apply length_points_of|].
      intros j p. apply nth_error_points_of.
  Qed.

  Lemma run_ok_meaning E U comps fl inputs settings (eng : Engine F) :
    Engine_run E U comps fl inputs settings = Ret (Ok eng) ->
    exists s0 j,
      initial_state comps fl inputs s0 /\
      (j < N.to_nat (mi_outer (rs_max_iters settings)))%nat /\
      steps (unconverged_iteration E U comps settings) j s0 (en_state eng) /\
      steady_state E U comps settings (en_state eng) (en_values eng) /\
      outer_converged comps (lt_outer (rs_loop_tol settings)) (en_state eng) (en_values eng) /\
      en_components eng = comps.
  Proof.
    intros H. apply Engine_run_Ok in H as (s0 & j & k1 & k2 & vs & H0 & Hj & HR & Hs & Hse & Hc & Hco).
    exists s0, j. split; [exact H0|]. split; [exact Hj|].
    split; [exact (outer_rounds_iterations _ _ _ _ _ _ _ _ HR)|].
    split; [exact (steady_search_steady _ _ _ _ _ _ _ _ Hs Hse)|]. auto.
  Qed.

  Lemma run_steady_state E U comps fl inputs settings (eng : Engine F) :
    Engine_run E U comps fl inputs settings = Ret (Ok eng) ->
    steady_state E U (en_components eng) settings (en_state eng) (en_values eng).
  Proof.
    intros H. apply run_ok_meaning in H as (s0 & j & _ & _ & _ & H & _ & ->). exact H.
  Qed.

  Lemma steps_last {A} (R : A -> A -> Prop) n : forall a c, steps R (S n) a c ->
    exists b, steps R n a b /\ R b c.
  Proof.
    induction n as [|n IH]; intros a c H; inversion H as [|n' a' b c' Hab Hbc]; subst.
    - inversion Hbc; subst. exists a. split; [constructor|exact Hab].
    - apply IH in Hbc as (b' & H1 & H2). exists b'. split; [|exact H2]. econstructor; eassumption.
  Qed.

  Lemma run_lag E U comps fl inputs settings (eng : Engine F) :
    Engine_run E U comps fl inputs settings = Ret (Ok eng) ->
    initial_state comps fl inputs (en_state eng) \/
    exists s, unconverged_iteration E U comps settings s (en_state eng).
  Proof.
    intros H. apply run_ok_meaning in H as (s0 & j & H0 & _ & HR & _).
    destruct j as [|j].
    - left. inversion HR; subst. exact H0.
    - right. apply steps_last in HR as (s & _ & H). exists s. exact H.
  Qed.

  (** ** Legacy *)
  Lemma legacy_same_engine (l : Legacy F) : same_engine l (cf_engine (Config_from_legacy l)).
  Proof.
    destruct l as [fl ws k r h so co]. unfold same_engine. cbn.
    split; [destruct fl as [|[|]|[|]]; exact I|].
    split; [destruct ws; reflexivity|]. split; [destruct k; reflexivity|].
    split; [destruct r; reflexivity|]. destruct h; reflexivity.
  Qed.
  Lemma legacy_same_inputs (l : Legacy F) :
    legacy_inputs l (RunInputs_from (cf_conditions (Config_from_legacy l))).
  Proof. repeat split. Qed.
  Lemma legacy_same_settings (l : Legacy F) :
    legacy_settings l (RunSettings_from (cf_solver (Config_from_legacy l))).
  Proof. repeat split. Qed.

  Lemma legacy_faithful (l : Legacy F) :
    same_engine l (cf_engine (Config_from_legacy l)) /\
    legacy_inputs l (RunInputs_from (cf_conditions (Config_from_legacy l))) /\
    legacy_settings l (RunSettings_from (cf_solver (Config_from_legacy l))).
  Proof.
    split; [apply legacy_same_engine|]. split; [apply legacy_same_inputs|apply legacy_same_settings].
  Qed.

  (** nothing is lost: different legacy files give different configurations *)
  Lemma legacy_injective (l1 l2 : Legacy F) :
    Config_from_legacy l1 = Config_from_legacy l2 -> l1 = l2.
  Proof.
    destruct l1 as [f1 w1 k1 r1 h1 [s11 s12 s13 [] s15] [c11 c12 c13]].
    destruct l2 as [f2 w2 k2 r2 h2 [s21 s22 s23 [] s25] [c21 c22 c23]].
    unfold Config_from_legacy; cbn. intros H.
    injection H as Hf Hk Hh Hr Hw H1 H2 H3 H4 H5 H6 H7.
    assert (f1 = f2).
    { destruct f1 as [|[|]|[|]], f2 as [|[|]|[|]]; cbn in Hf; congruence. }
    assert (w1 = w2) by (destruct w1, w2; cbn in Hw; congruence).
    assert (k1 = k2) by (destruct k1, k2; cbn in Hk; congruence).
    assert (r1 = r2) by (destruct r1, r2; cbn in Hr; congruence).
    assert (h1 = h2) by (destruct h1, h2; cbn in Hh; congruence).
    subst. reflexivity.
  Qed.

  (** ** The command line entry point *)
  Lemma run_from_config_spec E U (config : Config F) :
    match run_engine E U config with
    | Ret (Ok r) => run_from_config E U config = Ret r
    | Ret (Err _) => run_from_config E U config = Panic PNotConverged
    | Panic p => run_from_config E U config = Panic p
    end.
  Proof.
    unfold run_engine, run_from_config.
    destruct (fluid_from_config (ec_fluid (cf_engine config))) as [g|p]; [|reflexivity]. cbn [obind].
    destruct (Components_from (ec_components (cf_engine config))) as [co|p]; [|reflexivity].
    cbn [obind].
    destruct (Engine_run E U co (IdealGas_Fluid g) (RunInputs_from (cf_conditions config))
                (RunSettings_from (cf_solver config))) as [[eng|e]|p]; try reflexivity.
    cbn [obind]. destruct (RunResults_from eng); reflexivity.
  Qed.
End PolyMore.
