(** * Errors and panics of [Engine::run], any number type *)
From Coq Require Import ZArith NArith List Lia.
From Verif Require Import Num ModelTypes ModelWs ModelHx ModelStateEq ModelEngine ModelApi
  Spec SpecLoop SpecApi PolySolve PolyLoop PolyRun.
Import ListNotations.

Lemma steps_mono {A} (R R' : A -> A -> Prop) n a b :
  (forall x y, R x y -> R' x y) -> steps R n a b -> steps R' n a b.
Proof. intros H. induction 1; econstructor; eauto. Qed.

Section PolyPanic.
  Context {F : Type} {ops : NumOps F}.
  Variable E : Env F.
  Variable U : Decomp F.

  Lemma dialogue_error (c : Cycle F) p qs e :
    dialogue U c p qs (Ret (Err e)) -> e = OdeFailed /\ answered_error U c p.
  Proof.
    intros H. remember (Ret (Err e)) as r eqn:Hr. revert Hr.
    induction H as [xs ys| |t y k hint He|t y k dy qs r Hd Hdl IH]; intros Hr; try discriminate.
    - injection Hr as <-. split; [reflexivity|constructor].
    - destruct (IH Hr) as [-> H]. split; [reflexivity|]. econstructor; eassumption.
  Qed.

  Lemma dialogue_stuck (c : Cycle F) p qs r :
    dialogue U c p qs (Panic r) -> r = PSolveFailed /\ unanswered U c p.
  Proof.
    intros H. remember (Panic r) as o eqn:Ho. revert Ho.
    induction H as [xs ys| |t y k hint He|t y k dy qs o Hd Hdl IH]; intros Ho; try discriminate.
    - injection Ho as <-. split; [reflexivity|]. econstructor; eassumption.
    - destruct (IH Ho) as [-> H]. split; [reflexivity|]. eapply unanswered_ask; eassumption.
  Qed.

  Lemma unanswered_solve (c : Cycle F) p : unanswered U c p ->
    exists t cond hint, search_fails U (cy_calculate_inputs c t cond) hint.
  Proof. induction 1; eauto. Qed.

  Lemma try_from_error (c : Cycle F) ic n tol e :
    try_from E U c ic n tol = Ret (Err e) ->
    exists k, intervals_for E n k /\ integration_error E U c ic k tol.
  Proof.
    unfold try_from. destruct (try_from_traced E U c ic n tol) as [qs r] eqn:H. cbn [snd].
    intros ->. apply try_from_traced_spec in H as [(H & _)|(k & out & Hk & HD & Hr)];
      [discriminate|].
    exists k. split; [exact Hk|].
    destruct out as [[[xs ys]|e']|p]; cbn in Hr; try discriminate.
    apply dialogue_error in HD as [_ HD]. exact HD.
  Qed.

  Lemma try_from_panic (c : Cycle F) ic n tol p :
    try_from E U c ic n tol = Panic p ->
    (p = POverflow /\ n = 0%N /\ env_overflow_checks E = true) \/
    (p = PSolveFailed /\ exists k, intervals_for E n k /\ integration_stuck E U c ic k tol).
  Proof.
    unfold try_from. destruct (try_from_traced E U c ic n tol) as [qs r] eqn:H. cbn [snd].
    intros ->. apply try_from_traced_spec in H as [(H & _ & H1 & H2)|(k & out & Hk & HD & Hr)].
    - injection H as ->. auto.
    - right. destruct out as [[[xs ys]|e']|p']; cbn in Hr; try discriminate.
      injection Hr as ->. apply dialogue_stuck in HD as [-> HD]. split; [reflexivity|].
      exists k. split; [exact Hk|exact HD].
  Qed.

  Lemma intervals_for_two k : intervals_for E 2 k -> k = 1%N.
  Proof. intros [[_ ->]|[H _]]; [reflexivity|discriminate H]. Qed.

  Lemma try_from_two (c : Cycle F) ic tol pts :
    try_from E U c ic 2 tol = Ret (Ok pts) -> integrates E U c ic 1 tol pts.
  Proof.
    intros H. apply try_from_integrates in H as (k & Hk & H).
    apply intervals_for_two in Hk. subst k. exact H.
  Qed.

  Lemma inner_round_warm_up (c : Cycle F) P0 settings ic ic' :
    inner_round (fun ic n => try_from E U c ic n (rs_ode_tol settings)) P0
      (lt_inner (rs_loop_tol settings)) ic ic' ->
    warm_up E U c P0 settings ic ic'.
  Proof.
    intros (pts & pre & l & H & Hl & Hc & ->). apply try_from_two in H.
    exists pts, pre, l. auto.
  Qed.

  Lemma steady_search_steady comps settings (s : State F) k vs v :
    steady_search E U comps settings s k (Ret (Ok vs)) -> series_of vs v ->
    steady_state E U comps settings s v.
  Proof.
    intros (c & Hc & HS) Hv.
    remember (Ret (Ok vs)) as r eqn:Hr.
    destruct HS as [| | | | | | |j ic pts pts' vs' Hj Hst H2 Hcyc Hn Hval]; try discriminate Hr.
    injection Hr as ->.
    apply try_from_two in H2. apply try_from_integrates in Hn as (n & Hn' & Hn).
    exists c, ic, pts, n, pts', vs, j.
    split; [exact Hc|]. split; [exact Hj|]. split.
    { revert Hst. apply steps_mono. intros x y. apply inner_round_warm_up. }
    split; [exact H2|]. split; [exact Hcyc|]. split; [exact Hn'|]. split; [exact Hn|].
    split; [|exact Hv].
    pose proof (into_state_values_from_spec U c pts' FlowDirection_default) as HV.
    unfold into_state_values in Hval. rewrite Hval in HV. exact HV.
  Qed.

  Lemma steady_search_no_steady comps settings (s : State F) k e :
    steady_search E U comps settings s k (Ret (Err e)) -> no_steady_state E U comps settings s.
  Proof.
    intros H. apply steady_search_failed in H as (c & Hc & H). exists c. split; [exact Hc|].
    cbn zeta in *. destruct H as [(ic & _ & Hst)|(j & ic & Hj & Hst & H)].
    - left. exists ic. revert Hst. apply steps_mono. intros x y. apply inner_round_warm_up.
    - right. exists j, ic. split; [exact Hj|]. split.
      { revert Hst. apply steps_mono. intros x y. apply inner_round_warm_up. }
      destruct H as [H|(pts & H2 & Hcyc & H)].
      + left. apply try_from_error in H as (n & Hn & H). apply intervals_for_two in Hn.
        subst n. exact H.
      + right. apply try_from_two in H2. apply try_from_error in H as (n & Hn & H).
        exists pts, n. auto.
  Qed.

  Lemma outer_round_iteration comps settings (s : State F) k v s' :
    outer_round E U comps settings s k v s' -> unconverged_iteration E U comps settings s s'.
  Proof.
    intros (vs & Hs & Hv & Ha & Hr & Hn & Hf & Hi). exists v.
    split; [exact (steady_search_steady _ _ _ _ _ _ Hs Hv)|]. auto 10.
  Qed.

  Lemma outer_rounds_iterations comps settings n (s : State F) k s' :
    outer_rounds E U comps settings n s k s' ->
    steps (unconverged_iteration E U comps settings) n s s'.
  Proof.
    induction 1 as [s|n s1 k v s2 k' s3 H1 H2 IH]; [constructor|].
    econstructor; [|exact IH]. exact (outer_round_iteration _ _ _ _ _ _ H1).
  Qed.

  (** ** C05 *)
  Lemma run_error_meaning comps fl inputs settings e :
    Engine_run E U comps fl inputs settings = Ret (Err e) ->
    exists s0, initial_state comps fl inputs s0 /\
    match e with
    | OuterLoop =>
        exists s, steps (unconverged_iteration E U comps settings)
                    (N.to_nat (mi_outer (rs_max_iters settings))) s0 s
    | InnerLoop =>
        exists j s, (j < N.to_nat (mi_outer (rs_max_iters settings)))%nat /\
          steps (unconverged_iteration E U comps settings) j s0 s /\
          no_steady_state E U comps settings s
    end.
  Proof.
    intros H. apply run_error in H as (s0 & H0 & H). exists s0. split; [exact H0|].
    destruct e.
    - destruct H as (j & k1 & s & k2 & e & Hj & HR & Hs). exists j, s. split; [exact Hj|].
      split; [exact (outer_rounds_iterations _ _ _ _ _ _ HR)|].
      exact (steady_search_no_steady _ _ _ _ _ Hs).
    - destruct H as (k & s & HR). exists s. exact (outer_rounds_iterations _ _ _ _ _ _ HR).
  Qed.

  (** ** Panics *)

  Lemma into_state_values_panic (c : Cycle F) pts p :
    into_state_values U c pts = Panic p ->
    p = PSolveFailed /\
    exists t cond hint, search_fails U (cy_calculate_inputs c t cond) hint.
  Proof.
    intros H. pose proof (into_state_values_from_spec U c pts FlowDirection_default) as HV.
    unfold into_state_values in H. rewrite H in HV.
    destruct HV as (-> & pre & q & post & vs & _ & _ & Hq). split; [reflexivity|]. eauto.
  Qed.

  Lemma steady_search_panic comps settings (s : State F) k p :
    steady_search E U comps settings s k (Panic p) -> iteration_panics E U comps settings s p.
  Proof.
    intros (c & Hc & HS). remember (Panic p) as r eqn:Hr.
    destruct HS as [| |j ic q Hj Hst H2|j ic Hj Hst H2| |j ic pts q Hj Hst H2 Hcyc Hn
                    |j ic pts pts' q Hj Hst H2 Hcyc Hn Hv|]; try discriminate Hr;
      injection Hr as Hq; subst p.
    - apply try_from_panic in H2 as [(_ & H & _)|(-> & n & _ & H)]; [discriminate H|].
      right; right; left. split; [reflexivity|]. exists c. split; [exact Hc|].
      exact (unanswered_solve _ _ H).
    - right; right; right; left. split; [reflexivity|]. exists c, ic, 1%N.
      split; [exact Hc|]. exact (try_from_two _ _ _ _ H2).
    - apply try_from_panic in Hn as [(-> & H & H')|(-> & n & _ & H)].
      + right; right; right; right. auto.
      + right; right; left. split; [reflexivity|]. exists c. split; [exact Hc|].
        exact (unanswered_solve _ _ H).
    - apply into_state_values_panic in Hv as [-> H].
      right; right; left. split; [reflexivity|]. exists c. split; [exact Hc|exact H].
  Qed.

  Lemma Run_new_panic comps (s : State F) p :
    Run_new comps s = Panic p -> running_panics comps s p.
  Proof.
    unfold Run_new, running_panics.
    destruct (ex_volume (co_chx comps)) as [V_k|q] eqn:Hk; cbn [obind];
      [|intros H; injection H as ->; tauto].
    destruct (ex_volume (co_regen comps)) as [V_r|q] eqn:Hr; cbn [obind];
      [|intros H; injection H as ->; tauto].
    destruct (ex_volume (co_hhx comps)) as [V_l|q] eqn:Hl; cbn [obind];
      [|intros H; injection H as ->; tauto].
    unfold State_ws.
    destruct (ws_frequency (co_ws comps) {| wss_pres := s_pres s |}) as [f|q] eqn:Hf; cbn [obind];
      [|intros H; injection H as ->; tauto].
    destruct (ws_volumes (co_ws comps) {| wss_pres := s_pres s |}) as [vols|q] eqn:Hv; cbn [obind];
      [|intros H; injection H as ->; tauto].
    destruct (ws_parasitics (co_ws comps) {| wss_pres := s_pres s |}) as [par|q] eqn:Hp; cbn [obind];
      [|intros H; injection H as ->; tauto].
    discriminate.
  Qed.

  Lemma State_update_panic (s : State F) comps vs v tol p :
    series_of vs v ->
    State_update s comps v tol = Panic p ->
    (p = PEmpty /\ vs = []) \/
    ws_thermal_resistance (co_ws comps) (mkWsState (s_pres s)) = Panic p \/
    approach_panics comps p.
  Proof.
    intros Hv. destruct vs as [|x vs].
    { destruct Hv as (Ht & _).
      assert (H0 : vs_time v = []) by (inversion Ht; reflexivity).
      unfold State_update, Pressure_from_values, final_time.
      rewrite H0. cbn. intros H; injection H as <-. auto. }
    destruct Hv as (Ht & HP & _).
    assert (Htf : exists tf, last_unwrap (vs_time v) = Ret tf).
    { destruct (last_unwrap_cases (vs_time v)) as [[H _]|(l & a & _ & H)]; [|eauto].
      rewrite H in Ht. inversion Ht. }
    destruct Htf as [tf Htf].
    assert (HPn : exists P0 P', vs_P v = P0 :: P') by (inversion HP; eauto).
    destruct HPn as (P0 & P' & HPn).
    assert (Hpr : exists q, Pressure_from_values v = Ret q).
    { unfold Pressure_from_values, final_time. rewrite Htf, HPn. cbn. eauto. }
    assert (Hmf : exists q, MassFlows_from_values v = Ret q).
    { unfold MassFlows_from_values, m_dot_chx, m_dot_regen, m_dot_hhx, m_dot_avg, final_time.
      rewrite Htf. cbn. eauto. }
    destruct Hpr as [pr Hpr]. destruct Hmf as [mf Hmf].
    unfold State_update. rewrite Hpr, Hmf. cbn [obind]. unfold State_ws.
    destruct (ws_thermal_resistance (co_ws comps) {| wss_pres := s_pres s |}) as [R|q] eqn:HR;
      cbn [obind]; [|intros H; injection H as ->; tauto].
    assert (Hhf : exists q, HeatFlows_from_values v (te_chx (s_temp s)) (te_hhx (s_temp s)) R = Ret q).
    { unfold HeatFlows_from_values, final_time. rewrite Htf. cbn. eauto. }
    destruct Hhf as [hf ->]. cbn [obind]. unfold approach_panics.
    match goal with |- context [ex_approach (co_chx comps) ?x] =>
      destruct (ex_approach (co_chx comps) x) as [a_k|q] eqn:Hk end;
      cbn [obind]; [|intros H; injection H as ->; eauto].
    match goal with |- context [ex_approach (co_regen comps) ?x] =>
      destruct (ex_approach (co_regen comps) x) as [a_r|q] eqn:Hr end;
      cbn [obind]; [|intros H; injection H as ->; eauto 6].
    match goal with |- context [ex_approach (co_hhx comps) ?x] =>
      destruct (ex_approach (co_hhx comps) x) as [a_l|q] eqn:Hl end;
      cbn [obind]; [|intros H; injection H as ->; eauto 7].
    match goal with |- context [if ?b then _ else _] => destruct b end; discriminate.
  Qed.

  Lemma run_loop_panic comps settings n : forall (s : State F) k p,
    run_loop E U comps settings n s = (k, Panic p) ->
    exists j s', (j < n)%nat /\ steps (unconverged_iteration E U comps settings) j s s' /\
      iteration_panics E U comps settings s' p.
  Proof.
    induction n as [|n IH]; intros s k p H; cbn [run_loop] in H; [discriminate|].
    assert (Hhere : iteration_panics E U comps settings s p ->
      exists j s', (j < S n)%nat /\ steps (unconverged_iteration E U comps settings) j s s' /\
        iteration_panics E U comps settings s' p).
    { intros Hp. exists 0%nat, s. split; [lia|]. split; [constructor|exact Hp]. }
    destruct (Run_new comps s) as [run|q] eqn:HR.
    2:{ injection H as _ ->. apply Hhere. left. now apply Run_new_panic. }
    apply Run_new_cycle in HR.
    match type of H with context [find_steady_state_counted ?E ?U ?c ?i] =>
      destruct (find_steady_state_counted E U c i) as [k1 res] eqn:Hf end.
    assert (Hs : steady_search E U comps settings s k1 res).
    { exists (Run_Cycle run). split; [exact HR|].
      unfold find_steady_state_counted in Hf.
      apply find_steady_state_loop_spec in Hf. exact Hf. }
    destruct res as [[vs|e]|q].
    - destruct (State_update s comps (Values_from vs) (lt_outer (rs_loop_tol settings)))
        as [[s1|s1]|q] eqn:HU.
      + destruct (run_loop E U comps settings n s1) as [k' r] eqn:HL. injection H as _ ->.
        apply IH in HL as (j & s' & Hj & Hst & Hp).
        exists (S j), s'. split; [lia|]. split; [|exact Hp].
        econstructor; [|exact Hst].
        apply State_update_spec in HU as (Ha & Hr & Hn & Hfl & Hi).
        exists (Values_from vs).
        split; [exact (steady_search_steady _ _ _ _ _ _ Hs (Values_from_series vs))|].
        auto 10.
      + discriminate.
      + injection H as _ ->. apply Hhere.
        apply (State_update_panic _ _ _ _ _ _ (Values_from_series vs)) in HU
          as [[-> ->]|[HU|HU]].
        * right; right; right; left. split; [reflexivity|].
          apply steady_search_found in Hs as (c & ic & pts2 & n' & pts & Hc & _ & _ & _ & _ & Hi & Hv).
          inversion Hv; subst. eauto.
        * left. unfold running_panics. tauto.
        * right. left. exact HU.
    - discriminate.
    - injection H as _ ->. apply Hhere. exact (steady_search_panic _ _ _ _ _ Hs).
  Qed.

  Lemma run_panic comps fl inputs settings p :
    Engine_run E U comps fl inputs settings = Panic p ->
    initial_approach_panics comps p \/
    exists s0 j s, initial_state comps fl inputs s0 /\
      (j < N.to_nat (mi_outer (rs_max_iters settings)))%nat /\
      steps (unconverged_iteration E U comps settings) j s0 s /\
      iteration_panics E U comps settings s p.
  Proof.
    unfold Engine_run, Engine_run_counted.
    destruct (State_new_hint comps fl inputs) as [s0|q] eqn:H0.
    - apply State_new_hint_spec in H0.
      destruct (run_loop E U comps settings (N.to_nat (mi_outer (rs_max_iters settings))) s0)
        as [k r] eqn:HL.
      cbn [snd]. intros ->. apply run_loop_panic in HL as (j & s & Hj & Hst & Hp).
      right. exists s0, j, s. auto.
    - cbn [snd]. intros H; injection H as ->. left. unfold initial_approach_panics.
      unfold State_new_hint in H0.
      destruct (ex_initial_approach (co_chx comps)) as [a|q]; cbn [obind] in H0;
        [|injection H0 as ->; tauto].
      destruct (ex_initial_approach (co_regen comps)) as [b|q]; cbn [obind] in H0;
        [|injection H0 as ->; tauto].
      destruct (ex_initial_approach (co_hhx comps)) as [d|q]; cbn [obind] in H0;
        [discriminate|injection H0 as ->; tauto].
  Qed.

  (** ** C41 *)
  Lemma failing_solver_panics comps fl inputs settings :
    (forall A b, U A b = None) ->
    (forall a, exists t y k, env_ode E a = OAsk t y k) ->
    comps_total comps ->
    mi_outer (rs_max_iters settings) <> 0%N -> mi_inner (rs_max_iters settings) <> 0%N ->
    Engine_run E U comps fl inputs settings = Panic PSolveFailed.
  Proof.
    intros HU HE Ht Ho Hi. unfold Engine_run, Engine_run_counted.
    destruct (State_new_hint_total comps fl inputs Ht) as [s ->].
    destruct (N.to_nat (mi_outer (rs_max_iters settings))) as [|n] eqn:Hn; [lia|].
    cbn [run_loop]. destruct (Run_new_total comps s Ht) as [r ->].
    unfold find_steady_state_counted. cbn [ssi_max_iters].
    destruct (N.to_nat (mi_inner (rs_max_iters settings))) as [|m] eqn:Hm; [lia|].
    cbn [find_steady_state_loop]. unfold try_from, try_from_traced. cbn [u32_pred].
    match goal with |- context [env_ode E ?a] => destruct (HE a) as (t & [[y0 y1] y2] & k & ->) end.
    cbn [exec_ode]. unfold system, solve, solve_traced. cbn [solve_loop].
    unfold System_solve. rewrite HU. reflexivity.
  Qed.

  (** ** C42 *)
  Lemma resolution_zero comps fl inputs settings (eng : Engine F) :
    env_overflow_checks E = true -> rs_resolution settings = 0%N ->
    Engine_run E U comps fl inputs settings <> Ret (Ok eng).
  Proof.
    intros HO H0 H. apply run_steady in H as (c & ic & pts2 & n & pts & vs & _ & _ & _ & _ & Hn & _).
    rewrite H0 in Hn. destruct Hn as [[Hn _]|(_ & Hn & _)]; congruence.
  Qed.

  Lemma try_from_zero (c : Cycle F) ic tol :
    try_from E U c ic 0 tol =
    if env_overflow_checks E then Panic POverflow
    else try_from E U c ic (2 ^ 32) tol.
  Proof.
    unfold try_from, try_from_traced. cbn [u32_pred]. destruct (env_overflow_checks E); reflexivity.
  Qed.
End PolyPanic.
