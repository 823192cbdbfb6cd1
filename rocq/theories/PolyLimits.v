(** * What the iteration limits decide *)
From Coq Require Import Arith NArith List Lia Bool.
From Verif Require Import Num ModelTypes ModelWs ModelHx ModelStateEq ModelEngine Spec SpecLoop SpecLimits PolyLoop PolyRun.
Import ListNotations.

Section Limits.
  Context {F : Type} {ops : NumOps F}.
  Variable E : Env F.
  Variable U : Decomp F.
  Notation no_inner := (Ret (Err DidNotConverge)).

  (** ** The inner loop *)
  Section Inner.
    Variable c : Cycle F.
    Variable i : SteadyStateInputs F.
    Notation loop := (find_steady_state_loop E U c i).
    Lemma inner_more n : forall m ic, (n <= m)%nat -> snd (loop n ic) <> no_inner -> snd (loop m ic) = snd (loop n ic).
    Proof.
      induction n as [|n IH]; intros m ic Hm H; [exfalso; apply H; reflexivity|].
      destruct m as [|m]; [lia|]. cbn [find_steady_state_loop] in *.
      destruct (try_from E U c ic 2 (ssi_ode_tol i)) as [[pts|e]|p]; try reflexivity.
      destruct (integration_is_converged pts (ssi_conv_tol i)) as [[|]|p]; try reflexivity.
      destruct (final_conditions pts) as [f|p]; [|reflexivity].
      specialize (IH m (mkCond (ssi_pres_zero i) (cd_T_c f) (cd_T_e f)) ltac:(lia)).
      destruct (loop n (mkCond (ssi_pres_zero i) (cd_T_c f) (cd_T_e f))) as [k r].
      destruct (loop m (mkCond (ssi_pres_zero i) (cd_T_c f) (cd_T_e f))) as [k' r']. cbn [snd] in *. apply IH. exact H.
    Qed.
    Lemma inner_needs n : forall ic vs, snd (loop n ic) = Ret (Ok vs) -> exists k, (k <= n)%nat /\
      forall m, snd (loop m ic) = if (m <? k)%nat then no_inner else Ret (Ok vs).
    Proof.
      induction n as [|n IH]; intros ic vs H; [discriminate H|]. cbn [find_steady_state_loop] in H.
      destruct (try_from E U c ic 2 (ssi_ode_tol i)) as [[pts|e]|p] eqn:E1; try discriminate H.
      destruct (integration_is_converged pts (ssi_conv_tol i)) as [[|]|p] eqn:E2; try discriminate H.
      - exists 1%nat. split; [lia|]. intros [|m]; [reflexivity|]. cbn [find_steady_state_loop]. rewrite E1, E2. exact H.
      - destruct (final_conditions pts) as [f|p] eqn:E3; [|discriminate H].
        specialize (IH (mkCond (ssi_pres_zero i) (cd_T_c f) (cd_T_e f)) vs).
        destruct (loop n (mkCond (ssi_pres_zero i) (cd_T_c f) (cd_T_e f))) as [k r] eqn:E4. cbn [snd] in *.
        destruct (IH H) as (j & Hj & K). exists (S j). split; [lia|]. intros [|m]; [reflexivity|].
        cbn [find_steady_state_loop]. rewrite E1, E2, E3. specialize (K m).
        destruct (loop m (mkCond (ssi_pres_zero i) (cd_T_c f) (cd_T_e f))) as [k' r']. exact K.
    Qed.
  End Inner.

  (** ** The outer loop *)
  Variable comps : Components F.
  Definition search (settings : RunSettings F) (s : State F) (inner : N) : SteadyStateInputs F :=
    {| ssi_pres_zero := pr_t_zero (s_pres s); ssi_temp_comp_hint := te_chx (s_temp s);
       ssi_temp_exp_hint := te_hhx (s_temp s); ssi_num_points := rs_resolution settings;
       ssi_ode_tol := rs_ode_tol settings; ssi_conv_tol := lt_inner (rs_loop_tol settings);
       ssi_max_iters := inner |}.
  Lemma loop_limit c i n : forall j ic, ssi_pres_zero j = ssi_pres_zero i -> ssi_num_points j = ssi_num_points i ->
    ssi_ode_tol j = ssi_ode_tol i -> ssi_conv_tol j = ssi_conv_tol i ->
    find_steady_state_loop E U c j n ic = find_steady_state_loop E U c i n ic.
  Proof.
    induction n as [|n IH]; intros j ic E1 E2 E3 E4; [reflexivity|]. cbn [find_steady_state_loop].
    rewrite E1, E2, E3, E4. destruct (try_from E U c ic 2 (ssi_ode_tol i)) as [[pts|e]|p]; try reflexivity.
    destruct (integration_is_converged pts (ssi_conv_tol i)) as [[|]|p]; try reflexivity.
    destruct (final_conditions pts) as [f|p]; [|reflexivity]. rewrite (IH j); auto.
  Qed.
  Definition searched (settings : RunSettings F) (inner : N) (s : State F) (ru : Run F) :=
    snd (find_steady_state_counted E U (Run_Cycle ru) (search settings s inner)).
  Lemma searched_more settings s ru n m : (n <= m)%N -> searched settings n s ru <> no_inner ->
    searched settings m s ru = searched settings n s ru.
  Proof.
    intros Hm H. unfold searched, find_steady_state_counted in *. cbn [search ssi_max_iters ssi_pres_zero ssi_temp_comp_hint ssi_temp_exp_hint] in *.
    rewrite (loop_limit (Run_Cycle ru) (search settings s n) (N.to_nat m) (search settings s m)) by reflexivity.
    apply inner_more; [lia|exact H].
  Qed.
  Lemma searched_needs settings s ru n vs : searched settings n s ru = Ret (Ok vs) -> exists k, (k <= n)%N /\
    forall m, searched settings m s ru = from_limit k m no_inner (Ret (Ok vs)).
  Proof.
    intros H. unfold searched, find_steady_state_counted in *. cbn [search ssi_max_iters ssi_pres_zero ssi_temp_comp_hint ssi_temp_exp_hint] in *.
    apply inner_needs in H as (k & Hk & K). exists (N.of_nat k). split; [lia|]. intros m.
    rewrite (loop_limit (Run_Cycle ru) (search settings s n) (N.to_nat m) (search settings s m)) by reflexivity.
    rewrite (K (N.to_nat m)). unfold from_limit.
    destruct (Nat.ltb_spec (N.to_nat m) k), (N.ltb_spec m (N.of_nat k)); try reflexivity; lia.
  Qed.

  (** one pass of the outer loop, without the count *)
  Definition pass (settings : RunSettings F) (inner : N) (rest : State F -> outcome (result (Engine F) RunError)) (s : State F)
    : outcome (result (Engine F) RunError) :=
    match Run_new comps s with
    | Panic p => Panic p
    | Ret ru =>
        match searched settings inner s ru with
        | Panic p => Panic p
        | Ret (Err _) => Ret (Err InnerLoop)
        | Ret (Ok vs) =>
            match State_update s comps (Values_from vs) (lt_outer (rs_loop_tol settings)) with
            | Panic p => Panic p
            | Ret (Ok s') => rest s'
            | Ret (Err s') => Ret (Ok (mkEngine comps s' (Values_from vs)))
            end
        end
    end.
  Fixpoint passes (settings : RunSettings F) (inner : N) (n : nat) (s : State F) : outcome (result (Engine F) RunError) :=
    match n with O => Ret (Err OuterLoop) | S n' => pass settings inner (passes settings inner n') s end.
  Lemma loop_passes settings inner outer n : forall s,
    snd (run_loop E U comps (with_limits settings inner outer) n s) = passes settings inner n s.
  Proof.
    induction n as [|n IH]; intros s; [reflexivity|]. cbn [passes]. unfold pass. cbn [run_loop].
    destruct (Run_new comps s) as [ru|p]; [|reflexivity].
    unfold searched. change (find_steady_state_counted E U (Run_Cycle ru) _) with
      (find_steady_state_counted E U (Run_Cycle ru) (search settings s inner)) at 1.
    destruct (find_steady_state_counted E U (Run_Cycle ru) (search settings s inner)) as [k [[vs|e]|p]]; cbn [snd]; try reflexivity.
    change (rs_loop_tol (with_limits settings inner outer)) with (rs_loop_tol settings).
    destruct (State_update s comps (Values_from vs) (lt_outer (rs_loop_tol settings))) as [[s'|s']|p]; try reflexivity.
    specialize (IH s'). destruct (run_loop E U comps (with_limits settings inner outer) n s'). exact IH.
  Qed.
  Lemma outer_more settings inner n : forall m s, (n <= m)%nat -> passes settings inner n s <> Ret (Err OuterLoop) ->
    passes settings inner m s = passes settings inner n s.
  Proof.
    induction n as [|n IH]; intros m s Hm H; [exfalso; apply H; reflexivity|]. destruct m as [|m]; [lia|].
    cbn [passes] in *. unfold pass in *. destruct (Run_new comps s) as [ru|p]; [|reflexivity].
    destruct (searched settings inner s ru) as [[vs|e]|p]; try reflexivity.
    destruct (State_update s comps (Values_from vs) (lt_outer (rs_loop_tol settings))) as [[s'|s']|p]; try reflexivity.
    apply IH; [lia|exact H].
  Qed.
  Lemma outer_inner_more settings i j n : (i <= j)%N -> forall s, passes settings i n s <> Ret (Err InnerLoop) ->
    passes settings j n s = passes settings i n s.
  Proof.
    intros Hij. induction n as [|n IH]; intros s H; [reflexivity|]. cbn [passes] in *. unfold pass in *.
    destruct (Run_new comps s) as [ru|p]; [|reflexivity].
    rewrite (searched_more settings s ru i j Hij).
    2:{ intros Z. rewrite Z in H. apply H. reflexivity. }
    destruct (searched settings i s ru) as [[vs|e]|p]; try reflexivity.
    destruct (State_update s comps (Values_from vs) (lt_outer (rs_loop_tol settings))) as [[s'|s']|p]; try reflexivity.
    apply IH. exact H.
  Qed.
  Lemma outer_needs settings inner n : forall s e, passes settings inner n s = Ret (Ok e) -> exists k, (k <= n)%nat /\
    forall m, passes settings inner m s = if (m <? k)%nat then Ret (Err OuterLoop) else Ret (Ok e).
  Proof.
    induction n as [|n IH]; intros s e H; [discriminate H|]. cbn [passes] in H. unfold pass in H.
    destruct (Run_new comps s) as [ru|p] eqn:E1; [|discriminate H].
    destruct (searched settings inner s ru) as [[vs|x]|p] eqn:E2; try discriminate H.
    destruct (State_update s comps (Values_from vs) (lt_outer (rs_loop_tol settings))) as [[s'|s']|p] eqn:E3; try discriminate H.
    - destruct (IH s' e H) as (k & Hk & K). exists (S k). split; [lia|]. intros [|m]; [reflexivity|].
      cbn [passes]. unfold pass. rewrite E1, E2, E3. exact (K m).
    - exists 1%nat. split; [lia|]. intros [|m]; [reflexivity|]. cbn [passes]. unfold pass. rewrite E1, E2, E3. exact H.
  Qed.
  Lemma outer_inner_needs settings i n : forall s e, passes settings i n s = Ret (Ok e) -> exists k, (k <= i)%N /\
    forall j, passes settings j n s = from_limit k j (Ret (Err InnerLoop)) (Ret (Ok e)).
  Proof.
    induction n as [|n IH]; intros s e H; [discriminate H|]. cbn [passes] in H. unfold pass in H.
    destruct (Run_new comps s) as [ru|p] eqn:E1; [|discriminate H].
    destruct (searched settings i s ru) as [[vs|x]|p] eqn:E2; try discriminate H.
    destruct (searched_needs settings s ru i vs E2) as (k & Hk & K).
    destruct (State_update s comps (Values_from vs) (lt_outer (rs_loop_tol settings))) as [[s'|s']|p] eqn:E3; try discriminate H.
    - destruct (IH s' e H) as (k' & Hk' & K'). exists (N.max k k'). split; [lia|]. intros j.
      cbn [passes]. unfold pass. rewrite E1, (K j). unfold from_limit in *.
      destruct (N.ltb_spec j k) as [L|L].
      + destruct (N.ltb_spec j (N.max k k')); [reflexivity|lia].
      + rewrite E3, (K' j). destruct (N.ltb_spec j k'), (N.ltb_spec j (N.max k k')); try reflexivity; lia.
    - exists k. split; [exact Hk|]. intros j. cbn [passes]. unfold pass. rewrite E1, (K j). unfold from_limit.
      destruct (N.ltb_spec j k); [reflexivity|]. rewrite E3. exact H.
  Qed.

  (** ** Runs *)
  Variable fl : Fluid F.
  Variable inputs : RunInputs F.
  Notation run := (Engine_run E U comps fl inputs).
  Lemma run_passes settings inner outer : run (with_limits settings inner outer) =
    match State_new_hint comps fl inputs with Panic p => Panic p | Ret s => passes settings inner (N.to_nat outer) s end.
  Proof.
    unfold Engine_run, Engine_run_counted. destruct (State_new_hint comps fl inputs) as [s|p]; [|reflexivity].
    apply loop_passes.
  Qed.
  Lemma own_limits (settings : RunSettings F) :
    with_limits settings (mi_inner (rs_max_iters settings)) (mi_outer (rs_max_iters settings)) = settings.
  Proof. destruct settings as [a b d [i o]]. reflexivity. Qed.
  Lemma own_run settings : run settings =
    match State_new_hint comps fl inputs with Panic p => Panic p
    | Ret s => passes settings (mi_inner (rs_max_iters settings)) (N.to_nat (mi_outer (rs_max_iters settings))) s end.
  Proof. rewrite <- (run_passes settings), own_limits. reflexivity. Qed.
  Theorem limits_raised settings inner outer :
    (mi_inner (rs_max_iters settings) <= inner)%N -> (mi_outer (rs_max_iters settings) <= outer)%N ->
    (forall e, run settings <> Ret (Err e)) -> run (with_limits settings inner outer) = run settings.
  Proof.
    intros Hi Ho. rewrite run_passes, own_run.
    destruct (State_new_hint comps fl inputs) as [s|p]; [|reflexivity]. intros H.
    rewrite <- (outer_more settings (mi_inner (rs_max_iters settings)) (N.to_nat (mi_outer (rs_max_iters settings)))
      (N.to_nat outer) s) by (try lia; apply H).
    apply outer_inner_more; [exact Hi|].
    rewrite (outer_more settings (mi_inner (rs_max_iters settings)) (N.to_nat (mi_outer (rs_max_iters settings)))
      (N.to_nat outer) s) by (try lia; apply H). apply H.
  Qed.
  (** errors of one loop do not depend on the limit of the other *)
  Theorem inner_error_stays settings outer : (mi_outer (rs_max_iters settings) <= outer)%N ->
    run settings = Ret (Err InnerLoop) -> run (with_limits settings (mi_inner (rs_max_iters settings)) outer) = Ret (Err InnerLoop).
  Proof.
    intros Ho. rewrite run_passes, own_run.
    destruct (State_new_hint comps fl inputs) as [s|p]; [|discriminate]. intros H. rewrite <- H.
    apply outer_more; [lia|]. rewrite H. discriminate.
  Qed.
  Theorem outer_error_stays settings inner : (mi_inner (rs_max_iters settings) <= inner)%N ->
    run settings = Ret (Err OuterLoop) -> run (with_limits settings inner (mi_outer (rs_max_iters settings))) = Ret (Err OuterLoop).
  Proof.
    intros Hi. rewrite run_passes, own_run.
    destruct (State_new_hint comps fl inputs) as [s|p]; [|discriminate]. intros H. rewrite <- H.
    apply outer_inner_more; [lia|]. rewrite H. discriminate.
  Qed.
  Theorem outer_limit_needed settings e : run settings = Ret (Ok e) -> exists k, (0 < k <= mi_outer (rs_max_iters settings))%N /\
    forall outer, run (with_limits settings (mi_inner (rs_max_iters settings)) outer) =
      from_limit k outer (Ret (Err OuterLoop)) (Ret (Ok e)).
  Proof.
    rewrite own_run. intros H.
    assert (Z : run (with_limits settings (mi_inner (rs_max_iters settings)) 0) = Ret (Err OuterLoop)).
    { rewrite run_passes. destruct (State_new_hint comps fl inputs); [reflexivity|discriminate H]. }
    destruct (State_new_hint comps fl inputs) as [s|p] eqn:ES; [|discriminate H].
    destruct (outer_needs _ _ _ _ _ H) as (k & Hk & K). exists (N.of_nat k).
    assert (A : forall outer, run (with_limits settings (mi_inner (rs_max_iters settings)) outer) =
      from_limit (N.of_nat k) outer (Ret (Err OuterLoop)) (Ret (Ok e))).
    { intros outer. rewrite run_passes, ES, (K (N.to_nat outer)). unfold from_limit.
      destruct (Nat.ltb_spec (N.to_nat outer) k), (N.ltb_spec outer (N.of_nat k)); try reflexivity; lia. }
    split; [|exact A]. split; [|lia]. specialize (A 0%N). rewrite Z in A. unfold from_limit in A.
    destruct (N.ltb_spec 0 (N.of_nat k)); [assumption|discriminate A].
  Qed.
  Theorem inner_limit_needed settings e : run settings = Ret (Ok e) -> exists k, (0 < k <= mi_inner (rs_max_iters settings))%N /\
    forall inner, run (with_limits settings inner (mi_outer (rs_max_iters settings))) =
      from_limit k inner (Ret (Err InnerLoop)) (Ret (Ok e)).
  Proof.
    rewrite own_run. intros H.
    destruct (State_new_hint comps fl inputs) as [s|p] eqn:ES; [|discriminate H].
    destruct (outer_inner_needs _ _ _ _ _ H) as (k & Hk & K). exists k.
    split; [|intros inner; rewrite run_passes, ES; apply K]. split; [|exact Hk].
    assert (Z : forall e', passes settings 0 (N.to_nat (mi_outer (rs_max_iters settings))) s <> Ret (Ok e')).
    { intros e'. destruct (N.to_nat (mi_outer (rs_max_iters settings))) as [|n]; [discriminate|]. cbn [passes]. unfold pass.
      destruct (Run_new comps s); discriminate. }
    destruct (N.eq_dec k 0) as [->|N0]; [|lia]. exfalso. apply (Z e). exact (K 0%N).
  Qed.
  (** with fixed approaches the first pass decides *)
  Theorem fixed_one_pass settings outer : fixed_approach (co_chx comps) -> fixed_approach (co_regen comps) ->
    fixed_approach (co_hhx comps) ->
    (forall s0, initial_state comps fl inputs s0 -> temperatures_close (lt_outer (rs_loop_tol settings)) (s_temp s0) (s_temp s0)) ->
    (0 < outer)%N ->
    run (with_limits settings (mi_inner (rs_max_iters settings)) outer) =
      run (with_limits settings (mi_inner (rs_max_iters settings)) 1) /\
    run (with_limits settings (mi_inner (rs_max_iters settings)) outer) <> Ret (Err OuterLoop).
  Proof.
    intros Fk Fr Fl Hself Ho. rewrite !run_passes.
    destruct (State_new_hint comps fl inputs) as [s0|p] eqn:ES; [|split; [reflexivity|discriminate]].
    apply State_new_hint_spec in ES. replace (N.to_nat outer) with (S (pred (N.to_nat outer))) by lia.
    change (N.to_nat 1) with 1%nat. cbn [passes]. unfold pass.
    destruct (Run_new comps s0) as [ru|p]; [|split; [reflexivity|discriminate]].
    destruct (searched settings _ s0 ru) as [[vs|e]|p] eqn:E2; [|split; [reflexivity|discriminate]|split; [reflexivity|discriminate]].
    destruct (State_update s0 comps (Values_from vs) (lt_outer (rs_loop_tol settings))) as [[s'|s']|p] eqn:Hu;
      [exfalso|split; [reflexivity|discriminate]|split; [reflexivity|discriminate]].
    apply State_update_spec in Hu as (_ & Hrec & Hnc & _). apply Hnc. pose proof (Hself s0 ES) as Hcl.
    destruct ES as (ak & ar & al & Hk & Hr & Hl & HT & Hfl & Himb & _).
    destruct Hrec as (R & bk & br & bl & _ & _ & _ & _ & Bk & Br & Bl & HT').
    rewrite Fk in Bk. rewrite Fr in Br. rewrite Fl in Bl.
    assert (bk = ak) by congruence. assert (br = ar) by congruence. assert (bl = al) by congruence.
    subst bk br bl. rewrite Himb in HT'.
    assert (Hsink : te_sink (s_temp s0) = ri_temp_sink inputs) by apply HT.
    assert (Hsource : te_source (s_temp s0) = ri_temp_source inputs) by apply HT.
    rewrite Hsink, Hsource in HT'.
    rewrite <- (temperatures_follow_det _ _ _ _ _ _ _ _ HT HT'). exact Hcl.
  Qed.
End Limits.
