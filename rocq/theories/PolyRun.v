(** * Consequences for [Engine::run], any number type *)
From Coq Require Import ZArith NArith List Lia.
From Verif Require Import Num ModelTypes ModelWs ModelHx ModelStateEq ModelEngine ModelApi
  Spec SpecLoop SpecApi PolySolve PolyLoop.
Import ListNotations.

Section PolyRun.
  Context {F : Type} {ops : NumOps F}.
  Variable E : Env F.
  Variable U : Decomp F.

  Lemma Engine_run_Ok comps fl inputs settings (eng : Engine F) :
    Engine_run E U comps fl inputs settings = Ret (Ok eng) ->
    exists s0 j k1 k2 vs,
      initial_state comps fl inputs s0 /\
      (j < N.to_nat (mi_outer (rs_max_iters settings)))%nat /\
      outer_rounds E U comps settings j s0 k1 (en_state eng) /\
      steady_search E U comps settings (en_state eng) k2 (Ret (Ok vs)) /\
      series_of vs (en_values eng) /\
      outer_converged comps (lt_outer (rs_loop_tol settings)) (en_state eng) (en_values eng) /\
      en_components eng = comps.
  Proof.
    unfold Engine_run. destruct (Engine_run_counted E U comps fl inputs settings) as [k r] eqn:H.
    cbn [snd]. intros ->.
    apply Engine_run_counted_spec in H as [(s0 & H0 & HR)|(p & Hp & _)]; [|discriminate].
    destruct HR as (j & k1 & s & k2 & vs & Hj & HR & Hs & -> & Hse & Hc & He & Hcomp).
    subst s. exists s0, j, k1, k2, vs. auto 10.
  Qed.

  (** ** C03 *)
  Lemma run_fixed_point comps fl inputs settings (eng : Engine F) :
    Engine_run E U comps fl inputs settings = Ret (Ok eng) ->
    exists P m q T',
      recomputed (en_components eng) (s_fluid (en_state eng)) (s_pres (en_state eng))
        (s_temp (en_state eng)) (s_regen_imbalance (en_state eng)) (en_values eng) P m q T' /\
      temperatures_close (lt_outer (rs_loop_tol settings)) (s_temp (en_state eng)) T'.
  Proof.
    intros H. apply Engine_run_Ok in H as (s0 & j & k1 & k2 & vs & _ & _ & _ & _ & _ & Hc & ->).
    exact Hc.
  Qed.

  (** ** C04 *)
  Lemma steady_search_found comps settings (s : State F) k vs :
    steady_search E U comps settings s k (Ret (Ok vs)) ->
    exists c ic pts2 n pts,
      is_cycle_of comps (s_fluid s) (s_pres s) (s_temp s) c /\
      cd_P ic = pr_t_zero (s_pres s) /\
      integrates E U c ic 1 (rs_ode_tol settings) pts2 /\
      cyclic (lt_inner (rs_loop_tol settings)) pts2 /\
      intervals_for E (rs_resolution settings) n /\
      integrates E U c ic n (rs_ode_tol settings) pts /\
      values_of_points U c pts vs.
  Proof.
    intros (c & Hc & HS).
    remember (Ret (Ok vs)) as r eqn:Hr.
    destruct HS as [| | | | | | |j ic pts pts' vs' Hj Hst H2 Hcyc Hn Hv]; try discriminate Hr.
    injection Hr as ->.
    apply try_from_integrates in H2 as (n2 & Hn2 & H2).
    apply try_from_integrates in Hn as (n & Hn' & Hn).
    exists c, ic, pts, n, pts'.
    split; [exact Hc|]. split.
    { clear - Hst. remember (pr_t_zero (s_pres s)) as P0 eqn:E0. clear E0.
      assert (H : cd_P {| cd_P := P0; cd_T_c := te_chx (s_temp s); cd_T_e := te_hhx (s_temp s) |} = P0)
        by reflexivity.
      revert Hst H. generalize {| cd_P := P0; cd_T_c := te_chx (s_temp s); cd_T_e := te_hhx (s_temp s) |}.
      intros ic0 Hst. induction Hst as [a|n a b d Hab Hbd IH]; intros H; [exact H|].
      apply IH. destruct Hab as (p1 & p2 & p3 & _ & _ & _ & ->). reflexivity. }
    split.
    { destruct Hn2 as [[_ ->]|[Habs _]]; [exact H2|discriminate Habs]. }
    split; [exact Hcyc|]. split; [exact Hn'|]. split; [exact Hn|].
    pose proof (into_state_values_from_spec U c pts' FlowDirection_default) as HV.
    unfold into_state_values in Hv. rewrite Hv in HV. exact HV.
  Qed.

  Lemma run_steady comps fl inputs settings (eng : Engine F) :
    Engine_run E U comps fl inputs settings = Ret (Ok eng) ->
    exists c ic pts2 n pts vs,
      is_cycle_of (en_components eng) (s_fluid (en_state eng)) (s_pres (en_state eng))
        (s_temp (en_state eng)) c /\
      cd_P ic = pr_t_zero (s_pres (en_state eng)) /\
      integrates E U c ic 1 (rs_ode_tol settings) pts2 /\
      cyclic (lt_inner (rs_loop_tol settings)) pts2 /\
      intervals_for E (rs_resolution settings) n /\
      integrates E U c ic n (rs_ode_tol settings) pts /\
      values_of_points U c pts vs /\
      series_of vs (en_values eng).
  Proof.
    intros H. apply Engine_run_Ok in H as (s0 & j & k1 & k2 & vs & _ & _ & _ & Hs & Hv & _ & ->).
    apply steady_search_found in Hs as (c & ic & pts2 & n & pts & H1 & H2 & H3 & H4 & H5 & H6 & H7).
    exists c, ic, pts2, n, pts, vs. auto 10.
  Qed.

  (** ** C05 *)
  Lemma run_error comps fl inputs settings e :
    Engine_run E U comps fl inputs settings = Ret (Err e) ->
    exists s0, initial_state comps fl inputs s0 /\
    match e with
    | OuterLoop =>
        exists k s, outer_rounds E U comps settings (N.to_nat (mi_outer (rs_max_iters settings))) s0 k s
    | InnerLoop =>
        exists j k1 s k2 e', (j < N.to_nat (mi_outer (rs_max_iters settings)))%nat /\
          outer_rounds E U comps settings j s0 k1 s /\
          steady_search E U comps settings s k2 (Ret (Err e'))
    end.
  Proof.
    unfold Engine_run. destruct (Engine_run_counted E U comps fl inputs settings) as [k r] eqn:H.
    cbn [snd]. intros ->.
    apply Engine_run_counted_spec in H as [(s0 & H0 & HR)|(p & Hp & _)]; [|discriminate].
    exists s0. split; [exact H0|]. destruct e.
    - destruct HR as (j & k1 & s & k2 & e & Hj & HR & Hs & ->). eauto 10.
    - destruct HR as (s & HR). eauto.
  Qed.

  Lemma steady_search_failed comps settings (s : State F) k e :
    steady_search E U comps settings s k (Ret (Err e)) ->
    exists c, is_cycle_of comps (s_fluid s) (s_pres s) (s_temp s) c /\
    let integ := fun ic n => try_from E U c ic n (rs_ode_tol settings) in
    let round := inner_round integ (pr_t_zero (s_pres s)) (lt_inner (rs_loop_tol settings)) in
    let ic0 := mkCond (pr_t_zero (s_pres s)) (te_chx (s_temp s)) (te_hhx (s_temp s)) in
    let max := N.to_nat (mi_inner (rs_max_iters settings)) in
    (exists ic, e = DidNotConverge /\ steps round max ic0 ic) \/
    (exists j ic, (j < max)%nat /\ steps round j ic0 ic /\
       (integ ic 2%N = Ret (Err e) \/
        exists pts, integ ic 2%N = Ret (Ok pts) /\ cyclic (lt_inner (rs_loop_tol settings)) pts /\
          integ ic (rs_resolution settings) = Ret (Err e))).
  Proof.
    intros (c & Hc & HS). exists c. split; [exact Hc|].
    remember (Ret (Err e)) as r eqn:Hr. destruct HS; try discriminate Hr; injection Hr as <-.
    - left. eauto.
    - right. exists j, ic. auto.
    - right. exists j, ic. split; [assumption|]. split; [assumption|]. right. eauto.
  Qed.

  Lemma run_outer_zero comps fl inputs settings a_k a_r a_l :
    ex_initial_approach (co_chx comps) = Ret a_k ->
    ex_initial_approach (co_regen comps) = Ret a_r ->
    ex_initial_approach (co_hhx comps) = Ret a_l ->
    mi_outer (rs_max_iters settings) = 0%N ->
    Engine_run E U comps fl inputs settings = Ret (Err OuterLoop).
  Proof.
    intros Hk Hr Hl Hn. unfold Engine_run, Engine_run_counted, State_new_hint.
    rewrite Hk, Hr, Hl. cbn [obind]. rewrite Hn. reflexivity.
  Qed.

  Lemma Run_new_total comps (s : State F) : comps_total comps -> exists r, Run_new comps s = Ret r.
  Proof.
    intros (Hw & ([vk Hk] & _) & ([vr Hr] & _) & ([vl Hl] & _)).
    destruct (Hw (State_ws s)) as ([f Hf] & [vf Hv] & _ & [p Hp]).
    unfold Run_new. rewrite Hk, Hr, Hl. cbn [obind]. rewrite Hf. cbn [obind]. rewrite Hv.
    cbn [obind]. rewrite Hp. cbn [obind]. eauto.
  Qed.

  Lemma State_new_hint_total comps fl inputs : comps_total comps ->
    exists s : State F, State_new_hint comps fl inputs = Ret s.
  Proof.
    intros (_ & (_ & [ak Hk] & _) & (_ & [ar Hr] & _) & (_ & [al Hl] & _)).
    unfold State_new_hint. rewrite Hk, Hr, Hl. cbn [obind]. eauto.
  Qed.

  Lemma run_inner_zero comps fl inputs settings :
    comps_total comps ->
    mi_outer (rs_max_iters settings) <> 0%N -> mi_inner (rs_max_iters settings) = 0%N ->
    Engine_run E U comps fl inputs settings = Ret (Err InnerLoop).
  Proof.
    intros Ht Ho Hi. unfold Engine_run, Engine_run_counted.
    destruct (State_new_hint_total comps fl inputs Ht) as [s ->].
    destruct (N.to_nat (mi_outer (rs_max_iters settings))) as [|n] eqn:Hn; [lia|].
    cbn [run_loop]. destruct (Run_new_total comps s Ht) as [r ->].
    unfold find_steady_state_counted. cbn [ssi_max_iters]. rewrite Hi. reflexivity.
  Qed.

  (** ** C06 *)
  Lemma outer_rounds_invariant comps settings n (s : State F) k s' :
    outer_rounds E U comps settings n s k s' ->
    s_fluid s' = s_fluid s /\ s_regen_imbalance s' = s_regen_imbalance s /\
    te_sink (s_temp s') = te_sink (s_temp s) /\ te_source (s_temp s') = te_source (s_temp s).
  Proof.
    induction 1 as [s|n s1 k v s2 k' s3 H1 H2 IH]; [auto|].
    destruct IH as (-> & -> & -> & ->).
    destruct H1 as (vs & _ & _ & _ & Hrec & _ & -> & ->).
    destruct Hrec as (R & ak & ar & al & _ & _ & _ & _ & _ & _ & _ & HT).
    destruct HT as (-> & -> & _). auto.
  Qed.

  Lemma run_boundary comps fl inputs settings (eng : Engine F) :
    Engine_run E U comps fl inputs settings = Ret (Ok eng) ->
    en_components eng = comps /\ s_fluid (en_state eng) = fl /\
    te_sink (s_temp (en_state eng)) = ri_temp_sink inputs /\
    te_source (s_temp (en_state eng)) = ri_temp_source inputs /\
    s_regen_imbalance (en_state eng) = n0.
  Proof.
    intros H. apply Engine_run_Ok in H as (s0 & j & k1 & k2 & vs & H0 & _ & HR & _ & _ & _ & ->).
    apply outer_rounds_invariant in HR as (-> & -> & -> & ->).
    destruct H0 as (ak & ar & al & _ & _ & _ & HT & -> & -> & _).
    destruct HT as (-> & -> & _). auto.
  Qed.

  Lemma answered_first (c : Cycle F) p out y0 :
    answered U c p out -> first_output_is y0 p ->
    (exists x xs', fst out = x :: xs') /\ exists ys', snd out = y0 :: ys'.
  Proof.
    induction 1 as [xs ys|t y k dy out Hd Ha IH]; cbn; [auto|]. intros H. exact (IH (H dy)).
  Qed.

  Lemma integrates_first (c : Cycle F) ic n tol pts :
    reports_start E -> integrates E U c ic n tol pts ->
    exists p pts', pts = p :: pts' /\ pt_conditions p = ic.
  Proof.
    intros HE (xs & ys & Ha & Hlen & Hnth).
    destruct (answered_first _ _ _ _ Ha (HE _)) as [(x & xs' & Hx) (ys' & Hy)].
    cbn [fst snd] in Hx, Hy. subst xs ys.
    destruct pts as [|p pts]; [discriminate Hlen|].
    exists p, pts. split; [reflexivity|].
    destruct (Hnth 0%nat p eq_refl) as (x' & y' & H1 & H2 & ->). cbn in H2. injection H2 as <-.
    cbn. destruct ic; reflexivity.
  Qed.

  Lemma steady_first_pressure comps settings (s : State F) k vs v :
    reports_start E ->
    steady_search E U comps settings s k (Ret (Ok vs)) -> series_of vs v ->
    exists P', vs_P v = pr_t_zero (s_pres s) :: P'.
  Proof.
    intros HE Hs Hv.
    apply steady_search_found in Hs as (c & ic & pts2 & n & pts & _ & H2 & _ & _ & _ & H6 & H7).
    apply (integrates_first _ _ _ _ _ HE) in H6 as (p & pts' & -> & Hp).
    inversion H7 as [|p' x ptl vtl (_ & Hx & _) Htl]; subst.
    destruct Hv as (_ & HP & _).
    inversion HP as [|x' y xs ys Hxy Hrest]; subst.
    exists ys. f_equal. rewrite Hx. exact H2.
  Qed.

  Lemma outer_rounds_pres_zero comps settings n (s : State F) k s' :
    reports_start E -> outer_rounds E U comps settings n s k s' ->
    pr_t_zero (s_pres s') = pr_t_zero (s_pres s).
  Proof.
    intros HE. induction 1 as [s|n s1 k v s2 k' s3 H1 H2 IH]; [reflexivity|].
    rewrite IH. destruct H1 as (vs & Hs & Hse & (_ & (P1 & HP) & _) & _).
    destruct (steady_first_pressure _ _ _ _ _ _ HE Hs Hse) as [P2 HP2]. congruence.
  Qed.

  Lemma run_pres_zero comps fl inputs settings (eng : Engine F) :
    reports_start E ->
    Engine_run E U comps fl inputs settings = Ret (Ok eng) ->
    pr_t_zero (s_pres (en_state eng)) = ri_pres_zero inputs /\
    exists P', vs_P (en_values eng) = ri_pres_zero inputs :: P'.
  Proof.
    intros HE H.
    apply Engine_run_Ok in H as (s0 & j & k1 & k2 & vs & H0 & _ & HR & Hs & Hv & _ & _).
    apply (outer_rounds_pres_zero _ _ _ _ _ _ HE) in HR.
    assert (HP : pr_t_zero (s_pres (en_state eng)) = ri_pres_zero inputs).
    { rewrite HR. destruct H0 as (ak & ar & al & _ & _ & _ & _ & _ & _ & -> & _). reflexivity. }
    split; [exact HP|].
    destruct (steady_first_pressure _ _ _ _ _ _ HE Hs Hv) as [P' H']. exists P'. congruence.
  Qed.

  (** ** C07 *)
  Lemma outer_rounds_last comps settings n (s : State F) k s' :
    outer_rounds E U comps settings (S n) s k s' ->
    exists s1 k1 v, outer_round E U comps settings s1 k1 v s'.
  Proof.
    revert s k s'. induction n as [|n IH]; intros s k s' H;
      inversion H as [|n' s1 k1 v s2 k2 s3 H1 H2]; subst.
    - inversion H2; subst. eauto.
    - eapply IH. exact H2.
  Qed.

  Lemma run_averages_lag comps fl inputs settings (eng : Engine F) :
    Engine_run E U comps fl inputs settings = Ret (Ok eng) ->
    initial_state comps fl inputs (en_state eng) \/
    exists s k v, outer_round E U comps settings s k v (en_state eng).
  Proof.
    intros H. apply Engine_run_Ok in H as (s0 & j & k1 & k2 & vs & H0 & _ & HR & _).
    destruct j as [|j].
    - inversion HR; subst. auto.
    - right. apply outer_rounds_last in HR. exact HR.
  Qed.

  Lemma temperatures_follow_det sink source ak ar al imb (T T' : Temperatures F) :
    temperatures_follow sink source ak ar al imb T ->
    temperatures_follow sink source ak ar al imb T' -> T = T'.
  Proof.
    destruct T as [s1 c1 [rc1 ra1 rh1] h1 so1], T' as [s2 c2 [rc2 ra2 rh2] h2 so2].
    unfold temperatures_follow; cbn.
    intros (-> & -> & -> & -> & -> & -> & ->) (-> & -> & -> & -> & -> & -> & ->). reflexivity.
  Qed.

  Lemma run_fixed_approach comps fl inputs settings (eng : Engine F) :
    fixed_approach (co_chx comps) -> fixed_approach (co_regen comps) ->
    fixed_approach (co_hhx comps) ->
    (forall s0, initial_state comps fl inputs s0 ->
       temperatures_close (lt_outer (rs_loop_tol settings)) (s_temp s0) (s_temp s0)) ->
    Engine_run E U comps fl inputs settings = Ret (Ok eng) ->
    initial_state comps fl inputs (en_state eng).
  Proof.
    intros Fk Fr Fl Hself H.
    apply Engine_run_Ok in H as (s0 & j & k1 & k2 & vs & H0 & _ & HR & _).
    destruct j as [|j]; [inversion HR; subst; exact H0|]. exfalso.
    inversion HR as [|n' s1 k v s2 k' s3 H1 H2]; subst. clear H2 HR.
    destruct H1 as (vs1 & _ & _ & _ & Hrec & Hnc & _).
    apply Hnc. pose proof (Hself s0 H0) as Hcl.
    destruct H0 as (ak & ar & al & Hk & Hr & Hl & HT & Hfl & Himb & _).
    destruct Hrec as (R & bk & br & bl & _ & _ & _ & _ & Bk & Br & Bl & HT').
    rewrite Fk in Bk. rewrite Fr in Br. rewrite Fl in Bl.
    assert (bk = ak) by congruence. assert (br = ar) by congruence. assert (bl = al) by congruence.
    subst bk br bl. rewrite Himb in HT'.
    assert (Hsink : te_sink (s_temp s0) = ri_temp_sink inputs) by apply HT.
    assert (Hsource : te_source (s_temp s0) = ri_temp_source inputs) by apply HT.
    rewrite Hsink, Hsource in HT'.
    rewrite <- (temperatures_follow_det _ _ _ _ _ _ _ _ HT HT'). exact Hcl.
  Qed.

  (** ** C48 *)
  Lemma steady_search_count comps settings (s : State F) k r :
    steady_search E U comps settings s k r ->
    (k <= N.to_nat (mi_inner (rs_max_iters settings)) + 1)%nat.
  Proof. intros (c & _ & H). exact (inner_search_count _ _ _ _ _ _ _ _ _ H). Qed.

  Lemma outer_rounds_count comps settings n (s : State F) k s' :
    outer_rounds E U comps settings n s k s' ->
    (k <= n * (N.to_nat (mi_inner (rs_max_iters settings)) + 1))%nat.
  Proof.
    induction 1 as [s|n s1 k v s2 k' s3 H1 H2 IH]; [lia|].
    destruct H1 as (vs & Hs & _). apply steady_search_count in Hs. cbn. lia.
  Qed.

  Lemma run_count comps fl inputs settings :
    (fst (Engine_run_counted E U comps fl inputs settings) <=
     N.to_nat (mi_outer (rs_max_iters settings)) *
       (N.to_nat (mi_inner (rs_max_iters settings)) + 1))%nat.
  Proof.
    destruct (Engine_run_counted E U comps fl inputs settings) as [k r] eqn:H. cbn [fst].
    apply Engine_run_counted_spec in H as [(s0 & _ & HR)|(p & _ & -> & _)]; [|lia].
    set (o := N.to_nat (mi_outer (rs_max_iters settings))) in *.
    set (i := N.to_nat (mi_inner (rs_max_iters settings))) in *.
    destruct r as [[eng|[|]]|p]; cbn [run_spec] in HR.
    - destruct HR as (j & k1 & s & k2 & vs & Hj & HR & Hs & -> & _).
      apply outer_rounds_count in HR. apply steady_search_count in Hs. fold i in HR, Hs. nia.
    - destruct HR as (j & k1 & s & k2 & e & Hj & HR & Hs & ->).
      apply outer_rounds_count in HR. apply steady_search_count in Hs. fold i in HR, Hs. nia.
    - destruct HR as (s & HR). apply outer_rounds_count in HR. exact HR.
    - destruct HR as (j & k1 & s & Hj & HR & Hk). fold i in Hk.
      apply outer_rounds_count in HR. fold i in HR. nia.
  Qed.
End PolyRun.
