(** * Engines with fixed approaches pass the outer loop once, any number type *)
From Coq Require Import ZArith NArith List Lia.
From Verif Require Import Num ModelTypes ModelWs ModelHx ModelStateEq ModelEngine ModelApi
  Spec SpecLoop SpecApi PolySolve PolyLoop PolyRun.
Import ListNotations.

Section PolyFixed.
  Context {F : Type} {ops : NumOps F}.
  Variables (E : Env F) (U : Decomp F) (comps : Components F) (fl : Fluid F) (inputs : RunInputs F) (settings : RunSettings F).
  Hypothesis Fk : fixed_approach (co_chx comps).
  Hypothesis Fr : fixed_approach (co_regen comps).
  Hypothesis Fl : fixed_approach (co_hhx comps).
  Let tol := lt_outer (rs_loop_tol settings).

  (** the temperatures are those of the initial approaches *)
  Definition at_start (s : State F) : Prop :=
    exists a_k a_r a_l,
      ex_initial_approach (co_chx comps) = Ret a_k /\ ex_initial_approach (co_regen comps) = Ret a_r /\
      ex_initial_approach (co_hhx comps) = Ret a_l /\
      temperatures_follow (ri_temp_sink inputs) (ri_temp_source inputs) a_k a_r a_l n0 (s_temp s) /\ s_regen_imbalance s = n0.
  Lemma initial_at_start s : initial_state comps fl inputs s -> at_start s.
  Proof. intros (ak & ar & al & Hk & Hr & Hl & HT & _ & Hi & _). exists ak, ar, al. auto. Qed.
  Lemma at_start_temp s s' : at_start s -> at_start s' -> s_temp s = s_temp s'.
  Proof.
    intros (ak & ar & al & Hk & Hr & Hl & HT & _) (bk & br & bl & Bk & Br & Bl & HT' & _).
    assert (bk = ak) by congruence. assert (br = ar) by congruence. assert (bl = al) by congruence. subst.
    exact (temperatures_follow_det _ _ _ _ _ _ _ _ HT HT').
  Qed.
  Lemma recomputed_at_start s v P m q T' : at_start s ->
    recomputed comps (s_fluid s) (s_pres s) (s_temp s) (s_regen_imbalance s) v P m q T' -> T' = s_temp s.
  Proof.
    intros (ak & ar & al & Hk & Hr & Hl & HT & Hi) (R & bk & br & bl & _ & _ & _ & _ & Bk & Br & Bl & HT').
    rewrite Fk in Bk. rewrite Fr in Br. rewrite Fl in Bl.
    assert (bk = ak) by congruence. assert (br = ar) by congruence. assert (bl = al) by congruence. subst bk br bl.
    rewrite Hi in HT'. assert (Hs : te_sink (s_temp s) = ri_temp_sink inputs) by apply HT.
    assert (Hs' : te_source (s_temp s) = ri_temp_source inputs) by apply HT. rewrite Hs, Hs' in HT'.
    symmetry. exact (temperatures_follow_det _ _ _ _ _ _ _ _ HT HT').
  Qed.
  Lemma round_at_start s k v s' : at_start s -> outer_round E U comps settings s k v s' ->
    at_start s' /\ ~ temperatures_close tol (s_temp s) (s_temp s).
  Proof.
    intros H (vs & _ & _ & _ & Hrec & Hn & Hf & Hi). pose proof (recomputed_at_start _ _ _ _ _ _ H Hrec) as Et.
    rewrite Et in Hn. split; [|exact Hn]. destruct H as (ak & ar & al & Hk & Hr & Hl & HT & Hi0).
    exists ak, ar, al. rewrite Et, Hi. auto.
  Qed.
  Lemma rounds_at_start n s k s' : outer_rounds E U comps settings n s k s' -> at_start s ->
    at_start s' /\ (temperatures_close tol (s_temp s) (s_temp s) -> n = O /\ k = O /\ s' = s).
  Proof.
    induction 1 as [s|n s1 k v s2 k' s3 H1 H2 IH]; intros H; [auto|].
    destruct (round_at_start _ _ _ _ H H1) as (H' & N). split; [apply IH; exact H'|]. intros C. destruct (N C).
  Qed.

  Lemma run_passes_once k r : Engine_run_counted E U comps fl inputs settings = (k, r) ->
    mi_outer (rs_max_iters settings) <> 0%N ->
    (forall s0, initial_state comps fl inputs s0 -> temperatures_close tol (s_temp s0) (s_temp s0)) ->
    (k <= N.to_nat (mi_inner (rs_max_iters settings)) + 1)%nat /\
    match r with
    | Ret (Ok e) => initial_state comps fl inputs (en_state e) /\
        exists vs, steady_search E U comps settings (en_state e) k (Ret (Ok vs)) /\ series_of vs (en_values e)
    | Ret (Err InnerLoop) => exists s0 err, initial_state comps fl inputs s0 /\ steady_search E U comps settings s0 k (Ret (Err err))
    | Ret (Err OuterLoop) => False
    | Panic _ => True
    end.
  Proof.
    intros H HM Hself. apply Engine_run_counted_spec in H as [(s0 & H0 & HR)|(p & -> & -> & _)]; [|split; [lia|exact I]].
    pose proof (initial_at_start s0 H0) as HA. specialize (Hself s0 H0).
    destruct r as [[e|[|]]|p]; cbn in HR.
    - destruct HR as (j & k1 & s & k2 & vs & Hj & HO & Hs & -> & Hse & _ & He & _).
      apply rounds_at_start in HO as (_ & HO); [|exact HA]. destruct (HO Hself) as (-> & -> & ->). subst s0.
      split; [pose proof (steady_search_count _ _ _ _ _ _ _ Hs); lia|]. eauto.
    - destruct HR as (j & k1 & s & k2 & err & Hj & HO & Hs & ->).
      apply rounds_at_start in HO as (_ & HO); [|exact HA]. destruct (HO Hself) as (-> & -> & ->).
      split; [pose proof (steady_search_count _ _ _ _ _ _ _ Hs); lia|]. eauto.
    - destruct HR as (s & HO). apply rounds_at_start in HO as (_ & HO); [|exact HA]. destruct (HO Hself) as (Hz & _). lia.
    - destruct HR as (j & k1 & s & Hj & HO & Hk). apply rounds_at_start in HO as (_ & HO); [|exact HA].
      destruct (HO Hself) as (-> & -> & _). split; [lia|exact I].
  Qed.

  Lemma run_needs_close e : Engine_run E U comps fl inputs settings = Ret (Ok e) ->
    forall s0, initial_state comps fl inputs s0 -> temperatures_close tol (s_temp s0) (s_temp s0).
  Proof.
    intros H s0 H0. apply Engine_run_Ok in H as (s1 & j & k1 & k2 & vs & H1 & _ & HO & _ & _ & HC & _).
    apply rounds_at_start in HO as (HA & _); [|exact (initial_at_start s1 H1)].
    destruct HC as (P & m & q & T' & Hrec & HC). rewrite (recomputed_at_start _ _ _ _ _ _ HA Hrec) in HC.
    rewrite (at_start_temp s0 (en_state e) (initial_at_start s0 H0) HA). exact HC.
  Qed.
End PolyFixed.
Lemma fixed_covers {F} {ops : NumOps F} (f : FixedApproach F) :
  fixed_approach (chx_FixedApproach f) /\ fixed_approach (regen_FixedApproach f) /\ fixed_approach (hhx_FixedApproach f).
Proof. repeat split. Qed.
Lemma fixed_configured {F} {ops : NumOps F} (config : ComponentsConfig F) (comps : Components F) ck cr cl :
  Components_from config = Ret comps -> ccf_chx config = CC_FixedApproach ck -> ccf_regen config = RC_FixedApproach cr -> ccf_hhx config = HC_FixedApproach cl ->
  fixed_approach (co_chx comps) /\ fixed_approach (co_regen comps) /\ fixed_approach (co_hhx comps).
Proof.
  unfold Components_from. intros H Ek Er El. rewrite Ek, Er, El in H. destruct (ws_from_config (ccf_ws config)) as [w|p]; [|discriminate H].
  cbn [obind chx_from_config regen_from_config hhx_from_config] in H. injection H as <-. repeat split.
Qed.
