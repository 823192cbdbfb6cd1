(** * Proofs about unfinished components *)
From Coq Require Import ZArith NArith List.
From Verif Require Import Num ModelTypes ModelWs ModelHx ModelStubs ModelStateEq ModelEngine ModelApi
  Spec SpecApi SpecCfg PolyLoop PolyRun B64 Fixture Demo.
Import ListNotations.

Section PolyStubs.
  Context {F : Type} {ops : NumOps F} (E : Env F) (U : Decomp F).

  Lemma stub_methods (w : WorkingSpaces F) (k : ColdHeatExchanger F) (g : Regenerator F) (l : HotHeatExchanger F) :
    (In w [ws_GPU3; ws_Mod2] -> unfinished_spaces w) /\ (In k [chx_GPU3; chx_Mod2] -> unfinished k) /\
    (In g [regen_GPU3; regen_Mod2] -> unfinished g) /\
    (In l [hhx_GPU3; hhx_Mod2; hhx_NuclearIsomerGPU3; hhx_NuclearIsomerMod2] -> unfinished l).
  Proof.
    repeat split; intros; cbn [In] in *;
      repeat match goal with H : _ \/ _ |- _ => destruct H as [H|H] end;
      try contradiction; subst; reflexivity.
  Qed.
  Lemma stub_exchanger comps fl inputs settings :
    In (co_chx comps) [chx_GPU3; chx_Mod2] \/ In (co_regen comps) [regen_GPU3; regen_Mod2] \/
    In (co_hhx comps) [hhx_GPU3; hhx_Mod2; hhx_NuclearIsomerGPU3; hhx_NuclearIsomerMod2] ->
    (forall p, initial_approach_panics comps p -> p = PTodo) ->
    Engine_run E U comps fl inputs settings = Panic PTodo.
  Proof.
    intros H HP. unfold Engine_run, Engine_run_counted, State_new_hint.
    assert (Hk : initial_approach_panics comps PTodo).
    { unfold initial_approach_panics.
      destruct H as [H | [H | H]]; cbn [In] in H; intuition; match goal with
      | e : _ = _ |- _ => rewrite <- e; auto end. }
    unfold initial_approach_panics in *.
    destruct (ex_initial_approach (co_chx comps)) as [ak|p]; cbn [obind snd].
    2:{ rewrite (HP p); auto. }
    destruct (ex_initial_approach (co_regen comps)) as [ar|p]; cbn [obind snd].
    2:{ rewrite (HP p); auto. }
    destruct (ex_initial_approach (co_hhx comps)) as [al|p]; cbn [obind snd].
    2:{ rewrite (HP p); auto. }
    now destruct Hk as [Hk | [Hk | Hk]].
  Qed.

  Lemma stub_ws comps fl inputs settings a_k a_r a_l v_k v_r v_l :
    In (co_ws comps) [ws_GPU3; ws_Mod2] ->
    ex_initial_approach (co_chx comps) = Ret a_k -> ex_volume (co_chx comps) = Ret v_k ->
    ex_initial_approach (co_regen comps) = Ret a_r -> ex_volume (co_regen comps) = Ret v_r ->
    ex_initial_approach (co_hhx comps) = Ret a_l -> ex_volume (co_hhx comps) = Ret v_l ->
    Engine_run E U comps fl inputs settings =
      (if N.eqb (mi_outer (rs_max_iters settings)) 0 then Ret (Err OuterLoop) else Panic PTodo).
  Proof.
    intros H Hk Vk Hr Vr Hl Vl. destruct (N.eqb_spec (mi_outer (rs_max_iters settings)) 0) as [Z|Z].
    { eapply run_outer_zero; eauto. }
    unfold Engine_run, Engine_run_counted, State_new_hint. rewrite Hk, Hr, Hl. cbn [obind].
    destruct (N.to_nat (mi_outer (rs_max_iters settings))) as [|n] eqn:En.
    { exfalso. apply Z. apply N2Nat.inj. now rewrite En. }
    cbn [run_loop]. unfold Run_new. rewrite Vk, Vr, Vl. cbn [obind].
    cbn [In] in H. destruct H as [<- | [<- | []]]; reflexivity.
  Qed.
End PolyStubs.

Definition stub_comps : Components b64 :=
  mkComponents (co_ws fa_comps) (co_chx fa_comps) regen_Mod2 (co_hhx fa_comps).
Lemma stub_case : In (co_regen stub_comps) [regen_GPU3; regen_Mod2] /\
  forall p, initial_approach_panics stub_comps p -> p = PTodo.
Proof.
  split; [right; left; reflexivity|].
  intros p [H | [H | H]]; [discriminate H | now inversion H | discriminate H].
Qed.
Definition stub_ws_comps : Components b64 :=
  mkComponents ws_GPU3 (co_chx fa_comps) (co_regen fa_comps) (co_hhx fa_comps).
Lemma stub_ws_case :
  In (co_ws stub_ws_comps) [ws_GPU3; ws_Mod2] /\
  Engine_run demo_env gauss stub_ws_comps helium demo_inputs (settings_of fa_config) = Panic PTodo.
Proof.
  split; [left; reflexivity|].
  rewrite (stub_ws demo_env gauss stub_ws_comps helium demo_inputs (settings_of fa_config)
    (n_lit 40 0) (n_lit 10 0) (n_lit 100 0) (n_lit 40 (-6)) (n_lit 1 (-4)) (n_lit 10 (-5))); try reflexivity.
  left. reflexivity.
Qed.
