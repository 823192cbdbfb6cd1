(** * Engines with fixed approaches pass the outer loop once, f64 *)
From Coq Require Import ZArith NArith List Reals Bool Lra Lia.
From Flocq Require Import Core BinarySingleNaN.
From Verif Require Import Num ModelTypes ModelWs ModelHx ModelStateEq ModelEngine ModelApi
  Spec SpecLoop SpecApi PolySolve PolyLoop PolyRun PolyFixed B64 SpecF64 F64Base F64Conv Fixture Demo Witness.
Import ListNotations.
Local Open Scope R_scope.

Lemma overflows_0 : ~ overflows 0.
Proof. unfold overflows. rewrite Rabs_R0. pose proof bpow_pos_1024. lra. Qed.
Lemma small_change_self (tol : ConvergenceTolerance b64) (x : b64) : small_change tol x x <->
  finite x /\ value x <> 0 /\ above_zero (ct_abs tol) /\ above_zero (ct_rel tol).
Proof.
  unfold small_change. cbv zeta. replace (value x - value x) with 0 by ring. rewrite rounded_0.
  replace (0 / value x) with 0 by (unfold Rdiv; ring). rewrite rounded_0, Rabs_R0. pose proof overflows_0. unfold above_zero. tauto.
Qed.

Section F64.
  Variables (lm : Libm) (nt : bool).
  Local Instance ops_fixed : NumOps b64 := b64_ops lm nt.

  Lemma close_self (tol : ConvergenceTolerance b64) (x : b64) : close tol x x <->
    finite x /\ value x <> 0 /\ above_zero (ct_abs tol) /\ above_zero (ct_rel tol).
  Proof.
    rewrite <- small_change_self, <- (converged_f64 lm nt). unfold close, is_converged. cbv zeta.
    symmetry. apply andb_true_iff.
  Qed.
  Lemma temperatures_close_self (tol : ConvergenceTolerance b64) (T : Temperatures b64) : temperatures_close tol T T <->
    (above_zero (ct_abs tol) /\ above_zero (ct_rel tol)) /\
    Forall (fun x => finite x /\ value x <> 0)
      [te_chx T; te_hhx T; rt_cold (te_regen T); rt_avg (te_regen T); rt_hot (te_regen T)].
  Proof.
    unfold temperatures_close. rewrite !close_self. split.
    - intros H. split; [tauto|]. repeat constructor; tauto.
    - intros (H & HF). repeat (apply Forall_cons_iff in HF; destruct HF as (? & HF)). tauto.
  Qed.

  Variables (E : Env b64) (D : Decomp b64) (comps : Components b64) (fl : Fluid b64) (inputs : RunInputs b64) (settings : RunSettings b64).
  Lemma fixed_never_outer : fixed_approach (co_chx comps) -> fixed_approach (co_regen comps) -> fixed_approach (co_hhx comps) ->
    mi_outer (rs_max_iters settings) <> 0%N ->
    above_zero (ct_abs (lt_outer (rs_loop_tol settings))) -> above_zero (ct_rel (lt_outer (rs_loop_tol settings))) ->
    (forall s0, initial_state comps fl inputs s0 -> Forall (fun x => finite x /\ value x <> 0)
       [te_chx (s_temp s0); te_hhx (s_temp s0); rt_cold (te_regen (s_temp s0)); rt_avg (te_regen (s_temp s0)); rt_hot (te_regen (s_temp s0))]) ->
    Engine_run E D comps fl inputs settings <> Ret (Err OuterLoop) /\
    (fst (Engine_run_counted E D comps fl inputs settings) <= N.to_nat (mi_inner (rs_max_iters settings)) + 1)%nat.
  Proof.
    intros Fk Fr Fl HM Ha Hr HT. unfold Engine_run. destruct (Engine_run_counted E D comps fl inputs settings) as [k r] eqn:H.
    apply (run_passes_once E D comps fl inputs settings Fk Fr Fl) in H as (Hk & H); [|exact HM|].
    - cbn [fst snd]. split; [|exact Hk]. intros ->. exact H.
    - intros s0 H0. apply temperatures_close_self. split; [split; assumption|]. exact (HT s0 H0).
  Qed.
  Lemma fixed_needs_sane e : fixed_approach (co_chx comps) -> fixed_approach (co_regen comps) -> fixed_approach (co_hhx comps) ->
    Engine_run E D comps fl inputs settings = Ret (Ok e) ->
    forall s0, initial_state comps fl inputs s0 -> Forall (fun x => finite x /\ value x <> 0)
       [te_chx (s_temp s0); te_hhx (s_temp s0); rt_cold (te_regen (s_temp s0)); rt_avg (te_regen (s_temp s0)); rt_hot (te_regen (s_temp s0))].
  Proof.
    intros Fk Fr Fl H s0 H0. apply (run_needs_close E D comps fl inputs settings Fk Fr Fl e H) in H0.
    apply temperatures_close_self in H0. apply H0.
  Qed.
End F64.

Lemma fixed_case : (fixed_approach (co_chx fa_comps) /\ fixed_approach (co_regen fa_comps) /\ fixed_approach (co_hhx fa_comps)) /\
  mi_outer (rs_max_iters (settings_of fa_config)) <> 0%N /\
  (above_zero (ct_abs (lt_outer (rs_loop_tol (settings_of fa_config)))) /\ above_zero (ct_rel (lt_outer (rs_loop_tol (settings_of fa_config))))) /\
  (forall s0, initial_state fa_comps helium demo_inputs s0 -> Forall (fun x => finite x /\ value x <> 0)
     [te_chx (s_temp s0); te_hhx (s_temp s0); rt_cold (te_regen (s_temp s0)); rt_avg (te_regen (s_temp s0)); rt_hot (te_regen (s_temp s0))]).
Proof.
  split; [exact fa_fixed|]. split; [discriminate|]. split.
  - destruct fa_runs as (e & He & _). destruct (proj1 (temperatures_close_self demo_libm true _ _)
      (run_needs_close demo_env gauss _ _ _ _ (proj1 fa_fixed) (proj1 (proj2 fa_fixed)) (proj2 (proj2 fa_fixed)) e He _
         (run_fixed_approach demo_env gauss _ _ _ _ e (proj1 fa_fixed) (proj1 (proj2 fa_fixed)) (proj2 (proj2 fa_fixed)) fa_close He))) as (H & _).
    exact H.
  - intros s0 H0. exact (proj2 (proj1 (temperatures_close_self demo_libm true _ _) (fa_close s0 H0))).
Qed.
