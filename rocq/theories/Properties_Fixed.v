(** * C122: engines with fixed approaches pass the outer loop once *)
From Coq Require Import ZArith NArith List Reals.
From Verif Require Import Num ModelTypes ModelWs ModelHx ModelStateEq ModelEngine ModelApi
  Spec SpecLoop SpecApi PolyFixed B64 SpecF64 F64Fixed Fixture Demo Witness.
Import ListNotations.
Local Open Scope R_scope.

(** any number type: the result is that of the first search for a steady cycle *)
Theorem C122_once (F : Type) (ops : NumOps F) (E : Env F) (U : Decomp F) (comps : Components F) (fl : Fluid F)
    (inputs : RunInputs F) (settings : RunSettings F) (k : nat) (r : outcome (result (Engine F) RunError)) :
  fixed_approach (co_chx comps) -> fixed_approach (co_regen comps) -> fixed_approach (co_hhx comps) ->
  Engine_run_counted E U comps fl inputs settings = (k, r) -> mi_outer (rs_max_iters settings) <> 0%N ->
  (forall s0, initial_state comps fl inputs s0 ->
     temperatures_close (lt_outer (rs_loop_tol settings)) (s_temp s0) (s_temp s0)) ->
  (k <= N.to_nat (mi_inner (rs_max_iters settings)) + 1)%nat /\
  match r with
  | Ret (Ok e) => initial_state comps fl inputs (en_state e) /\
      exists vs, steady_search E U comps settings (en_state e) k (Ret (Ok vs)) /\ series_of vs (en_values e)
  | Ret (Err InnerLoop) => exists s0 err, initial_state comps fl inputs s0 /\
      steady_search E U comps settings s0 k (Ret (Err err))
  | Ret (Err OuterLoop) => False
  | Panic _ => True
  end.
Proof. exact (fun Fk Fr Fl => run_passes_once E U comps fl inputs settings Fk Fr Fl k r). Qed.
Print Assumptions C122_once.

(** f64: positive tolerances and finite temperatures other than zero are enough *)
Theorem C122_never_outer (lm : Libm) (nt : bool) (E : Env b64) (D : Decomp b64) (comps : Components b64) (fl : Fluid b64)
    (inputs : RunInputs b64) (settings : RunSettings b64) :
  fixed_approach (co_chx comps) -> fixed_approach (co_regen comps) -> fixed_approach (co_hhx comps) ->
  mi_outer (rs_max_iters settings) <> 0%N ->
  above_zero (ct_abs (lt_outer (rs_loop_tol settings))) -> above_zero (ct_rel (lt_outer (rs_loop_tol settings))) ->
  (forall s0, @initial_state b64 (b64_ops lm nt) comps fl inputs s0 -> Forall (fun x => finite x /\ value x <> 0)
     [te_chx (s_temp s0); te_hhx (s_temp s0); rt_cold (te_regen (s_temp s0)); rt_avg (te_regen (s_temp s0));
      rt_hot (te_regen (s_temp s0))]) ->
  @Engine_run b64 (b64_ops lm nt) E D comps fl inputs settings <> Ret (Err OuterLoop) /\
  (fst (@Engine_run_counted b64 (b64_ops lm nt) E D comps fl inputs settings) <=
   N.to_nat (mi_inner (rs_max_iters settings)) + 1)%nat.
Proof. exact (fixed_never_outer lm nt E D comps fl inputs settings). Qed.
Print Assumptions C122_never_outer.

(** ... and necessary for success; the tolerances are positive by C77 *)
Theorem C122_needs_sane (lm : Libm) (nt : bool) (E : Env b64) (D : Decomp b64) (comps : Components b64) (fl : Fluid b64)
    (inputs : RunInputs b64) (settings : RunSettings b64) (e : Engine b64) :
  fixed_approach (co_chx comps) -> fixed_approach (co_regen comps) -> fixed_approach (co_hhx comps) ->
  @Engine_run b64 (b64_ops lm nt) E D comps fl inputs settings = Ret (Ok e) ->
  forall s0, @initial_state b64 (b64_ops lm nt) comps fl inputs s0 -> Forall (fun x => finite x /\ value x <> 0)
     [te_chx (s_temp s0); te_hhx (s_temp s0); rt_cold (te_regen (s_temp s0)); rt_avg (te_regen (s_temp s0));
      rt_hot (te_regen (s_temp s0))].
Proof. exact (fixed_needs_sane lm nt E D comps fl inputs settings e). Qed.
Print Assumptions C122_needs_sane.

(** the exchangers meant *)
Theorem C122_covers (F : Type) (ops : NumOps F) (f : FixedApproach F) :
  fixed_approach (chx_FixedApproach f) /\ fixed_approach (regen_FixedApproach f) /\ fixed_approach (hhx_FixedApproach f).
Proof. exact (fixed_covers f). Qed.
Print Assumptions C122_covers.
Theorem C122_configured (F : Type) (ops : NumOps F) (config : ComponentsConfig F) (comps : Components F) ck cr cl :
  Components_from config = Ret comps -> ccf_chx config = CC_FixedApproach ck -> ccf_regen config = RC_FixedApproach cr -> ccf_hhx config = HC_FixedApproach cl ->
  fixed_approach (co_chx comps) /\ fixed_approach (co_regen comps) /\ fixed_approach (co_hhx comps).
Proof. exact (fixed_configured config comps ck cr cl). Qed.
Print Assumptions C122_configured.

Example C122_case : (fixed_approach (co_chx fa_comps) /\ fixed_approach (co_regen fa_comps) /\ fixed_approach (co_hhx fa_comps)) /\
  mi_outer (rs_max_iters (settings_of fa_config)) <> 0%N /\
  (above_zero (ct_abs (lt_outer (rs_loop_tol (settings_of fa_config)))) /\
   above_zero (ct_rel (lt_outer (rs_loop_tol (settings_of fa_config))))) /\
  (forall s0, initial_state fa_comps helium demo_inputs s0 -> Forall (fun x => finite x /\ value x <> 0)
     [te_chx (s_temp s0); te_hhx (s_temp s0); rt_cold (te_regen (s_temp s0)); rt_avg (te_regen (s_temp s0));
      rt_hot (te_regen (s_temp s0))]).
Proof. exact fixed_case. Qed.
Example C122_runs : exists eng,
  Engine_run demo_env gauss fa_comps helium demo_inputs (settings_of fa_config) = Ret (Ok eng) /\
  length (vs_time (en_values eng)) = 4%nat.
Proof. exact fa_runs. Qed.
