(** * Integrations of physical points do not panic *)
From Coq Require Import ZArith NArith List Reals.
From Verif Require Import Num ModelTypes ModelWs ModelHx ModelStateEq ModelEngine RNum Spec SpecLoop SpecApi SpecR
  PolySolve PolyLoop PolyRun PolyPanic Fixture RSolve RGauss RFluid RKin RCase.
Import ListNotations.

Lemma physical_answered D (c : Cycle R) p : sound D -> complete D -> asks_physical D c p -> ~ unanswered D c p.
Proof.
  intros HS HC HP HU. induction HU as [t y k hint Hf|t y k dy Hd HU IH]; destruct HP as [Hp Hk].
  - exact (search_succeeds _ Hp D hint HS HC Hf).
  - exact (IH (Hk dy Hd)).
Qed.

Lemma physical_integration E D (c : Cycle R) ic n tol : sound D -> complete D ->
  (forall k, intervals_for E n k -> asks_physical D c (env_ode E (period_args c ic k tol))) ->
  try_from E D c ic n tol <> Panic PSolveFailed.
Proof.
  intros HS HC HP H. apply try_from_panic in H as [[H _]|(_ & k & Hk & HU)]; [discriminate|].
  exact (physical_answered D c _ HS HC (HP k Hk) HU).
Qed.

Lemma physical_values D (c : Cycle R) pts : sound D -> complete D ->
  Forall (fun p => physical (cy_calculate_inputs c (pt_time p) (pt_conditions p))) pts ->
  exists vs, into_state_values D c pts = Ret vs.
Proof.
  intros HS HC HP. pose proof (into_state_values_from_spec D c pts FlowDirection_default) as H.
  unfold into_state_values.
  destruct (into_state_values_from D c FlowDirection_default pts) as [vs|r]; [eauto|].
  destruct H as (_ & pre & p & post & vs & -> & _ & Hf).
  apply Forall_app in HP as [_ HP]. inversion HP as [|? ? Hp _]; subst.
  exfalso. exact (search_succeeds _ Hp D _ HS HC Hf).
Qed.

(** an integrator that looks at the start of the cycle and at its middle *)
Definition probing_env : Env R := mkEnv
  (fun a => OAsk (oa_x a) (oa_y a) (fun _ => OAsk (oa_x_end a * (1 / 2))%R (oa_y a)
     (fun _ => ODone [oa_x a; oa_x_end a] [oa_y a; oa_y a]))) true.
Definition case_cycle : Cycle R := Run_Cycle case_run.
Lemma case_asks_physical n k tol : intervals_for probing_env n k ->
  asks_physical gauss case_cycle (env_ode probing_env (period_args case_cycle case_conditions k tol)).
Proof. intros _. split; [apply case_physical|]. intros dy _. split; [apply case_physical|]. intros; exact I. Qed.
Lemma case_integrates tol :
  try_from probing_env gauss case_cycle case_conditions 10 tol <> Panic PSolveFailed.
Proof.
  apply physical_integration; [exact gauss_sound|exact gauss_complete|].
  intros k. apply case_asks_physical.
Qed.
