(** * Theorems about heat, work and entropy of helium engines over a cycle *)
From Coq Require Import ZArith NArith List Reals.
From Verif Require Import Num ModelTypes ModelWs ModelHx ModelStateEq ModelEngine ModelApi RNum Spec SpecR SpecGas
  SpecKin SpecTraj SpecLaws SpecUnique SpecSpaces SpecBounds SpecSteady SpecContract SpecSearch SpecAccurate SpecRegen SpecCarnot Fixture RGauss RFluid RCase RRegen RRegenCase RBook RCarnotCase RCarnotRun.
Local Open Scope R_scope.

(** C124: books can be kept of every trajectory *)
Theorem C124_books (r : Run R) (D : Decomp R) (c : R -> Conditions R) (a b : R) :
  ru_fluid r = IdealGas_Fluid he -> sound D -> a <= b -> (forall t, a <= t <= b -> physical_trajectory D r c t) ->
  exists k, forall t, a <= t <= b -> books D r c k t.
Proof. exact (fun Hf HD => books_exist r Hf D HD c a b). Qed.
Print Assumptions C124_books.
(** the hot exchanger takes up the work of the expansion space and what that space loses, and warms the gas that
    comes from the regenerator; the cold exchanger likewise *)
Theorem C124_heats (r : Run R) (D : Decomp R) (c : R -> Conditions R) (k : Book) (a b P : R) :
  ru_fluid r = IdealGas_Fluid he -> sound D -> a <= b ->
  (forall t, a <= t <= b -> physical_trajectory D r c t /\ books D r c k t) ->
  spaces_return r c a b -> cd_P (c b) = cd_P (c a) ->
  total (bk_taken k) a b = total (bk_work_e k) a b + heat_lost_exp r * (b - a) + / 2 * step_hot r P * total (bk_gas_rl k) a b /\
  total (bk_given k) a b = - total (bk_work_c k) a b - heat_lost_comp r * (b - a) + / 2 * step_cold r P * total (bk_gas_kr k) a b /\
  total (bk_kept k) a b = / 2 * step_hot r P * total (bk_gas_rl k) a b - / 2 * step_cold r P * total (bk_gas_kr k) a b.
Proof. exact (fun Hf HD => cycle_heats r Hf D HD c k a b P). Qed.
Print Assumptions C124_heats.

(** C125: entropy over a cycle *)
Theorem C125_balance (r : Run R) (D : Decomp R) (c : R -> Conditions R) (k : Book) (a b : R) :
  ru_fluid r = IdealGas_Fluid he -> sound D -> a <= b ->
  (forall t, a <= t <= b -> physical_trajectory D r c t /\ books D r c k t) ->
  spaces_return r c a b -> cd_P (c b) = cd_P (c a) -> heat_lost_comp r = 0 -> heat_lost_exp r = 0 ->
  total (bk_work_c k) a b / te_chx (ru_temp r) + total (bk_work_e k) a b / te_hhx (ru_temp r) + total (bk_mixing k) a b
  = total (bk_excess k) a b.
Proof. exact (fun Hf HD => cycle_entropy r Hf D HD c k a b). Qed.
Print Assumptions C125_balance.
Theorem C125_mixing (r : Run R) (D : Decomp R) (c : R -> Conditions R) (k : Book) (a b : R) :
  sound D -> a <= b -> (forall t, a <= t <= b -> physical_trajectory D r c t /\ books D r c k t) -> 0 <= total (bk_mixing k) a b.
Proof. exact (fun HD => mixing_grows r D HD c k a b). Qed.
Print Assumptions C125_mixing.
Theorem C125_bound (r : Run R) (D : Decomp R) (c : R -> Conditions R) (k : Book) (a b : R) :
  ru_fluid r = IdealGas_Fluid he -> sound D -> a <= b ->
  (forall t, a <= t <= b -> physical_trajectory D r c t /\ books D r c k t) ->
  spaces_return r c a b -> cd_P (c b) = cd_P (c a) -> heat_lost_comp r = 0 -> heat_lost_exp r = 0 ->
  total (bk_work_c k) a b / te_chx (ru_temp r) + total (bk_work_e k) a b / te_hhx (ru_temp r) <= total (bk_excess k) a b.
Proof. exact (fun Hf HD => second_law r Hf D HD c k a b). Qed.
Print Assumptions C125_bound.

(** C126: an engine between 300 K and 900 K that turns more than 70 % of the heat into work, where Carnot allows 2/3 *)
Theorem C126_carnot_refuted (P0 : R) : 0 < P0 -> exists c k, cd_P (c 0) = P0 /\ steady_cycle gauss cn_run c /\
  (forall t, 0 <= t <= ru_period cn_run -> books gauss cn_run c k t) /\ total (bk_kept k) 0 (ru_period cn_run) = 0 /\
  let heat := total (bk_taken k) 0 (ru_period cn_run) in
  let work := total (bk_work_c k) 0 (ru_period cn_run) + total (bk_work_e k) 0 (ru_period cn_run) in
  0 < heat /\ work = heat - total (bk_given k) 0 (ru_period cn_run) /\
  (1 - te_sink (ru_temp cn_run) / te_source (ru_temp cn_run)) * heat < 0.7 * heat < work.
Proof. exact (cn_beats P0). Qed.
Print Assumptions C126_carnot_refuted.
Example C126_case : State_new_hint cn_comps (IdealGas_Fluid he) cn_inputs = Ret cn_state /\ Run_new cn_comps cn_state = Ret cn_run /\
  te_chx (ru_temp cn_run) = 300 /\ te_hhx (ru_temp cn_run) = 900 /\ te_sink (ru_temp cn_run) = 300 /\ te_source (ru_temp cn_run) = 900.
Proof. exact (conj cn_hint (conj cn_new (conj (proj1 (proj2 (proj2 (proj2 cn_regen)))) (conj (proj2 (proj2 (proj2 (proj2 cn_regen)))) (conj eq_refl eq_refl))))). Qed.
(** with walls of high resistance [w] and any accurate integrator, the program reports such an efficiency *)
Theorem C126_runs_refuted : exists W, 0 < W /\ forall w, W <= w -> exists dl, 0 < dl /\
  forall tol, 0 < ct_abs tol -> 0 < ct_rel tol <= dl -> exists e0 n, 0 < e0 /\
  forall (E : Env R) (settings : RunSettings R) (h : R), let region := within_levels cn_run 1000000 cn_lo cn_hi cn_lo cn_hi in
  lt_inner (rs_loop_tol settings) = tol ->
  0 < ct_abs (lt_outer (rs_loop_tol settings)) -> 0 < ct_rel (lt_outer (rs_loop_tol settings)) ->
  accurate E gauss cn_run region (rs_ode_tol settings) 2 (ru_period cn_run) e0 ->
  accurate E gauss cn_run region (rs_ode_tol settings) (rs_resolution settings) h e0 -> h <= dl ->
  (n < N.to_nat (mi_inner (rs_max_iters settings)))%nat -> (0 < mi_outer (rs_max_iters settings))%N ->
  exists en rep, Engine_run E gauss (cw_comps w) (IdealGas_Fluid he) cn_inputs settings = Ret (Ok en) /\
    RunResults_from en = Ret rep /\ 0 < rrh_input (rr_heat_flow rep) /\ 0.7 < rre_mechanical (rr_efficiency rep).
Proof. exact cw_runs. Qed.
Print Assumptions C126_runs_refuted.
Example C126_run : exists w E settings en rep, 0 < w /\
  Engine_run E gauss (cw_comps w) (IdealGas_Fluid he) cn_inputs settings = Ret (Ok en) /\
  RunResults_from en = Ret rep /\ 0 < rrh_input (rr_heat_flow rep) /\ 0.7 < rre_mechanical (rr_efficiency rep).
Proof. exact cw_one. Qed.
Print Assumptions C126_run.
(** the same engine meets all hypotheses of C124 and C125 *)
Example C124_case (P0 : R) : 0 < P0 -> exists c k, cd_P (c 0) = P0 /\
  (forall t, 0 <= t <= ru_period cn_run -> physical_trajectory gauss cn_run c t /\ books gauss cn_run c k t) /\
  spaces_return cn_run c 0 (ru_period cn_run) /\ cd_P (c (ru_period cn_run)) = cd_P (c 0) /\
  heat_lost_comp cn_run = 0 /\ heat_lost_exp cn_run = 0 /\ 0 < total (bk_excess k) 0 (ru_period cn_run).
Proof. exact (cn_excess P0). Qed.
