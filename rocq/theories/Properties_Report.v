(** * C101: the reported powers and heats in f64 *)
From Coq Require Import ZArith NArith List Reals.
From Flocq Require Import Core BinarySingleNaN.
From Verif Require Import Num ModelTypes ModelWs ModelHx ModelStateEq ModelEngine ModelApi B64 Fixture Spec SpecR SpecF64
  SpecSeries SpecRound SpecBalance SpecReport F64BalanceCase F64RangeCase F64FirstLaw F64ReportCase.
Local Open Scope R_scope.

(** components that answered once give a report *)
Theorem C101_reports (F : Type) (ops : NumOps F) (e : Engine F) (a : Replies F) (vs : list (SeValues F)) :
  series_of vs (en_values e) -> replies e a -> exists r, RunResults_from e = Ret r.
Proof. exact (always_reports e a vs). Qed.
Print Assumptions C101_reports.
Theorem C101_replied (F : Type) (ops : NumOps F) (e : Engine F) (r : RunResults F) :
  RunResults_from e = Ret r -> exists a, replies e a.
Proof. exact (replied e r). Qed.
Print Assumptions C101_replied.
(** every run that succeeds returns an engine whose values are solutions *)
Theorem C101_solved (F : Type) (ops : NumOps F) (E : Env F) (D : Decomp F) (comps : Components F) (fl : Fluid F)
    (inputs : RunInputs F) (settings : RunSettings F) (e : Engine F) :
  Engine_run E D comps fl inputs settings = Ret (Ok e) -> exists c vs, solved_values D e c vs.
Proof. exact (solved_by_run E D comps fl inputs settings e). Qed.
Print Assumptions C101_solved.
Theorem C101_pressures (lm : Libm) (nt : bool) (e : Engine b64) (a : Replies b64) (vs : list (SeValues b64))
    (r : RunResults b64) :
  let _ : NumOps b64 := b64_ops lm nt in
  series_of vs (en_values e) -> replies e a -> RunResults_from e = Ret r -> dense e a vs ->
  Forall2 (fun v p => finite p -> figure 8 p (pres_at v + drop_at e a v / 2) (pres_size e a v) (pres_slack e a v))
    vs (rrv_P_c (rr_values r)) /\
  Forall2 (fun v p => finite p -> figure 8 p (pres_at v - drop_at e a v / 2) (pres_size e a v) (pres_slack e a v))
    vs (rrv_P_e (rr_values r)).
Proof. exact (pressures_accurate lm nt e a vs r). Qed.
Print Assumptions C101_pressures.
Theorem C101_powers (lm : Libm) (nt : bool) (e : Engine b64) (a : Replies b64) (vs : list (SeValues b64))
    (r : RunResults b64) :
  let _ : NumOps b64 := b64_ops lm nt in
  series_of vs (en_values e) -> replies e a -> RunResults_from e = Ret r -> dense e a vs -> finite_figures r ->
  powers_accurate e a vs (rr_power r).
Proof. exact (powers_right lm nt e a vs r). Qed.
Print Assumptions C101_powers.
Theorem C101_heats (lm : Libm) (nt : bool) (e : Engine b64) (a : Replies b64) (vs : list (SeValues b64))
    (r : RunResults b64) :
  let _ : NumOps b64 := b64_ops lm nt in
  series_of vs (en_values e) -> replies e a -> RunResults_from e = Ret r -> dense e a vs -> walled a ->
  finite_figures r -> heats_accurate e a vs (rr_heat_flow r).
Proof. exact (heats_right lm nt e a vs r). Qed.
Print Assumptions C101_heats.
Theorem C101_ratios (lm : Libm) (nt : bool) (e : Engine b64) (a : Replies b64) (vs : list (SeValues b64))
    (r : RunResults b64) :
  let _ : NumOps b64 := b64_ops lm nt in
  series_of vs (en_values e) -> replies e a -> RunResults_from e = Ret r -> ratios_accurate a r.
Proof. exact (ratios_right lm nt e a vs r). Qed.
Print Assumptions C101_ratios.
Theorem C101_first_law (lm : Libm) (nt : bool) (e : Engine b64) (a : Replies b64) (vs : list (SeValues b64))
    (r : RunResults b64) (D : Decomp b64) (eps : R) (c : Cycle b64) :
  let _ : NumOps b64 := b64_ops lm nt in
  series_of vs (en_values e) -> replies e a -> RunResults_from e = Ret r -> dense e a vs ->
  0 <= eps -> solved_values D e c vs -> Forall (orderly D eps c) vs -> walled a -> finite_figures r ->
  closes eps e a c vs r.
Proof. exact (fun Hs Ha Hr Hd => report_closes lm nt e a vs r Hs Ha Hr Hd D eps c). Qed.
Print Assumptions C101_first_law.
(** an engine with pressure drops, parasitic losses and conducting walls that gives power *)
Example C101_case :
  let _ : NumOps b64 := range_ops in exists e c vs a r,
  en_components e = report_comps /\ solved_values checked_gauss e c vs /\ replies e a /\ RunResults_from e = Ret r /\
  dense e a vs /\ walled a /\ Forall (orderly checked_gauss (bpow radix2 (-40)) c) vs /\ finite_figures r /\
  Forall finite (rrv_P_c (rr_values r) ++ rrv_P_e (rr_values r)) /\
  n_lt n0 (rrp_net (rr_power r)) = true /\ n_lt (rrp_indicated (rr_power r)) (rrp_ideal_indicated (rr_power r)) = true.
Proof. exact report_case. Qed.
Print Assumptions C101_case.
