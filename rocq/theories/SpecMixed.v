(** * Specification in exact arithmetic: engines whose exchangers conduct well or keep an approach *)
From Coq Require Import Reals.
From Verif Require Import Num ModelTypes ModelHx ModelEngine RNum.
Local Open Scope R_scope.

(** each exchanger has a conductance of at least [U], or keeps an approach of at most [kept] in size *)
Definition mixed (comps : Components R) (U kept : R) : Prop :=
  ((exists f, co_chx comps = chx_FixedConductance f /\ U <= fc_UA f) \/
   (exists f, co_chx comps = chx_FixedApproach f /\ Rabs (fa_approach f) <= kept)) /\
  ((exists f, co_regen comps = regen_FixedConductance f /\ U <= fc_UA f) \/
   (exists f, co_regen comps = regen_FixedApproach f /\ Rabs (fa_approach f) <= kept)) /\
  ((exists f, co_hhx comps = hhx_FixedConductance f /\ U <= fc_UA f) \/
   (exists f, co_hhx comps = hhx_FixedApproach f /\ Rabs (fa_approach f) <= kept)).
(** the approaches [kept] are small against the temperatures of sink and source *)
Definition small_approach (kept sink source : R) : Prop := 0 <= kept /\ 4 * kept <= sink /\ 8 * kept <= source - sink.
