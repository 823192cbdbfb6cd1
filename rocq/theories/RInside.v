(** * The steady cycle starts between the levels that hold it *)
From Coq Require Import ZArith NArith List Reals Lra Lia.
From Verif Require Import Num ModelTypes ModelWs ModelHx ModelStateEq ModelEngine RNum Spec SpecR SpecGas
  SpecKin SpecTraj SpecLaws SpecUnique SpecExist SpecDepend SpecSpaces SpecBounds SpecSteady SpecAccurate Fixture PolySolve RSolve RGauss RFluid
  RKin RMass RSpaces RClose RStart RPeriod RDepend RCase RCase4 RReturn RBrouwer RBounds PolyLoop RSteady.
Import ListNotations.
Local Open Scope R_scope.
Lemma steady_inside (comps : Components R) (s : State R) (r : Run R) (D : Decomp R) (P0 cl ch el eh : R) :
  s_fluid s = IdealGas_Fluid he -> driven (co_ws comps) -> Run_new comps s = Ret r ->
  te_sink (s_temp s) + te_source (s_temp s) <> 500 -> sound D -> complete D ->
  (forall T, between (V_comp r) cl ch 0 T) -> (forall T, between (V_exp r) el eh 0 T) ->
  heat_lost_comp r = 0 -> heat_lost_exp r = 0 -> sane_exchangers r -> 0 < P0 ->
  warm (expanded cl ch (te_chx (ru_temp r))) -> warm (expanded el eh (te_hhx (ru_temp r))) ->
  exists c, within_levels r P0 cl ch el eh (c 0) /\ steady_cycle D r c.
Proof.
  intros Hfl Hd Hr Hn HS HC VC VE QC QE HX HP0 WC WE.
  destruct (rect r cl ch el eh VC VE HX) as (R1 & R2 & _).
  destruct (returns_lip comps s r D P0 cl ch el eh Hfl Hd Hr Hn HS HC VC VE QC QE HX HP0 WC WE) as (L & HL & HLip).
  destruct (fixed_point _ _ _ _ _ _ L R1 R2 HL (into comps s r D P0 cl ch el eh Hfl Hd Hr Hn HS HC VC VE QC QE HX HP0 WC WE) HLip) as (x & y & (Hx & Hy) & E1 & E2).
  destruct (from_start comps s r D P0 cl ch el eh Hfl Hd Hr Hn HS HC VC VE QC QE HX HP0 WC WE x y Hx Hy) as (c & E & H). exists c.
  split.
  { rewrite E. unfold within_levels, level. cbn [cd_P cd_T_c cd_T_e]. split; [reflexivity|]. split; [exact Hx|exact Hy]. }
  destruct (f_eq comps s r D P0 cl ch el eh Hfl Hd Hr Hn HS HC VC VE QC QE HX HP0 WC WE x y c Hx Hy) as (F1 & F2).
  { split; [exact E|intros t Ht; apply H; lra]. }
  split; [exact H|]. intros t Ht.
  pose proof (engine_repeats Helium comps s r D c Hfl Hd Hr HS) as ER.
  specialize (ER (fun u Hu => conj (proj1 (H u Hu)) (proj1 (proj2 (H u Hu))))).
  rewrite E in ER. cbn [cd_T_c cd_T_e] in ER.
  specialize (ER ltac:(congruence) ltac:(congruence) t 1%nat Ht). cbn [INR] in ER. rewrite Rmult_1_l in ER. exact ER.
Qed.
