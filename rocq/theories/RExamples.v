(** * Every engine of the sweep poses a solvable problem *)
From Coq Require Import ZArith NArith List Reals Lra Lia Rpower Ranalysis.
From Verif Require Import Num ModelTypes ModelWs ModelHx ModelStateEq ModelEngine ModelExamples RNum Spec SpecR SpecGas
  SpecKin SpecTraj SpecLaws SpecUnique SpecHydro SpecExist SpecDepend SpecDefault RFluid RKin RHydro RStart RDepend RCase4 RDefault.
Local Open Scope R_scope.

Lemma sweep_source (k : N) : (sweep_temp_source k : R) = 500 + 5 * IZR (Z.of_N k).
Proof. cbn -[IZR]. ring. Qed.
Lemma sweep_same_c : (n_lit 4 (-5) : R) = n_lit 40 (-6).
Proof. cbn -[IZR]. lra. Qed.
Lemma sweep_same_h : (n_lit 1 (-4) : R) = n_lit 10 (-5).
Proof. cbn -[IZR]. lra. Qed.
Lemma sweep_regen T : 500 <= T -> 0 < (T - 100 - 1 / 2 * 10 - 340 - 1 / 2 * 10) / ln ((T - 100 - 1 / 2 * 10) / (340 + 1 / 2 * 10)).
Proof.
  intros HT. apply Rdiv_lt_0_compat; [lra|]. rewrite <- ln_1. apply ln_increasing; [lra|].
  apply Rmult_lt_reg_r with 345; [lra|]. field_simplify; lra.
Qed.
Lemma sweep_starts (k : N) : exists s r,
  State_new_hint sweep_components (IdealGas_Fluid h2) (sweep_inputs (sweep_temp_source k)) = Ret s /\ Run_new sweep_components s = Ret r /\
  s_fluid s = IdealGas_Fluid h2 /\ te_sink (s_temp s) = 300 /\ te_source (s_temp s) = 500 + 5 * IZR (Z.of_N k) /\
  cy_pres_zero (Run_Cycle r) = 10000000 /\ te_chx (ru_temp r) = 340 /\ te_hhx (ru_temp r) = 400 + 5 * IZR (Z.of_N k) /\
  cy_period (Run_Cycle r) = 1 / 70 /\ ru_ws_vol_fn r = sin_volumes sweep_drive /\
  (forall t c, 0 < cd_P c -> T_cold <= cd_T_c c -> T_cold <= cd_T_e c -> hydrogen_conditions r t c).
Proof.
  rewrite sweep_source. assert (K0 : 0 <= IZR (Z.of_N k)) by (apply IZR_le; lia).
  set (x := IZR (Z.of_N k)) in *.
  eexists. eexists. split; [reflexivity|]. split; [reflexivity|].
  split; [reflexivity|]. split; [reflexivity|]. split; [reflexivity|]. split; [cbn -[IZR]; lra|].
  split; [cbn -[IZR]; lra|]. split; [cbn -[IZR]; lra|]. split; [cbn -[IZR]; field|]. split; [reflexivity|].
  intros t c HP HC HE. pose proof (sin_low sweep_drive t) as HV. unfold hydrogen_conditions, T_cold in *.
  split; [exact HP|]. split; [exact HC|]. split; [exact HE|].
  split; [cbn -[IZR]; lra|]. split; [cbn -[IZR]; lra|].
  split.
  { cbn -[IZR]. destruct (Rle_dec 0 0) as [_|N]; [|exfalso; lra].
    pose proof (sweep_regen (500 + 5 * x) ltac:(lra)) as SR.
    match goal with |- 0 < ?y => replace y with
      ((500 + 5 * x - 100 - 1 / 2 * 10 - 340 - 1 / 2 * 10) / ln ((500 + 5 * x - 100 - 1 / 2 * 10) / (340 + 1 / 2 * 10))); [exact SR|] end.
    f_equal; [lra|]. f_equal. f_equal; lra. }
  destruct HV as (V1 & V2); [cbn -[IZR]; lra| |].
  { cbn -[IZR]; lra. }
  split; [eapply Rlt_le_trans; [|exact V1]; cbn -[IZR]; lra|].
  split; [eapply Rlt_le_trans; [|exact V2]; cbn -[IZR]; lra|].
  split; [cbn -[IZR]; lra|]. split; cbn -[IZR]; lra.
Qed.
Lemma sweep_driven : driven (co_ws (sweep_components : Components R)).
Proof. left. eexists. split; [reflexivity|]. cbn -[IZR]. lra. Qed.
Lemma sweep_well_posed (k : N) : exists s r,
  State_new_hint sweep_components (IdealGas_Fluid h2) (sweep_inputs (sweep_temp_source k)) = Ret s /\ Run_new sweep_components s = Ret r /\
  cy_pres_zero (Run_Cycle r) = 10000000 /\ te_chx (ru_temp r) = 340 /\ te_hhx (ru_temp r) = 400 + 5 * IZR (Z.of_N k) /\
  cy_period (Run_Cycle r) = 1 / 70 /\ smooth_volumes (ru_ws_vol_fn r) /\
  forall lo hi, 0 < cd_P lo -> T_cold <= cd_T_c lo -> T_cold <= cd_T_e lo ->
    (forall a b, physical_box r lo hi a b) /\
    forall D c0 T, sound D -> complete D -> 0 <= T -> in_box lo hi c0 -> lasts D r lo hi c0 0 T.
Proof.
  destruct (sweep_starts k) as (s & r & H1 & H2 & H3 & H4 & H5 & H6 & H7 & H8 & H9 & _ & HC).
  assert (K0 : 0 <= IZR (Z.of_N k)) by (apply IZR_le; lia).
  exists s, r. split; [exact H1|]. split; [exact H2|]. split; [exact H6|]. split; [exact H7|]. split; [exact H8|].
  split; [exact H9|]. split; [exact (driven_smooth sweep_components s r sweep_driven H2)|].
  intros lo hi A B C. split.
  - intros a b. apply (hydrogen_physical_box sweep_components s r lo hi a b H3 sweep_driven H2); [lra|lra|].
    intros t _. apply HC; assumption.
  - intros D c0 T HS HK HT HB.
    apply (hydrogen_lasts sweep_components s r D lo hi c0 T H3 sweep_driven H2); try assumption; [lra|lra|].
    intros t _. apply HC; assumption.
Qed.
