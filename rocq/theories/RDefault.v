(** * Default components, constructors, and the engine of the crate's end-to-end test *)
From Coq Require Import ZArith NArith List Reals Lra Lia Rpower Ranalysis.
From Verif Require Import Num ModelTypes ModelWs ModelHx ModelStateEq ModelEngine RNum Spec SpecR SpecGas
  SpecKin SpecTraj SpecLaws SpecUnique SpecHydro SpecExist SpecDepend SpecDefault RFluid RKin RHydro RStart RDepend RCase4.
Local Open Scope R_scope.

Section Any.
  Context {F : Type} {ops : NumOps F}.
  Lemma approach_built (v r a : F) p :
    (reports (chx_FixedApproach (FixedApproach_new v r a p)) v r p /\
     reports (regen_FixedApproach (FixedApproach_new v r a p)) v r p /\
     reports (hhx_FixedApproach (FixedApproach_new v r a p)) v r p) /\
    (forall s, ex_approach (chx_FixedApproach (FixedApproach_new v r a p)) s = Ret a) /\
    (forall s, ex_approach (regen_FixedApproach (FixedApproach_new v r a p)) s = Ret a) /\
    (forall s, ex_approach (hhx_FixedApproach (FixedApproach_new v r a p)) s = Ret a).
  Proof. repeat split. Qed.
  Lemma conductance_built (v r ua : F) p :
    (reports (chx_FixedConductance (FixedConductance_new v r ua p)) v r p /\
     reports (regen_FixedConductance (FixedConductance_new v r ua p)) v r p /\
     reports (hhx_FixedConductance (FixedConductance_new v r ua p)) v r p) /\
    fc_UA (FixedConductance_new v r ua p) = ua.
  Proof. repeat split. Qed.
  Lemma exchangers_agree :
    chx_FixedApproach_from (F:=F) ChxFAConfig_default = chx_FixedApproach_default /\
    hhx_FixedApproach_from (F:=F) HhxFAConfig_default = hhx_FixedApproach_default /\
    chx_FixedConductance_from (F:=F) ChxFCConfig_default = chx_FixedConductance_default /\
    regen_FixedConductance_from (F:=F) RegenFCConfig_default = regen_FixedConductance_default /\
    hhx_FixedConductance_from (F:=F) HhxFCConfig_default = hhx_FixedConductance_default.
  Proof. repeat split. Qed.
  Lemma rhombic_default : RhombicDrive_from (F:=F) RhConfig_default = piston_wide RhombicDrive_default.
  Proof. reflexivity. Qed.
  Lemma defaults_lossless :
    (lossless (F:=F) (chx_FixedApproach chx_FixedApproach_default) /\
     lossless (F:=F) (regen_FixedApproach regen_FixedApproach_default) /\
     lossless (F:=F) (hhx_FixedApproach hhx_FixedApproach_default)) /\
    (lossless (F:=F) (chx_FixedConductance chx_FixedConductance_default) /\
     lossless (F:=F) (regen_FixedConductance regen_FixedConductance_default) /\
     lossless (F:=F) (hhx_FixedConductance hhx_FixedConductance_default)) /\
    adiabatic_lossless (F:=F) (RhombicDrive_ws RhombicDrive_default) /\
    adiabatic_lossless (F:=F) (RhombicDrive_ws (RhombicDrive_from RhConfig_default)) /\
    adiabatic_lossless (F:=F) (SinusoidalDrive_ws (SinusoidalDrive_from SinConfig_default)).
  Proof. repeat split; eexists; repeat split. Qed.
End Any.

Lemma regenerator_agrees : regen_FixedApproach_from RegenFAConfig_default = (regen_FixedApproach_default : FixedApproach R).
Proof.
  unfold regen_FixedApproach_from, RegenFAConfig_default, regen_FixedApproach_default. cbn -[IZR]. f_equal. lra.
Qed.
Lemma rhombic_differs : RhombicDrive_from RhConfig_default <> (RhombicDrive_default : RhombicDrive R).
Proof.
  intros H. apply (f_equal (fun d => rg_D_d (rd_geometry d))) in H. cbn -[IZR] in H. lra.
Qed.
(** the defaults turn, and their volumes stay positive *)
Lemma sinusoidal_default_driven : driven (SinusoidalDrive_ws (SinusoidalDrive_from SinConfig_default)).
Proof. left. eexists. split; [reflexivity|]. cbn -[IZR]. lra. Qed.
Lemma rhombic_default_driven : driven (RhombicDrive_ws RhombicDrive_default) /\
  driven (RhombicDrive_ws (RhombicDrive_from RhConfig_default)).
Proof.
  split; right; eexists; (split; [reflexivity|]); unfold turns; cbn -[IZR]; repeat split; lra.
Qed.
Lemma sin_low (d : SinusoidalDrive R) t :
  0 <= sg_swept_volume (sd_comp_geometry d) -> 0 <= sg_swept_volume (sd_exp_geometry d) ->
  sg_clearance_volume (sd_comp_geometry d) <= v_value (fst (sin_volumes d t)) /\
  sg_clearance_volume (sd_exp_geometry d) <= v_value (snd (sin_volumes d t)).
Proof.
  intros H1 H2. unfold sin_volumes. cbn -[IZR].
  match goal with |- _ <= _ + _ * (_ + cos ?a) /\ _ <= _ + _ * (_ + cos ?b) =>
    pose proof (COS_bound a) as A; pose proof (COS_bound b) as B;
    set (x := cos a) in *; set (y := cos b) in * end.
  pose proof (Rmult_le_pos _ (1 + x) H1 ltac:(lra)). pose proof (Rmult_le_pos _ (1 + y) H2 ltac:(lra)). lra.
Qed.
Lemma simple_regen_avg : 0 < (800 - 1 / 2 * 10 - 340 - 1 / 2 * 10) / ln ((800 - 1 / 2 * 10) / (340 + 1 / 2 * 10)).
Proof.
  apply Rdiv_lt_0_compat; [lra|]. rewrite <- ln_1. apply ln_increasing; [lra|].
  apply Rmult_lt_reg_r with 345; [lra|]. field_simplify; lra.
Qed.
Lemma simple_starts : exists s r,
  State_new_hint simple_comps (IdealGas_Fluid h2) simple_inputs = Ret s /\ Run_new simple_comps s = Ret r /\
  s_fluid s = IdealGas_Fluid h2 /\ te_sink (s_temp s) = 300 /\ te_source (s_temp s) = 900 /\
  cy_pres_zero (Run_Cycle r) = 10000000 /\ te_chx (ru_temp r) = 340 /\ te_hhx (ru_temp r) = 800 /\
  cy_period (Run_Cycle r) = 15 / 1000 /\ ru_ws_vol_fn r = sin_volumes simple_drive /\
  (forall t c, 0 < cd_P c -> T_cold <= cd_T_c c -> T_cold <= cd_T_e c -> hydrogen_conditions r t c).
Proof.
  eexists. eexists. split; [reflexivity|]. split; [reflexivity|].
  split; [reflexivity|]. split; [reflexivity|]. split; [reflexivity|]. split; [reflexivity|].
  split; [cbn -[IZR]; lra|]. split; [cbn -[IZR]; lra|]. split; [cbn -[IZR]; field|]. split; [reflexivity|].
  intros t c HP HC HE. pose proof (sin_low simple_drive t) as HV. unfold hydrogen_conditions, T_cold in *.
  split; [exact HP|]. split; [exact HC|]. split; [exact HE|].
  split; [cbn -[IZR]; lra|]. split; [cbn -[IZR]; lra|].
  split.
  { cbn -[IZR]. destruct (Rle_dec 0 0) as [_|N]; [|exfalso; lra].
    match goal with |- 0 < ?x => replace x with
      ((800 - 1 / 2 * 10 - 340 - 1 / 2 * 10) / ln ((800 - 1 / 2 * 10) / (340 + 1 / 2 * 10))); [exact simple_regen_avg|] end.
    f_equal; [lra|]. f_equal. f_equal; lra. }
  destruct HV as (V1 & V2); [cbn -[IZR]; lra| |].
  { cbn -[IZR]; lra. }
  split; [eapply Rlt_le_trans; [|exact V1]; cbn -[IZR]; lra|].
  split; [eapply Rlt_le_trans; [|exact V2]; cbn -[IZR]; lra|].
  split; [cbn -[IZR]; lra|]. split; cbn -[IZR]; lra.
Qed.
Lemma simple_driven : driven (co_ws simple_comps).
Proof. left. eexists. split; [reflexivity|]. cbn -[IZR]. lra. Qed.
Lemma simple_well_posed : exists s r,
  State_new_hint simple_comps (IdealGas_Fluid h2) simple_inputs = Ret s /\ Run_new simple_comps s = Ret r /\
  cy_pres_zero (Run_Cycle r) = 10000000 /\ te_chx (ru_temp r) = 340 /\ te_hhx (ru_temp r) = 800 /\
  cy_period (Run_Cycle r) = 15 / 1000 /\ smooth_volumes (ru_ws_vol_fn r) /\
  forall lo hi, 0 < cd_P lo -> T_cold <= cd_T_c lo -> T_cold <= cd_T_e lo ->
    (forall a b, physical_box r lo hi a b) /\
    forall D c0 T, sound D -> complete D -> 0 <= T -> in_box lo hi c0 -> lasts D r lo hi c0 0 T.
Proof.
  destruct simple_starts as (s & r & H1 & H2 & H3 & H4 & H5 & H6 & H7 & H8 & H9 & _ & HC).
  exists s, r. split; [exact H1|]. split; [exact H2|]. split; [exact H6|]. split; [exact H7|]. split; [exact H8|].
  split; [exact H9|]. split; [exact (driven_smooth simple_comps s r simple_driven H2)|].
  intros lo hi A B C. split.
  - intros a b. apply (hydrogen_physical_box simple_comps s r lo hi a b H3 simple_driven H2); [lra|lra|].
    intros t _. apply HC; assumption.
  - intros D c0 T HS HK HT HB.
    apply (hydrogen_lasts simple_comps s r D lo hi c0 T H3 simple_driven H2); try assumption; [lra|lra|].
    intros t _. apply HC; assumption.
Qed.
