(** * A hydrogen engine that runs forever *)
From Coq Require Import ZArith NArith List Reals Lra.
From Verif Require Import Num ModelTypes ModelWs ModelHx ModelStateEq ModelEngine RNum Spec SpecR SpecGas
  SpecKin SpecTraj SpecUnique SpecExist SpecSpaces SpecHydro SpecBounds SpecH2 Fixture RGauss RFluid RKin RHydro RCase RCase3 RStart RBounds RH2.
Local Open Scope R_scope.

Definition hy_run : Run R :=
  mkRun h2_norm (IdealGas_Fluid h2) (1 / 60) (s_pres h2_state) case_temps 0.00004 0.0001 0.0001
    (sd_parasitics gl_drive) (sin_volumes gl_drive).
Lemma hy_new : Run_new gl_comps h2_state = Ret hy_run.
Proof. reflexivity. Qed.
Lemma hy_volumes T : between (V_comp hy_run) 0.0001 0.0002 0 T /\ between (V_exp hy_run) 0.0001 0.0002 0 T.
Proof. exact (gl_volumes T). Qed.
Lemma hy_start : hydrogen_conditions hy_run 0 case_conditions.
Proof.
  destruct (gl_volumes 0) as [(_ & H1) (_ & H2)]. specialize (H1 0 ltac:(lra)). specialize (H2 0 ltac:(lra)).
  unfold V_comp, V_exp in *. unfold hydrogen_conditions, T_cold.
  cbn -[sin_volumes] in *. repeat split; lra.
Qed.
Lemma ln2_pos : 0 < ln 2.
Proof. rewrite <- ln_1. apply ln_increasing; lra. Qed.
Lemma ln_double v : 0 < v -> ln (2 * v) = ln 2 + ln v.
Proof. intros H. apply ln_mult; lra. Qed.
Lemma hy_expand : s_h2 0.0002 100 <= s_h2 0.0001 250.
Proof.
  unfold s_h2, R_h2. replace 0.0002 with (2 * 0.0001) by lra. replace 250 with (2 * 125) at 1 by lra.
  rewrite !ln_double by lra. assert (ln 100 < ln 125) by (apply ln_increasing; lra). pose proof ln2_pos. lra.
Qed.
Lemma hy_compress_c : s_h2 0.0002 400 <= s_h2 0.0001 800.
Proof.
  unfold s_h2, R_h2. replace 0.0002 with (2 * 0.0001) by lra. replace 800 with (2 * 400) at 1 by lra.
  rewrite !ln_double by lra. pose proof ln2_pos. lra.
Qed.
Lemma hy_compress_e : s_h2 0.0002 1300 <= s_h2 0.0001 2600.
Proof.
  unfold s_h2, R_h2. replace 0.0002 with (2 * 0.0001) by lra. replace 2600 with (2 * 1300) at 1 by lra.
  rewrite !ln_double by lra. pose proof ln2_pos. lra.
Qed.
Lemma hy_floor V0 T0 T_in : 0.0001 <= V0 -> 250 <= T0 -> 250 < T_in -> floor V0 T0 0.0001 0.0002 T_in 100.
Proof.
  intros HV HT HI. exists 250. unfold T_ref. split; [lra|]. split.
  - pose proof (h2_enth_pos T_in 0 HI) as HE. rewrite h2_h in HE.
    replace (u_h2 250) with 0 by (unfold u_h2, h_h2, T_ref; lra). lra.
  - split; [|exact hy_expand]. apply Rle_trans with (1 := hy_expand). apply s_order; lra.
Qed.
Lemma hy_low : h2_lowest hy_run case_conditions 0.0001 0.0002 0.0001 0.0002 100 100.
Proof.
  destruct (hy_volumes 0) as [(_ & H1) (_ & H2)]. specialize (H1 0 ltac:(lra)). specialize (H2 0 ltac:(lra)).
  split; apply hy_floor; try (cbn; lra); [exact (proj1 H1)|exact (proj1 H2)].
Qed.
Lemma hy_high : h2_highest hy_run case_conditions 0.0001 0.0002 0.0001 0.0002 800 2600.
Proof.
  destruct (hy_volumes 0) as [(_ & H1) (_ & H2)]. specialize (H1 0 ltac:(lra)). specialize (H2 0 ltac:(lra)).
  split.
  - exists 400. unfold T_ref. split; [lra|]. split; [cbn; unfold u_h2, h_h2, R_h2, T_ref; lra|].
    split; [|exact hy_compress_c]. apply Rle_trans with (2 := hy_compress_c). cbn [case_conditions cd_T_c]. apply s_order; lra.
  - exists 1300. unfold T_ref. split; [lra|]. split; [cbn; unfold u_h2, h_h2, R_h2, T_ref; lra|].
    split; [|exact hy_compress_e]. apply Rle_trans with (2 := hy_compress_e). cbn [case_conditions cd_T_e]. apply s_order; lra.
Qed.
Lemma hy_forever : lasts_forever hy_run gauss case_conditions.
Proof.
  apply (h2_forever gl_comps h2_state hy_run gauss case_conditions 0.0001 0.0002 0.0001 0.0002 100 800 100 2600); try reflexivity;
    try (unfold T_cold; cbn; lra).
  - exact gl_driven.
  - exact gauss_sound.
  - intros T. apply hy_volumes.
  - intros T. apply hy_volumes.
  - exact hy_start.
  - exact hy_low.
  - exact hy_high.
  - exact gauss_complete.
Qed.
Lemma h2_entropy V T P : 0 < V -> 0 < T ->
  derivable_pt_lim (fun t => s_h2 V t) T (ig_du_dT_P h2 T P / T) /\
  derivable_pt_lim (fun v => s_h2 v T) V (ig_gas_constant h2 / V).
Proof.
  intros HV HT. split; [rewrite h2_cv; apply s_deriv_T, HT|].
  replace (ig_gas_constant h2 / V) with (0 + R_h2 * / V) by (rewrite h2_R; unfold R_h2; field; lra).
  unfold s_h2. apply (derivable_pt_lim_plus (fun _ => _) (fun v => R_h2 * ln v)); [apply derivable_pt_lim_const|].
  apply (derivable_pt_lim_scal ln). apply derivable_pt_lim_ln, HV.
Qed.
