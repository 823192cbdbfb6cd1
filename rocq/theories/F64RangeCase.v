(** * An engine of ordinary size *)
From Coq Require Import ZArith NArith List Reals Bool Lra Lia.
From Flocq Require Import Core BinarySingleNaN.
From Verif Require Import Num ModelTypes ModelWs ModelHx ModelStateEq ModelEngine B64 Fixture Spec SpecF64 SpecRound SpecBalance
  SpecRange F64Base F64Case F64Order F64BalanceCase F64Range.
Import ListNotations.
Local Open Scope R_scope.
Local Open Scope bool_scope.

(** sine and cosine kept between -1 and 1 *)
Definition kept_both : Libm :=
  mkLibm (lm_exp demo_libm) (lm_ln demo_libm) (fun x => kept (lm_cos demo_libm x)) (fun x => kept (lm_sin demo_libm x)).
Lemma kept_unit (c : b64) : finite (kept c) /\ -1 <= value (kept c) <= 1.
Proof.
  unfold kept. destruct lit_1 as (E1 & F1). destruct lit_m1 as (Em & Fm).
  destruct (is_finite c && Bleb (b64_lit (-1) 0) c && Bleb c (b64_lit 1 0)) eqn:K.
  - apply andb_true_iff in K as (K & U). apply andb_true_iff in K as (F & L).
    apply Bleb_iff in L as (_ & _ & L). apply Bleb_iff in U as (_ & _ & U).
    rewrite (val_finite c F) in L, U. rewrite (val_finite _ Fm) in L. rewrite (val_finite _ F1) in U.
    unfold value. rewrite Em in L. rewrite E1 in U. split; [exact F|split; assumption].
  - unfold value. rewrite E1. split; [exact F1|lra].
Qed.
Lemma kept_cos : cosine_bounded kept_both.
Proof. intros x _. exact (kept_unit (lm_cos demo_libm x)). Qed.
Lemma kept_sin : sine_bounded kept_both.
Proof. intros x _. exact (kept_unit (lm_sin demo_libm x)). Qed.

Definition range_ops : NumOps b64 := b64_ops kept_both true.
Section Case.
  Local Existing Instance range_ops.
  Definition range_drive : SinusoidalDrive b64 := SinusoidalDrive_from SinConfig_default.
  Definition range_comps : Components b64 :=
    mkComponents (SinusoidalDrive_ws range_drive) (chx_FixedApproach (chx_FixedApproach_from ChxFAConfig_default))
      (regen_FixedApproach (regen_FixedApproach_from RegenFAConfig_default))
      (hhx_FixedApproach (hhx_FixedApproach_from HhxFAConfig_default)).
  Definition range_state : outcome (State b64) :=
    State_new_hint range_comps (IdealGas_Fluid (IdealGas_new Helium)) (mkRunInputs (n_lit 10 6) (n_lit 300 0) (n_lit 800 0)).
  Definition range_time : b64 := n_lit 1 (-3).
  Definition range_conditions : Conditions b64 := mkCond (n_lit 11 6) (n_lit 330 0) (n_lit 780 0).

  Definition temp_check (x : b64) : bool := is_finite x && Bleb (b64_lit 1 0) x && Bleb x (b64_lit 16384 0).
  Lemma temp_checked (x : b64) : temp_check x = true -> ordinary_temp x.
  Proof.
    unfold temp_check. rewrite !andb_true_iff. intros ((F & L) & U).
    apply Bleb_iff in L as (_ & _ & L). apply Bleb_iff in U as (_ & _ & U).
    destruct lit_1 as (E1 & F1).
    destruct (lit_value (b64_lit 16384 0) 4503599627370496 (-38) 16384) as (F2 & E2);
      [vm_compute; reflexivity|unfold F2R; cbn; lra|].
    rewrite (val_finite _ F) in L, U. rewrite (val_finite _ F1), E1 in L. rewrite (val_finite _ F2) in U.
    unfold value in E2. rewrite E2 in U. split; [exact F|]. split; assumption.
  Qed.
  Definition warm_check (x : b64) : bool := is_finite x && Bleb (b64_lit 251 0) x.
  Lemma warm_checked (x : b64) : warm_check x = true -> 251 <= value x.
  Proof.
    unfold warm_check. rewrite andb_true_iff. intros (F & L). apply Bleb_iff in L as (_ & _ & L).
    destruct (lit_value (b64_lit 251 0) 8831277394296832 (-45) 251) as (F2 & E2);
      [vm_compute; reflexivity|unfold F2R; cbn; lra|].
    rewrite (val_finite _ F), (val_finite _ F2) in L. unfold value in *. lra.
  Qed.

  Definition drive_check : bool :=
    upto_check 20 (sd_frequency range_drive) && upto_check 20 (sd_phase_angle range_drive) &&
    forallb (fun g => upto_check 7 (sg_clearance_volume g) && upto_check 7 (sg_swept_volume g))
      [sd_comp_geometry range_drive; sd_exp_geometry range_drive] &&
    forallb (upto_check 40) [pp_thermal (par_comp (sd_parasitics range_drive)); pp_thermal (par_exp (sd_parasitics range_drive))] &&
    forallb (fun o => match o with Ret V => upto_check 10 V | Panic _ => true end)
      [ex_volume (co_chx range_comps); ex_volume (co_regen range_comps); ex_volume (co_hhx range_comps)] &&
    upto_check 40 range_time && upto_check 40 (cd_P range_conditions) && temp_check (cd_T_c range_conditions) &&
    temp_check (cd_T_e range_conditions).
  Definition state_check (o : outcome (State b64)) : bool :=
    match o with
    | Ret st => forallb temp_check (te_sink (s_temp st) :: te_source (s_temp st) :: temperatures (s_temp st)) &&
        warm_check (te_sink (s_temp st)) && warm_check (te_source (s_temp st)) &&
        match Run_new range_comps st with
        | Ret r =>
            match solve checked_gauss (Run_calculate_inputs r range_time range_conditions) FlowDirection_default with
            | Ok s => forallb is_finite (solution_list s)
            | Err _ => false
            end
        | Panic _ => false
        end
    | Panic _ => false
    end.
  Lemma drive_checked : drive_check = true.
  Proof. vm_cast_no_check (eq_refl true). Qed.
  Lemma state_checked : state_check range_state = true.
  Proof. vm_cast_no_check (eq_refl true). Qed.

  Lemma drive_ordinary : ordinary_drive range_drive /\
    Forall (upto 40) [pp_thermal (par_comp (sd_parasitics range_drive)); pp_thermal (par_exp (sd_parasitics range_drive))] /\
    (forall V, In (Ret V) [ex_volume (co_chx range_comps); ex_volume (co_regen range_comps); ex_volume (co_hhx range_comps)] ->
       upto 10 V) /\
    upto 40 range_time /\ ordinary_conditions range_conditions.
  Proof.
    pose proof drive_checked as H. unfold drive_check in H. rewrite !andb_true_iff in H.
    destruct H as ((((((((H1 & H2) & H3) & H4) & H5) & H6) & H7) & H8) & H9).
    split; [|split; [|split; [|split]]].
    - split; [apply upto_checked, H1|]. split; [apply upto_checked, H2|]. apply Forall_forall. intros g G.
      rewrite forallb_forall in H3. specialize (H3 g G). apply andb_true_iff in H3 as (A & B).
      split; apply upto_checked; assumption.
    - apply Forall_forall. intros x X. rewrite forallb_forall in H4. apply upto_checked, H4, X.
    - intros V HV. rewrite forallb_forall in H5. exact (upto_checked 10 V (H5 _ HV)).
    - apply upto_checked, H6.
    - split; [apply upto_checked, H7|]. split; apply temp_checked; assumption.
  Qed.
  Lemma state_ordinary (fl : Fluid b64) (o : outcome (State b64)) : state_check o = true ->
    (forall st, o = Ret st -> s_fluid st = fl) -> exists st r s,
    Run_new range_comps st = Ret r /\ s_fluid st = fl /\ ordinary_engine range_comps range_drive st /\
    251 <= value (te_sink (s_temp st)) /\ 251 <= value (te_source (s_temp st)) /\
    solve checked_gauss (Run_calculate_inputs r range_time range_conditions) FlowDirection_default = Ok s /\ finite_solution s.
  Proof.
    intros H Hf. unfold state_check in H. destruct o as [st|]; [|discriminate H].
    rewrite !andb_true_iff in H. destruct H as (((H1 & H2) & H3) & H4).
    destruct (Run_new range_comps st) as [r|] eqn:ER; [|discriminate H4].
    destruct (solve checked_gauss (Run_calculate_inputs r range_time range_conditions) FlowDirection_default) as [s|] eqn:ES;
      [|discriminate H4].
    exists st, r, s. split; [exact ER|]. split; [exact (Hf st eq_refl)|].
    destruct drive_ordinary as (D1 & D2 & D3 & _).
    rewrite forallb_forall in H1.
    split; [|split; [apply warm_checked, H2|split; [apply warm_checked, H3|split; [exact ES|]]]].
    - split; [exact D1|]. split; [exact D2|]. split; [exact D3|]. split; [|split].
      + apply Forall_forall. intros x X. apply temp_checked, H1. right. right. exact X.
      + apply temp_checked, H1. left. reflexivity.
      + apply temp_checked, H1. right. left. reflexivity.
    - rewrite forallb_forall in H4. apply Forall_forall. exact H4.
  Qed.
  Lemma hint_keeps_fluid (comps : Components b64) (fl : Fluid b64) (i : RunInputs b64) (st : State b64) :
    State_new_hint comps fl i = Ret st -> s_fluid st = fl.
  Proof.
    unfold State_new_hint.
    destruct (ex_initial_approach (co_chx comps)); [|discriminate].
    destruct (ex_initial_approach (co_regen comps)); [|discriminate].
    destruct (ex_initial_approach (co_hhx comps)); [|discriminate].
    cbn [obind]. intro H.
    apply (f_equal (fun o => match o with Ret x => x | _ => st end)) in H. subst st. reflexivity.
  Qed.
  Theorem range_case : cosine_bounded kept_both /\ sine_bounded kept_both /\
    upto 40 range_time /\ ordinary_conditions range_conditions /\
    (forall i, careful checked_gauss (bpow radix2 (-40)) i) /\
    co_ws range_comps = SinusoidalDrive_ws range_drive /\ exists st r s,
    Run_new range_comps st = Ret r /\ s_fluid st = IdealGas_Fluid (IdealGas_new Helium) /\
    ordinary_engine range_comps range_drive st /\
    251 <= value (te_sink (s_temp st)) /\ 251 <= value (te_source (s_temp st)) /\
    solve checked_gauss (Run_calculate_inputs r range_time range_conditions) FlowDirection_default = Ok s /\ finite_solution s.
  Proof.
    destruct drive_ordinary as (_ & _ & _ & D4 & D5).
    split; [exact kept_cos|]. split; [exact kept_sin|]. split; [exact D4|]. split; [exact D5|].
    split; [exact checked_careful|]. split; [reflexivity|].
    exact (state_ordinary _ _ state_checked (hint_keeps_fluid _ _ _)).
  Qed.
End Case.
