(** * The normalising enthalpy of helium in f64 *)
From Coq Require Import ZArith NArith List Reals Bool Lra Lia.
From Flocq Require Import Core BinarySingleNaN.
From Verif Require Import Num ModelTypes ModelWs ModelHx ModelStateEq ModelEngine ModelApi Spec B64
  SpecF64 F64Base F64Conv F64More.
Import ListNotations.
Local Open Scope R_scope.
Local Open Scope bool_scope.

Lemma lit_250 : B2R (b64_lit 250 0) = 250 /\ finite (b64_lit 250 0).
Proof.
  assert (E : B2SF (b64_lit 250 0) = SpecFloat.S754_finite false 8796093022208000 (-45)).
  { vm_compute. reflexivity. }
  split; [|unfold finite; rewrite <- is_finite_SF_B2SF, E; reflexivity].
  rewrite <- SF2R_B2SF, E. unfold SF2R, F2R. cbn. lra.
Qed.
Lemma lit_2e6 : B2R (b64_lit 2000000 0) = 2000000.
Proof.
  assert (E : B2SF (b64_lit 2000000 0) = SpecFloat.S754_finite false 8589934592000000 (-32)).
  { vm_compute. reflexivity. }
  rewrite <- SF2R_B2SF, E. unfold SF2R, F2R. cbn. lra.
Qed.
Lemma helium_cp_value : 5193 <= B2R (b64_lit 519317 (-2)) <= 5194 /\ finite (b64_lit 519317 (-2)).
Proof.
  assert (E : B2SF (b64_lit 519317 (-2)) = SpecFloat.S754_finite false 5709950800017490 (-40)).
  { vm_compute. reflexivity. }
  split; [|unfold finite; rewrite <- is_finite_SF_B2SF, E; reflexivity].
  rewrite <- SF2R_B2SF, E. unfold SF2R, F2R. cbn. lra.
Qed.

Lemma zero_value (x : b64) : finite x -> B2R x = 0 -> zero64 x.
Proof.
  destruct x as [s|s| |s m e H]; intros F Z; try discriminate F; [eexists; reflexivity|].
  exfalso. apply (eq_0_F2R radix2) in Z. destruct s; discriminate Z.
Qed.

Lemma small_no_overflow (x : R) (t : b64) : finite t -> Rabs x <= B2R t -> ~ overflows (rounded x).
Proof.
  intros F H. unfold overflows. rewrite <- rounded_abs.
  pose proof (rounded_le_float _ _ H). pose proof (finite_bounds t F). lra.
Qed.

Section F64.
  Variables (lm : Libm) (nt : bool).
  Local Instance ops64 : NumOps b64 := b64_ops lm nt.

  Lemma zero_mul (a d : b64) : zero64 a -> finite d -> zero64 (n_mul a d).
  Proof. intros [s ->] F. destruct d as [sx|sx| |sx m e H]; try discriminate F; eexists; reflexivity. Qed.
  Lemma zero_add (a b : b64) : zero64 a -> zero64 b -> zero64 (n_add a b).
  Proof. intros [[|] ->] [[|] ->]; eexists; reflexivity. Qed.

  Lemma helium_enth (T P : b64) : finite T ->
    let d := n_sub T (n_lit 250 0) in finite d ->
    exists z, zero64 z /\ ig_enth (IdealGas_new Helium) T P = n_add z (n_mul (n_lit 519317 (-2)) d).
  Proof.
    intros F d Fd. unfold ig_enth, poly.
    cbn [IdealGas_new gas_parameters ig_enth_coefs ig_ref_temp arr6_map a6_0 a6_1 a6_2 a6_3 a6_4 a6_5].
    fold d.
    assert (Q : forall k : Z, (k = 2 \/ k = 3 \/ k = 4 \/ k = 5 \/ k = 6)%Z ->
                zero64 (n_mul (n_div n0 (n_lit k 0)) d)).
    { intros k K. apply zero_mul; [|exact Fd]. exists false.
      destruct K as [->|[->|[->|[->| ->]]]]; vm_compute; reflexivity. }
    eexists. split; [|reflexivity].
    apply zero_mul; [|exact F].
    do 4 (apply zero_add; [apply zero_mul; [|exact F]|apply Q; lia]).
    apply Q; lia.
  Qed.

  Lemma plus_zero_value (z y : b64) : zero64 z -> finite y ->
    finite (n_add z y) /\ B2R (n_add z y) = B2R y.
  Proof.
    intros [s ->] F. destruct y as [sy|sy| |sy m e H]; try discriminate F.
    - destruct s, sy; split; reflexivity.
    - split; reflexivity.
  Qed.

  Lemma helium_enth_value (T P : b64) : finite T -> 0 <= value T <= 500 ->
    finite (ig_enth (IdealGas_new Helium) T P) /\
    B2R (ig_enth (IdealGas_new Helium) T P) =
      rounded (B2R (b64_lit 519317 (-2)) * rounded (B2R T - 250)) /\
    Rabs (B2R (ig_enth (IdealGas_new Helium) T P)) <= 2000000.
  Proof.
    intros F B. unfold value in B. destruct lit_250 as [L250 F250]. destruct helium_cp_value as [Lcp Fcp].
    pose proof lit_2e6 as L2.
    assert (F2 : finite (b64_lit 2000000 0)) by (vm_compute; reflexivity).
    assert (D : Rabs (rounded (B2R T - 250)) <= 250).
    { rewrite <- rounded_abs, <- L250. apply rounded_le_float. rewrite L250.
      unfold Rabs. destruct (Rcase_abs _); lra. }
    assert (Fd : finite (n_sub T (n_lit 250 0)) /\ B2R (n_sub T (n_lit 250 0)) = rounded (B2R T - 250)).
    { destruct (minus_cases T (b64_lit 250 0) F F250) as [(_ & G & V)|(O & _)].
      - rewrite L250 in V. split; [exact G|exact V].
      - exfalso. revert O. rewrite L250. apply (small_no_overflow _ _ F250).
        rewrite L250. unfold Rabs. destruct (Rcase_abs _); lra. }
    destruct Fd as [Fd Vd].
    assert (M : Rabs (B2R (b64_lit 519317 (-2)) * rounded (B2R T - 250)) <= B2R (b64_lit 2000000 0)).
    { rewrite L2, Rabs_mult, (Rabs_right (B2R (b64_lit 519317 (-2)))) by lra.
      apply Rle_trans with (5194 * 250); [|lra].
      apply Rmult_le_compat; try lra. apply Rabs_pos. }
    assert (Fm : finite (n_mul (n_lit 519317 (-2)) (n_sub T (n_lit 250 0))) /\
                 B2R (n_mul (n_lit 519317 (-2)) (n_sub T (n_lit 250 0))) =
                 rounded (B2R (b64_lit 519317 (-2)) * rounded (B2R T - 250))).
    { destruct (mult_cases (b64_lit 519317 (-2)) (n_sub T (n_lit 250 0)) Fcp Fd) as [(_ & G & V)|(O & _)].
      - rewrite Vd in V. split; [exact G|exact V].
      - exfalso. revert O. rewrite Vd. apply (small_no_overflow _ _ F2), M. }
    destruct Fm as [Fm Vm].
    destruct (helium_enth T P F Fd) as (z & Z & ->).
    destruct (plus_zero_value z _ Z Fm) as [Fe Ve].
    split; [exact Fe|]. rewrite Ve, Vm. split; [reflexivity|].
    rewrite <- rounded_abs, <- L2. apply rounded_le_float, M.
  Qed.

  Lemma helium_norm_zero (comps : Components b64) (s : State b64) (r : Run b64) :
    s_fluid s = IdealGas_Fluid (IdealGas_new Helium) -> Run_new comps s = Ret r ->
    finite (te_sink (s_temp s)) -> finite (te_source (s_temp s)) ->
    0 <= value (te_sink (s_temp s)) -> 0 <= value (te_source (s_temp s)) ->
    value (te_sink (s_temp s)) + value (te_source (s_temp s)) = 500 ->
    finite (ru_enth_norm r) /\ value (ru_enth_norm r) = 0.
  Proof.
    intros Ef H F1 F2 P1 P2 S.
    assert (E : ru_enth_norm r =
      n_mul nhalf (n_add (ig_enth (IdealGas_new Helium) (te_sink (s_temp s)) (pr_avg (s_pres s)))
                         (ig_enth (IdealGas_new Helium) (te_source (s_temp s)) (pr_avg (s_pres s))))).
    { unfold Run_new, obind in H. rewrite Ef in H.
      repeat match type of H with
             | (match ?o with Ret _ => _ | Panic _ => _ end) = _ => destruct o; [|discriminate]
             end.
      apply (f_equal (fun o => match o with Ret x => x | _ => r end)) in H. rewrite <- H. reflexivity. }
    rewrite E. clear E H.
    destruct (helium_enth_value (te_sink (s_temp s)) (pr_avg (s_pres s)) F1) as (G1 & V1 & _); [lra|].
    destruct (helium_enth_value (te_source (s_temp s)) (pr_avg (s_pres s)) F2) as (G2 & V2 & _); [lra|].
    assert (O : B2R (ig_enth (IdealGas_new Helium) (te_sink (s_temp s)) (pr_avg (s_pres s)))
              + B2R (ig_enth (IdealGas_new Helium) (te_source (s_temp s)) (pr_avg (s_pres s))) = 0).
    { rewrite V1, V2. unfold value in S.
      replace (B2R (te_source (s_temp s)) - 250) with (- (B2R (te_sink (s_temp s)) - 250)) by lra.
      rewrite rounded_opp, Ropp_mult_distr_r_reverse, rounded_opp. ring. }
    assert (Z : zero64 (n_add (ig_enth (IdealGas_new Helium) (te_sink (s_temp s)) (pr_avg (s_pres s)))
                               (ig_enth (IdealGas_new Helium) (te_source (s_temp s)) (pr_avg (s_pres s))))).
    { destruct (plus_cases _ _ G1 G2) as [(_ & G & V)|(Ov & _)].
      - rewrite O, rounded_0 in V. apply zero_value; [exact G|exact V].
      - exfalso. rewrite O, rounded_0 in Ov. unfold overflows in Ov. rewrite Rabs_R0 in Ov.
        pose proof bpow_pos_1024. lra. }
    destruct Z as [sz ->]. split; [destruct sz; vm_compute; reflexivity|].
    assert (Z : zero64 (n_mul nhalf (B754_zero sz : b64))) by (destruct sz; eexists; vm_compute; reflexivity).
    destruct Z as [s' Z]. unfold value. rewrite Z. reflexivity.
  Qed.

  (** the matrix of any inputs with a zero norm *)
  Lemma norm_zero_matrix (i : Inputs b64) (dir : FlowDirection) :
    finite (in_enth_norm i) -> value (in_enth_norm i) = 0 ->
    let A := create_matrix (sys_stencil (System_new i)) dir in
    ~ finite (vget (vget A I3) I4) /\ ~ finite (vget (vget A I5) I5) /\ ~ finite (vget (vget A I7) I6).
  Proof.
    intros F Z A. destruct (zero_value _ F Z) as [s E].
    change (vget (vget A I3) I4) with (n_div n1 (in_enth_norm i)).
    change (vget (vget A I5) I5) with (n_div n1 (in_enth_norm i)).
    change (vget (vget A I7) I6) with (n_div (n_opp n1) (in_enth_norm i)).
    rewrite E. unfold finite.
    split; [|split]; destruct s; vm_compute; discriminate.
  Qed.

  Lemma norm_zero_run (r : Run b64) (time : b64) (cond : Conditions b64) (dir : FlowDirection) :
    finite (ru_enth_norm r) -> value (ru_enth_norm r) = 0 ->
    let A := create_matrix (sys_stencil (System_new (cy_calculate_inputs (Run_Cycle r) time cond))) dir in
    ~ finite (vget (vget A I3) I4) /\ ~ finite (vget (vget A I5) I5) /\ ~ finite (vget (vget A I7) I6).
  Proof.
    intros F Z. apply norm_zero_matrix; cbn [Run_Cycle cy_calculate_inputs]; unfold Run_calculate_inputs;
      destruct (ru_ws_vol_fn r time) as [vc ve]; assumption.
  Qed.
End F64.
