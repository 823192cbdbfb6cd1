(** * The convergence test in f64 and in exact arithmetic *)
From Coq Require Import ZArith NArith List Reals Bool Lra Lia.
From Flocq Require Import Core BinarySingleNaN Relative Plus_error.
From Verif Require Import Num ModelTypes ModelWs ModelHx ModelStateEq ModelEngine Spec PolyRun RNum B64
  SpecF64 F64Base.
Import ListNotations.
Local Open Scope R_scope.
Local Open Scope bool_scope.

(** ** Exact arithmetic *)
Lemma R_abs (x : R) : n_abs x = Rabs x.
Proof. reflexivity. Qed.

Lemma converged_R (tol : ConvergenceTolerance R) (old new : R) : old <> 0 ->
  (is_converged tol old new = true <->
   Rabs (new - old) < ct_abs tol /\ Rabs (new - old) < ct_rel tol * Rabs old).
Proof.
  intros Z. unfold is_converged. rewrite andb_true_iff.
  change (n_lt (Rabs (new - old)) (ct_abs tol) = true /\
          n_lt (Rabs ((new - old) / old)) (ct_rel tol) = true <->
          Rabs (new - old) < ct_abs tol /\ Rabs (new - old) < ct_rel tol * Rabs old).
  rewrite !R_lt_iff. unfold Rdiv. rewrite Rabs_mult, Rabs_inv.
  assert (P : 0 < Rabs old) by (apply Rabs_pos_lt, Z).
  apply and_iff_compat_l. split; intros H.
  - apply (Rmult_lt_compat_r _ _ _ P) in H. rewrite Rmult_assoc, Rinv_l, Rmult_1_r in H by lra. exact H.
  - apply (Rmult_lt_reg_r _ _ _ P). rewrite Rmult_assoc, Rinv_l, Rmult_1_r by lra. exact H.
Qed.

Lemma looser_R (tol tol' : ConvergenceTolerance R) (old new : R) :
  ct_abs tol <= ct_abs tol' -> ct_rel tol <= ct_rel tol' ->
  is_converged tol old new = true -> is_converged tol' old new = true.
Proof.
  intros A B. unfold is_converged. rewrite !andb_true_iff, !R_lt_iff. lra.
Qed.

(** ** f64 *)
Section F64.
  Variables (lm : Libm) (nt : bool).
  Local Instance ops64 : NumOps b64 := b64_ops lm nt.

  Lemma converged_unfold (tol : ConvergenceTolerance b64) (old new : b64) :
    is_converged tol old new =
    Bltb (Babs (Bminus mode_NE new old)) (ct_abs tol) &&
    Bltb (Babs (Bdiv mode_NE (Bminus mode_NE new old) old)) (ct_rel tol).
  Proof. reflexivity. Qed.

  Lemma minus_finite_args (x y : b64) : finite (Bminus mode_NE x y) -> finite x /\ finite y.
  Proof.
    destruct x as [sx|[|]| |sx mx ex Hx], y as [sy|[|]| |sy my ey Hy]; intros H;
      try discriminate H; split; reflexivity.
  Qed.
  Lemma div_finite_nonzero (x y : b64) : finite (Bdiv mode_NE x y) -> finite y -> B2R y <> 0.
  Proof.
    destruct x as [sx|sx| |sx mx ex Hx], y as [sy|sy| |sy my ey Hy]; intros H K;
      try discriminate H; try discriminate K;
      intros Z; apply (is_finite_strict_B2R 53 1024) in H || idtac;
      apply (eq_0_F2R radix2) in Z; destruct sy; discriminate Z.
  Qed.

  Lemma converged_f64 (tol : ConvergenceTolerance b64) (old new : b64) :
    is_converged tol old new = true <-> small_change tol old new.
  Proof.
    rewrite converged_unfold, andb_true_iff. unfold small_change, value. split.
    - intros [A B].
      pose proof (Babs_lt_finite _ _ A) as FA. pose proof (Babs_lt_finite _ _ B) as FB.
      destruct (minus_finite_args _ _ FA) as [Fn Fo].
      pose proof (div_finite_nonzero _ _ FB Fo) as Z.
      split; [exact Fo|split; [exact Fn|split; [exact Z|]]].
      destruct (minus_cases new old Fn Fo) as [(N & _ & V)|(_ & s & V)];
        [|rewrite V in FA; discriminate FA].
      destruct (div_cases (Bminus mode_NE new old) old FA Z) as [(N' & _ & V')|(_ & s & V')];
        [|rewrite V' in FB; discriminate FB].
      apply (Bltb_below _ _ (proj2 (finite_Babs _) FA)) in A.
      apply (Bltb_below _ _ (proj2 (finite_Babs _) FB)) in B.
      rewrite B2R_Babs64 in A, B. rewrite V', V in B. rewrite V in A, N'.
      cbv zeta. tauto.
    - intros (Fo & Fn & Z & N & A & N' & B).
      destruct (minus_cases new old Fn Fo) as [(_ & FA & V)|(O & _)]; [|contradiction].
      destruct (div_cases (Bminus mode_NE new old) old FA Z) as [(_ & FB & V')|(O & _)];
        [|rewrite V in O; contradiction].
      split; apply Bltb_below; try (apply finite_Babs; assumption).
      + rewrite B2R_Babs64, V. exact A.
      + rewrite B2R_Babs64, V', V. exact B.
  Qed.

  (** the exact change *)
  Lemma converged_exact_abs (tol : ConvergenceTolerance b64) (old new : b64) :
    is_converged tol old new = true -> below (Rabs (value new - value old)) (ct_abs tol).
  Proof.
    rewrite converged_f64. intros (_ & _ & _ & _ & A & _). apply rounded_below, A.
  Qed.
  Lemma converged_exact_rel (tol : ConvergenceTolerance b64) (old new : b64) :
    is_converged tol old new = true -> finite (ct_rel tol) ->
    Rabs (rounded (value new - value old)) < value (ct_rel tol) * Rabs (value old) /\
    Rabs (value new - value old) < value (ct_rel tol) * Rabs (value old) * (1 + / 2 ^ 53).
  Proof.
    rewrite converged_f64. intros (Fo & Fn & Z & _ & _ & _ & B) Fr.
    apply rounded_below in B.
    assert (B' : Rabs (rounded (value new - value old) / value old) < value (ct_rel tol)).
    { destruct (ct_rel tol) as [s|[|]| |s m e Ht]; try discriminate Fr; exact B. }
    unfold Rdiv in B'. rewrite Rabs_mult, Rabs_inv in B'.
    assert (P : 0 < Rabs (value old)) by (apply Rabs_pos_lt, Z).
    apply (Rmult_lt_compat_r _ _ _ P) in B'. rewrite Rmult_assoc, Rinv_l, Rmult_1_r in B' by lra.
    split; [exact B'|].
    destruct (FLT_plus_error_N_round_ex radix2 (-1074) 53 (fun z => negb (Z.even z)) (value new) (- value old))
      as (eps & He & E).
    - apply (FLT_format_B2R 53 1024) || apply (generic_format_B2R 53 1024).
    - apply generic_format_opp, (generic_format_B2R 53 1024).
    - change (round radix2 (FLT_exp (-1074) 53) ZnearestE (value new + - value old))
        with (rounded (value new - value old)) in E.
      change (value new + - value old) with (value new - value old) in E. rewrite E.
      rewrite Rabs_mult.
      assert (U : u_ro radix2 53 = / 2 ^ 53).
      { unfold u_ro. cbn. lra. }
      rewrite U in He.
      assert (Q : Rabs (1 + eps) <= 1 + / 2 ^ 53).
      { eapply Rle_trans; [apply Rabs_triang|]. rewrite Rabs_R1. lra. }
      assert (Q0 : 0 < 1 + / 2 ^ 53) by (pose proof (Rinv_0_lt_compat (2 ^ 53)); lra).
      eapply Rle_lt_trans.
      + apply Rmult_le_compat_l; [apply Rabs_pos|exact Q].
      + apply Rmult_lt_compat_r; assumption.
  Qed.

  Lemma below_positive (x : R) (t : b64) : below (Rabs x) t -> above_zero t.
  Proof.
    pose proof (Rabs_pos x). unfold above_zero.
    destruct t as [s|[|]| |s m e Ht]; cbn [below]; lra.
  Qed.

  Lemma converged_regular (tol : ConvergenceTolerance b64) (old new : b64) :
    is_converged tol old new = true ->
    finite old /\ finite new /\ value old <> 0 /\ above_zero (ct_abs tol) /\ above_zero (ct_rel tol).
  Proof.
    rewrite converged_f64. intros (A & B & Z & _ & P & _ & Q).
    apply below_positive in P. apply below_positive in Q. tauto.
  Qed.

  Lemma converged_same (tol : ConvergenceTolerance b64) (x : b64) :
    is_converged tol x x = true <->
    finite x /\ value x <> 0 /\ above_zero (ct_abs tol) /\ above_zero (ct_rel tol).
  Proof.
    split.
    - intros H. apply converged_regular in H. tauto.
    - intros (A & Z & P & Q). apply converged_f64. unfold small_change.
      assert (E : rounded (value x - value x) = 0)
        by (replace (value x - value x) with 0 by ring; apply rounded_0).
      rewrite E. unfold Rdiv. rewrite Rmult_0_l, rounded_0, Rabs_R0.
      assert (O : ~ overflows 0).
      { unfold overflows. rewrite Rabs_R0. pose proof bpow_pos_1024. lra. }
      repeat split; assumption.
  Qed.

  Lemma looser_f64 (tol tol' : ConvergenceTolerance b64) (old new : b64) :
    looser tol tol' -> is_converged tol old new = true -> is_converged tol' old new = true.
  Proof.
    intros [A B]. rewrite !converged_unfold, !andb_true_iff. intros [P Q].
    split; eapply Bltb_Bleb_trans; eassumption.
  Qed.

  (** every temperature of a returned engine *)
  Lemma close_converged (tol : ConvergenceTolerance b64) (old new : b64) :
    close tol old new -> is_converged tol old new = true.
  Proof. intros [A B]. unfold is_converged. rewrite A, B. reflexivity. Qed.

  Lemma run_temperatures (E : Env b64) (D : Decomp b64) (comps : Components b64) (fl : Fluid b64)
      (inputs : RunInputs b64) (settings : RunSettings b64) (e : Engine b64) :
    Engine_run E D comps fl inputs settings = Ret (Ok e) ->
    forall x, In x (temperatures (s_temp (en_state e))) -> finite x /\ value x <> 0.
  Proof.
    intros H. destruct (run_fixed_point E D comps fl inputs settings e H) as (P & m & q & T' & _ & C).
    destruct C as (C1 & C2 & C3 & C4 & C5).
    apply close_converged, converged_regular in C1, C2, C3, C4, C5.
    intros x [<-|[<-|[<-|[<-|[<-|[]]]]]]; tauto.
  Qed.
End F64.
