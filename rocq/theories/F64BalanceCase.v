(** * A linear solver that checks its own answers, on the inputs of a unit test *)
From Coq Require Import ZArith NArith List Reals Bool Lra Lia.
From Flocq Require Import Core BinarySingleNaN Calc.Operations.
From Verif Require Import Num ModelTypes ModelWs ModelHx ModelStateEq ModelEngine ModelApi RNum B64 Fixture Replay Spec
  SpecR SpecF64 SpecRound SpecBalance F64Base F64Err F64Balance.
Import ListNotations.
Local Open Scope R_scope.

Notation float2 := (float radix2).
Definition to_float (x : b64) : float2 :=
  match x with B754_finite s m e _ => Float radix2 (cond_Zopp s (Zpos m)) e | _ => Float radix2 0 0 end.
Lemma to_float_value x : F2R (to_float x) = value x.
Proof. destruct x as [s|s| |s m e B]; try reflexivity; unfold to_float, value; cbn; apply F2R_0. Qed.

Definition dot_float (a x : vec10 float2) : float2 :=
  let m := @Fmult radix2 in let p := @Fplus radix2 in
  p (p (p (p (p (p (p (p (p (m (v0 a) (v0 x)) (m (v1 a) (v1 x))) (m (v2 a) (v2 x))) (m (v3 a) (v3 x))) (m (v4 a) (v4 x)))
    (m (v5 a) (v5 x))) (m (v6 a) (v6 x))) (m (v7 a) (v7 x))) (m (v8 a) (v8 x))) (m (v9 a) (v9 x)).
Lemma dot_float_value a x : F2R (dot_float a x) = dot (vec_map F2R a) (vec_map F2R x).
Proof. unfold dot_float, dot. cbv zeta. rewrite !F2R_plus, !F2R_mult. reflexivity. Qed.
Definition two_m40 : float2 := Float radix2 1 (-40).
Definition row_checks (a x : vec10 b64) (b : b64) : bool :=
  let r := Fabs (Fminus (dot_float (vec_map to_float a) (vec_map to_float x)) (to_float b)) in
  let m := Fplus (dot_float (vec_map (fun y => Fabs (to_float y)) a) (vec_map (fun y => Fabs (to_float y)) x)) (Fabs (to_float b)) in
  (0 <=? Fnum (Fminus (Fmult two_m40 m) r))%Z.
Lemma row_checked a x b : row_checks a x b = true -> row_holds (bpow radix2 (-40)) a x b.
Proof.
  unfold row_checks. intros H. apply Z.leb_le in H.
  apply (F2R_ge_0 radix2) in H. rewrite F2R_minus, F2R_mult, F2R_abs, F2R_minus, F2R_plus, F2R_abs in H.
  rewrite !dot_float_value, !to_float_value in H.
  assert (T : F2R two_m40 = bpow radix2 (-40)) by (unfold two_m40; apply F2R_bpow). rewrite T in H.
  unfold row_holds. destruct a as [a0 a1 a2 a3 a4 a5 a6 a7 a8 a9], x as [x0 x1 x2 x3 x4 x5 x6 x7 x8 x9].
  unfold vec_map in *; cbn [v0 v1 v2 v3 v4 v5 v6 v7 v8 v9] in *.
  rewrite !F2R_abs, !to_float_value in H. lra.
Qed.
Definition all_ix : list ix := [I0; I1; I2; I3; I4; I5; I6; I7; I8; I9].
Definition system_checks (A : Matrix b64) (b x : vec10 b64) : bool :=
  forallb (fun j => row_checks (vget A j) x (vget b j)) all_ix.

(** Gaussian elimination whose answers are checked in exact arithmetic *)
Definition checked_gauss : Decomp b64 := fun A b =>
  match gauss A b with
  | Some x => if system_checks A b x then Some x else None
  | None => None
  end.
Lemma checked_careful i : careful checked_gauss (bpow radix2 (-40)) i.
Proof.
  intros d x. unfold checked_gauss. destruct (gauss (directed_matrix i d) (state_rhs i)) as [y|]; [|discriminate].
  destruct (system_checks (directed_matrix i d) (state_rhs i) y) eqn:C; [|discriminate].
  intros H _ _ _ j. assert (E : y = x) by (injection H; auto). rewrite <- E.
  apply row_checked. unfold system_checks in C. rewrite forallb_forall in C. apply C.
  unfold all_ix. destruct j; cbn; auto 12.
Qed.

Definition all10b {A} (p : A -> bool) (v : vec10 A) : bool := forallb p (row_of v).
Lemma all10b_all {A} (p : A -> bool) (v : vec10 A) : all10b p v = true -> all10 (fun x => p x = true) v.
Proof.
  unfold all10b. rewrite forallb_forall. intros H. unfold all10, row_of in *.
  repeat split; apply H; cbn; auto 12.
Qed.
Lemma all10_impl {A} (P Q : A -> Prop) (v : vec10 A) : (forall x, P x -> Q x) -> all10 P v -> all10 Q v.
Proof. unfold all10. intros H. intuition. Qed.
Definition solution_list (s : Solution b64) : list b64 :=
  [so_m_dot_ck s; so_m_dot_kr s; so_m_dot_rl s; so_m_dot_le s; so_Q_dot_k s; so_Q_dot_r s;
    so_Q_dot_l s; so_dTc_dt s; so_dTe_dt s; so_dP_dt s].
Lemma strict_nonzero (x : b64) : is_finite_strict x = true -> value x <> 0.
Proof.
  destruct x as [s|s| |s m e B]; try discriminate. intros _ E. unfold value in E. cbn [B2R] in E.
  apply eq_0_F2R in E. destruct s; discriminate E.
Qed.
Definition case_checks (i : Inputs b64) : bool :=
  match solve checked_gauss i FlowDirection_default with
  | Ok s => all10b (all10b is_finite) (directed_matrix i (signs s)) && all10b is_finite (state_rhs i) &&
      forallb is_finite (solution_list s) && negb (n_le n0 (so_m_dot_ck s)) && is_finite_strict (in_enth_norm i)
  | Err _ => false
  end.
Lemma case_checked i : case_checks i = true -> exists s,
  solve checked_gauss i FlowDirection_default = Ok s /\ finite_system i s /\ finite_solution s /\
  value (in_enth_norm i) <> 0 /\ n_le n0 (so_m_dot_ck s) = false.
Proof.
  unfold case_checks. destruct (solve checked_gauss i FlowDirection_default) as [s|]; [|discriminate].
  rewrite !andb_true_iff. intros ((((H1 & H2) & H3) & H4) & H5). exists s. split; [reflexivity|].
  split; [split|].
  - apply all10b_all in H1. apply (all10_impl (fun r => all10b is_finite r = true)); [|exact H1].
    intros r. apply (all10b_all is_finite).
  - exact (all10b_all is_finite _ H2).
  - split; [|split].
    + rewrite forallb_forall in H3. unfold finite_solution. apply Forall_forall. exact H3.
    + exact (strict_nonzero _ H5).
    + apply negb_true_iff. exact H4.
Qed.
Lemma balance_case : exists s,
  solve checked_gauss refprop_hydrogen_inputs FlowDirection_default = Ok s /\ finite_system refprop_hydrogen_inputs s /\
  finite_solution s /\ value (in_enth_norm refprop_hydrogen_inputs) <> 0 /\ n_le n0 (so_m_dot_ck s) = false.
Proof. apply case_checked. vm_cast_no_check (eq_refl true). Qed.
