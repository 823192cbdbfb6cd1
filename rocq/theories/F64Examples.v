(** * The examples ask for the same engine; the temperatures of the sweep are exact in f64 *)
From Coq Require Import ZArith NArith List Reals Bool Lra Lia.
From Flocq Require Import Core BinarySingleNaN.
From Verif Require Import Num ModelTypes ModelWs ModelHx ModelStateEq ModelEngine ModelApi ModelSerde ModelExamples Spec SpecExamples
  B64 SpecF64 SerdeDocs PolyExamples Fixture Demo.
Import ListNotations.
Local Open Scope R_scope.

(** the value of a float, read off its digits *)
Definition sf_int (x : SpecFloat.spec_float) (z : Z) : bool :=
  match x with
  | SpecFloat.S754_finite false m e =>
      match e with
      | Z0 => Z.eqb (Zpos m) z
      | Zpos p => Z.eqb (Zpos m * Z.pow_pos 2 p) z
      | Zneg p => Z.eqb (Zpos m) (z * Z.pow_pos 2 p)
      end
  | _ => false
  end.
Lemma sf_int_value (x : b64) z : sf_int (B2SF x) z = true -> B2R x = IZR z /\ is_finite x = true.
Proof.
  intros H. rewrite <- SF2R_B2SF, <- is_finite_SF_B2SF. destruct (B2SF x) as [| | |[] m e]; try discriminate H.
  split; [|reflexivity]. unfold SF2R, F2R. cbn [Fnum Fexp cond_Zopp].
  destruct e as [|p|p]; cbn [sf_int] in H; apply Z.eqb_eq in H; cbn [bpow radix2 radix_val].
  - rewrite H. ring.
  - rewrite <- H, mult_IZR. reflexivity.
  - rewrite H, mult_IZR. field. apply IZR_neq. pose proof (Zpower_pos_gt_0 2 p). lia.
Qed.

Section Any.
  Variables (lm : Libm) (nt : bool).
  Let ops := b64_ops lm nt.
  Local Existing Instance ops.
  Lemma sweep_exact (k : N) : (k <= 100)%N ->
    B2R (sweep_temp_source k) = 500 + 5 * IZR (Z.of_N k) /\ is_finite (sweep_temp_source k) = true.
  Proof.
    intros Hk.
    assert (C : forallb (fun i => sf_int (B2SF (Bplus mode_NE (b64_lit 500 0) (Bmult mode_NE (b64_lit 5 0) (b64_norm (Z.of_nat i) 0))))
                                         (500 + 5 * Z.of_nat i)) (seq 0 101) = true) by (vm_cast_no_check (eq_refl true)).
    rewrite forallb_forall in C. specialize (C (N.to_nat k)). rewrite N_nat_Z in C.
    apply sf_int_value in C; [|apply in_seq; lia].
    rewrite plus_IZR, mult_IZR in C. exact C.
  Qed.
  Lemma sweep_first : (sweep_temp_source 0 : b64) = n_lit 500 0.
  Proof. change (Bplus mode_NE (b64_lit 500 0) (Bmult mode_NE (b64_lit 5 0) (b64_norm 0 0)) = b64_lit 500 0). apply B2SF_inj. vm_compute. reflexivity. Qed.
End Any.

(** ** The documents of the examples describe the first step of the sweep *)
Section Documents.
  Context {F : Type} {ops : NumOps F}.
  Hypothesis same_vol_c : (n_lit 4 (-5) : F) = n_lit 40 (-6).
  Hypothesis same_vol_h : (n_lit 1 (-4) : F) = n_lit 10 (-5).
  Hypothesis same_first : (sweep_temp_source 0 : F) = n_lit 500 0.
  Lemma example_config : exists c, de_config config_reader example_document = Some c /\
    ec_fluid (cf_engine c) = FC_Hydrogen FM_IdealGas /\ Components_from (ec_components (cf_engine c)) = Ret sweep_components /\
    RunInputs_from (cf_conditions c) = sweep_inputs (sweep_temp_source 0) /\ RunSettings_from (cf_solver c) = sweep_settings.
  Proof.
    eexists. split; [reflexivity|]. split; [reflexivity|]. split; [|split].
    - unfold sweep_components, chx_FixedApproach_default, regen_FixedApproach_default, hhx_FixedApproach_default.
      rewrite <- same_vol_c, <- same_vol_h. reflexivity.
    - rewrite same_first. reflexivity.
    - reflexivity.
  Qed.
  Lemma example_runs : exists c, de_config config_reader example_document = Some c /\
    forall E U, run_from_config E U c =
      (let! r := step_run E U 0 in match r with Err _ => Panic PNotConverged | Ok engine => RunResults_from engine end).
  Proof.
    destruct example_config as (c & H1 & H2 & H3 & H4 & H5). exists c. split; [exact H1|]. intros E U.
    unfold run_from_config, step_run. rewrite H2, H3, H4, H5. reflexivity.
  Qed.
  Lemma legacy_runs : exists l, de_legacy config_reader buffer_reader example_legacy_document = Some l /\
    forall E U, run_from_config E U (Config_from_legacy l) =
      (let! r := Engine_run E U sweep_components (IdealGas_Fluid IdealGas_hydrogen) (sweep_inputs (sweep_temp_source 0))
         {| rs_resolution := 30;
            rs_loop_tol := {| lt_inner := lt_inner (rs_loop_tol sweep_settings);
                              lt_outer := {| ct_abs := n_lit 1 (-4); ct_rel := n_lit 1 (-4) |} |};
            rs_ode_tol := rs_ode_tol sweep_settings; rs_max_iters := rs_max_iters sweep_settings |} in
       match r with Err _ => Panic PNotConverged | Ok engine => RunResults_from engine end).
  Proof.
    eexists. split; [reflexivity|]. intros E U. unfold run_from_config.
    rewrite same_first. unfold sweep_components, chx_FixedApproach_default, regen_FixedApproach_default, hhx_FixedApproach_default.
    rewrite <- same_vol_c, <- same_vol_h. reflexivity.
  Qed.
End Documents.
Section F64.
  Variables (lm : Libm) (nt : bool).
  Let ops := b64_ops lm nt.
  Local Existing Instance ops.
  Lemma same_vol_c : (n_lit 4 (-5) : b64) = n_lit 40 (-6).
  Proof. change (b64_lit 4 (-5) = b64_lit 40 (-6)). apply B2SF_inj. vm_compute. reflexivity. Qed.
  Lemma same_vol_h : (n_lit 1 (-4) : b64) = n_lit 10 (-5).
  Proof. change (b64_lit 1 (-4) = b64_lit 10 (-5)). apply B2SF_inj. vm_compute. reflexivity. Qed.
  Lemma example_runs_f64 : exists c, de_config config_reader example_document = Some c /\
    forall E U, run_from_config E U c =
      (let! r := step_run E U 0 in match r with Err _ => Panic PNotConverged | Ok engine => RunResults_from engine end).
  Proof. exact (example_runs same_vol_c same_vol_h (sweep_first lm nt)). Qed.
  Lemma legacy_runs_f64 : exists l, de_legacy config_reader buffer_reader example_legacy_document = Some l /\
    forall E U, run_from_config E U (Config_from_legacy l) =
      (let! r := Engine_run E U sweep_components (IdealGas_Fluid IdealGas_hydrogen) (sweep_inputs (sweep_temp_source 0))
         {| rs_resolution := 30;
            rs_loop_tol := {| lt_inner := lt_inner (rs_loop_tol sweep_settings);
                              lt_outer := {| ct_abs := n_lit 1 (-4); ct_rel := n_lit 1 (-4) |} |};
            rs_ode_tol := rs_ode_tol sweep_settings; rs_max_iters := rs_max_iters sweep_settings |} in
       match r with Err _ => Panic PNotConverged | Ok engine => RunResults_from engine end).
  Proof. exact (legacy_runs same_vol_c same_vol_h (sweep_first lm nt)). Qed.
End F64.

(** ** Steps that print, and a sweep that stops *)
(** an integrator that stays where it starts *)
Definition frozen_env : Env b64 := rk4_env (fun _ => O) 1 true.
Lemma main_stops {F} {ops : NumOps F} (E : Env F) (U : Decomp F) p : sweep_step E U 0 = Panic p -> sweep_main E U = ([], Some p).
Proof. intros H. unfold sweep_main. cbn [seq map sweep_from]. change (N.of_nat 0) with 0%N. rewrite H. reflexivity. Qed.
Lemma is_solve_failed {A} (x : outcome A) : match x with Panic PSolveFailed => true | _ => false end = true -> x = Panic PSolveFailed.
Proof. destruct x as [a|p]; [discriminate|]. destruct p; try discriminate. reflexivity. Qed.
Lemma sweep_case : (exists e, step_run frozen_env gauss 0 = Ret (Ok e) /\ length (vs_time (en_values e)) = 2%nat) /\
  (exists e, step_run frozen_env gauss 100 = Ret (Ok e) /\ length (vs_time (en_values e)) = 2%nat) /\
  sweep_main demo_env gauss = ([], Some PSolveFailed).
Proof.
  assert (K : forall k, match sweep_step frozen_env gauss k with Ret line => (length (pr_time line) =? 2)%nat | Panic _ => false end = true ->
    exists e, step_run frozen_env gauss k = Ret (Ok e) /\ length (vs_time (en_values e)) = 2%nat).
  { intros k H. unfold sweep_step, step_run in *.
    destruct (Engine_run frozen_env gauss sweep_components (IdealGas_Fluid IdealGas_hydrogen) (sweep_inputs (sweep_temp_source k)) sweep_settings)
      as [[e|e]|p]; [|discriminate H|discriminate H].
    exists e. split; [reflexivity|]. apply Nat.eqb_eq. exact H. }
  split; [|split].
  - apply K. vm_cast_no_check (eq_refl true).
  - apply K. vm_cast_no_check (eq_refl true).
  - apply main_stops.
    assert (S : match sweep_step demo_env gauss 0 with Panic PSolveFailed => true | _ => false end = true) by (vm_cast_no_check (eq_refl true)).
    apply is_solve_failed. exact S.
Qed.
