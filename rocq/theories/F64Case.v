(** * Concrete f64 cases *)
From Coq Require Import ZArith NArith List Reals Bool Lra Lia.
From Flocq Require Import Core BinarySingleNaN.
From Verif Require Import Num ModelTypes ModelWs ModelHx ModelStateEq ModelEngine ModelApi Spec B64
  Fixture Demo Witness SpecF64 F64Base F64Conv F64More F64Deg F64Norm.
Import ListNotations.
Local Open Scope R_scope.
Local Open Scope bool_scope.

(** 300 K to 300.005 K is converged at 0.01 K and 1e-3, 300 K to 300.02 K is not *)
Definition case_tol : ConvergenceTolerance b64 := mkConvTol (n_lit 1 (-2)) (n_lit 1 (-3)).
Lemma converged_case :
  is_converged case_tol (n_lit 300 0) (n_lit 300005 (-3)) = true /\
  is_converged case_tol (n_lit 300 0) (n_lit 30002 (-2)) = false.
Proof. split; [vm_cast_no_check (eq_refl true)|vm_cast_no_check (eq_refl false)]. Qed.
Lemma looser_case : looser case_tol (mkConvTol (n_lit 1 (-1)) (B754_infinity false)).
Proof. split; vm_compute; reflexivity. Qed.

(** values with still gas *)
Definition still_values : Values b64 :=
  let z := [n0; n0; n0] in
  mkValues [n0; n1; n2] [n_lit 10 6; n_lit 12 6; n_lit 11 6] [n_lit 300 0; n_lit 310 0; n_lit 305 0]
    [n_lit 800 0; n_lit 790 0; n_lit 805 0] z z z z [n1; n2; n1] z [n1; n2; n1].

Definition nan_free (l : list b64) : bool := forallb (fun x => negb (is_nan x)) l.
Lemma nan_free_sound (l : list b64) : nan_free l = true -> forall x, In x l -> ~ not_a_number x.
Proof.
  unfold nan_free. rewrite forallb_forall. intros H x Hx. specialize (H x Hx).
  unfold not_a_number. destruct (is_nan x); discriminate.
Qed.
(** signed zeros and infinities among the samples *)
Definition odd_values : Values b64 :=
  mkValues [n0; n1; n2] [B754_zero true; B754_infinity false; B754_zero false] [] [] [] [] [] [] [] [] [].
Lemma odd_case : (forall x, In x (vs_P odd_values) -> ~ not_a_number x) /\
  exists p, Pressure_from_values odd_values = Ret p /\ pr_max p = B754_infinity false /\
            pr_min p = B754_zero true.
Proof.
  split.
  - apply nan_free_sound. reflexivity.
  - eexists. split; [reflexivity|]. split; reflexivity.
Qed.

(** ** An engine with adiabatic walls *)
Definition nonneg (x : b64) : bool := is_finite x && Bleb (B754_zero false) x.
Lemma nonneg_sound (x : b64) : nonneg x = true -> finite x /\ 0 <= value x.
Proof.
  unfold nonneg. rewrite andb_true_iff. intros [F L]. split; [exact F|].
  apply Bleb_iff in L as (_ & _ & L). rewrite (val_finite x F) in L. exact L.
Qed.
Definition pos (x : b64) : bool := is_finite x && Bltb (B754_zero false) x.
Lemma pos_sound (x : b64) : pos x = true -> finite x /\ 0 < value x.
Proof.
  unfold pos. rewrite andb_true_iff. intros [F L]. split; [exact F|].
  apply Bltb_iff in L as (_ & _ & L). rewrite (val_finite x F) in L. exact L.
Qed.

Section Adiabatic.
  Variables (lm : Libm) (nt : bool).
  Local Instance ops64 : NumOps b64 := b64_ops lm nt.
  Definition check_adiabatic (pw : Powers b64) (e : Engine b64) : bool :=
    let c := en_components e in let s := en_state e in let v := en_values e in
    match Heats_new pw e, ws_frequency (co_ws c) (State_ws s),
          ws_thermal_resistance (co_ws c) (State_ws s), ex_parasitics (co_hhx c) (State_hhx s) with
    | Ret _, Ret f, Ret (mkTR (B754_infinity _) (B754_infinity _)), Ret _ =>
        match ex_parasitics (co_regen c) (State_regen s), ws_parasitics (co_ws c) (State_ws s) with
        | Ret _, Ret _ =>
            pos f && forallb nonneg (te_chx (s_temp s) :: te_hhx (s_temp s) :: vs_time v ++ vs_T_c v ++ vs_T_e v)
        | _, _ => false
        end
    | _, _, _, _ => false
    end.
  Definition adiabatic_engine (pw : Powers b64) (e : Engine b64) : Prop :=
    let c := en_components e in let s := en_state e in let v := en_values e in
    exists h f sc se hhx_par regen_par ws_par,
      Heats_new pw e = Ret h /\ ws_frequency (co_ws c) (State_ws s) = Ret f /\ finite f /\ 0 < value f /\
      ws_thermal_resistance (co_ws c) (State_ws s) = Ret (mkTR (B754_infinity sc) (B754_infinity se)) /\
      ex_parasitics (co_hhx c) (State_hhx s) = Ret hhx_par /\
      ex_parasitics (co_regen c) (State_regen s) = Ret regen_par /\
      ws_parasitics (co_ws c) (State_ws s) = Ret ws_par /\
      Forall (fun t => finite t /\ 0 <= value t)
        (te_chx (s_temp s) :: te_hhx (s_temp s) :: vs_time v ++ vs_T_c v ++ vs_T_e v).
  Lemma check_adiabatic_sound pw e : check_adiabatic pw e = true -> adiabatic_engine pw e.
  Proof.
    unfold check_adiabatic, adiabatic_engine.
    destruct (Heats_new pw e) as [h|]; [|discriminate].
    destruct (ws_frequency _ _) as [f|]; [|discriminate].
    destruct (ws_thermal_resistance _ _) as [[a b]|]; [|discriminate].
    destruct a as [|sc| |]; try discriminate. destruct b as [|se| |]; try discriminate.
    destruct (ex_parasitics (co_hhx _) _) as [p1|]; [|discriminate].
    destruct (ex_parasitics (co_regen _) _) as [p2|]; [|discriminate].
    destruct (ws_parasitics _ _) as [p3|]; [|discriminate].
    rewrite andb_true_iff, forallb_forall. intros [P Q]. apply pos_sound in P as [Ff Pf].
    exists h, f, sc, se, p1, p2, p3. do 8 (split; [reflexivity || assumption|]).
    apply Forall_forall. intros x Hx. apply nonneg_sound, Q, Hx.
  Qed.

  (** ** An update that sees still gas *)
  Definition all_nan (s : State b64) : bool :=
    is_nan (te_chx (s_temp s)) && is_nan (te_hhx (s_temp s)) && is_nan (rt_cold (te_regen (s_temp s))).
  Definition still_check (comps : Components b64) (v : Values b64) (tol : ConvergenceTolerance b64)
      (o : outcome (State b64)) : bool :=
    match o with
    | Panic _ => false
    | Ret s =>
        match Pressure_from_values v, MassFlows_from_values v with
        | Ret p, Ret m =>
            match mf_chx m, mf_regen m, mf_hhx m with
            | B754_zero false, B754_zero false, B754_zero false =>
                pos (fl_cp (s_fluid s) (te_chx (s_temp s)) (pr_avg p)) &&
                match State_update s comps v tol with
                | Ret (Ok s') => all_nan s'
                | _ => false
                end
            | _, _, _ => false
            end
        | _, _ => false
        end
    end.
  Definition still_case (comps : Components b64) (v : Values b64) (tol : ConvergenceTolerance b64) : Prop :=
    exists s p m s', Pressure_from_values v = Ret p /\ MassFlows_from_values v = Ret m /\
      mf_chx m = B754_zero false /\ mf_regen m = B754_zero false /\ mf_hhx m = B754_zero false /\
      finite (fl_cp (s_fluid s) (te_chx (s_temp s)) (pr_avg p)) /\
      0 < value (fl_cp (s_fluid s) (te_chx (s_temp s)) (pr_avg p)) /\
      State_update s comps v tol = Ret (Ok s') /\
      not_a_number (te_chx (s_temp s')) /\ not_a_number (te_hhx (s_temp s')) /\
      not_a_number (rt_cold (te_regen (s_temp s'))).
  Lemma still_check_sound comps v tol o : still_check comps v tol o = true -> still_case comps v tol.
  Proof.
    unfold still_check, still_case, all_nan. destruct o as [s|]; [|discriminate].
    destruct (Pressure_from_values v) as [p|] eqn:Ep; [|discriminate].
    destruct (MassFlows_from_values v) as [m|] eqn:Em; [|discriminate].
    destruct (mf_chx m) as [[|]| | |] eqn:E1; try discriminate.
    destruct (mf_regen m) as [[|]| | |] eqn:E2; try discriminate.
    destruct (mf_hhx m) as [[|]| | |] eqn:E3; try discriminate.
    rewrite andb_true_iff. intros [P H]. apply pos_sound in P as [F P].
    destruct (State_update s comps v tol) as [[s'|]|] eqn:Es; try discriminate.
    rewrite !andb_true_iff in H. destruct H as [[H1 H2] H3].
    exists s, p, m, s'. tauto.
  Qed.
End Adiabatic.

Definition case_powers : Powers b64 := mkPowers n1 n1 n1 n1.
Definition case_state_of (comps : Components b64) : outcome (State b64) :=
  State_new_hint comps helium demo_inputs.
Definition adiabatic_checked : bool :=
  match case_state_of fa_comps with
  | Ret s => check_adiabatic demo_libm true case_powers (mkEngine fa_comps s still_values)
  | Panic _ => false
  end.
Lemma adiabatic_check : adiabatic_checked = true.
Proof. vm_cast_no_check (eq_refl true). Qed.
Lemma adiabatic_case : exists s, adiabatic_engine demo_libm true case_powers (mkEngine fa_comps s still_values).
Proof.
  pose proof adiabatic_check as H. unfold adiabatic_checked in H.
  destruct (case_state_of fa_comps) as [s|]; [|discriminate H].
  exists s. exact (check_adiabatic_sound demo_libm true _ _ H).
Qed.

(** an exponential that is right at the infinities *)
Definition limit_exp (x : b64) : b64 :=
  match x with
  | B754_infinity true => B754_zero false
  | B754_infinity false => B754_infinity false
  | _ => series_exp x
  end.
Definition limit_libm : Libm := mkLibm limit_exp series_ln series_cos series_sin.
Lemma limit_exp_zero : lm_exp limit_libm (B754_infinity true) = B754_zero false.
Proof. reflexivity. Qed.
Definition fc_comps_of (lm : Libm) (nt : bool) : Components b64 :=
  let ops := b64_ops lm nt in
  mkComponents (SinusoidalDrive_ws (SinusoidalDrive_from SinConfig_default))
    (chx_FixedConductance (chx_FixedConductance_from demo_chx_fc))
    (regen_FixedConductance (regen_FixedConductance_from RegenFCConfig_default))
    (hhx_FixedConductance (hhx_FixedConductance_from demo_hhx_fc)).
Lemma still_checked :
  still_check limit_libm true (fc_comps_of limit_libm true) still_values case_tol
    (@State_new_hint b64 (b64_ops limit_libm true) (fc_comps_of limit_libm true)
       (IdealGas_Fluid (@IdealGas_new b64 (b64_ops limit_libm true) Helium)) demo_inputs) = true.
Proof. vm_cast_no_check (eq_refl true). Qed.
Lemma still_gas : still_case limit_libm true (fc_comps_of limit_libm true) still_values case_tol.
Proof. exact (still_check_sound _ _ _ _ _ _ still_checked). Qed.

(** ** 200 K and 300 K *)
Lemma lit_value (x : b64) (m : BinNums.positive) (e : Z) (r : R) :
  B2SF x = SpecFloat.S754_finite false m e -> F2R (Float radix2 (Zpos m) e) = r -> finite x /\ value x = r.
Proof.
  intros E V. split.
  - unfold finite. rewrite <- is_finite_SF_B2SF, E. reflexivity.
  - unfold value. rewrite <- SF2R_B2SF, E. exact V.
Qed.
Lemma temps_case :
  (finite (b64_lit 200 0) /\ value (b64_lit 200 0) = 200) /\
  (finite (b64_lit 300 0) /\ value (b64_lit 300 0) = 300).
Proof.
  split.
  - apply (lit_value _ 7036874417766400 (-45)); [vm_compute; reflexivity|unfold F2R; cbn; lra].
  - apply (lit_value _ 5277655813324800 (-44)); [vm_compute; reflexivity|unfold F2R; cbn; lra].
Qed.
Definition eqb64 (x y : b64) : bool :=
  match x, y with
  | B754_finite sx mx ex _, B754_finite sy my ey _ => eqb sx sy && Pos.eqb mx my && Z.eqb ex ey
  | _, _ => false
  end.
Lemma eqb64_eq (x y : b64) : eqb64 x y = true -> x = y.
Proof.
  intro H. apply B2SF_inj.
  destruct x as [| | |sx mx ex ?], y as [| | |sy my ey ?]; try discriminate H.
  cbn in *. rewrite !andb_true_iff in H. destruct H as [[H1 H2] H3].
  apply eqb_prop in H1. apply Pos.eqb_eq in H2. apply Z.eqb_eq in H3. subst. reflexivity.
Qed.
Definition norm_check (o : outcome (State b64)) : bool :=
  match o with
  | Ret s =>
      match Run_new fa_comps s with
      | Ret r => eqb64 (te_sink (s_temp s)) (b64_lit 200 0) && eqb64 (te_source (s_temp s)) (b64_lit 300 0)
                 && Beqb (ru_enth_norm r) (B754_zero false)
      | Panic _ => false
      end
  | Panic _ => false
  end.
Definition norm_state : outcome (State b64) :=
  State_new_hint fa_comps (IdealGas_Fluid (IdealGas_new Helium))
    (mkRunInputs (n_lit 10 6) (n_lit 200 0) (n_lit 300 0)).
Lemma norm_checked : norm_check norm_state = true.
Proof. vm_cast_no_check (eq_refl true). Qed.
Lemma hint_fluid (comps : Components b64) (fl : Fluid b64) (i : RunInputs b64) (s : State b64) :
  State_new_hint comps fl i = Ret s -> s_fluid s = fl.
Proof.
  unfold State_new_hint.
  destruct (ex_initial_approach (co_chx comps)); [|discriminate].
  destruct (ex_initial_approach (co_regen comps)); [|discriminate].
  destruct (ex_initial_approach (co_hhx comps)); [|discriminate].
  cbn [obind]. intro H.
  apply (f_equal (fun o => match o with Ret x => x | _ => s end)) in H. subst s. reflexivity.
Qed.
Lemma norm_of (fl : Fluid b64) (o : outcome (State b64)) : norm_check o = true ->
  (forall s, o = Ret s -> s_fluid s = fl) ->
  exists s r, s_fluid s = fl /\ Run_new fa_comps s = Ret r /\
    te_sink (s_temp s) = b64_lit 200 0 /\ te_source (s_temp s) = b64_lit 300 0 /\
    Beqb (ru_enth_norm r) (B754_zero false) = true.
Proof.
  unfold norm_check. destruct o as [s|]; [|discriminate].
  destruct (Run_new fa_comps s) as [r|] eqn:Er; [|discriminate].
  rewrite !andb_true_iff. intros [[H1 H2] H3] Hf. exists s, r.
  apply eqb64_eq in H1. apply eqb64_eq in H2. auto.
Qed.
Lemma norm_case : exists s r,
  s_fluid s = IdealGas_Fluid (IdealGas_new Helium) /\ Run_new fa_comps s = Ret r /\
  te_sink (s_temp s) = b64_lit 200 0 /\ te_source (s_temp s) = b64_lit 300 0 /\
  Beqb (ru_enth_norm r) (B754_zero false) = true.
Proof. exact (norm_of _ _ norm_checked (hint_fluid _ _ _)). Qed.

(** a decomposition that answers NaN *)
Definition nan_solver : Decomp b64 := fun _ _ => Some (vconst B754_nan).
Lemma nan_solver_answers (A : Matrix b64) (b : Vector b64) :
  exists x, nan_solver A b = Some x /\ not_a_number (vget x I0) /\ not_a_number (vget x I1) /\
    not_a_number (vget x I2) /\ not_a_number (vget x I3).
Proof. eexists. split; [reflexivity|]. repeat split. Qed.

(** 10 ms and 200 s *)
Lemma b64_1 : (finite (b64_lit 1 (-2)) /\ 0 < value (b64_lit 1 (-2)) < 128).
Proof.
  assert (H : pos (b64_lit 1 (-2)) = true) by (vm_compute; reflexivity).
  apply pos_sound in H as [F P]. split; [exact F|]. split; [exact P|].
  assert (L : Bltb (b64_lit 1 (-2)) (b64_lit 100 0) = true) by (vm_compute; reflexivity).
  apply Bltb_iff in L as (_ & _ & L).
  assert (V : finite (b64_lit 100 0) /\ value (b64_lit 100 0) = 100).
  { apply (lit_value _ 7036874417766400 (-46)); [vm_compute; reflexivity|unfold F2R; cbn; lra]. }
  destruct V as [F2 V]. rewrite (val_finite _ F), (val_finite _ F2) in L.
  unfold value in *. lra.
Qed.
Lemma guard_case :
  (finite (b64_lit 1 (-2)) /\ 0 < value (b64_lit 1 (-2)) < 128) /\
  (finite (b64_lit 200 0) /\ 128 <= value (b64_lit 200 0)).
Proof.
  split; [exact b64_1|]. destruct temps_case as [[F V] _]. split; [exact F|rewrite V; lra].
Qed.
Lemma period_case : finite (cy_period constant_cycle) /\ 0 < value (cy_period constant_cycle).
Proof. apply pos_sound. vm_compute. reflexivity. Qed.
