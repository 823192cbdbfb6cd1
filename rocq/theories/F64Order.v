(** * Orderings that survive rounding: temperatures and volumes *)
From Coq Require Import ZArith NArith List Reals Bool Lra Lia.
From Flocq Require Import Core BinarySingleNaN Mult_error.
From Verif Require Import Num ModelTypes ModelWs ModelHx ModelStateEq ModelEngine ModelApi Spec SpecLoop SpecApi
  PolyRun PolyMore PolyApi B64 SpecF64 SpecSeries SpecRound F64Base F64Conv F64Err Fixture Demo F64Case.
Import ListNotations.
Local Open Scope R_scope.

Section Order.
  Context (lm : Libm) (nt : bool).
  #[local] Instance oops : NumOps b64 := b64_ops lm nt.

  Lemma add_up (x a : b64) : finite (n_add x a) -> (finite a -> 0 <= value a) -> value x <= value (n_add x a).
  Proof.
    intros F H. destruct (plus_finite x a F) as (_ & Fa & V). specialize (H Fa). unfold value in *.
    cbn [n_add oops b64_ops] in *. rewrite V. apply rounded_ge. lra.
  Qed.
  Lemma sub_down (x a : b64) : finite (n_sub x a) -> (finite a -> 0 <= value a) -> value (n_sub x a) <= value x.
  Proof.
    intros F H. destruct (minus_finite x a F) as (_ & Fa & V). specialize (H Fa). unfold value in *.
    cbn [n_sub oops b64_ops] in *. rewrite V. apply rounded_le_float. lra.
  Qed.
  Lemma zero_value : value (@n0 b64 oops) = 0.
  Proof.
    assert (Z : B2SF (b64_lit 0 0) = SpecFloat.S754_zero false) by (vm_compute; reflexivity).
    change (B2R (b64_lit 0 0) = 0). rewrite <- SF2R_B2SF, Z. reflexivity.
  Qed.
  Lemma le_zero (i : b64) : finite i -> n_le n0 i = Rle_bool 0 (value i).
  Proof.
    intros F. cbn [n_le oops b64_ops]. change (@n0 b64 oops) with (b64_lit 0 0).
    assert (F0 : finite (b64_lit 0 0)) by (vm_compute; reflexivity).
    rewrite (Bleb_correct 53 1024 _ _ F0 F). rewrite <- zero_value. reflexivity.
  Qed.

  (** temperatures of an engine for approaches that are not negative *)
  Theorem temperatures_ordered (sink source : b64) (ap : Approach b64) (imb : b64) :
    let T := Temperatures_from_approach sink source ap imb in
    (forall x, In x [te_chx T; te_hhx T; rt_cold (te_regen T); rt_hot (te_regen T)] -> finite x) ->
    (forall a, In a [ap_chx ap; ap_regen ap; ap_hhx ap] -> 0 <= value a) ->
    value sink <= value (te_chx T) <= value (rt_cold (te_regen T)) /\
    value (rt_hot (te_regen T)) <= value (te_hhx T) <= value source.
  Proof.
    intros T F A.
    assert (Fk : finite (te_chx T)) by (apply F; left; reflexivity).
    assert (Fh : finite (te_hhx T)) by (apply F; right; left; reflexivity).
    assert (Fc : finite (rt_cold (te_regen T))) by (apply F; right; right; left; reflexivity).
    assert (Fo : finite (rt_hot (te_regen T))) by (apply F; right; right; right; left; reflexivity).
    assert (Ak : 0 <= value (ap_chx ap)) by (apply A; left; reflexivity).
    assert (Ar : 0 <= value (ap_regen ap)) by (apply A; right; left; reflexivity).
    assert (Ah : 0 <= value (ap_hhx ap)) by (apply A; right; right; left; reflexivity).
    clear F A. unfold T, Temperatures_from_approach, regen_temp in *.
    cbn [te_chx te_hhx te_regen rt_cold rt_hot] in *.
    set (k := n_add sink (ap_chx ap)) in *. set (h := n_sub source (ap_hhx ap)) in *.
    split; split.
    - apply add_up; [exact Fk|intros _; exact Ak].
    - apply add_up; [exact Fc|]. destruct (n_le n0 imb) eqn:L; [intros _; exact Ar|].
      intros Fd. destruct (minus_finite _ _ Fd) as (_ & Fi & V). rewrite (le_zero imb Fi) in L.
      unfold value in *. cbn [n_sub oops b64_ops] in *. rewrite V. rewrite <- rounded_0. apply rounded_le.
      destruct (Rle_bool_spec 0 (B2R imb)); [discriminate L|]. lra.
    - apply sub_down; [exact Fo|]. destruct (n_le n0 imb) eqn:L; [|intros _; exact Ar].
      intros Fd. destruct (plus_finite _ _ Fd) as (_ & Fi & V). rewrite (le_zero imb Fi) in L.
      unfold value in *. cbn [n_add oops b64_ops] in *. rewrite V. rewrite <- rounded_0. apply rounded_le.
      destruct (Rle_bool_spec 0 (B2R imb)); [|discriminate L]. lra.
    - apply sub_down; [exact Fh|intros _; exact Ah].
  Qed.

  Lemma follow_ordered (sink source ak ar al : b64) (T : Temperatures b64) :
    temperatures_follow sink source ak ar al n0 T ->
    (forall x, In x (temperatures T) -> finite x) ->
    (finite ak -> 0 <= value ak) -> (finite ar -> 0 <= value ar) -> (finite al -> 0 <= value al) ->
    value sink <= value (te_chx T) <= value (rt_cold (te_regen T)) /\
    value (rt_hot (te_regen T)) <= value (te_hhx T) <= value source.
  Proof.
    intros (_ & _ & Ek & Eh & Ec & Eo & _) F Hk Hr Hl.
    assert (L : n_le (@n0 b64 oops) n0 = true) by (vm_compute; reflexivity). rewrite L in Ec, Eo.
    assert (Fk : finite (te_chx T)) by (apply F; left; reflexivity).
    assert (Fh : finite (te_hhx T)) by (apply F; right; left; reflexivity).
    assert (Fc : finite (rt_cold (te_regen T))) by (apply F; right; right; left; reflexivity).
    assert (Fo : finite (rt_hot (te_regen T))) by (apply F; right; right; right; right; left; reflexivity).
    split; split.
    - rewrite Ek in *. apply add_up; assumption.
    - rewrite Ec in *. apply add_up; assumption.
    - rewrite Eo in *. apply sub_down; [exact Fo|]. intros Fs. destruct (plus_finite _ _ Fs) as (Fr & _ & V).
      specialize (Hr Fr). unfold value in *. cbn [n_add oops b64_ops] in *. rewrite V. rewrite <- rounded_0. apply rounded_le.
      pose proof zero_value as Z. unfold value in Z. rewrite Z. lra.
    - rewrite Eh in *. apply sub_down; assumption.
  Qed.
  Theorem run_ordered (E : Env b64) (D : Decomp b64) (comps : Components b64) (fl : Fluid b64)
      (inputs : RunInputs b64) (settings : RunSettings b64) (e : Engine b64) :
    approaches_forward (co_chx comps) -> approaches_forward (co_regen comps) -> approaches_forward (co_hhx comps) ->
    Engine_run E D comps fl inputs settings = Ret (Ok e) ->
    let T := s_temp (en_state e) in
    value (ri_temp_sink inputs) <= value (te_chx T) <= value (rt_cold (te_regen T)) /\
    value (rt_hot (te_regen T)) <= value (te_hhx T) <= value (ri_temp_source inputs).
  Proof.
    intros (Ik & Ak) (Ir & Ar) (Ih & Ah) H T.
    assert (F : forall x, In x (temperatures T) -> finite x).
    { intros x I. exact (proj1 (run_temperatures lm nt E D comps fl inputs settings e H x I)). }
    destruct (run_boundary E D comps fl inputs settings e H) as (_ & _ & B1 & B2 & B3).
    destruct (run_lag E D comps fl inputs settings e H) as [(ak & ar & al & H1 & H2 & H3 & HT & _)|(s & v & _ & _ & HR & _ & _ & HI)].
    - exact (follow_ordered _ _ _ _ _ T HT F (Ik ak H1) (Ir ar H2) (Ih al H3)).
    - destruct HR as (R & ak & ar & al & _ & _ & _ & _ & H1 & H2 & H3 & HT).
      rewrite B3 in HI. rewrite <- HI in HT. pose proof HT as (S1 & S2 & _).
      rewrite <- B1, <- B2, S1, S2.
      exact (follow_ordered _ _ _ _ _ T HT F (Ak _ ak H1) (Ar _ ar H2) (Ah _ al H3)).
  Qed.

  Lemma fixed_forward (f : FixedApproach b64) : 0 <= value (fa_approach f) ->
    approaches_forward (chx_FixedApproach f) /\ approaches_forward (regen_FixedApproach f) /\
    approaches_forward (hhx_FixedApproach f).
  Proof.
    intros P. assert (K : forall a, Ret (fa_approach f) = Ret a -> finite a -> 0 <= value a).
    { intros a H _. injection H as <-. exact P. }
    split; [|split]; (split; [exact K|intros s; exact K]).
  Qed.

  (** ** Sinusoidal volumes *)
  Lemma half_pow : bpow radix2 (-1) = / 2.
  Proof. reflexivity. Qed.
  Lemma half_exact (x : b64) : finite x -> halvable x -> finite (n_mul nhalf x) /\ value (n_mul nhalf x) = value x / 2.
  Proof.
    intros F H. unfold value in *. cbn [n_mul oops b64_ops]. change (@nhalf b64 oops) with (b64_lit 5 (-1)).
    assert (Fh : finite (b64_lit 5 (-1))) by (vm_compute; reflexivity).
    assert (G : rounded (B2R (b64_lit 5 (-1)) * B2R x) = B2R x / 2).
    { rewrite half_value. replace (/ 2 * B2R x) with (B2R x * bpow radix2 (-1)) by (rewrite half_pow; ring).
      unfold rounded. rewrite round_generic; [rewrite half_pow; reflexivity|typeclasses eauto|].
      destruct H as [Z|N].
      - unfold value in Z. rewrite Z, Rmult_0_l. apply generic_format_0.
      - apply (mult_bpow_exact_FLT radix2 (-1074) 53); [exact (generic_format_B2R 53 1024 x)|].
        assert (M : (-1020 <= mag radix2 (B2R x))%Z).
        { apply (mag_ge_bpow radix2 (B2R x) (-1020)). change (-1020 - 1)%Z with (-1021)%Z.
          rewrite Rabs_right; [exact N|]. pose proof (bpow_gt_0 radix2 (-1021)). unfold value in N. lra. }
        lia. }
    destruct (mult_cases _ x Fh F) as [(_ & Fm & V)|(O & _)].
    - split; [exact Fm|]. rewrite V. exact G.
    - exfalso. rewrite G in O. unfold overflows in O. pose proof (finite_bound x F) as B.
      unfold Rdiv in O. rewrite Rabs_mult, (Rabs_right (/ 2)) in O by lra. pose proof (Rabs_pos (B2R x)). lra.
  Qed.
  Lemma lit_1 : B2R (b64_lit 1 0) = 1 /\ finite (b64_lit 1 0).
  Proof.
    assert (E : B2SF (b64_lit 1 0) = SpecFloat.S754_finite false 4503599627370496 (-52)) by (vm_compute; reflexivity).
    split; [rewrite <- SF2R_B2SF, E; unfold SF2R, F2R; cbn; lra|]. unfold finite. rewrite <- is_finite_SF_B2SF, E. reflexivity.
  Qed.
  Lemma lit_2 : B2R (b64_lit 2 0) = 2 /\ finite (b64_lit 2 0).
  Proof.
    assert (E : B2SF (b64_lit 2 0) = SpecFloat.S754_finite false 4503599627370496 (-51)) by (vm_compute; reflexivity).
    split; [rewrite <- SF2R_B2SF, E; unfold SF2R, F2R; cbn; lra|]. unfold finite. rewrite <- is_finite_SF_B2SF, E. reflexivity.
  Qed.
  Lemma not_over (x : R) (b : b64) : finite b -> Rabs x <= Rabs (B2R b) -> ~ overflows x.
  Proof. intros F L O. unfold overflows in O. pose proof (finite_bound b F). lra. Qed.
  Lemma sin_volume_bounds (clear swept c : b64) :
    finite clear -> finite swept -> 0 <= value clear -> 0 <= value swept -> halvable swept -> finite (n_add clear swept) ->
    finite c -> -1 <= value c <= 1 ->
    let V := n_add clear (n_mul (n_mul nhalf swept) (n_add n1 c)) in
    finite V /\ value clear <= value V <= value (n_add clear swept).
  Proof.
    intros Fc Fs C0 S0 H Fa Fcos B V.
    destruct (half_exact swept Fs H) as (Fh & Eh). set (h := n_mul nhalf swept) in *.
    destruct lit_1 as (E1 & F1). destruct lit_2 as (E2 & F2).
    unfold value in *. change (@n1 b64 oops) with (b64_lit 1 0) in *. subst V.
    cbn [n_add n_mul oops b64_ops] in *.
    (* 1 + cos *)
    assert (R1 : 0 <= rounded (B2R (b64_lit 1 0) + B2R c) <= 2).
    { rewrite E1. split; [rewrite <- rounded_0|rewrite <- E2; rewrite <- (rounded_id (b64_lit 2 0))]; apply rounded_le; [|rewrite E2]; lra. }
    destruct (plus_cases _ c F1 Fcos) as [(_ & Fp & V1)|(O & _)].
    2:{ exfalso. revert O. apply (not_over _ (b64_lit 2 0) F2). rewrite E2, !Rabs_right; lra. }
    rewrite <- V1 in R1. set (p := Bplus mode_NE (b64_lit 1 0) c) in *.
    (* half swept * (1 + cos) *)
    assert (R2 : 0 <= rounded (B2R h * B2R p) <= B2R swept).
    { split; [rewrite <- rounded_0|rewrite <- (rounded_id swept)]; apply rounded_le; rewrite Eh.
      - apply Rmult_le_pos; lra.
      - assert (B2R swept / 2 * B2R p <= B2R swept / 2 * 2) by (apply Rmult_le_compat_l; lra). lra. }
    destruct (mult_cases _ p Fh Fp) as [(_ & Fm & V2)|(O & _)].
    2:{ exfalso. revert O. apply (not_over _ swept Fs). rewrite !Rabs_right; lra. }
    rewrite <- V2 in R2. set (m := Bmult mode_NE h p) in *.
    destruct (plus_finite _ _ Fa) as (_ & _ & Va).
    assert (R3 : B2R clear <= rounded (B2R clear + B2R m) <= B2R (Bplus mode_NE clear swept)).
    { rewrite Va. split; [apply rounded_ge|apply rounded_le]; lra. }
    destruct (plus_cases _ m Fc Fm) as [(_ & FV & V3)|(O & _)].
    2:{ exfalso. revert O. apply (not_over _ _ Fa). rewrite !Rabs_right; lra. }
    split; [exact FV|]. rewrite V3. exact R3.
  Qed.
  Theorem sin_bounds_f64 (d : SinusoidalDrive b64) (time : b64) :
    cosine_bounded lm ->
    let theta := n_mul (n_mul (n_mul (n_lit 2 0) n_pi) (sd_frequency d)) time in
    let phase := n_div (n_mul (sd_phase_angle d) n_pi) (n_lit 180 0) in
    finite (n_add theta phase) ->
    let c := sd_comp_geometry d in let e := sd_exp_geometry d in
    (forall g, In g [c; e] -> finite (sg_clearance_volume g) /\ 0 <= value (sg_clearance_volume g) /\
       finite (sg_swept_volume g) /\ 0 <= value (sg_swept_volume g) /\ halvable (sg_swept_volume g) /\
       finite (n_add (sg_clearance_volume g) (sg_swept_volume g))) ->
    let Vc := v_value (fst (sin_volumes d time)) in let Ve := v_value (snd (sin_volumes d time)) in
    (finite Vc /\ value (sg_clearance_volume c) <= value Vc <= value (n_add (sg_clearance_volume c) (sg_swept_volume c))) /\
    (finite Ve /\ value (sg_clearance_volume e) <= value Ve <= value (n_add (sg_clearance_volume e) (sg_swept_volume e))).
  Proof.
    intros HC theta phase F c e G Vc Ve.
    pose proof (plus_finite _ _ F) as (Ft & _ & _).
    split.
    - destruct (G c (or_introl eq_refl)) as (H1 & H2 & H3 & H4 & H5 & H6). destruct (HC theta Ft) as (K1 & K2).
      exact (sin_volume_bounds _ _ _ H1 H3 H2 H4 H5 H6 K1 K2).
    - destruct (G e (or_intror (or_introl eq_refl))) as (H1 & H2 & H3 & H4 & H5 & H6). destruct (HC _ F) as (K1 & K2).
      exact (sin_volume_bounds _ _ _ H1 H3 H2 H4 H5 H6 K1 K2).
  Qed.
End Order.

(** ** Cases *)
Lemma fa_forward : approaches_forward (co_chx fa_comps) /\ approaches_forward (co_regen fa_comps) /\
  approaches_forward (co_hhx fa_comps).
Proof.
  assert (K : nonneg (fa_approach (chx_FixedApproach_from ChxFAConfig_default)) = true) by (vm_cast_no_check (eq_refl true)).
  assert (K2 : nonneg (fa_approach (regen_FixedApproach_from RegenFAConfig_default)) = true) by (vm_cast_no_check (eq_refl true)).
  assert (K3 : nonneg (fa_approach (hhx_FixedApproach_from HhxFAConfig_default)) = true) by (vm_cast_no_check (eq_refl true)).
  split; [exact (proj1 (fixed_forward _ (proj2 (nonneg_sound _ K))))|].
  split; [exact (proj1 (proj2 (fixed_forward _ (proj2 (nonneg_sound _ K2)))))|].
  exact (proj2 (proj2 (fixed_forward _ (proj2 (nonneg_sound _ K3))))).
Qed.

(** a cosine kept between -1 and 1 *)
Local Open Scope bool_scope.
Definition kept (c : b64) : b64 :=
  if is_finite c && Bleb (b64_lit (-1) 0) c && Bleb c (b64_lit 1 0) then c else b64_lit 1 0.
Definition kept_libm : Libm :=
  mkLibm (lm_exp demo_libm) (lm_ln demo_libm) (fun x => kept (lm_cos demo_libm x)) (lm_sin demo_libm).
Lemma lit_m1 : B2R (b64_lit (-1) 0) = -1 /\ finite (b64_lit (-1) 0).
Proof.
  assert (E : B2SF (b64_lit (-1) 0) = SpecFloat.S754_finite true 4503599627370496 (-52)) by (vm_compute; reflexivity).
  split; [rewrite <- SF2R_B2SF, E; unfold SF2R, F2R; cbn; lra|]. unfold finite. rewrite <- is_finite_SF_B2SF, E. reflexivity.
Qed.
Lemma kept_bounded : cosine_bounded kept_libm.
Proof.
  intros x _. change (lm_cos kept_libm x) with (kept (lm_cos demo_libm x)). unfold kept.
  destruct lit_1 as (E1 & F1). destruct lit_m1 as (Em & Fm).
  generalize (lm_cos demo_libm x) as c. intros c.
  destruct (is_finite c && Bleb (b64_lit (-1) 0) c && Bleb c (b64_lit 1 0)) eqn:K.
  - apply andb_true_iff in K as (K & U). apply andb_true_iff in K as (F & L).
    apply Bleb_iff in L as (_ & _ & L). apply Bleb_iff in U as (_ & _ & U).
    rewrite (val_finite c F) in L, U. rewrite (val_finite _ Fm) in L. rewrite (val_finite _ F1) in U.
    unfold value. rewrite Em in L. rewrite E1 in U. split; [exact F|split; assumption].
  - unfold value. rewrite E1. split; [exact F1|lra].
Qed.
Definition geometry_ok (g : SinGeometry b64) : bool :=
  nonneg (sg_clearance_volume g) && nonneg (sg_swept_volume g) &&
  Bleb (b64_norm 1 (-1021)) (sg_swept_volume g) &&
  is_finite (Bplus mode_NE (sg_clearance_volume g) (sg_swept_volume g)).
Lemma least_twice : B2R (b64_norm 1 (-1021)) = bpow radix2 (-1021) /\ finite (b64_norm 1 (-1021)).
Proof.
  assert (E : B2SF (b64_norm 1 (-1021)) = SpecFloat.S754_finite false 4503599627370496 (-1073)) by (vm_compute; reflexivity).
  split; [|unfold finite; rewrite <- is_finite_SF_B2SF, E; reflexivity].
  rewrite <- SF2R_B2SF, E. unfold SF2R. change (cond_Zopp false 4503599627370496) with (2 ^ 52)%Z.
  unfold F2R. cbn [Fnum Fexp]. change (IZR (2 ^ 52)) with (bpow radix2 52). rewrite <- bpow_plus. reflexivity.
Qed.
Lemma geometry_sound (g : SinGeometry b64) : geometry_ok g = true ->
  finite (sg_clearance_volume g) /\ 0 <= value (sg_clearance_volume g) /\
  finite (sg_swept_volume g) /\ 0 <= value (sg_swept_volume g) /\ halvable (sg_swept_volume g) /\
  finite (Bplus mode_NE (sg_clearance_volume g) (sg_swept_volume g)).
Proof.
  unfold geometry_ok. intros H. apply andb_true_iff in H as (H & Fa). apply andb_true_iff in H as (H & L).
  apply andb_true_iff in H as (H1 & H2).
  destruct (nonneg_sound _ H1) as (F1 & P1). destruct (nonneg_sound _ H2) as (F2 & P2).
  do 4 (split; [assumption|]). split; [|exact Fa]. right.
  apply Bleb_iff in L as (_ & _ & L). destruct least_twice as (E & F). rewrite (val_finite _ F), (val_finite _ F2), E in L. exact L.
Qed.
Definition quarter_turn : b64 := n_lit 375 (-5).
Definition default_drive : SinusoidalDrive b64 := SinusoidalDrive_from SinConfig_default.
Lemma drive_case :
  let ops := b64_ops kept_libm true in
  let d := default_drive in
  cosine_bounded kept_libm /\
  finite (n_add (n_mul (n_mul (n_mul (n_lit 2 0) n_pi) (sd_frequency d)) quarter_turn)
                (n_div (n_mul (sd_phase_angle d) n_pi) (n_lit 180 0))) /\
  (forall g, In g [sd_comp_geometry d; sd_exp_geometry d] ->
     finite (sg_clearance_volume g) /\ 0 <= value (sg_clearance_volume g) /\
     finite (sg_swept_volume g) /\ 0 <= value (sg_swept_volume g) /\ halvable (sg_swept_volume g) /\
     finite (n_add (sg_clearance_volume g) (sg_swept_volume g))).
Proof.
  split; [exact kept_bounded|]. split; [vm_cast_no_check (eq_refl true)|].
  intros g [<-|[<-|[]]]; apply geometry_sound; vm_cast_no_check (eq_refl true).
Qed.
