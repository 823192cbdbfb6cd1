(** * f64 computations on numbers of ordinary size do not overflow *)
From Coq Require Import ZArith NArith List Reals Bool Lra Lia.
From Flocq Require Import Core BinarySingleNaN.
From Verif Require Import Num ModelTypes ModelWs ModelHx ModelStateEq ModelEngine B64 Spec SpecF64 SpecRound SpecBalance
  SpecRange F64Base F64Balance F64Norm.
Import ListNotations.
Local Open Scope R_scope.

(** ** The calculus *)
Lemma rounded_bpow (e : Z) : (-1074 <= e)%Z -> rounded (bpow radix2 e) = bpow radix2 e.
Proof.
  intros H. apply round_generic; [apply valid_rnd_round_mode with (m := mode_NE)|].
  apply generic_format_bpow. unfold SpecFloat.fexp, SpecFloat.emin. lia.
Qed.
Lemma rounded_upto (x : R) (e : Z) : Rabs x <= bpow radix2 e -> (-1074 <= e)%Z -> Rabs (rounded x) <= bpow radix2 e.
Proof. intros H L. rewrite <- rounded_abs, <- (rounded_bpow e L). apply rounded_le, H. Qed.
Lemma rounded_from (x : R) (e : Z) : bpow radix2 e <= Rabs x -> (-1074 <= e)%Z -> bpow radix2 e <= Rabs (rounded x).
Proof. intros H L. rewrite <- rounded_abs, <- (rounded_bpow e L). apply rounded_le, H. Qed.
Lemma no_overflow (x : R) (e : Z) : Rabs x <= bpow radix2 e -> (-1074 <= e)%Z -> (e <= 1023)%Z -> ~ overflows (rounded x).
Proof.
  intros H L U O. pose proof (rounded_upto x e H L) as K. unfold overflows in O.
  pose proof (bpow_lt radix2 e 1024 ltac:(lia)). lra.
Qed.
Lemma bpow_mono (a b : Z) : (a <= b)%Z -> bpow radix2 a <= bpow radix2 b.
Proof. apply bpow_le. Qed.

Lemma upto_weaken (a b : Z) (x : b64) : upto a x -> (a <= b)%Z -> upto b x.
Proof. intros (F & H) L. split; [exact F|]. pose proof (bpow_mono a b L). lra. Qed.
Lemma upto_finite (a : Z) (x : b64) : upto a x -> finite x.
Proof. exact (fun H => proj1 H). Qed.

Lemma upto_mul (a b : Z) (x y : b64) : upto a x -> upto b y -> (Z.max (a + b) (-1074) <= 1023)%Z ->
  upto (Z.max (a + b) (-1074)) (Bmult mode_NE x y).
Proof.
  intros (Fx & Hx) (Fy & Hy) U.
  assert (K : Rabs (B2R x * B2R y) <= bpow radix2 (Z.max (a + b) (-1074))).
  { rewrite Rabs_mult. eapply Rle_trans; [|apply bpow_mono, Z.le_max_l]. rewrite bpow_plus.
    apply Rmult_le_compat; try apply Rabs_pos; assumption. }
  destruct (mult_cases x y Fx Fy) as [(_ & F & V)|(O & _)].
  - split; [exact F|]. unfold value. rewrite V. apply rounded_upto; [exact K|lia].
  - exfalso. exact (no_overflow _ _ K ltac:(lia) U O).
Qed.
Lemma upto_sum (a b : Z) (x y : R) : Rabs x <= bpow radix2 a -> Rabs y <= bpow radix2 b ->
  Rabs (x + y) <= bpow radix2 (Z.max (Z.max a b + 1) (-1074)).
Proof.
  intros Hx Hy. eapply Rle_trans; [apply Rabs_triang|]. eapply Rle_trans; [|apply bpow_mono, Z.le_max_l].
  rewrite bpow_plus. change (bpow radix2 1) with 2.
  pose proof (bpow_mono a (Z.max a b) (Z.le_max_l _ _)). pose proof (bpow_mono b (Z.max a b) (Z.le_max_r _ _)). lra.
Qed.
Lemma upto_add (a b : Z) (x y : b64) : upto a x -> upto b y -> (Z.max (Z.max a b + 1) (-1074) <= 1023)%Z ->
  upto (Z.max (Z.max a b + 1) (-1074)) (Bplus mode_NE x y).
Proof.
  intros (Fx & Hx) (Fy & Hy) U. pose proof (upto_sum a b _ _ Hx Hy) as K.
  destruct (plus_cases x y Fx Fy) as [(_ & F & V)|(O & _)].
  - split; [exact F|]. unfold value. rewrite V. apply rounded_upto; [exact K|lia].
  - exfalso. exact (no_overflow _ _ K ltac:(lia) U O).
Qed.
Lemma upto_sub (a b : Z) (x y : b64) : upto a x -> upto b y -> (Z.max (Z.max a b + 1) (-1074) <= 1023)%Z ->
  upto (Z.max (Z.max a b + 1) (-1074)) (Bminus mode_NE x y).
Proof.
  intros (Fx & Hx) (Fy & Hy) U.
  assert (K : Rabs (B2R x - B2R y) <= bpow radix2 (Z.max (Z.max a b + 1) (-1074))).
  { apply (upto_sum a b (B2R x) (- B2R y)); [exact Hx|]. rewrite Rabs_Ropp. exact Hy. }
  destruct (minus_cases x y Fx Fy) as [(_ & F & V)|(O & _)].
  - split; [exact F|]. unfold value. rewrite V. apply rounded_upto; [exact K|lia].
  - exfalso. exact (no_overflow _ _ K ltac:(lia) U O).
Qed.
Lemma upto_opp (a : Z) (x : b64) : upto a x -> upto a (Bopp x).
Proof.
  intros (F & H). unfold upto, finite, value in *. rewrite is_finite_Bopp, B2R_Bopp, Rabs_Ropp. split; assumption.
Qed.
Lemma from_nonzero (b : Z) (y : b64) : from b y -> B2R y <> 0.
Proof. unfold from, value. intros H E. rewrite E, Rabs_R0 in H. pose proof (bpow_gt_0 radix2 b). lra. Qed.
Lemma upto_div (a b : Z) (x y : b64) : upto a x -> from b y -> (Z.max (a - b) (-1074) <= 1023)%Z ->
  upto (Z.max (a - b) (-1074)) (Bdiv mode_NE x y).
Proof.
  intros (Fx & Hx) Hy U. pose proof (from_nonzero b y Hy) as NZ.
  assert (K : Rabs (B2R x / B2R y) <= bpow radix2 (Z.max (a - b) (-1074))).
  { unfold Rdiv. rewrite Rabs_mult, Rabs_inv. eapply Rle_trans; [|apply bpow_mono, Z.le_max_l].
    unfold Zminus. rewrite bpow_plus, bpow_opp.
    apply Rmult_le_compat; [apply Rabs_pos|rewrite <- Rabs_inv; apply Rabs_pos|exact Hx|].
    apply Rinv_le_contravar; [apply bpow_gt_0|exact Hy]. }
  destruct (div_cases x y Fx NZ) as [(_ & F & V)|(O & _)].
  - split; [exact F|]. unfold value. rewrite V. apply rounded_upto; [exact K|lia].
  - exfalso. exact (no_overflow _ _ K ltac:(lia) U O).
Qed.
Lemma from_mul (a b a' b' : Z) (x y : b64) : from a x -> from b y -> upto a' x -> upto b' y ->
  (Z.max (a' + b') (-1074) <= 1023)%Z -> (-1074 <= a + b)%Z -> from (a + b) (Bmult mode_NE x y).
Proof.
  intros Hx Hy (Fx & Ux) (Fy & Uy) U L.
  assert (K : Rabs (B2R x * B2R y) <= bpow radix2 (Z.max (a' + b') (-1074))).
  { rewrite Rabs_mult. eapply Rle_trans; [|apply bpow_mono, Z.le_max_l]. rewrite bpow_plus.
    apply Rmult_le_compat; try apply Rabs_pos; assumption. }
  destruct (mult_cases x y Fx Fy) as [(_ & F & V)|(O & _)].
  - unfold from, value. rewrite V. apply rounded_from; [|exact L]. rewrite Rabs_mult, bpow_plus.
    apply Rmult_le_compat; try apply bpow_ge_0; assumption.
  - exfalso. exact (no_overflow _ _ K ltac:(lia) U O).
Qed.

(** closed numbers *)
Definition upto_check (e : Z) (x : b64) : bool :=
  match x with
  | B754_zero _ => true
  | B754_finite _ m ex _ => (Z.log2 (Zpos m) + 1 + ex <=? e)%Z
  | _ => false
  end.
Definition from_check (e : Z) (x : b64) : bool :=
  match x with
  | B754_finite _ m ex _ => (e <=? Z.log2 (Zpos m) + ex)%Z
  | _ => false
  end.
Lemma mantissa (m : positive) (ex : Z) :
  bpow radix2 (Z.log2 (Zpos m) + ex) <= IZR (Zpos m) * bpow radix2 ex < bpow radix2 (Z.log2 (Zpos m) + 1 + ex).
Proof.
  pose proof (Z.log2_spec (Zpos m) eq_refl) as (L & U). pose proof (Z.log2_nonneg (Zpos m)) as N.
  rewrite (bpow_plus radix2 (Z.log2 (Z.pos m)) ex), (bpow_plus radix2 (Z.log2 (Z.pos m) + 1) ex).
  rewrite <- (IZR_Zpower radix2 (Z.log2 (Z.pos m))) by exact N.
  rewrite <- (IZR_Zpower radix2 (Z.log2 (Z.pos m) + 1)) by lia. pose proof (bpow_gt_0 radix2 ex). split.
  - apply Rmult_le_compat_r; [lra|]. apply IZR_le, L.
  - apply Rmult_lt_compat_r; [lra|]. apply IZR_lt. exact U.
Qed.
Lemma abs_finite (s : bool) (m : positive) (ex : Z) (H : SpecFloat.bounded 53 1024 m ex = true) :
  Rabs (B2R (B754_finite s m ex H : b64)) = IZR (Zpos m) * bpow radix2 ex.
Proof.
  cbn [B2R]. unfold F2R. cbn [Fnum Fexp]. rewrite Rabs_mult, (Rabs_right (bpow radix2 ex)) by (apply Rle_ge, bpow_ge_0).
  f_equal. rewrite <- abs_IZR, abs_cond_Zopp. reflexivity.
Qed.
Lemma upto_checked (e : Z) (x : b64) : upto_check e x = true -> upto e x.
Proof.
  destruct x as [s|s| |s m ex H]; cbn [upto_check]; intros K; try discriminate K; (split; [reflexivity|]).
  - unfold value. cbn [B2R]. rewrite Rabs_R0. apply bpow_ge_0.
  - apply Z.leb_le in K. unfold value. rewrite abs_finite. pose proof (mantissa m ex).
    pose proof (bpow_mono _ _ K). lra.
Qed.
Lemma from_checked (e : Z) (x : b64) : from_check e x = true -> from e x.
Proof.
  destruct x as [s|s| |s m ex H]; cbn [from_check]; intros K; try discriminate K.
  apply Z.leb_le in K. unfold from, value. rewrite abs_finite. pose proof (mantissa m ex).
  pose proof (bpow_mono _ _ K). lra.
Qed.
Ltac zside := vm_compute; discriminate.

(** ** Gas properties *)
Definition coef_upto (e : Z) (a : arr6 b64) : Prop :=
  upto e (a6_0 a) /\ upto e (a6_1 a) /\ upto e (a6_2 a) /\ upto e (a6_3 a) /\ upto e (a6_4 a) /\ upto e (a6_5 a).
Ltac conjs := try unfold coef_upto; repeat match goal with |- _ /\ _ => split end.
Definition coef_check (e : Z) (a : arr6 b64) : bool :=
  (upto_check e (a6_0 a) && upto_check e (a6_1 a) && upto_check e (a6_2 a) && upto_check e (a6_3 a) &&
   upto_check e (a6_4 a) && upto_check e (a6_5 a))%bool.
Lemma coef_checked (e : Z) (a : arr6 b64) : coef_check e a = true -> coef_upto e a.
Proof.
  unfold coef_check. rewrite !andb_true_iff. intros (((((A & B) & C) & D) & E) & G).
  conjs; apply upto_checked; assumption.
Qed.

Lemma ordinary_temp_upto (x : b64) : ordinary_temp x -> upto 14 x /\ from 0 x.
Proof.
  intros (F & L & U). unfold upto, from. rewrite Rabs_right by lra.
  change (bpow radix2 14) with (IZR (2 ^ 14)). change (bpow radix2 0) with 1. change (2 ^ 14)%Z with 16384%Z.
  split; [split; [exact F|exact U]|exact L].
Qed.

Section Range.
  Variables (lm : Libm) (nt : bool).
  Existing Instance b64_ops.
  Let ops : NumOps b64 := b64_ops lm nt.
  Local Existing Instance ops.

  (** the same lemmas, for the operations of the number type *)
  Lemma u_mul (a b : Z) (x y : b64) : upto a x -> upto b y -> (Z.max (a + b) (-1074) <= 1023)%Z ->
    upto (Z.max (a + b) (-1074)) (n_mul x y).
  Proof. exact (upto_mul a b x y). Qed.
  Lemma u_add (a b : Z) (x y : b64) : upto a x -> upto b y -> (Z.max (Z.max a b + 1) (-1074) <= 1023)%Z ->
    upto (Z.max (Z.max a b + 1) (-1074)) (n_add x y).
  Proof. exact (upto_add a b x y). Qed.
  Lemma u_sub (a b : Z) (x y : b64) : upto a x -> upto b y -> (Z.max (Z.max a b + 1) (-1074) <= 1023)%Z ->
    upto (Z.max (Z.max a b + 1) (-1074)) (n_sub x y).
  Proof. exact (upto_sub a b x y). Qed.
  Lemma u_div (a b : Z) (x y : b64) : upto a x -> from b y -> (Z.max (a - b) (-1074) <= 1023)%Z ->
    upto (Z.max (a - b) (-1074)) (n_div x y).
  Proof. exact (upto_div a b x y). Qed.
  Lemma u_opp (a : Z) (x : b64) : upto a x -> upto a (n_opp x).
  Proof. exact (upto_opp a x). Qed.
  Lemma f_mul (a b a' b' : Z) (x y : b64) : from a x -> from b y -> upto a' x -> upto b' y ->
    (Z.max (a' + b') (-1074) <= 1023)%Z -> (-1074 <= a + b)%Z -> from (a + b) (n_mul x y).
  Proof. exact (from_mul a b a' b' x y). Qed.

  Lemma upto_poly (a : arr6 b64) (x : b64) : coef_upto 40 a -> upto 14 x -> upto 130 (poly a x).
  Proof.
    intros (A0 & A1 & A2 & A3 & A4 & A5) X. unfold poly.
    eapply upto_weaken.
    { eapply u_add; [|exact A0|]. 1: eapply u_mul; [|exact X|].
      1: eapply u_add; [|exact A1|]. 1: eapply u_mul; [|exact X|].
      1: eapply u_add; [|exact A2|]. 1: eapply u_mul; [|exact X|].
      1: eapply u_add; [|exact A3|]. 1: eapply u_mul; [|exact X|].
      1: eapply u_add; [|exact A4|]. 1: eapply u_mul; [exact A5|exact X|].
      all: zside. }
    zside.
  Qed.

  Lemma gas_constants (name : GasName) : let g := IdealGas_new name in
    upto 14 (ig_gas_constant g) /\ from 10 (ig_gas_constant g) /\ upto 8 (ig_ref_temp g) /\
    coef_upto 20 (ig_cp_coefs g) /\ coef_upto 20 (ig_enth_coefs g).
  Proof.
    destruct name; (split; [apply upto_checked; vm_cast_no_check (eq_refl true)|]);
      (split; [apply from_checked; vm_cast_no_check (eq_refl true)|]);
      (split; [apply upto_checked; vm_cast_no_check (eq_refl true)|]);
      split; apply coef_checked; vm_cast_no_check (eq_refl true).
  Qed.
  Lemma coef_weaken (a b : Z) (x : arr6 b64) : coef_upto a x -> (a <= b)%Z -> coef_upto b x.
  Proof. intros (A & B & C & D & E & G) L. conjs; eapply upto_weaken; eassumption. Qed.

  Lemma one_upto : upto 1 n1.
  Proof. apply upto_checked. vm_cast_no_check (eq_refl true). Qed.
  Lemma zero_upto : upto 0 n0.
  Proof. apply upto_checked. vm_cast_no_check (eq_refl true). Qed.
  Lemma half_upto : upto 0 nhalf.
  Proof. apply upto_checked. vm_cast_no_check (eq_refl true). Qed.

  Lemma upto_enth (name : GasName) (T P : b64) : ordinary_temp T -> upto 130 (ig_enth (IdealGas_new name) T P).
  Proof.
    intros HT. destruct (ordinary_temp_upto T HT) as (UT & _).
    destruct (gas_constants name) as (_ & _ & UR & _ & C0 & C1 & C2 & C3 & C4 & C5).
    unfold ig_enth. apply upto_poly; [|exact UT].
    assert (D : upto 15 (n_sub T (ig_ref_temp (IdealGas_new name)))).
    { eapply upto_weaken; [eapply u_sub; [exact UT|exact UR|zside]|zside]. }
    conjs; cbn [arr6_map a6_0 a6_1 a6_2 a6_3 a6_4 a6_5];
      (eapply upto_weaken; [eapply u_mul; [eassumption|exact D|zside]|zside]).
  Qed.
  Lemma upto_inte (name : GasName) (T P : b64) : ordinary_temp T -> upto 131 (ig_inte (IdealGas_new name) T P).
  Proof.
    intros HT. pose proof (upto_enth name T P HT) as UE. destruct (ordinary_temp_upto T HT) as (UT & _).
    destruct (gas_constants name) as (UG & _ & UR & _). unfold ig_inte. cbv zeta.
    eapply upto_weaken.
    { eapply u_sub; [exact UE|eapply u_mul; [exact UG|eapply u_sub; [exact UT|exact UR|zside]|zside]|zside]. }
    zside.
  Qed.
  Lemma upto_cp (name : GasName) (T P : b64) : ordinary_temp T -> upto 130 (ig_cp (IdealGas_new name) T P).
  Proof.
    intros HT. destruct (ordinary_temp_upto T HT) as (UT & _). destruct (gas_constants name) as (_ & _ & _ & C & _).
    apply upto_poly; [eapply coef_weaken; [exact C|zside]|exact UT].
  Qed.
  Lemma from_RT (name : GasName) (T : b64) : ordinary_temp T -> from 10 (n_mul (ig_gas_constant (IdealGas_new name)) T).
  Proof.
    intros HT. destruct (ordinary_temp_upto T HT) as (UT & LT). destruct (gas_constants name) as (UG & LG & _).
    change 10%Z with (10 + 0)%Z. eapply f_mul; [exact LG|exact LT|exact UG|exact UT|zside|zside].
  Qed.
  Lemma upto_dens (name : GasName) (T P : b64) : ordinary_temp T -> ordinary_pres P -> upto 30 (ig_dens (IdealGas_new name) T P).
  Proof.
    intros HT HP. unfold ig_dens. eapply upto_weaken; [eapply u_div; [exact HP|exact (from_RT name T HT)|zside]|zside].
  Qed.
  Lemma upto_dd_dP (name : GasName) (T P : b64) : ordinary_temp T -> upto 0 (ig_dd_dP_T (IdealGas_new name) T P).
  Proof.
    intros HT. unfold ig_dd_dP_T.
    eapply upto_weaken; [eapply u_div; [exact one_upto|exact (from_RT name T HT)|zside]|zside].
  Qed.
  Lemma upto_dd_dT (name : GasName) (T P : b64) : ordinary_temp T -> ordinary_pres P ->
    upto 30 (ig_dd_dT_P (IdealGas_new name) T P).
  Proof.
    intros HT HP. unfold ig_dd_dT_P, powi2. destruct (ordinary_temp_upto T HT) as (UT & LT).
    destruct (gas_constants name) as (UG & LG & _).
    assert (U2 : upto 28 (n_mul T T)) by (eapply upto_weaken; [eapply u_mul; [exact UT|exact UT|zside]|zside]).
    assert (L2 : from 0 (n_mul T T)).
    { change 0%Z with (0 + 0)%Z. eapply f_mul; [exact LT|exact LT|exact UT|exact UT|zside|zside]. }
    eapply upto_weaken; [eapply u_div; [apply u_opp; exact HP|eapply f_mul; [exact LG|exact L2|exact UG|exact U2|zside|zside]|zside]|zside].
  Qed.
  Lemma upto_du_dT (name : GasName) (T P : b64) : ordinary_temp T -> upto 131 (ig_du_dT_P (IdealGas_new name) T P).
  Proof.
    intros HT. unfold ig_du_dT_P. cbv zeta. pose proof (upto_cp name T P HT) as UC. destruct (gas_constants name) as (UG & _).
    eapply upto_weaken; [eapply u_sub; [exact UC|exact UG|zside]|zside].
  Qed.

  Theorem properties_finite (name : GasName) (T P : b64) : ordinary_temp T -> ordinary_pres P ->
    finite_properties (IdealGas_Fluid (IdealGas_new name)) T P.
  Proof.
    intros HT HP. unfold finite_properties. cbn [IdealGas_Fluid fl_dens fl_inte fl_enth fl_cp fl_dd_dP_T fl_dd_dT_P fl_du_dP_T fl_du_dT_P].
    repeat apply Forall_cons; try apply Forall_nil.
    - exact (upto_finite _ _ (upto_dens name T P HT HP)).
    - exact (upto_finite _ _ (upto_inte name T P HT)).
    - exact (upto_finite _ _ (upto_enth name T P HT)).
    - exact (upto_finite _ _ (upto_cp name T P HT)).
    - exact (upto_finite _ _ (upto_dd_dP name T P HT)).
    - exact (upto_finite _ _ (upto_dd_dT name T P HT HP)).
    - exact (upto_finite _ _ zero_upto).
    - exact (upto_finite _ _ (upto_du_dT name T P HT)).
  Qed.

  (** ** The state equations *)
  Definition ws_upto (w : WorkingSpaceIn b64) : Prop :=
    upto 10 (wi_vol w) /\ upto 30 (wi_dens w) /\ upto 131 (wi_inte w) /\ upto 130 (wi_enth w) /\ upto 0 (wi_dd_dP_T w) /\
    upto 30 (wi_dd_dT_P w) /\ upto 0 (wi_du_dP_T w) /\ upto 131 (wi_du_dT_P w) /\ upto 40 (wi_dV_dt w) /\ upto 40 (wi_Q_dot w).
  Definition hx_upto (x : HeatExchangerIn b64) : Prop :=
    upto 10 (hi_vol x) /\ upto 30 (hi_dens x) /\ upto 131 (hi_inte x) /\ upto 130 (hi_enth x) /\ upto 0 (hi_dd_dP_T x) /\
    upto 0 (hi_du_dP_T x).
  Definition reg_upto (x : RegeneratorIn b64) : Prop :=
    upto 10 (gi_vol x) /\ upto 30 (gi_dens x) /\ upto 131 (gi_inte x) /\ upto 130 (gi_enth_cold x) /\ upto 130 (gi_enth_hot x) /\
    upto 0 (gi_dd_dP_T x) /\ upto 0 (gi_du_dP_T x).
  Definition inputs_upto (i : Inputs b64) : Prop :=
    upto 40 (in_pres i) /\ from (-20) (in_enth_norm i) /\ ws_upto (in_comp i) /\ hx_upto (in_chx i) /\
    reg_upto (in_regen i) /\ hx_upto (in_hhx i) /\ ws_upto (in_exp i).

  Lemma upto_mass (V d : b64) : upto 10 V -> upto 30 d -> finite (n_mul V d).
  Proof. intros A B. eapply upto_finite, u_mul; [exact A|exact B|zside]. Qed.
  Lemma upto_energy (V dens du inte dd hn : b64) : upto 10 V -> upto 30 dens -> upto 131 du -> upto 131 inte -> upto 30 dd ->
    from (-20) hn -> finite (n_div (n_mul V (n_add (n_mul dens du) (n_mul inte dd))) hn).
  Proof.
    intros A B C D E H. eapply upto_finite, u_div; [|exact H|].
    - eapply u_mul; [exact A| |].
      + eapply u_add; [eapply u_mul; [exact B|exact C|zside]|eapply u_mul; [exact D|exact E|zside]|zside].
      + zside.
    - zside.
  Qed.
  Lemma upto_ratio (h hn : b64) : upto 130 h -> from (-20) hn -> upto 150 (n_div h hn).
  Proof. intros A H. eapply upto_weaken; [eapply u_div; [exact A|exact H|zside]|zside]. Qed.
  Lemma upto_by (d : Direction) (x y : b64) : upto 150 x -> upto 150 y -> finite (by_direction d x y).
  Proof.
    intros A B. destruct d; cbn [by_direction]; try exact (proj1 A); try exact (proj1 B).
    eapply upto_finite, u_mul; [exact half_upto|eapply u_add; [exact A|exact B|zside]|zside].
  Qed.
  Lemma upto_flux (P dens inte dV Q hn : b64) : upto 40 P -> upto 30 dens -> upto 131 inte -> upto 40 dV -> upto 40 Q ->
    from (-20) hn -> finite (n_div (n_sub (n_mul (n_opp (n_add P (n_mul dens inte))) dV) Q) hn).
  Proof.
    intros A B C D E H. eapply upto_finite, u_div; [|exact H|].
    - eapply u_sub; [|exact E|].
      + eapply u_mul; [apply u_opp; eapply u_add; [exact A|eapply u_mul; [exact B|exact C|zside]|zside]|exact D|zside].
      + zside.
    - zside.
  Qed.
  Lemma finite_opp (x : b64) : finite x -> finite (n_opp x).
  Proof. unfold finite. cbn [n_opp ops b64_ops]. rewrite is_finite_Bopp. exact (fun H => H). Qed.

  Theorem system_finite (i : Inputs b64) (s : Solution b64) : inputs_upto i -> finite_system i s.
  Proof.
    intros (UP & HN & C & K & R & L & X).
    destruct C as (c1 & c2 & c3 & c4 & c5 & c6 & c7 & c8 & c9 & c10).
    destruct K as (k1 & k2 & k3 & k4 & k5 & k6).
    destruct R as (r1 & r2 & r3 & r4 & r5 & r6 & r7).
    destruct L as (l1 & l2 & l3 & l4 & l5 & l6).
    destruct X as (x1 & x2 & x3 & x4 & x5 & x6 & x7 & x8 & x9 & x10).
    pose proof (upto_finite _ _ one_upto) as O. pose proof (upto_finite _ _ zero_upto) as Z.
    pose proof (finite_opp _ O) as MO.
    assert (D1 : finite (n_div n1 (in_enth_norm i))) by (eapply upto_finite, u_div; [exact one_upto|exact HN|zside]).
    assert (D2 : finite (n_div (n_opp n1) (in_enth_norm i)))
      by (eapply upto_finite, u_div; [apply u_opp; exact one_upto|exact HN|zside]).
    set (d := signs s).
    pose proof (upto_by (fd_ck d) _ _ (upto_ratio _ _ c4 HN) (upto_ratio _ _ k4 HN)) as H1.
    pose proof (upto_by (fd_kr d) _ _ (upto_ratio _ _ k4 HN) (upto_ratio _ _ r4 HN)) as H2.
    pose proof (upto_by (fd_rl d) _ _ (upto_ratio _ _ r5 HN) (upto_ratio _ _ l4 HN)) as H3.
    pose proof (upto_by (fd_le d) _ _ (upto_ratio _ _ l4 HN) (upto_ratio _ _ x4 HN)) as H4.
    pose proof (finite_opp _ H1) as H1'. pose proof (finite_opp _ H2) as H2'.
    pose proof (finite_opp _ H3) as H3'. pose proof (finite_opp _ H4) as H4'.
    assert (W : forall x, upto 0 x -> upto 30 x) by (intros y Hy; eapply upto_weaken; [exact Hy|zside]).
    assert (W' : forall x, upto 0 x -> upto 131 x) by (intros y Hy; eapply upto_weaken; [exact Hy|zside]).
    unfold finite_system, all10, directed_matrix. fold d.
    set (h1 := by_direction (fd_ck d) _ _) in *. set (h2 := by_direction (fd_kr d) _ _) in *.
    set (h3 := by_direction (fd_rl d) _ _) in *. set (h4 := by_direction (fd_le d) _ _) in *.
    unfold state_matrix, state_rhs.
    cbn [v0 v1 v2 v3 v4 v5 v6 v7 v8 v9].
    conjs; try assumption;
      lazymatch goal with
      | |- finite (n_mul (n_opp _) _) => eapply upto_finite, u_mul; [apply u_opp; eassumption|eassumption|zside]
      | |- finite (n_mul _ _) => apply upto_mass; first [assumption | apply W; assumption]
      | |- finite (n_div (n_mul _ _) _) =>
          apply upto_energy; first [assumption | apply W; assumption | apply W'; assumption]
      | |- finite (n_div (n_sub _ _) _) => apply upto_flux; assumption
      end.
  Qed.

  (** ** Engines *)
  Theorem inputs_of_run (name : GasName) (r : Run b64) (t : b64) (c : Conditions b64) :
    ru_fluid r = IdealGas_Fluid (IdealGas_new name) -> ordinary_run r -> ordinary_conditions c ->
    ordinary_volume (fst (ru_ws_vol_fn r t)) -> ordinary_volume (snd (ru_ws_vol_fn r t)) ->
    inputs_upto (Run_calculate_inputs r t c).
  Proof.
    intros Efl (HT & HV & HQ & HN) (HP & HTc & HTe) (V1 & V1') (V2 & V2').
    unfold temperatures in HT. inversion_clear HT as [|? ? T1 HT1]. inversion_clear HT1 as [|? ? T2 HT2].
    inversion_clear HT2 as [|? ? T3 HT3]. inversion_clear HT3 as [|? ? T4 HT4]. inversion_clear HT4 as [|? ? T5 _].
    inversion_clear HV as [|? ? v1 HV1]. inversion_clear HV1 as [|? ? v2 HV2]. inversion_clear HV2 as [|? ? v3 _].
    inversion_clear HQ as [|? ? q1 HQ1]. inversion_clear HQ1 as [|? ? q2 _].
    unfold Run_calculate_inputs. destruct (ru_ws_vol_fn r t) as [vc ve]. cbn [fst snd] in *.
    unfold inputs_upto, ws_upto, hx_upto, reg_upto, comp_inputs, chx_inputs, regen_inputs, hhx_inputs, exp_inputs.
    cbn [in_pres in_enth_norm in_comp in_chx in_regen in_hhx in_exp wi_vol wi_dens wi_inte wi_enth wi_dd_dP_T wi_dd_dT_P
         wi_du_dP_T wi_du_dT_P wi_dV_dt wi_Q_dot hi_vol hi_dens hi_inte hi_enth hi_dd_dP_T hi_du_dP_T
         gi_vol gi_dens gi_inte gi_enth_cold gi_enth_hot gi_dd_dP_T gi_du_dP_T].
    rewrite !Efl. cbn [IdealGas_Fluid fl_dens fl_inte fl_enth fl_dd_dP_T fl_dd_dT_P fl_du_dP_T fl_du_dT_P].
    assert (U0 : forall T P, upto 0 (ig_du_dP_T (IdealGas_new name) T P)) by (intros; exact zero_upto).
    conjs;
      lazymatch goal with
      | |- upto _ (ig_du_dP_T _ _ _) => apply U0
      | |- upto _ (ig_dens _ _ _) => apply upto_dens; assumption
      | |- upto _ (ig_inte _ _ _) => apply upto_inte; assumption
      | |- upto _ (ig_enth _ _ _) => apply upto_enth; assumption
      | |- upto _ (ig_dd_dP_T _ _ _) => apply upto_dd_dP; assumption
      | |- upto _ (ig_dd_dT_P _ _ _) => apply upto_dd_dT; assumption
      | |- upto _ (ig_du_dT_P _ _ _) => apply upto_du_dT; assumption
      | |- _ => assumption
      end.
  Qed.
  Theorem run_system_finite (name : GasName) (r : Run b64) (t : b64) (c : Conditions b64) (s : Solution b64) :
    ru_fluid r = IdealGas_Fluid (IdealGas_new name) -> ordinary_run r -> ordinary_conditions c ->
    ordinary_volume (fst (ru_ws_vol_fn r t)) -> ordinary_volume (snd (ru_ws_vol_fn r t)) ->
    finite_system (Run_calculate_inputs r t c) s.
  Proof. intros. eapply system_finite, inputs_of_run; eassumption. Qed.

  Lemma unit_upto (x : b64) : finite x -> -1 <= value x <= 1 -> upto 0 x.
  Proof. intros F H. split; [exact F|]. change (bpow radix2 0) with 1. apply Rabs_le. lra. Qed.
  Theorem drive_volumes (d : SinusoidalDrive b64) (t : b64) :
    cosine_bounded lm -> sine_bounded lm -> ordinary_drive d -> upto 40 t ->
    ordinary_volume (fst (sin_volumes d t)) /\ ordinary_volume (snd (sin_volumes d t)).
  Proof.
    intros HC HS (UF & UA & G) UT.
    inversion_clear G as [|? ? (Gc & Gs) G1]. inversion_clear G1 as [|? ? (Ec & Es) _].
    set (omega := n_mul (n_mul (n_lit 2 0) n_pi) (sd_frequency d)).
    assert (UO : upto 25 omega).
    { eapply upto_weaken; [eapply u_mul; [apply (upto_checked 5); vm_cast_no_check (eq_refl true)|exact UF|zside]|zside]. }
    set (theta := n_mul omega t).
    assert (Uth : upto 65 theta) by (eapply upto_weaken; [eapply u_mul; [exact UO|exact UT|zside]|zside]).
    set (phase := n_div (n_mul (sd_phase_angle d) n_pi) (n_lit 180 0)).
    assert (Uph : upto 30 phase).
    { eapply upto_weaken; [eapply u_div; [eapply u_mul; [exact UA|apply (upto_checked 2); vm_cast_no_check (eq_refl true)|zside]
                           |apply (from_checked 7); vm_cast_no_check (eq_refl true)|zside]|zside]. }
    assert (Us : finite (n_add theta phase)) by (eapply upto_finite, u_add; [exact Uth|exact Uph|zside]).
    assert (M : upto 0 (n_opp nhalf)) by (apply u_opp; exact half_upto).
    assert (K : forall clear swept a, upto 7 clear -> upto 7 swept -> finite a ->
      upto 10 (n_add clear (n_mul (n_mul nhalf swept) (n_add n1 (n_cos a)))) /\
      upto 40 (n_mul (n_mul (n_mul (n_opp nhalf) swept) (n_sin a)) omega)).
    { intros clear swept a A B F. destruct (HC a F) as (FC & BC). destruct (HS a F) as (FS & BS).
      pose proof (unit_upto _ FC BC) as UC. pose proof (unit_upto _ FS BS) as US. split.
      - assert (P2 : upto 2 (n_add n1 (n_cos a))).
        { eapply upto_weaken; [eapply u_add; [exact one_upto|exact UC|zside]|zside]. }
        eapply upto_weaken; [eapply u_add; [exact A|eapply u_mul; [eapply u_mul; [exact half_upto|exact B|zside]|exact P2|zside]|zside]|zside].
      - eapply upto_weaken; [eapply u_mul; [eapply u_mul; [eapply u_mul; [exact M|exact B|zside]|exact US|zside]|exact UO|zside]|zside]. }
    split; [exact (K _ _ theta Gc Gs (upto_finite _ _ Uth))|exact (K _ _ _ Ec Es Us)].
  Qed.

  Lemma run_parts (comps : Components b64) (st : State b64) (r : Run b64) : Run_new comps st = Ret r ->
    ru_fluid r = s_fluid st /\ ru_temp r = s_temp st /\
    ex_volume (co_chx comps) = Ret (ru_vol_chx r) /\ ex_volume (co_regen comps) = Ret (ru_vol_regen r) /\
    ex_volume (co_hhx comps) = Ret (ru_vol_hhx r) /\
    ws_parasitics (co_ws comps) (State_ws st) = Ret (ru_ws_parasitics r) /\
    ws_volumes (co_ws comps) (State_ws st) = Ret (ru_ws_vol_fn r) /\
    ru_enth_norm r = n_mul nhalf (n_add (fl_enth (s_fluid st) (te_sink (s_temp st)) (pr_avg (s_pres st)))
                                        (fl_enth (s_fluid st) (te_source (s_temp st)) (pr_avg (s_pres st)))).
  Proof.
    unfold Run_new.
    destruct (ex_volume (co_chx comps)) as [v1|]; [|discriminate]. cbn [obind].
    destruct (ex_volume (co_regen comps)) as [v2|]; [|discriminate]. cbn [obind].
    destruct (ex_volume (co_hhx comps)) as [v3|]; [|discriminate]. cbn [obind].
    destruct (ws_frequency (co_ws comps) (State_ws st)) as [f|]; [|discriminate]. cbn [obind].
    destruct (ws_volumes (co_ws comps) (State_ws st)) as [vf|]; [|discriminate]. cbn [obind].
    destruct (ws_parasitics (co_ws comps) (State_ws st)) as [pp|]; [|discriminate]. cbn [obind].
    intros H. apply (f_equal (fun o => match o with Ret x => x | _ => r end)) in H. subst r. repeat split.
  Qed.
  Lemma engine_run (name : GasName) (comps : Components b64) (d : SinusoidalDrive b64) (st : State b64) (r : Run b64) :
    co_ws comps = SinusoidalDrive_ws d -> Run_new comps st = Ret r ->
    s_fluid st = IdealGas_Fluid (IdealGas_new name) -> ordinary_engine comps d st ->
    from (-20) (ru_enth_norm r) ->
    ru_fluid r = IdealGas_Fluid (IdealGas_new name) /\ ordinary_run r /\ ru_ws_vol_fn r = sin_volumes d.
  Proof.
    intros Ew HR Ef (HD & HQ & HV & HT & _) HN.
    destruct (run_parts _ _ _ HR) as (E1 & E2 & E3 & E4 & E5 & E6 & E7 & _).
    rewrite Ew in E6, E7. cbn [SinusoidalDrive_ws ws_parasitics ws_volumes] in E6, E7.
    apply (f_equal (fun o => match o with Ret x => x | _ => ru_ws_parasitics r end)) in E6.
    apply (f_equal (fun o => match o with Ret x => x | _ => ru_ws_vol_fn r end)) in E7.
    rewrite E1. split; [exact Ef|]. split; [|symmetry; exact E7]. unfold ordinary_run. rewrite E2, <- E6.
    split; [exact HT|]. split; [|split; [exact HQ|exact HN]].
    repeat apply Forall_cons; try apply Forall_nil; apply HV.
    - rewrite <- E3. left. reflexivity.
    - rewrite <- E4. right. left. reflexivity.
    - rewrite <- E5. right. right. left. reflexivity.
  Qed.
  Theorem engine_system_finite (name : GasName) (comps : Components b64) (d : SinusoidalDrive b64) (st : State b64)
      (r : Run b64) (t : b64) (c : Conditions b64) (s : Solution b64) :
    cosine_bounded lm -> sine_bounded lm -> co_ws comps = SinusoidalDrive_ws d -> Run_new comps st = Ret r ->
    s_fluid st = IdealGas_Fluid (IdealGas_new name) -> ordinary_engine comps d st ->
    from (-20) (ru_enth_norm r) -> upto 40 t -> ordinary_conditions c ->
    finite_system (Run_calculate_inputs r t c) s.
  Proof.
    intros HC HS Ew HR Ef HE HN Ht Hc. destruct (engine_run _ _ _ _ _ Ew HR Ef HE HN) as (E1 & HO & E2).
    destruct (drive_volumes d t HC HS (proj1 HE) Ht) as (V1 & V2).
    eapply run_system_finite; try eassumption; rewrite E2; assumption.
  Qed.
  Theorem engine_balances (name : GasName) (comps : Components b64) (d : SinusoidalDrive b64) (st : State b64)
      (r : Run b64) (t : b64) (c : Conditions b64) (D : Decomp b64) (e : R) (hint : FlowDirection) (s : Solution b64) :
    cosine_bounded lm -> sine_bounded lm -> co_ws comps = SinusoidalDrive_ws d -> Run_new comps st = Ret r ->
    s_fluid st = IdealGas_Fluid (IdealGas_new name) -> ordinary_engine comps d st ->
    from (-20) (ru_enth_norm r) -> upto 40 t -> ordinary_conditions c ->
    let i := Run_calculate_inputs r t c in
    careful D e i -> 0 <= e -> solve D i hint = Ok s -> finite_solution s ->
    nearly_conserves e (input_values i) (solution_values s).
  Proof.
    intros HC HS Ew HR Ef HE HN Ht Hc i HD He Hs HF.
    refine (balances lm nt D e i hint s HD He Hs _ HF _).
    - exact (engine_system_finite name comps d st r t c s HC HS Ew HR Ef HE HN Ht Hc).
    - unfold i, Run_calculate_inputs. destruct (ru_ws_vol_fn r t). cbn [in_enth_norm].
      exact (from_nonzero _ _ HN).
  Qed.

  (** ** The norm of the enthalpies *)
  Theorem norm_finite (name : GasName) (comps : Components b64) (st : State b64) (r : Run b64) :
    Run_new comps st = Ret r -> s_fluid st = IdealGas_Fluid (IdealGas_new name) ->
    ordinary_temp (te_sink (s_temp st)) -> ordinary_temp (te_source (s_temp st)) -> finite (ru_enth_norm r).
  Proof.
    intros HR Ef H1 H2. destruct (run_parts _ _ _ HR) as (_ & _ & _ & _ & _ & _ & _ & ->).
    rewrite Ef. cbn [IdealGas_Fluid fl_enth]. eapply upto_finite, u_mul; [exact half_upto| |].
    - eapply u_add; [apply upto_enth; exact H1|apply upto_enth; exact H2|zside].
    - zside.
  Qed.

  (** helium above 251 K *)
  Lemma helium_enth_from (T P : b64) : ordinary_temp T -> 251 <= value T ->
    upto 130 (ig_enth (IdealGas_new Helium) T P) /\ bpow radix2 12 <= value (ig_enth (IdealGas_new Helium) T P).
  Proof.
    intros HT L. split; [exact (upto_enth Helium T P HT)|].
    destruct (ordinary_temp_upto T HT) as (UT & _). destruct lit_250 as [L250 F250]. destruct helium_cp_value as [Lcp Fcp].
    assert (UD : upto 15 (n_sub T (n_lit 250 0))).
    { eapply upto_weaken; [eapply u_sub; [exact UT|apply (upto_checked 8); vm_cast_no_check (eq_refl true)|zside]|zside]. }
    assert (V : 1 <= B2R (n_sub T (n_lit 250 0))).
    { destruct (minus_cases T (b64_lit 250 0) (proj1 UT) F250) as [(_ & _ & V)|(_ & s & O)].
      - change (n_sub T (n_lit 250 0)) with (Bminus mode_NE T (b64_lit 250 0)). rewrite V, L250.
        change 1 with (bpow radix2 0). rewrite <- (rounded_bpow 0) by lia. apply rounded_le.
        change (bpow radix2 0) with 1. unfold value in L. lra.
      - exfalso. destruct UD as (F & _). change (n_sub T (n_lit 250 0)) with (Bminus mode_NE T (b64_lit 250 0)) in F.
        rewrite O in F. discriminate F. }
    destruct (helium_enth lm nt T P (proj1 UT) (proj1 UD)) as (z & Z & E).
    refine (eq_ind_r (fun h => bpow radix2 12 <= B2R h) _ E). clear E.
    assert (UM : upto 30 (n_mul (n_lit 519317 (-2)) (n_sub T (n_lit 250 0)))).
    { eapply upto_weaken; [eapply u_mul; [apply (upto_checked 13); vm_cast_no_check (eq_refl true)|exact UD|zside]|zside]. }
    refine (eq_ind_r (fun v => bpow radix2 12 <= v) _ (proj2 (plus_zero_value lm nt z _ Z (proj1 UM)))).
    destruct (mult_cases (b64_lit 519317 (-2)) (n_sub T (n_lit 250 0)) Fcp (proj1 UD)) as [(_ & _ & V2)|(_ & s & O)].
    - change (n_mul (n_lit 519317 (-2)) (n_sub T (n_lit 250 0))) with (Bmult mode_NE (b64_lit 519317 (-2)) (n_sub T (n_lit 250 0))).
      rewrite V2. rewrite <- (rounded_bpow 12) by lia. apply rounded_le. change (bpow radix2 12) with 4096.
      apply Rle_trans with (5193 * 1); [lra|]. apply Rmult_le_compat; lra.
    - exfalso. destruct UM as (F & _).
      change (n_mul (n_lit 519317 (-2)) (n_sub T (n_lit 250 0))) with (Bmult mode_NE (b64_lit 519317 (-2)) (n_sub T (n_lit 250 0))) in F.
      rewrite O in F. discriminate F.
  Qed.
  Theorem helium_norm (comps : Components b64) (st : State b64) (r : Run b64) :
    Run_new comps st = Ret r -> s_fluid st = IdealGas_Fluid (IdealGas_new Helium) ->
    ordinary_temp (te_sink (s_temp st)) -> ordinary_temp (te_source (s_temp st)) ->
    251 <= value (te_sink (s_temp st)) -> 251 <= value (te_source (s_temp st)) -> from (-20) (ru_enth_norm r).
  Proof.
    intros HR Ef H1 H2 L1 L2. destruct (run_parts _ _ _ HR) as (_ & _ & _ & _ & _ & _ & _ & ->).
    rewrite Ef. cbn [IdealGas_Fluid fl_enth].
    destruct (helium_enth_from _ (pr_avg (s_pres st)) H1 L1) as (U1 & B1).
    destruct (helium_enth_from _ (pr_avg (s_pres st)) H2 L2) as (U2 & B2).
    revert U1 B1 U2 B2. generalize (ig_enth (IdealGas_new Helium) (te_sink (s_temp st)) (pr_avg (s_pres st))),
      (ig_enth (IdealGas_new Helium) (te_source (s_temp st)) (pr_avg (s_pres st))). intros h1 h2 U1 B1 U2 B2.
    assert (US : upto 131 (n_add h1 h2)) by (eapply upto_weaken; [eapply u_add; [exact U1|exact U2|zside]|zside]).
    assert (FS : from 12 (n_add h1 h2)).
    { destruct (plus_cases h1 h2 (proj1 U1) (proj1 U2)) as [(_ & _ & V)|(_ & s & O)].
      - unfold from, value. change (n_add h1 h2) with (Bplus mode_NE h1 h2). rewrite V. apply rounded_from; [|lia].
        pose proof (bpow_gt_0 radix2 12). unfold value in B1, B2. rewrite Rabs_right; lra.
      - exfalso. destruct US as (F & _). change (n_add h1 h2) with (Bplus mode_NE h1 h2) in F. rewrite O in F. discriminate F. }
    assert (K : from (-1 + 12) (n_mul nhalf (n_add h1 h2))).
    { eapply f_mul; [|exact FS|exact half_upto|exact US|zside|zside].
      apply (from_checked (-1)). vm_cast_no_check (eq_refl true). }
    unfold from in *. eapply Rle_trans; [|exact K]. apply bpow_mono. lia.
  Qed.
End Range.
