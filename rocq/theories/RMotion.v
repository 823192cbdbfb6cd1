(** * The rates of the volumes of both drives change at bounded speed *)
From Coq Require Import ZArith NArith List Reals Lra Lia.
From Verif Require Import Num ModelTypes ModelWs ModelHx ModelStateEq ModelEngine RNum SpecR SpecGas SpecKin SpecUnique
  SpecQuad SpecSample RPicard RKin RPeriod.
Local Open Scope R_scope.

(** bounded, and changing at bounded speed *)
Definition mild (f : R -> R) : Prop := exists K, 0 <= K /\ (forall t, Rabs (f t) <= K) /\ forall u v, Rabs (f u - f v) <= K * Rabs (u - v).
Lemma mild_const k : mild (fun _ => k).
Proof.
  exists (Rabs k). split; [apply Rabs_pos|]. split; [intros; lra|]. intros u v. rewrite Rminus_diag_eq, Rabs_R0 by reflexivity.
  apply Rmult_le_pos; apply Rabs_pos.
Qed.
Lemma mild_ext f g : mild f -> (forall t, g t = f t) -> mild g.
Proof. intros (K & K0 & A & B) E. exists K. split; [exact K0|]. split; intros; rewrite !E; auto. Qed.
Lemma mild_plus f g : mild f -> mild g -> mild (fun t => f t + g t).
Proof.
  intros (K & K0 & A & B) (M & M0 & C & E). exists (K + M). split; [lra|]. split.
  - intros t. eapply Rle_trans; [apply Rabs_triang|]. specialize (A t). specialize (C t). lra.
  - intros u v. replace (f u + g u - (f v + g v)) with ((f u - f v) + (g u - g v)) by ring.
    eapply Rle_trans; [apply Rabs_triang|]. specialize (B u v). specialize (E u v). lra.
Qed.
Lemma mild_mult f g : mild f -> mild g -> mild (fun t => f t * g t).
Proof.
  intros (K & K0 & A & B) (M & M0 & C & E). exists (K * M + K * M + 0). 
  assert (KM : 0 <= K * M) by (apply Rmult_le_pos; assumption). split; [lra|]. split.
  - intros t. rewrite Rabs_mult. apply Rle_trans with (K * M); [|lra].
    apply Rmult_le_compat; auto using Rabs_pos.
  - intros u v. replace (f u * g u - f v * g v) with (f u * (g u - g v) + (f u - f v) * g v) by ring.
    eapply Rle_trans; [apply Rabs_triang|]. rewrite !Rabs_mult.
    assert (Rabs (f u) * Rabs (g u - g v) <= K * (M * Rabs (u - v))) by (apply Rmult_le_compat; auto using Rabs_pos).
    assert (Rabs (f u - f v) * Rabs (g v) <= (K * Rabs (u - v)) * M) by (apply Rmult_le_compat; auto using Rabs_pos).
    lra.
Qed.
Lemma mild_scale k f : mild f -> mild (fun t => k * f t).
Proof. intros H. exact (mild_mult _ _ (mild_const k) H). Qed.
Lemma mild_minus f g : mild f -> mild g -> mild (fun t => f t - g t).
Proof. intros H H'. apply (mild_ext (fun t => f t + -1 * g t)); [exact (mild_plus _ _ H (mild_scale _ _ H'))|intros; ring]. Qed.
Lemma mild_inv m f : 0 < m -> (forall t, m <= f t) -> mild f -> mild (fun t => / f t).
Proof.
  intros m0 Hm (K & K0 & A & B). assert (I0 : 0 < / m) by (apply Rinv_0_lt_compat, m0).
  assert (Q : 0 <= K * / m * / m) by (repeat apply Rmult_le_pos; lra).
  assert (I : forall t, 0 < / f t <= / m).
  { intros t. specialize (Hm t). split; [apply Rinv_0_lt_compat; lra|apply Rinv_le_contravar; lra]. }
  exists (/ m + K * / m * / m). split; [lra|]. split.
  - intros t. rewrite Rabs_pos_eq by (specialize (I t); lra). specialize (I t). lra.
  - intros u v. pose proof (Hm u) as Hu. pose proof (Hm v) as Hv. pose proof (I u) as Iu. pose proof (I v) as Iv.
    replace (/ f u - / f v) with ((f v - f u) * (/ f u * / f v)) by (field; lra).
    rewrite Rabs_mult, (Rabs_minus_sym (f v)).
    assert (P : 0 <= / f u * / f v <= / m * / m).
    { split; [apply Rmult_le_pos; lra|]. apply Rmult_le_compat; lra. }
    rewrite (Rabs_pos_eq (/ f u * / f v)) by lra.
    assert (Rabs (f u - f v) * (/ f u * / f v) <= (K * Rabs (u - v)) * (/ m * / m)).
    { apply Rmult_le_compat; [apply Rabs_pos|lra|apply B|lra]. }
    assert (0 <= / m * Rabs (u - v)) by (apply Rmult_le_pos; [lra|apply Rabs_pos]). lra.
Qed.
Lemma mild_sqrt m f : 0 < m -> (forall t, m <= f t) -> mild f -> mild (fun t => sqrt (f t)).
Proof.
  intros m0 Hm (K & K0 & A & B). pose proof (sqrt_lt_R0 m m0) as S0.
  assert (S : forall t, sqrt m <= sqrt (f t)) by (intros t; apply sqrt_le_1_alt, Hm).
  assert (I0 : 0 < / sqrt m) by (apply Rinv_0_lt_compat, S0). pose proof (sqrt_pos K) as SK.
  assert (Q : 0 <= K * / sqrt m) by (apply Rmult_le_pos; lra).
  exists (sqrt K + K * / sqrt m). split; [lra|]. split.
  - intros t. rewrite Rabs_pos_eq by apply sqrt_pos.
    assert (sqrt (f t) <= sqrt K). { apply sqrt_le_1_alt. eapply Rle_trans; [apply Rle_abs|apply A]. } lra.
  - intros u v. pose proof (S u) as Su. pose proof (S v) as Sv.
    replace (sqrt (f u) - sqrt (f v)) with ((f u - f v) * / (sqrt (f u) + sqrt (f v))).
    2:{ pose proof (sqrt_sqrt (f u) ltac:(specialize (Hm u); lra)) as E1. pose proof (sqrt_sqrt (f v) ltac:(specialize (Hm v); lra)) as E2.
        rewrite <- E1 at 1. rewrite <- E2 at 1. field. lra. }
    rewrite Rabs_mult.
    assert (P : 0 < / (sqrt (f u) + sqrt (f v)) <= / sqrt m).
    { split; [apply Rinv_0_lt_compat; lra|apply Rinv_le_contravar; lra]. }
    rewrite (Rabs_pos_eq (/ _)) by lra.
    assert (Rabs (f u - f v) * / (sqrt (f u) + sqrt (f v)) <= (K * Rabs (u - v)) * / sqrt m).
    { apply Rmult_le_compat; [apply Rabs_pos|lra|apply B|lra]. }
    assert (0 <= sqrt K * Rabs (u - v)) by (apply Rmult_le_pos; [lra|apply Rabs_pos]). lra.
Qed.
Lemma slow F f : (forall x, derivable_pt_lim F x (f x)) -> (forall x, Rabs (f x) <= 1) -> forall x y, Rabs (F x - F y) <= Rabs (x - y).
Proof.
  intros HF Hf x y. rewrite <- (Rmult_1_l (Rabs (x - y))).
  pose proof (Rmin_l x y). pose proof (Rmin_r x y). pose proof (Rmax_l x y). pose proof (Rmax_r x y).
  apply (moves_little F f (Rmin x y) (Rmax x y)); [lra|lra|]. intros u _. auto.
Qed.
Lemma mild_wave (F f : R -> R) w p : (forall x, derivable_pt_lim F x (f x)) -> (forall x, Rabs (f x) <= 1) -> (forall x, Rabs (F x) <= 1) ->
  mild (fun t => F (w * t + p)).
Proof.
  intros HF Hf HB. pose proof (Rabs_pos w). exists (1 + Rabs w). split; [lra|]. split.
  - intros t. specialize (HB (w * t + p)). lra.
  - intros u v. eapply Rle_trans; [apply (slow F f HF Hf)|].
    replace (w * u + p - (w * v + p)) with (w * (u - v)) by ring. rewrite Rabs_mult.
    pose proof (Rabs_pos (u - v)). lra.
Qed.
Lemma abs_sin x : Rabs (sin x) <= 1.
Proof. apply Rabs_le. pose proof (SIN_bound x). lra. Qed.
Lemma abs_cos x : Rabs (cos x) <= 1.
Proof. apply Rabs_le. pose proof (COS_bound x). lra. Qed.
Lemma mild_sin w p : mild (fun t => sin (w * t + p)).
Proof. apply (mild_wave sin cos); [apply derivable_pt_lim_sin|apply abs_cos|apply abs_sin]. Qed.
Lemma mild_cos w p : mild (fun t => cos (w * t + p)).
Proof.
  apply (mild_wave cos (fun x => - sin x)); [apply derivable_pt_lim_cos| |apply abs_cos].
  intros x. rewrite Rabs_Ropp. apply abs_sin.
Qed.
Lemma mild_changes f a b : mild f -> exists K, 0 <= K /\ changes_within K f a b.
Proof.
  intros (K & K0 & _ & H). exists K. split; [exact K0|]. intros u v A B C.
  eapply Rle_trans; [apply H|]. rewrite (Rabs_pos_eq (v - u)) by lra. lra.
Qed.
Lemma mild_motion vol a b : mild (fun t => v_deriv (fst (vol t))) -> mild (fun t => v_deriv (snd (vol t))) -> steady_motion vol a b.
Proof.
  intros H H'. destruct (mild_changes _ a b H) as (K & K0 & A). destruct (mild_changes _ a b H') as (M & M0 & B).
  exists (K + M). split; intros u v X Y Z.
  - eapply Rle_trans; [apply A; assumption|]. apply Rmult_le_compat_r; lra.
  - eapply Rle_trans; [apply B; assumption|]. apply Rmult_le_compat_r; lra.
Qed.

Lemma sin_motion d a b : steady_motion (sin_volumes d) a b.
Proof.
  apply mild_motion.
  - set (w := 2 * PI * sd_frequency d).
    apply (mild_ext (fun t => (- / 2 * sg_swept_volume (sd_comp_geometry d) * w) * sin (w * t + 0))); [apply mild_scale, mild_sin|].
    intros t. rewrite Rplus_0_r, sin_comp_deriv. fold w. ring.
  - set (w := 2 * PI * sd_frequency d). set (p := sd_phase_angle d * PI / 180).
    apply (mild_ext (fun t => (- / 2 * sg_swept_volume (sd_exp_geometry d) * w) * sin (w * t + p))); [apply mild_scale, mild_sin|].
    intros t. rewrite sin_exp_deriv. fold w. fold p. ring.
Qed.
Lemma rh_motion d a b : turns d -> steady_motion (rh_volumes d) a b.
Proof.
  intros HT. set (g := rd_geometry d). set (w := 2 * PI * rd_frequency d).
  set (e := rg_eccentricity g). set (k := rg_r_crank g). set (L := rg_L_conn g).
  assert (H : 0 <= e /\ 0 <= k /\ e + k < L) by exact HT. destruct H as (e0 & k0 & HL).
  assert (MC : mild (fun t => e + k * cos (w * t + 0))) by (apply mild_plus; [apply mild_const|apply mild_scale, mild_cos]).
  assert (MS : mild (fun t => sin (w * t + 0))) by apply mild_sin.
  set (q := fun t => L * L - (e + k * cos (w * t + 0)) * (e + k * cos (w * t + 0))).
  assert (MQ : mild q) by (apply mild_minus; [apply mild_const|apply mild_mult; exact MC]).
  set (m := L * L - (e + k) * (e + k)).
  assert (m0 : 0 < m). { unfold m. assert (0 < (L - (e + k)) * (L + (e + k))) by (apply Rmult_lt_0_compat; lra). lra. }
  assert (Hq : forall t, m <= q t).
  { intros t. unfold m, q. set (x := cos (w * t + 0)). pose proof (COS_bound (w * t + 0)) as HC. fold x in HC.
    assert (X : - (e + k) <= e + k * x <= e + k).
    { assert (0 <= k * (1 - x)) by (apply Rmult_le_pos; lra). assert (0 <= k * (1 + x)) by (apply Rmult_le_pos; lra). lra. }
    assert (0 <= ((e + k) - (e + k * x)) * ((e + k) + (e + k * x))) by (apply Rmult_le_pos; lra). lra. }
  assert (MR : mild (fun t => / sqrt (q t))).
  { apply (mild_inv (sqrt m)); [apply sqrt_lt_R0, m0|intros t; apply sqrt_le_1_alt, Hq|]. exact (mild_sqrt m q m0 Hq MQ). }
  assert (MV : mild (fun t => sin (w * t + 0) * (e + k * cos (w * t + 0)) * / sqrt (q t))).
  { apply mild_mult; [exact (mild_mult _ _ MS MC)|exact MR]. }
  set (Ap := PI * (rg_D_p g * rg_D_p g) / 4). set (Ad := PI * (rg_D_d g * rg_D_d g) / 4).
  assert (EC : forall t, v_deriv (fst (rh_volumes d t)) = (- 2 * Ap * k * w) * (sin (w * t + 0) * (e + k * cos (w * t + 0)) * / sqrt (q t))).
  { intros t. rewrite rh_comp_deriv. unfold q. rewrite Rplus_0_r. unfold Rdiv at 1. fold g. fold e. fold k. fold L. fold w. fold Ap. ring. }
  assert (EE : forall t, v_deriv (snd (rh_volumes d t)) =
    (- 2 * Ap * k * w * (- Ad * / (2 * Ap))) * (sin (w * t + 0) * (e + k * cos (w * t + 0)) * / sqrt (q t)) - (Ad * k * w) * cos (w * t + 0)).
  { intros t. rewrite rh_exp_deriv. unfold q. rewrite Rplus_0_r. fold g. fold e. fold k. fold L. fold w. fold Ap. fold Ad.
    set (u := sqrt _). unfold Rdiv. generalize (/ u) (/ (2 * Ap)). intros; ring. }
  apply mild_motion.
  - eapply mild_ext; [|exact EC]. apply mild_scale, MV.
  - eapply mild_ext; [|exact EE]. apply mild_minus; apply mild_scale; [exact MV|apply mild_cos].
Qed.
Lemma driven_motion comps s r a b : driven (co_ws comps) -> Run_new comps s = Ret r -> steady_motion (ru_ws_vol_fn r) a b.
Proof.
  intros Hd H. unfold Run_new in H.
  destruct (ex_volume (co_chx comps)); [|discriminate].
  destruct (ex_volume (co_regen comps)); [|discriminate].
  destruct (ex_volume (co_hhx comps)); [|discriminate]. cbn [obind] in H.
  destruct Hd as [(d & E & Hf)|(d & E & Hf & HT & HD)]; rewrite E in H;
    cbn [SinusoidalDrive_ws RhombicDrive_ws ws_frequency ws_volumes ws_parasitics obind] in H; injection H as <-;
    cbn [ru_period ru_ws_vol_fn ru_fluid].
  - apply sin_motion.
  - apply rh_motion, HT.
Qed.
