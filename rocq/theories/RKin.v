(** * Drive kinematics in exact arithmetic *)
From Coq Require Import ZArith NArith List Reals Lra Lia.
From Verif Require Import Num ModelTypes ModelWs RNum SpecGas SpecKin RFluid.
Local Open Scope R_scope.

(** ** Sinusoidal drive *)
Section Sin.
  Variable d : SinusoidalDrive R.
  Let f := sd_frequency d.
  Let w := 2 * PI * f.
  Let phi := sd_phase_angle d * PI / 180.
  Let Vc := sg_clearance_volume (sd_comp_geometry d).
  Let Sc := sg_swept_volume (sd_comp_geometry d).
  Let Ve := sg_clearance_volume (sd_exp_geometry d).
  Let Se := sg_swept_volume (sd_exp_geometry d).

  Lemma sin_comp_value t : v_value (fst (sin_volumes d t)) = Vc + / 2 * Sc * (1 + cos (w * t)).
  Proof. rewrite <- R_nhalf. reflexivity. Qed.
  Lemma sin_comp_deriv t : v_deriv (fst (sin_volumes d t)) = - / 2 * Sc * sin (w * t) * w.
  Proof. rewrite <- R_nhalf. reflexivity. Qed.
  Lemma sin_exp_value t : v_value (snd (sin_volumes d t)) = Ve + / 2 * Se * (1 + cos (w * t + phi)).
  Proof. rewrite <- R_nhalf. reflexivity. Qed.
  Lemma sin_exp_deriv t : v_deriv (snd (sin_volumes d t)) = - / 2 * Se * sin (w * t + phi) * w.
  Proof. rewrite <- R_nhalf. reflexivity. Qed.

  Lemma sin_true_derivatives t : true_derivatives (sin_volumes d) t.
  Proof.
    split; unfold has_deriv.
    - rewrite sin_comp_deriv. eapply deriv_eq.
      + eapply deriv_ext; [intros y; symmetry; apply sin_comp_value|]. deriv.
      + cbv beta. ring.
    - rewrite sin_exp_deriv. eapply deriv_eq.
      + eapply deriv_ext; [intros y; symmetry; apply sin_exp_value|]. deriv.
      + cbv beta. ring.
  Qed.

  Lemma turn t : f <> 0 -> w * (t + 1 / f) = w * t + 2 * PI.
  Proof. intros Hf. unfold w. field. exact Hf. Qed.
  Lemma cos_turn x : cos (x + 2 * PI) = cos x.
  Proof. rewrite cos_plus, cos_2PI, sin_2PI. ring. Qed.
  Lemma sin_turn x : sin (x + 2 * PI) = sin x.
  Proof. rewrite sin_plus, cos_2PI, sin_2PI. ring. Qed.

  Lemma vol_ext (a b : Volume R * Volume R) :
    v_value (fst a) = v_value (fst b) -> v_deriv (fst a) = v_deriv (fst b) ->
    v_value (snd a) = v_value (snd b) -> v_deriv (snd a) = v_deriv (snd b) -> a = b.
  Proof. destruct a as [[] []], b as [[] []]; cbn; intros; subst; reflexivity. Qed.

  Lemma sin_periodic t : f <> 0 -> sin_volumes d (t + 1 / f) = sin_volumes d t.
  Proof.
    intros Hf. pose proof (turn t Hf) as E.
    assert (E' : w * (t + 1 / f) + phi = w * t + phi + 2 * PI) by (rewrite E; ring).
    apply vol_ext; rewrite ?sin_comp_value, ?sin_comp_deriv, ?sin_exp_value, ?sin_exp_deriv, ?E', ?E,
      ?cos_turn, ?sin_turn; reflexivity.
  Qed.

  Lemma wave_bounds V S x : 0 <= S -> V <= V + / 2 * S * (1 + cos x) <= V + S.
  Proof.
    intros HS. destruct (COS_bound x) as [H1 H2].
    assert (0 <= S * (1 + cos x)) by (apply Rmult_le_pos; lra).
    assert (S * (1 + cos x) <= S * 2) by (apply Rmult_le_compat_l; lra).
    split; lra.
  Qed.
  Lemma sin_bounds t : 0 <= Sc -> 0 <= Se ->
    Vc <= v_value (fst (sin_volumes d t)) <= Vc + Sc /\ Ve <= v_value (snd (sin_volumes d t)) <= Ve + Se.
  Proof.
    intros H1 H2. rewrite sin_comp_value, sin_exp_value. split; apply wave_bounds; assumption.
  Qed.
  Lemma sin_attained : f <> 0 ->
    (exists t, v_value (fst (sin_volumes d t)) = Vc) /\
    (exists t, v_value (fst (sin_volumes d t)) = Vc + Sc) /\
    (exists t, v_value (snd (sin_volumes d t)) = Ve) /\
    (exists t, v_value (snd (sin_volumes d t)) = Ve + Se).
  Proof.
    intros Hf. assert (Hw : w <> 0).
    { unfold w. pose proof PI_RGT_0. intros E. apply Rmult_integral in E as [E|E]; [lra|contradiction]. }
    repeat split.
    - exists (PI / w). rewrite sin_comp_value. replace (w * (PI / w)) with PI by (field; exact Hw).
      rewrite cos_PI. ring.
    - exists 0. rewrite sin_comp_value, Rmult_0_r, cos_0. field.
    - exists ((PI - phi) / w). rewrite sin_exp_value.
      replace (w * ((PI - phi) / w) + phi) with PI by (field; exact Hw). rewrite cos_PI. ring.
    - exists (- phi / w). rewrite sin_exp_value.
      replace (w * (- phi / w) + phi) with 0 by (field; exact Hw). rewrite cos_0. field.
  Qed.
  (** the expansion space is where the compression space will be a phase angle later *)
  Lemma sin_phase t : f <> 0 ->
    Sc * (v_value (snd (sin_volumes d t)) - Ve) =
    Se * (v_value (fst (sin_volumes d (t + sd_phase_angle d / 360 * (1 / f)))) - Vc).
  Proof.
    intros Hf. rewrite sin_comp_value, sin_exp_value.
    replace (w * (t + sd_phase_angle d / 360 * (1 / f))) with (w * t + phi)
      by (unfold w, phi; field; exact Hf).
    ring.
  Qed.
End Sin.

(** ** Rhombic drive *)
Section Rhombic.
  Variable d : RhombicDrive R.
  Let f := rd_frequency d.
  Let w := 2 * PI * f.
  Let g := rd_geometry d.
  Let e := rg_eccentricity g.
  Let r := rg_r_crank g.
  Let L := rg_L_conn g.
  Let Ap := PI * (rg_D_p g * rg_D_p g) / 4.
  Let Ad := PI * (rg_D_d g * rg_D_d g) / 4.
  Let b x := sqrt (L * L - (e + r * cos x) * (e + r * cos x)).
  Let b1 := sqrt (L * L - (e - r) * (e - r)).
  Let b2 := sqrt ((L - r) * (L - r) - e * e).

  Lemma rh_comp_value t : v_value (fst (rh_volumes d t)) = rd_V_clearance_c d + 2 * Ap * (b1 - b (w * t)).
  Proof. reflexivity. Qed.
  Lemma rh_comp_deriv t : v_deriv (fst (rh_volumes d t)) =
    - 2 * Ap * r * sin (w * t) * (e + r * cos (w * t)) / b (w * t) * w.
  Proof. reflexivity. Qed.
  Lemma rh_exp_value t : v_value (snd (rh_volumes d t)) =
    rd_V_clearance_e d + Ad * (b (w * t) - b2 - r * sin (w * t)).
  Proof. reflexivity. Qed.
  Lemma rh_exp_deriv t : v_deriv (snd (rh_volumes d t)) =
    (- (- 2 * Ap * r * sin (w * t) * (e + r * cos (w * t)) / b (w * t) * Ad / (2 * Ap))
     - Ad * r * cos (w * t)) * w.
  Proof. reflexivity. Qed.

  Lemma rh_periodic t : f <> 0 -> rh_volumes d (t + 1 / f) = rh_volumes d t.
  Proof.
    intros Hf. assert (E : w * (t + 1 / f) = w * t + 2 * PI) by (unfold w; field; exact Hf).
    apply vol_ext; rewrite ?rh_comp_value, ?rh_comp_deriv, ?rh_exp_value, ?rh_exp_deriv; unfold b;
      rewrite ?E, ?cos_turn, ?sin_turn; reflexivity.
  Qed.

  Hypothesis HT : turns d.
  Lemma e_nonneg : 0 <= e. Proof. apply HT. Qed.
  Lemma r_nonneg : 0 <= r. Proof. apply HT. Qed.
  Lemma er_lt : e + r < L. Proof. apply HT. Qed.

  Lemma arm_bounds x : - L < e + r * cos x < L.
  Proof.
    pose proof e_nonneg. pose proof r_nonneg. pose proof er_lt. destruct (COS_bound x) as [C1 C2].
    assert (r * -1 <= r * cos x) by (apply Rmult_le_compat_l; lra).
    assert (r * cos x <= r * 1) by (apply Rmult_le_compat_l; lra).
    split; lra.
  Qed.
  Lemma under_pos x : 0 < L * L - (e + r * cos x) * (e + r * cos x).
  Proof.
    destruct (arm_bounds x) as [H1 H2]. set (a := e + r * cos x) in *.
    replace (L * L - a * a) with ((L - a) * (L + a)) by ring.
    apply Rmult_lt_0_compat; lra.
  Qed.
  Lemma b_pos x : 0 < b x.
  Proof. apply sqrt_lt_R0, under_pos. Qed.
  Lemma b_sq x : b x * b x = L * L - (e + r * cos x) * (e + r * cos x).
  Proof. apply sqrt_sqrt. left. apply under_pos. Qed.

  Lemma b_deriv t : derivable_pt_lim (fun u => b (w * u)) t
    (r * sin (w * t) * (e + r * cos (w * t)) / b (w * t) * w).
  Proof.
    eapply deriv_eq; [unfold b; deriv; apply under_pos|].
    cbv beta. fold (b (w * t)). pose proof (b_pos (w * t)). field. lra.
  Qed.

  Lemma rh_true_derivatives t : rg_D_p g <> 0 -> true_derivatives (rh_volumes d) t.
  Proof.
    intros HD. pose proof (b_pos (w * t)) as Hb.
    assert (HA : Ap <> 0).
    { unfold Ap. pose proof PI_RGT_0. intros E. apply HD.
      assert (E' : PI * (rg_D_p g * rg_D_p g) = 0) by lra.
      apply Rmult_integral in E' as [E'|E']; [lra|]. apply Rmult_integral in E' as [E'|E']; exact E'. }
    split; unfold has_deriv.
    - rewrite rh_comp_deriv. eapply deriv_eq.
      + eapply deriv_ext; [intros y; symmetry; apply rh_comp_value|].
        eapply deriv_plus; [apply deriv_const|]. eapply deriv_mult; [apply deriv_const|].
        eapply deriv_minus; [apply deriv_const|apply b_deriv].
      + cbv beta. field. lra.
    - rewrite rh_exp_deriv. eapply deriv_eq.
      + eapply deriv_ext; [intros y; symmetry; apply rh_exp_value|].
        eapply deriv_plus; [apply deriv_const|]. eapply deriv_mult; [apply deriv_const|].
        eapply deriv_minus; [eapply deriv_minus; [apply b_deriv|apply deriv_const]|]. deriv.
      + cbv beta. field. repeat split; try exact HA; lra.
  Qed.

  Lemma Ap_nonneg : 0 <= Ap.
  Proof.
    unfold Ap. pose proof PI_RGT_0. pose proof (Rle_0_sqr (rg_D_p g)). unfold Rsqr in *.
    assert (0 <= PI * (rg_D_p g * rg_D_p g)) by (apply Rmult_le_pos; lra). lra.
  Qed.
  Lemma Ad_nonneg : 0 <= Ad.
  Proof.
    unfold Ad. pose proof PI_RGT_0. pose proof (Rle_0_sqr (rg_D_d g)). unfold Rsqr in *.
    assert (0 <= PI * (rg_D_d g * rg_D_d g)) by (apply Rmult_le_pos; lra). lra.
  Qed.

  (** the rod cannot be shorter than the distance it spans *)
  Lemma exp_gap x : b2 <= b x - r * sin x.
  Proof.
    pose proof e_nonneg as He. pose proof r_nonneg as Hr. pose proof er_lt as HL.
    pose proof (b_pos x) as Hb. pose proof (b_sq x) as Hq. pose proof (sin2_cos2 x) as Hsc.
    unfold Rsqr in Hsc. destruct (COS_bound x) as [C1 C2].
    set (c := cos x) in *. set (s := sin x) in *. set (B := b x) in *.
    assert (Hrs : (r * s) * (r * s) <= B * B).
    { rewrite Hq.
      assert (E : (r * s) * (r * s) = r * r * (s * s)) by ring.
      assert (E2 : (r * s) * (r * s) = r * r - (r * c) * (r * c)).
      { rewrite E. replace (s * s) with (1 - c * c) by lra. ring. }
      assert (e * (r * c) <= e * r).
      { apply Rmult_le_compat_l; [exact He|]. rewrite <- (Rmult_1_r r) at 2.
        apply Rmult_le_compat_l; lra. }
      assert ((e + r) * (e + r) <= L * L) by (apply Rmult_le_compat; lra).
      rewrite E2. lra. }
    assert (Hpos : 0 <= B - r * s).
    { assert (Rabs (r * s) <= Rabs B) by (apply Rsqr_le_abs_0; exact Hrs).
      pose proof (Rle_abs (r * s)). rewrite (Rabs_pos_eq B) in H by lra. lra. }
    unfold b2. rewrite <- (sqrt_square (B - r * s) Hpos).
    apply sqrt_le_1_alt.
    (* Cauchy-Schwarz: (e + r c) r c + B r s <= L r *)
    assert (CS : (e + r * c) * (r * c) + B * (r * s) <= L * r).
    { assert (Hsq : ((e + r * c) * (r * c) + B * (r * s)) * ((e + r * c) * (r * c) + B * (r * s))
        <= (L * r) * (L * r)).
      { assert (ID : (L * r) * (L * r) - ((e + r * c) * (r * c) + B * (r * s)) * ((e + r * c) * (r * c) + B * (r * s))
           = ((e + r * c) * (r * s) - B * (r * c)) * ((e + r * c) * (r * s) - B * (r * c))).
        { replace (L * r * (L * r)) with ((B * B + (e + r * c) * (e + r * c)) * (r * r * (s * s + c * c)))
            by (rewrite Hq, Hsc; ring). ring. }
        pose proof (Rle_0_sqr ((e + r * c) * (r * s) - B * (r * c))) as H0. unfold Rsqr in H0. lra. }
      assert (HLr : 0 <= L * r) by (apply Rmult_le_pos; lra).
      assert (HA : Rabs ((e + r * c) * (r * c) + B * (r * s)) <= Rabs (L * r)) by (apply Rsqr_le_abs_0; exact Hsq).
      rewrite (Rabs_pos_eq (L * r)) in HA by exact HLr.
      pose proof (Rle_abs ((e + r * c) * (r * c) + B * (r * s))). lra. }
    assert (E3 : (r * s) * (r * s) = r * r - (r * c) * (r * c)).
    { replace ((r * s) * (r * s)) with (r * r * (s * s)) by ring.
      replace (s * s) with (1 - c * c) by lra. ring. }
    replace ((B - r * s) * (B - r * s)) with (B * B - 2 * (B * (r * s)) + (r * s) * (r * s)) by ring.
    rewrite Hq, E3. lra.
  Qed.

  Lemma rh_exp_clearance t : rd_V_clearance_e d <= v_value (snd (rh_volumes d t)).
  Proof.
    rewrite rh_exp_value. pose proof Ad_nonneg as HA. pose proof (exp_gap (w * t)) as HG.
    assert (0 <= Ad * (b (w * t) - b2 - r * sin (w * t))) by (apply Rmult_le_pos; lra). lra.
  Qed.

  Lemma rh_comp_clearance t : r <= e -> rd_V_clearance_c d <= v_value (fst (rh_volumes d t)).
  Proof.
    intros Hre. rewrite rh_comp_value. pose proof Ap_nonneg as HA. pose proof r_nonneg as Hr.
    assert (b (w * t) <= b1).
    { unfold b, b1. apply sqrt_le_1_alt. destruct (COS_bound (w * t)) as [C1 C2].
      assert (r * -1 <= r * cos (w * t)) by (apply Rmult_le_compat_l; lra).
      assert ((e - r) * (e - r) <= (e + r * cos (w * t)) * (e + r * cos (w * t)))
        by (apply Rmult_le_compat; lra).
      lra. }
    assert (0 <= 2 * Ap * (b1 - b (w * t))) by (apply Rmult_le_pos; lra). lra.
  Qed.

  (** otherwise the piston comes closer than the clearance *)
  Lemma rh_comp_below : e < r -> rg_D_p g <> 0 -> f <> 0 ->
    exists t, v_value (fst (rh_volumes d t)) < rd_V_clearance_c d.
  Proof.
    intros Her HD Hf. pose proof e_nonneg as He. pose proof er_lt as HL.
    assert (Hw : w <> 0).
    { unfold w. pose proof PI_RGT_0. intros E. apply Rmult_integral in E as [E|E]; [lra|contradiction]. }
    assert (HA : 0 < Ap).
    { unfold Ap. pose proof PI_RGT_0.
      assert (0 < rg_D_p g * rg_D_p g).
      { pose proof (Rlt_0_sqr _ HD) as Q. exact Q. }
      assert (0 < PI * (rg_D_p g * rg_D_p g)) by (apply Rmult_lt_0_compat; lra). lra. }
    assert (Hq : -1 <= - e / r <= 1).
    { assert (0 <= e / r) by (apply Rmult_le_pos; [lra|left; apply Rinv_0_lt_compat; lra]).
      assert (e / r <= 1). { apply (Rmult_le_reg_r r); [lra|]. unfold Rdiv. rewrite Rmult_assoc, Rinv_l by lra. lra. }
      unfold Rdiv in *. rewrite Ropp_mult_distr_l_reverse. lra. }
    exists (acos (- e / r) / w). rewrite rh_comp_value.
    replace (w * (acos (- e / r) / w)) with (acos (- e / r)) by (field; exact Hw).
    assert (HB : b1 < b (acos (- e / r))).
    { unfold b, b1. rewrite cos_acos by exact Hq.
      replace (e + r * (- e / r)) with 0 by (field; lra).
      apply sqrt_lt_1_alt. split.
      - replace (L * L - (e - r) * (e - r)) with ((L - (e - r)) * (L + (e - r))) by ring.
        apply Rmult_le_pos; lra.
      - assert (0 < (r - e) * (r - e)) by (apply Rmult_lt_0_compat; lra). lra. }
    assert (0 < 2 * Ap * (b (acos (- e / r)) - b1)) by (apply Rmult_lt_0_compat; lra). lra.
  Qed.

  (** the displacer diameter matters: the expansion volume leaves the clearance *)
  Lemma rh_exp_above : 0 < r -> rg_D_d g <> 0 -> f <> 0 ->
    exists t, rd_V_clearance_e d < v_value (snd (rh_volumes d t)).
  Proof.
    intros Hr HDd Hf.
    assert (Hx : exists x, b2 < b x - r * sin x).
    2: { destruct Hx as [x Hx]. exists (x / w). rewrite rh_exp_value.
         assert (Hw : w <> 0) by (unfold w; pose proof PI_RGT_0; intros E; apply Hf;
           apply Rmult_integral in E as [E|E]; [lra|exact E]).
         replace (w * (x / w)) with x by (field; exact Hw).
         assert (0 < Ad).
         { unfold Ad. pose proof PI_RGT_0. pose proof (Rsqr_pos_lt _ HDd) as HS. unfold Rsqr in HS.
           assert (0 < PI * (rg_D_d g * rg_D_d g)) by (apply Rmult_lt_0_compat; lra). lra. }
         assert (0 < Ad * (b x - b2 - r * sin x)) by (apply Rmult_lt_0_compat; lra). lra. }
    exists (- (PI / 2)).
    pose proof e_nonneg as He. pose proof er_lt as HL.
    unfold b, b2. rewrite cos_neg, cos_PI2, sin_neg, sin_PI2, Rmult_0_r, Rplus_0_r.
    assert (sqrt ((L - r) * (L - r) - e * e) < sqrt (L * L - e * e)).
    { apply sqrt_lt_1_alt. split.
      - replace ((L - r) * (L - r) - e * e) with ((L - r - e) * (L - r + e)) by ring.
        apply Rmult_le_pos; lra.
      - assert ((L - r) * (L - r) < L * L) by (apply Rmult_le_0_lt_compat; lra). lra. }
    lra.
  Qed.
End Rhombic.

(** ** C28: effect of ignoring the configured displacer diameter *)
Lemma intended_comp c t : fst (rh_volumes (RhombicDrive_from c) t) = fst (rh_volumes (intended c) t).
Proof. reflexivity. Qed.
Lemma intended_exp c t :
  (v_value (snd (rh_volumes (RhombicDrive_from c) t)) - rdc_V_clearance_e c) * (rdc_D_d c * rdc_D_d c) =
  (v_value (snd (rh_volumes (intended c) t)) - rdc_V_clearance_e c) * (rdc_D_p c * rdc_D_p c).
Proof.
  rewrite !rh_exp_value. cbn [intended RhombicDrive_from rd_geometry rd_frequency rd_V_clearance_e
    rg_eccentricity rg_r_crank rg_L_conn rg_D_d]. field.
Qed.
Lemma intended_differs c : turns (intended c) -> 0 < rdc_r_crank c -> rdc_D_d c <> 0 ->
  rdc_frequency c <> 0 -> rdc_D_d c * rdc_D_d c <> rdc_D_p c * rdc_D_p c ->
  exists t, v_value (snd (rh_volumes (RhombicDrive_from c) t)) <> v_value (snd (rh_volumes (intended c) t)).
Proof.
  intros HT Hr HD Hf Hne. destruct (rh_exp_above (intended c) HT Hr HD Hf) as [t Ht]. exists t. intros E.
  pose proof (intended_exp c t) as H. rewrite E in H.
  change (rd_V_clearance_e (intended c)) with (rdc_V_clearance_e c) in Ht.
  apply Hne. apply Rmult_eq_reg_l with (1 := H). lra.
Qed.

(** the default configuration and a drive with a large crank *)
Definition rh_default : RhConfig R := RhConfig_default.
Definition rh_long_crank : RhombicDrive R :=
  mkRh 50 (mkRhGeo 0.01 0.02 0.07 0.07 0.05) (mkPar (mkPP 0 0 0) (mkPP 0 0 0)) 1 1 0.00001 0.00001.
Lemma rh_default_turns : turns (intended rh_default) /\ turns (RhombicDrive_from rh_default) /\
  rdc_r_crank rh_default <= rdc_eccentricity rh_default.
Proof. unfold turns. cbn. repeat split; lra. Qed.
Lemma rh_long_turns : turns rh_long_crank.
Proof. unfold turns. cbn. repeat split; lra. Qed.
Lemma rh_default_differs :
  exists t, v_value (snd (rh_volumes (RhombicDrive_from rh_default) t)) <>
            v_value (snd (rh_volumes (intended rh_default) t)).
Proof. apply intended_differs; [exact (proj1 rh_default_turns)|cbn; lra..]. Qed.
Lemma rh_long_below : exists t, v_value (fst (rh_volumes rh_long_crank t)) < rd_V_clearance_c rh_long_crank.
Proof. apply rh_comp_below; [exact rh_long_turns|cbn; lra..]. Qed.
