(** * Rounding errors of the performance report *)
From Coq Require Import ZArith NArith List Reals Bool Lra Lia.
From Flocq Require Import Core BinarySingleNaN.
From Verif Require Import Num ModelTypes ModelWs ModelHx ModelStateEq ModelEngine ModelApi RNum B64 Spec SpecR SpecF64
  SpecSeries SpecRound SpecBalance SpecReport F64Base F64Err F64Balance PolyReport.
Import ListNotations.
Local Open Scope R_scope.

Lemma tracks_sum_exact (x y : b64) : finite (Bplus mode_NE x y) ->
  tracks (Bplus mode_NE x y) (value x + value y) (Rabs (value x + value y)) 1 0.
Proof.
  intros F. destruct (plus_finite _ _ F) as (_ & _ & V). destruct (rounded_plus_ex x y) as (e & He & E).
  rewrite E in V. unfold tracks, value. rewrite V. split; [|split; [apply Rle_refl|apply Rle_refl]].
  pose proof (tracks_exact (B754_zero false)) as _.
  assert (A0 : Rabs ((B2R x + B2R y) - (B2R x + B2R y)) <= growth 0 * Rabs (B2R x + B2R y)).
  { unfold growth. cbn [pow]. rewrite Rminus_eq_0, Rabs_R0. lra. }
  pose proof (one_more _ _ _ _ A0 He). lra.
Qed.
Lemma tracks_diff_exact (x y : b64) : finite (Bminus mode_NE x y) ->
  tracks (Bminus mode_NE x y) (value x - value y) (Rabs (value x - value y)) 1 0.
Proof.
  intros F. destruct (minus_finite _ _ F) as (_ & _ & V). destruct (rounded_plus_ex x (Bopp y)) as (e & He & E).
  rewrite B2R_Bopp in E. replace (B2R x + - B2R y) with (B2R x - B2R y) in E by ring.
  rewrite E in V. unfold tracks, value. rewrite V. split; [|split; [apply Rle_refl|apply Rle_refl]].
  assert (A0 : Rabs ((B2R x - B2R y) - (B2R x - B2R y)) <= growth 0 * Rabs (B2R x - B2R y)).
  { unfold growth. cbn [pow]. rewrite Rminus_eq_0, Rabs_R0. lra. }
  pose proof (one_more _ _ _ _ A0 He). lra.
Qed.

(** ** Integrals of samples that are known up to rounding *)
Section Over.
  Context {A : Type} (t : A -> R).
  Lemma over_cons (g : A -> R) v w l : over t g (v :: w :: l) = (t v, g v) :: over t g (w :: l).
  Proof. reflexivity. Qed.
  Lemma trap_cons (g : A -> R) v w l :
    trapezoid (over t g (v :: w :: l)) = (g v + g w) / 2 * (t w - t v) + trapezoid (over t g (w :: l)).
  Proof. reflexivity. Qed.
  Lemma mag_cons (g : A -> R) v w l :
    magnitude (over t g (v :: w :: l)) = Rabs (g v + g w) / 2 * Rabs (t w - t v) + magnitude (over t g (w :: l)).
  Proof. reflexivity. Qed.
  Lemma mag_le (g h : A -> R) l : (forall v, In v l -> Rabs (g v) <= h v) ->
    magnitude (over t g l) <= magnitude (over t h l).
  Proof.
    induction l as [|v [|w l] IH]; intros H; try apply Rle_refl. rewrite !mag_cons.
    assert (Hv := H v (or_introl eq_refl)). assert (Hw := H w (or_intror (or_introl eq_refl))).
    apply Rplus_le_compat; [|apply IH; intros x Hx; apply H; right; exact Hx].
    apply Rmult_le_compat_r; [apply Rabs_pos|]. pose proof (Rabs_triang (g v) (g w)).
    pose proof (Rle_abs (h v + h w)). lra.
  Qed.
  Lemma mag_combination (g h : A -> R) (c d : R) l : (forall v, In v l -> 0 <= g v /\ 0 <= h v) -> 0 <= c -> 0 <= d ->
    magnitude (over t (fun v => c * g v + d * h v) l) = c * magnitude (over t g l) + d * magnitude (over t h l).
  Proof.
    intros H Hc Hd. induction l as [|v [|w l] IH]; [simpl; lra|simpl; lra|]. rewrite !mag_cons.
    rewrite IH by (intros x Hx; apply H; right; exact Hx).
    destruct (H v (or_introl eq_refl)) as (G1 & H1). destruct (H w (or_intror (or_introl eq_refl))) as (G2 & H2).
    assert (0 <= c * g v + d * h v) by (apply Rplus_le_le_0_compat; apply Rmult_le_pos; assumption).
    assert (0 <= c * g w + d * h w) by (apply Rplus_le_le_0_compat; apply Rmult_le_pos; assumption).
    rewrite (Rabs_pos_eq (c * g v + d * h v + (c * g w + d * h w))), (Rabs_pos_eq (g v + g w)), (Rabs_pos_eq (h v + h w)) by lra.
    field.
  Qed.
  Lemma trap_mag (g : A -> R) l : Rabs (trapezoid (over t g l)) <= magnitude (over t g l).
  Proof.
    induction l as [|v [|w l] IH]; try (simpl; rewrite Rabs_R0; lra). rewrite trap_cons, mag_cons.
    eapply Rle_trans; [apply Rabs_triang|]. apply Rplus_le_compat; [|exact IH].
    unfold Rdiv. rewrite !Rabs_mult, (Rabs_pos_eq (/ 2)) by lra. lra.
  Qed.
  Lemma trap_diff (g h : A -> R) l :
    trapezoid (over t g l) - trapezoid (over t h l) = trapezoid (over t (fun v => g v - h v) l).
  Proof.
    induction l as [|v [|w l] IH]; [simpl; lra|simpl; lra|]. rewrite !trap_cons, <- IH. field.
  Qed.
  Lemma trap_sum (g h : A -> R) l :
    trapezoid (over t (fun v => g v + h v) l) = trapezoid (over t g l) + trapezoid (over t h l).
  Proof.
    induction l as [|v [|w l] IH]; [simpl; lra|simpl; lra|]. rewrite !trap_cons, IH. field.
  Qed.
  Lemma mag_nonneg (g : A -> R) l : 0 <= magnitude (over t g l).
  Proof. apply magnitude_nonneg. Qed.
End Over.

Section Flt.
  Context (lm : Libm) (nt : bool).
  #[local] Instance fops : NumOps b64 := b64_ops lm nt.

  Lemma panel_finite x0 x1 y0 y1 : finite (panel lm nt x0 x1 y0 y1) -> finite y0 /\ finite y1.
  Proof.
    intros F. destruct (mult_finite _ _ F) as (F1 & _). destruct (mult_finite _ _ F1) as (Fs & _).
    destruct (plus_finite _ _ Fs) as (H1 & H0 & _). split; assumption.
  Qed.
  Lemma summands_finite l : forall s : b64, finite (fold_left (Bplus mode_NE) l s) -> Forall finite l.
  Proof.
    induction l as [|a l IH]; intros s H; [constructor|]. cbn [fold_left] in H. constructor; [|exact (IH _ H)].
    pose proof (sum_finite _ _ H) as Fs. exact (proj1 (proj2 (plus_finite _ _ Fs))).
  Qed.
  Lemma combine_map {A} (x y : A -> b64) l : combine (map x l) (map y l) = map (fun v => (x v, y v)) l.
  Proof. induction l as [|v l IH]; [reflexivity|]. cbn. now rewrite IH. Qed.
  Lemma samples_finite {A} (x y : A -> b64) l : (2 <= length l)%nat ->
    Forall finite (panels_of lm nt (map (fun v => (x v, y v)) l)) -> forall v, In v l -> finite (y v).
  Proof.
    induction l as [|v [|w l] IH]; intros L F u Hu; try (cbn in L; lia).
    change (Forall finite (panel lm nt (x v) (x w) (y v) (y w) :: panels_of lm nt (map (fun v => (x v, y v)) (w :: l)))) in F.
    inversion F as [|p ps Fp Fl]. subst p ps. destruct (panel_finite _ _ _ _ Fp) as (Fv & Fw).
    destruct Hu as [<- | Hu]; [exact Fv|]. destruct l as [|z l].
    - destruct Hu as [<- | []]. exact Fw.
    - apply IH; [cbn; lia|exact Fl|exact Hu].
  Qed.

  Lemma integral_tracks {A} (l : list A) (x y : A -> b64) (r m s : A -> R) (k : nat) :
    (forall v, In v l -> finite (y v) -> tracks (y v) (r v) (m v) k (s v)) ->
    finite (integrate (map x l) (map y l)) ->
    let n := panels l in let t v := value (x v) in
    tracks (integrate (map x l) (map y l)) (trapezoid (over t r l)) (magnitude (over t m l)) (n + 4 + k)
      ((1 + u) ^ (n + 4) * (magnitude (over t s l) + 2 * INR n)).
  Proof.
    intros H F n t. pose proof (integrate_err lm nt _ _ F) as K. cbv zeta in K.
    change (@integrate b64 (F64Err.fops lm nt)) with (@integrate b64 fops) in K.
    rewrite points_map, combine_map, map_map in K. cbn [fst snd] in K.
    change (map (fun v => (value (x v), value (y v))) l) with (over t (fun v => value (y v)) l) in K.
    assert (N : panels (over t (fun v => value (y v)) l) = n) by (unfold panels, over; rewrite map_length; reflexivity).
    rewrite N in K. pose proof tiny_pos as T. pose proof u_pos as U.
    assert (TK : (2 <= length l)%nat -> forall v, In v l -> tracks (y v) (r v) (m v) k (s v)).
    { intros L v Hv. apply (H v Hv).
      assert (F' : finite (n_sum (panels_of lm nt (combine (map x l) (map y l)))))
        by (refine (eq_ind _ (fun i => finite i) F _ (integrate_panels lm nt (map x l) (map y l)))).
      rewrite combine_map in F'. apply summands_finite in F'.
      exact (samples_finite x y l L F' v Hv). }
    destruct (Nat.le_gt_cases 2 (length l)) as [L|L]; [specialize (TK L)|]; cycle 1.
    { assert (Z : forall g : A -> R, trapezoid (over t g l) = 0 /\ magnitude (over t g l) = 0).
      { intros g. destruct l as [|v [|w l]]; [split; reflexivity|split; reflexivity|cbn in L; lia]. }
      destruct (Z (fun v => value (y v))) as (Z1 & Z2). destruct (Z r) as (Z3 & _). destruct (Z m) as (_ & Z4).
      destruct (Z s) as (_ & Z5). rewrite Z1, Z2 in K. rewrite Z3, Z4, Z5.
      assert (I0 : INR n = 0) by (unfold n, panels; destruct l as [|v [|w l]]; [reflexivity|reflexivity|cbn in L; lia]).
      rewrite I0 in *. unfold tracks. rewrite Rabs_R0. split; [|split; lra]. lra. }
    assert (B1 : magnitude (over t (fun v => value (y v)) l) <=
                 (1 + growth k) * magnitude (over t m l) + tiny * magnitude (over t s l)).
    { rewrite <- (mag_combination t m s (1 + growth k) tiny).
      - apply mag_le. intros v Hv. destruct (TK v Hv) as (E & Em & _).
        replace (value (y v)) with (r v + (value (y v) - r v)) by ring.
        eapply Rle_trans; [apply Rabs_triang|]. lra.
      - intros v Hv. destruct (TK v Hv) as (_ & Em & Es). split; [pose proof (Rabs_pos (r v)); lra|exact Es].
      - pose proof (growth_nonneg k). lra.
      - lra. }
    assert (B2 : Rabs (trapezoid (over t (fun v => value (y v)) l) - trapezoid (over t r l)) <=
                 growth k * magnitude (over t m l) + tiny * magnitude (over t s l)).
    { rewrite trap_diff. eapply Rle_trans; [apply trap_mag|].
      rewrite <- (mag_combination t m s (growth k) tiny).
      - apply mag_le. intros v Hv. destruct (TK v Hv) as (E & _ & _). lra.
      - intros v Hv. destruct (TK v Hv) as (_ & Em & Es). split; [pose proof (Rabs_pos (r v)); lra|exact Es].
      - apply growth_nonneg.
      - lra. }
    pose proof (growth_nonneg (n + 4)) as G. pose proof (growth_nonneg k) as Gk.
    pose proof (mag_nonneg t m l) as Mm. pose proof (mag_nonneg t s l) as Ms. pose proof (pos_INR n) as In.
    pose proof (one_u_pow n) as W. pose proof (one_u_pow (n + 4)) as W4.
    split; [|split].
    - set (I := value (integrate (map x l) (map y l))) in *. set (E := trapezoid (over t (fun v => value (y v)) l)) in *.
      replace (I - trapezoid (over t r l)) with ((I - E) + (E - trapezoid (over t r l))) by ring.
      eapply Rle_trans; [apply Rabs_triang|].
      assert (P : growth (n + 4 + k) = growth (n + 4) * (1 + growth k) + growth k) by (unfold growth; rewrite pow_add; ring).
      assert (Q : growth (n + 4) * magnitude (over t (fun v => value (y v)) l) <=
                  growth (n + 4) * ((1 + growth k) * magnitude (over t m l) + tiny * magnitude (over t s l)))
        by (apply Rmult_le_compat_l; assumption).
      assert (S : 2 * INR n * tiny * (1 + u) ^ n <= 2 * INR n * tiny * (1 + u) ^ (n + 4)).
      { apply Rmult_le_compat_l; [apply Rmult_le_pos; lra|]. apply Rle_pow; [lra|lia]. }
      rewrite P. assert (D : (1 + u) ^ (n + 4) = 1 + growth (n + 4)) by (unfold growth; ring).
      rewrite D in *. lra.
    - eapply Rle_trans; [apply trap_mag|]. apply mag_le. intros v Hv. destruct (TK v Hv) as (_ & Em & _). exact Em.
    - apply Rmult_le_pos; lra.
  Qed.

  Lemma tracks_eq x r m k t r' m' t' : tracks x r m k t -> r = r' -> m = m' -> t = t' -> tracks x r' m' k t'.
  Proof. intros H -> -> ->. exact H. Qed.
  Lemma value_half : value nhalf = / 2.
  Proof. exact half_value. Qed.
  Lemma exact_up (x : b64) k : tracks x (value x) (Rabs (value x)) k 0.
  Proof. apply (tracks_weaken _ _ _ 0 0); [apply tracks_exact|lia|lra]. Qed.

  (** ** Pressure drops *)
  Lemma drop_tracks (res m m' rho : b64) : value rho <> 0 -> finite (drop_num res m m' rho) ->
    tracks (drop_num res m m' rho) (drop_of res m m' rho) (Rabs (drop_of res m m' rho)) 4 (drop_slack_of res rho).
  Proof.
    intros Hr F. unfold drop_num in *.
    eapply tracks_eq; [apply tracks_mul; [exact F|]|..].
    - intros F1. apply tracks_div; [exact F1|exact Hr|]. intros F2. apply tracks_mul; [exact F2|].
      intros F3. apply tracks_sum_exact. exact F3.
    - rewrite value_half. unfold drop_of, Rdiv. ring.
    - rewrite value_half. unfold drop_of, Rdiv. rewrite !Rabs_mult, !Rabs_inv. ring.
    - unfold drop_slack_of. unfold Rdiv. ring.
  Qed.

  Context (e : Engine b64) (a : Replies b64) (vs : list (SeValues b64)).
  Hypothesis HD : dense e a vs.

  Lemma slack_of_pos res rho : value rho <> 0 -> 0 <= drop_slack_of res rho.
  Proof.
    intros H. unfold drop_slack_of. pose proof (Rabs_pos (value res)). pose proof (Rabs_pos_lt _ H).
    assert (0 <= 4 * Rabs (value res) / Rabs (value rho)); [|lra].
    apply Rmult_le_pos; [lra|]. apply Rlt_le, Rinv_0_lt_compat. assumption.
  Qed.
  Lemma total_tracks v : In v vs -> finite (total_num e a v) ->
    tracks (total_num e a v) (drop_at e a v) (Rabs (drop_chx e a v) + Rabs (drop_hhx e a v) + Rabs (drop_regen e a v)) 6
      (4 * (drop_slack_of (rp_R_chx a) (dens_chx e v) + drop_slack_of (rp_R_hhx a) (dens_hhx e v)
         + drop_slack_of (rp_R_regen a) (dens_regen e v))).
  Proof.
    intros Hv F. unfold dense in HD. rewrite Forall_forall in HD. destruct (HD v Hv) as (H1 & H2 & H3).
    pose proof (slack_of_pos (rp_R_chx a) _ H1). pose proof (slack_of_pos (rp_R_regen a) _ H2).
    pose proof (slack_of_pos (rp_R_hhx a) _ H3).
    unfold total_num in *. cbv zeta in *.
    eapply tracks_weaken; [apply tracks_add with (k := 5%nat); [exact F|..]|apply Nat.le_refl|].
    - intros F1. apply tracks_add with (k := 4%nat); [exact F1|..].
      + intros F2. exact (drop_tracks (rp_R_chx a) _ _ (dens_chx e v) H1 F2).
      + intros F2. exact (drop_tracks (rp_R_hhx a) _ _ (dens_hhx e v) H3 F2).
    - intros F1. eapply tracks_weaken; [exact (drop_tracks (rp_R_regen a) _ _ (dens_regen e v) H2 F1)|lia|apply Rle_refl].
    - lra.
  Qed.
  Lemma half_total_tracks v : In v vs -> finite (n_mul (total_num e a v) nhalf) ->
    tracks (n_mul (total_num e a v) nhalf) (drop_at e a v / 2)
      ((Rabs (drop_chx e a v) + Rabs (drop_hhx e a v) + Rabs (drop_regen e a v)) / 2) 7
      (4 * (drop_slack_of (rp_R_chx a) (dens_chx e v) + drop_slack_of (rp_R_hhx a) (dens_hhx e v)
         + drop_slack_of (rp_R_regen a) (dens_regen e v)) + 1).
  Proof.
    intros Hv F. eapply tracks_eq; [apply tracks_mul; [exact F|exact (total_tracks v Hv)]|..];
      rewrite value_half; [reflexivity|..]; rewrite (Rabs_pos_eq (/ 2)) by lra; field.
  Qed.
  Lemma Pc_tracks v : In v vs -> finite (Pc_num e a v) ->
    tracks (Pc_num e a v) (pres_at v + drop_at e a v / 2) (pres_size e a v) 8 (pres_slack e a v).
  Proof.
    intros Hv F. eapply tracks_eq.
    - apply tracks_add with (k := 7%nat); [exact F|intros _; apply exact_up|exact (half_total_tracks v Hv)].
    - reflexivity.
    - reflexivity.
    - unfold pres_slack. ring.
  Qed.
  Lemma Pe_tracks v : In v vs -> finite (Pe_num e a v) ->
    tracks (Pe_num e a v) (pres_at v - drop_at e a v / 2) (pres_size e a v) 8 (pres_slack e a v).
  Proof.
    intros Hv F. eapply tracks_eq.
    - apply tracks_sub with (k := 7%nat); [exact F|intros _; apply exact_up|exact (half_total_tracks v Hv)].
    - reflexivity.
    - reflexivity.
    - unfold pres_slack. ring.
  Qed.

  (** ** Work and heat of a sample *)
  Lemma work_tracks v : In v vs -> finite (work_num e a v) ->
    tracks (work_num e a v) (work_at e a v) (work_size e a v) 10 (work_slack e a v).
  Proof.
    intros Hv F. eapply tracks_eq.
    - apply tracks_add with (k := 9%nat); [exact F|..]; intros F1.
      + apply tracks_mul; [exact F1|exact (Pc_tracks v Hv)].
      + apply tracks_mul; [exact F1|exact (Pe_tracks v Hv)].
    - reflexivity.
    - unfold work_size, dVc_at, dVe_at, dVc_num, dVe_num. ring.
    - unfold work_slack, dVc_at, dVe_at, dVc_num, dVe_num. ring.
  Qed.
  Lemma ideal_tracks v : finite (ideal_num a v) -> tracks (ideal_num a v) (ideal_at a v) (ideal_size a v) 2 1.
  Proof.
    intros F. eapply tracks_eq.
    - apply tracks_mul_l; [exact F|]. intros F1. apply tracks_add with (k := 0%nat); [exact F1|..]; intros _; apply tracks_exact.
    - reflexivity.
    - reflexivity.
    - ring.
  Qed.
  Lemma wall_tracks (T Tw res : b64) : match res with B754_infinity _ => True | _ => value res <> 0 end ->
    finite (wall_num T Tw res) -> tracks (wall_num T Tw res) (wall T Tw res) (Rabs (wall T Tw res)) 2 1.
  Proof.
    intros Hr F. unfold wall_num in *. cbn [n_div n_sub fops b64_ops] in *.
    assert (G : value res <> 0 -> tracks (Bdiv mode_NE (Bminus mode_NE T Tw) res) ((value T - value Tw) / value res)
      (Rabs ((value T - value Tw) / value res)) 2 1).
    { intros Hv. eapply tracks_eq; [apply tracks_div; [exact F|exact Hv|]|..].
      - intros F1. apply tracks_diff_exact. exact F1.
      - reflexivity.
      - unfold Rdiv. rewrite Rabs_mult, Rabs_inv. reflexivity.
      - unfold Rdiv. ring. }
    unfold wall. destruct res as [s|s| |s mm ee Hb]; [exact (G Hr)| |exact (G Hr)|exact (G Hr)].
    assert (Z : value (Bdiv mode_NE (Bminus mode_NE T Tw) (B754_infinity s)) = 0).
    { clear G. generalize dependent (Bminus mode_NE T Tw). intros x F. destruct x; try reflexivity; discriminate F. }
    unfold tracks. rewrite Z, Rminus_0_r, Rabs_R0. pose proof tiny_pos. lra.
  Qed.

  (** ** Figures per second *)
  Lemma cycle_tracks (y : SeValues b64 -> b64) (r m s : SeValues b64 -> R) (k : nat) :
    (forall v, In v vs -> finite (y v) -> tracks (y v) (r v) (m v) k (s v)) ->
    finite (cycle_num a vs y) ->
    tracks (cycle_num a vs y) (per_cycle (rp_freq a) vs r) (size_cycle (rp_freq a) vs m) (panels vs + 5 + k)
      (slack_cycle (rp_freq a) vs s).
  Proof.
    intros H F. unfold cycle_num in *.
    replace (panels vs + 5 + k)%nat with (S (panels vs + 4 + k)) by lia.
    eapply tracks_eq; [apply tracks_mul_l; [exact F|]|..].
    - intros F1. apply integral_tracks; [exact H|exact F1].
    - reflexivity.
    - reflexivity.
    - unfold slack_cycle. ring.
  Qed.
  Lemma slack_mono (s s' : SeValues b64 -> R) : (forall v, In v vs -> Rabs (s v) <= s' v) ->
    slack_cycle (rp_freq a) vs s <= slack_cycle (rp_freq a) vs s'.
  Proof.
    intros H. unfold slack_cycle. apply Rplus_le_compat_r. apply Rmult_le_compat_l.
    - pose proof (Rabs_pos (value (rp_freq a))). lra.
    - apply Rmult_le_compat_l; [pose proof (one_u_pow (panels vs + 4)); lra|].
      apply Rplus_le_compat_r. apply mag_le. exact H.
  Qed.
  Lemma slack_pos : 0 <= slack e a vs.
  Proof.
    unfold slack, slack_cycle. assert (0 <= 2 * Rabs (value (rp_freq a)) * ((1 + u) ^ (panels vs + 4) *
      (magnitude (over (fun v => value (sv_time v)) (work_slack e a) vs) + 2 * INR (panels vs)))); [|lra].
    apply Rmult_le_pos; [pose proof (Rabs_pos (value (rp_freq a))); lra|].
    apply Rmult_le_pos; [pose proof (one_u_pow (panels vs + 4)); lra|].
    pose proof (mag_nonneg (fun v => value (sv_time v)) (work_slack e a) vs). pose proof (pos_INR (panels vs)). lra.
  Qed.
  Lemma work_slack_ge v : In v vs -> 4 <= work_slack e a v.
  Proof.
    intros Hv. unfold dense in HD. rewrite Forall_forall in HD. destruct (HD v Hv) as (H1 & H2 & H3).
    pose proof (slack_of_pos (rp_R_chx a) _ H1). pose proof (slack_of_pos (rp_R_regen a) _ H2).
    pose proof (slack_of_pos (rp_R_hhx a) _ H3). unfold work_slack.
    assert (0 <= 4 * pres_slack e a v * (Rabs (dVc_at a v) + Rabs (dVe_at a v))); [|lra].
    apply Rmult_le_pos; [unfold pres_slack; lra|]. pose proof (Rabs_pos (dVc_at a v)). pose proof (Rabs_pos (dVe_at a v)). lra.
  Qed.
  Lemma slack_least (c : R) : 0 <= c <= 4 -> slack_cycle (rp_freq a) vs (fun _ => c) <= slack e a vs.
  Proof.
    intros H. apply slack_mono. intros v Hv. pose proof (work_slack_ge v Hv). rewrite Rabs_pos_eq by lra. lra.
  Qed.

  Notation N := (panels vs).
  Lemma indicated_tracks : finite (indicated_num e a vs) ->
    tracks (indicated_num e a vs) (indicated_exact e a vs) (indicated_size e a vs) (N + 15) (slack e a vs).
  Proof.
    intros F. replace (N + 15)%nat with (N + 5 + 10)%nat by lia. exact (cycle_tracks _ _ _ _ 10 work_tracks F).
  Qed.
  Lemma ideal_ind_tracks : finite (ideal_ind_num a vs) ->
    tracks (ideal_ind_num a vs) (ideal_exact a vs) (ideal_magnitude a vs) (N + 7) (slack e a vs).
  Proof.
    intros F. replace (N + 7)%nat with (N + 5 + 2)%nat by lia.
    eapply tracks_weaken; [|apply Nat.le_refl|apply (slack_least 1); lra].
    refine (cycle_tracks _ _ _ (fun _ => 1) 2 _ F). intros v _. apply ideal_tracks.
  Qed.
  Lemma series_tracks (y : SeValues b64 -> b64) : finite (cycle_num a vs y) ->
    tracks (cycle_num a vs y) (per_cycle (rp_freq a) vs (fun v => value (y v)))
      (size_cycle (rp_freq a) vs (fun v => Rabs (value (y v)))) (N + 7) (slack e a vs).
  Proof.
    intros F. eapply tracks_weaken; [exact (cycle_tracks y _ _ (fun _ => 0) 0 (fun v _ _ => tracks_exact (y v)) F)|lia|].
    apply (slack_least 0); lra.
  Qed.
  Lemma walls_tracks (T : SeValues b64 -> b64) (Tw res : b64) :
    match res with B754_infinity _ => True | _ => value res <> 0 end ->
    finite (cycle_num a vs (fun v => wall_num (T v) Tw res)) ->
    tracks (cycle_num a vs (fun v => wall_num (T v) Tw res)) (per_cycle (rp_freq a) vs (fun v => wall (T v) Tw res))
      (size_cycle (rp_freq a) vs (fun v => Rabs (wall (T v) Tw res))) (N + 7) (slack e a vs).
  Proof.
    intros Hr F. replace (N + 7)%nat with (N + 5 + 2)%nat by lia.
    eapply tracks_weaken; [|apply Nat.le_refl|apply (slack_least 1); lra].
    exact (cycle_tracks (fun v => wall_num (T v) Tw res) _ _ (fun _ => 1) 2 (fun v _ Fv => wall_tracks _ _ _ Hr Fv) F).
  Qed.
  Lemma shaft_tracks : finite (shaft_num e a vs) ->
    tracks (shaft_num e a vs) (shaft_exact e a vs) (shaft_size e a vs) (N + 17) (4 * slack e a vs).
  Proof.
    intros F. replace (N + 17)%nat with (S (S (N + 15))) by lia. eapply tracks_eq.
    - apply tracks_sub with (k := S (N + 15)); [exact F|..].
      + intros F1. apply tracks_sub with (k := (N + 15)%nat); [exact F1|exact indicated_tracks|intros _; apply exact_up].
      + intros _. apply exact_up.
    - reflexivity.
    - unfold shaft_size, friction_size, friction_c, friction_e, fric_c_num, fric_e_num. ring.
    - ring.
  Qed.
  Lemma net_tracks : finite (net_num e a vs) ->
    tracks (net_num e a vs) (net_exact e a vs) (net_size e a vs) (N + 19) (16 * slack e a vs).
  Proof.
    intros F. replace (N + 19)%nat with (S (S (N + 17))) by lia. eapply tracks_eq.
    - apply tracks_sub with (k := S (N + 17)); [exact F|..].
      + intros F1. apply tracks_sub with (k := (N + 17)%nat); [exact F1|exact shaft_tracks|intros _; apply exact_up].
      + intros _. apply exact_up.
    - reflexivity.
    - reflexivity.
    - ring.
  Qed.
  Lemma losses_tracks k : (2 <= k)%nat -> finite (losses_num a) ->
    tracks (losses_num a) (loss_l a + loss_r a + loss_e a) (loss_size a) k 0.
  Proof.
    intros Hk F. apply (tracks_weaken _ _ _ 2 0); [|exact Hk|lra]. eapply tracks_eq.
    - apply tracks_add with (k := 1%nat); [exact F|..].
      + intros F1. apply tracks_add with (k := 0%nat); [exact F1|..]; intros _; apply tracks_exact.
      + intros _. apply exact_up.
    - reflexivity.
    - reflexivity.
    - ring.
  Qed.
  Lemma input_tracks : walled a -> finite (input_num e a vs) ->
    tracks (input_num e a vs) (input_exact e a vs) (input_size e a vs) (N + 9) (8 * slack e a vs).
  Proof.
    intros (_ & Hw) F. replace (N + 9)%nat with (S (S (N + 7))) by lia. eapply tracks_eq.
    - apply tracks_add with (k := S (N + 7)); [exact F|..].
      + intros F1. apply tracks_sub with (k := (N + 7)%nat); [exact F1|..].
        * apply series_tracks.
        * exact (walls_tracks (fun v => cd_T_e (sv_conditions v)) _ _ Hw).
      + apply losses_tracks. lia.
    - reflexivity.
    - reflexivity.
    - ring.
  Qed.
  Lemma rejected_tracks : walled a -> finite (rejected_num e a vs) ->
    tracks (rejected_num e a vs) (rejected_exact e a vs) (rejected_size e a vs) (N + 19) (64 * slack e a vs).
  Proof.
    intros (Hw & _) F. pose proof slack_pos as SP.
    replace (N + 19)%nat with (S (S (S (N + 16)))) by lia. eapply tracks_eq.
    - apply tracks_add with (k := S (S (N + 16))); [exact F|..].
      + intros F1. apply tracks_add with (k := S (N + 16)) (t := 16 * slack e a vs) (t' := 0); [exact F1|..].
        * intros F2. eapply tracks_weaken; [apply tracks_add with (k := (N + 16)%nat); [exact F2|..]|apply Nat.le_refl|].
          -- intros F3. apply (tracks_weaken _ _ _ (N + 8) (4 * slack e a vs)); [|lia|apply Rle_refl].
             replace (N + 8)%nat with (S (N + 7)) by lia.
             eapply tracks_eq; [apply tracks_add with (k := (N + 7)%nat); [exact F3|..]|..].
             ++ exact (walls_tracks (fun v => cd_T_c (sv_conditions v)) _ _ Hw).
             ++ apply series_tracks.
             ++ reflexivity.
             ++ reflexivity.
             ++ ring.
          -- intros F3. replace (N + 16)%nat with (S (N + 15)) by lia.
             apply tracks_sub with (k := (N + 15)%nat); [exact F3|..].
             ++ intros F4. eapply tracks_weaken; [exact (ideal_ind_tracks F4)|lia|apply Rle_refl].
             ++ exact indicated_tracks.
          -- lra.
        * intros F2. eapply (tracks_weaken _ _ _ 1 0); [|lia|lra]. eapply tracks_eq.
          -- apply tracks_add with (k := 0%nat); [exact F2|..]; intros _; apply tracks_exact.
          -- reflexivity.
          -- reflexivity.
          -- ring.
      + apply losses_tracks. lia.
    - reflexivity.
    - reflexivity.
    - ring.
  Qed.
End Flt.
