(** * Accuracy of the trapezoidal rule *)
From Coq Require Import ZArith NArith List Reals Lra Lia.
From Verif Require Import Num ModelTypes ModelWs ModelHx ModelStateEq ModelEngine ModelApi RNum SpecGas SpecSeries SpecQuad
  RFluid RSeries.
Import ListNotations.
Local Open Scope R_scope.

Lemma mvt f f' a b : a < b -> (forall c, a <= c <= b -> derivable_pt_lim f c (f' c)) ->
  exists c, f b - f a = f' c * (b - a) /\ a < c < b.
Proof. exact (MVT_cor2 f f' a b). Qed.

(** a function whose derivative is not positive does not grow *)
Lemma not_growing f f' a b : a <= b -> (forall c, a <= c <= b -> derivable_pt_lim f c (f' c)) ->
  (forall c, a < c < b -> f' c <= 0) -> f b <= f a.
Proof.
  intros Hab Hd Hn. destruct (Rle_lt_or_eq_dec a b Hab) as [H|<-]; [|lra].
  destruct (mvt f f' a b H Hd) as (c & E & Hc).
  assert (f' c * (b - a) <= 0).
  { replace 0 with (0 * (b - a)) by ring. apply Rmult_le_compat_r; [lra|]. apply Hn, Hc. }
  lra.
Qed.

(** [f] with derivative bounded by that of [g] *)
Lemma grows_less f f' g g' a b : a <= b ->
  (forall c, a <= c <= b -> derivable_pt_lim f c (f' c)) ->
  (forall c, a <= c <= b -> derivable_pt_lim g c (g' c)) ->
  (forall c, a < c < b -> Rabs (f' c) <= g' c) -> Rabs (f b - f a) <= g b - g a.
Proof.
  intros Hab Hf Hg Hn.
  assert (H1 : f b - g b <= f a - g a).
  { apply (not_growing (fun u => f u - g u) (fun u => f' u - g' u) a b Hab).
    - intros c Hc. apply deriv_minus; [apply Hf|apply Hg]; exact Hc.
    - intros c Hc. pose proof (Hn c Hc). pose proof (Rle_abs (f' c)). lra. }
  assert (H2 : - f b - g b <= - f a - g a).
  { apply (not_growing (fun u => - f u - g u) (fun u => - f' u - g' u) a b Hab).
    - intros c Hc. apply deriv_minus; [apply deriv_opp, Hf|apply Hg]; exact Hc.
    - intros c Hc. pose proof (Hn c Hc). pose proof (Rle_abs (- f' c)) as H0. rewrite Rabs_Ropp in H0. lra. }
  apply Rabs_le. lra.
Qed.

Section Panel.
  Variables F f : R -> R.
  Variables a b : R.
  Hypothesis Hab : a <= b.
  Hypothesis HF : antiderivative F f a b.

  (** against a rectangle *)
  Lemma rectangle_left K c : a <= c <= b -> changes_within K f a b ->
    Rabs (F c - F a - f a * (c - a)) <= K * (c - a) * (c - a) / 2.
  Proof.
    intros Hc HK.
    pose proof (grows_less (fun u => F u - f a * u) (fun u => f u - f a)
                  (fun u => K * (u - a) * (u - a) / 2) (fun u => K * (u - a)) a c ltac:(lra)) as H.
    cbv beta in H.
    replace (F c - F a - f a * (c - a)) with (F c - f a * c - (F a - f a * a)) by ring.
    replace (K * (c - a) * (c - a) / 2) with (K * (c - a) * (c - a) / 2 - K * (a - a) * (a - a) / 2) by field.
    apply H.
    - intros u Hu. eapply deriv_eq; [eapply deriv_minus; [apply HF; lra|deriv]|cbv beta; ring].
    - intros u Hu. eapply deriv_eq; [deriv; lra|cbv beta; field].
    - intros u Hu. apply HK; lra.
  Qed.
  Lemma rectangle_right K c : a <= c <= b -> changes_within K f a b ->
    Rabs (F b - F c - f b * (b - c)) <= K * (b - c) * (b - c) / 2.
  Proof.
    intros Hc HK.
    pose proof (grows_less (fun u => F u - f b * u) (fun u => f u - f b)
                  (fun u => - (K * (b - u) * (b - u) / 2)) (fun u => K * (b - u)) c b ltac:(lra)) as H.
    cbv beta in H.
    replace (F b - F c - f b * (b - c)) with (F b - f b * b - (F c - f b * c)) by ring.
    replace (K * (b - c) * (b - c) / 2)
      with (- (K * (b - b) * (b - b) / 2) - - (K * (b - c) * (b - c) / 2)) by field.
    apply H.
    - intros u Hu. eapply deriv_eq; [eapply deriv_minus; [apply HF; lra|deriv]|cbv beta; ring].
    - intros u Hu. eapply deriv_eq; [deriv; lra|cbv beta; field].
    - intros u Hu. rewrite Rabs_minus_sym. apply HK; lra.
  Qed.
  Lemma panel_lipschitz K : changes_within K f a b ->
    Rabs ((f a + f b) / 2 * (b - a) - (F b - F a)) <= K * (b - a) ^ 2 / 4.
  Proof.
    intros HK. set (m := (a + b) / 2).
    pose proof (rectangle_left K m ltac:(unfold m; lra) HK) as H1.
    pose proof (rectangle_right K m ltac:(unfold m; lra) HK) as H2.
    pose proof (Rabs_triang (F m - F a - f a * (m - a)) (F b - F m - f b * (b - m))) as H3.
    replace (F m - F a - f a * (m - a) + (F b - F m - f b * (b - m)))
      with (- ((f a + f b) / 2 * (b - a) - (F b - F a))) in H3 by (unfold m; field).
    rewrite Rabs_Ropp in H3.
    replace (K * (b - a) ^ 2 / 4) with (K * (m - a) * (m - a) / 2 + K * (b - m) * (b - m) / 2)
      by (unfold m; field).
    lra.
  Qed.
  Lemma panel_smooth M : bends_within M f a b ->
    Rabs ((f a + f b) / 2 * (b - a) - (F b - F a)) <= M * (b - a) ^ 3 / 12.
  Proof.
    intros (f1 & f2 & H1 & H2 & HM).
    (* E u = F u - F a - (u - a)/2 (f a + f u), E' = (f u - f a)/2 - (u - a)/2 f1 u, E'' = - (u - a)/2 f2 u *)
    assert (HE1 : forall u, a <= u <= b ->
              Rabs ((f u - f a) / 2 - (u - a) / 2 * f1 u) <= M * (u - a) * (u - a) / 4).
    { intros u Hu.
      pose proof (grows_less (fun u => (f u - f a) / 2 - (u - a) / 2 * f1 u) (fun u => - ((u - a) / 2 * f2 u))
                    (fun u => M * (u - a) * (u - a) / 4) (fun u => M * (u - a) / 2) a u ltac:(lra)) as H.
      cbv beta in H.
      replace ((f u - f a) / 2 - (u - a) / 2 * f1 u)
        with ((f u - f a) / 2 - (u - a) / 2 * f1 u - ((f a - f a) / 2 - (a - a) / 2 * f1 a)) by field.
      replace (M * (u - a) * (u - a) / 4) with (M * (u - a) * (u - a) / 4 - M * (a - a) * (a - a) / 4) by field.
      apply H.
      - intros v Hv. eapply deriv_eq.
        + eapply deriv_minus; [eapply deriv_div; [eapply deriv_minus; [apply H1; lra|apply deriv_const]|apply deriv_const|lra]|].
          eapply deriv_mult; [deriv; lra|apply H2; lra].
        + cbv beta. field.
      - intros v Hv. eapply deriv_eq; [deriv; lra|cbv beta; field].
      - intros v Hv. rewrite Rabs_Ropp, Rabs_mult, Rabs_pos_eq by lra.
        replace (M * (v - a) / 2) with ((v - a) / 2 * M) by field.
        apply Rmult_le_compat_l; [lra|]. apply HM. lra. }
    pose proof (grows_less (fun u => F u - (u - a) / 2 * (f a + f u)) (fun u => (f u - f a) / 2 - (u - a) / 2 * f1 u)
                  (fun u => M * (u - a) * (u - a) * (u - a) / 12) (fun u => M * (u - a) * (u - a) / 4) a b Hab) as H.
    cbv beta in H. rewrite Rabs_minus_sym.
    replace (F b - F a - (f a + f b) / 2 * (b - a))
      with (F b - (b - a) / 2 * (f a + f b) - (F a - (a - a) / 2 * (f a + f a))) by field.
    replace (M * (b - a) ^ 3 / 12)
      with (M * (b - a) * (b - a) * (b - a) / 12 - M * (a - a) * (a - a) * (a - a) / 12) by field.
    apply H.
    - intros u Hu. eapply deriv_eq.
      + eapply deriv_minus; [apply HF; lra|].
        eapply deriv_mult; [deriv; lra|]. eapply deriv_plus; [apply deriv_const|apply H1; lra].
      + cbv beta. field.
    - intros u Hu. eapply deriv_eq; [deriv; lra|cbv beta; field].
    - intros u Hu. apply HE1. lra.
  Qed.
End Panel.

Lemma anti_sub F f a b a' b' : a <= a' -> b' <= b -> antiderivative F f a b -> antiderivative F f a' b'.
Proof. intros H1 H2 H u Hu. apply H. lra. Qed.
Lemma changes_sub K f a b a' b' : a <= a' -> b' <= b -> changes_within K f a b -> changes_within K f a' b'.
Proof. intros H1 H2 H u v A B C. apply H; lra. Qed.
Lemma bends_sub M f a b a' b' : a <= a' -> b' <= b -> bends_within M f a b -> bends_within M f a' b'.
Proof.
  intros H1 H2 (f1 & f2 & A & B & C). exists f1, f2.
  split; [|split]; intros u Hu; [apply A|apply B|apply C]; lra.
Qed.
Lemma last_two (l : list R) : forall a b, last (b :: l) a = last l b.
Proof.
  induction l as [|c l IH]; intros a b; [reflexivity|].
  change (last (b :: c :: l) a) with (last (c :: l) a). rewrite !IH. reflexivity.
Qed.
Lemma nondecreasing_last l : forall a, nondecreasing (a :: l) -> a <= last l a.
Proof.
  induction l as [|b l IH]; intros a H; [apply Rle_refl|].
  destruct H as [H1 H2]. pose proof (IH b H2) as H3. rewrite last_two. lra.
Qed.

(** a bound for every panel adds up *)
Lemma panels (F f : R -> R) w (P : R -> R -> Prop) :
  (forall a b a' b', P a b -> a <= a' -> b' <= b -> P a' b') ->
  (forall a b, a <= b -> P a b -> Rabs ((f a + f b) / 2 * (b - a) - (F b - F a)) <= w (b - a)) ->
  forall rest a, nondecreasing (a :: rest) -> P a (last rest a) ->
  Rabs (trapezoid (combine (a :: rest) (map f (a :: rest))) - (F (last rest a) - F a)) <= over_steps w (a :: rest).
Proof.
  intros Hsub Hpanel. induction rest as [|b rest IH]; intros a Hs HP.
  - cbn. rewrite Rminus_0_l, Rabs_Ropp. rewrite Rminus_diag_eq, Rabs_R0 by reflexivity. apply Rle_refl.
  - destruct Hs as [Hab Hs]. pose proof (nondecreasing_last _ _ Hs) as Hl. rewrite last_two in HP |- *.
    assert (H1 : P a b) by (eapply Hsub; [exact HP|lra|lra]).
    assert (H2 : P b (last rest b)) by (eapply Hsub; [exact HP|lra|lra]).
    specialize (Hpanel a b Hab H1). specialize (IH b Hs H2).
    change (trapezoid (combine (a :: b :: rest) (map f (a :: b :: rest))))
      with ((f a + f b) / 2 * (b - a) + trapezoid (combine (b :: rest) (map f (b :: rest)))).
    change (over_steps w (a :: b :: rest)) with (w (b - a) + over_steps w (b :: rest)).
    set (T := trapezoid (combine (b :: rest) (map f (b :: rest)))) in *.
    pose proof (Rabs_triang ((f a + f b) / 2 * (b - a) - (F b - F a)) (T - (F (last rest b) - F b))) as H3.
    replace ((f a + f b) / 2 * (b - a) - (F b - F a) + (T - (F (last rest b) - F b)))
      with ((f a + f b) / 2 * (b - a) + T - (F (last rest b) - F a)) in H3 by ring.
    lra.
Qed.

Lemma quad_lipschitz (F f : R -> R) K a rest : nondecreasing (a :: rest) ->
  antiderivative F f a (last rest a) -> changes_within K f a (last rest a) ->
  Rabs (integrate (a :: rest) (map f (a :: rest)) - (F (last rest a) - F a))
    <= over_steps (fun h => K * h ^ 2 / 4) (a :: rest).
Proof.
  intros Hs HF HK. rewrite integrate_trapezoid.
  apply (panels F f _ (fun a b => antiderivative F f a b /\ changes_within K f a b)).
  - intros u v u' v' [H1 H2] A B. split; [eapply anti_sub|eapply changes_sub]; eauto.
  - intros u v Huv [H1 H2]. apply panel_lipschitz; assumption.
  - exact Hs.
  - split; assumption.
Qed.
Lemma quad_smooth (F f : R -> R) M a rest : nondecreasing (a :: rest) ->
  antiderivative F f a (last rest a) -> bends_within M f a (last rest a) ->
  Rabs (integrate (a :: rest) (map f (a :: rest)) - (F (last rest a) - F a))
    <= over_steps (fun h => M * h ^ 3 / 12) (a :: rest).
Proof.
  intros Hs HF HM. rewrite integrate_trapezoid.
  apply (panels F f _ (fun a b => antiderivative F f a b /\ bends_within M f a b)).
  - intros u v u' v' [H1 H2] A B. split; [eapply anti_sub|eapply bends_sub]; eauto.
  - intros u v Huv [H1 H2]. apply panel_smooth; assumption.
  - exact Hs.
  - split; assumption.
Qed.

(** with no step longer than [h] *)
Lemma steps_bound (w : R -> R) c h : (forall s, 0 <= s <= h -> w s <= c * s) ->
  forall rest a, nondecreasing (a :: rest) -> steps_within h (a :: rest) ->
  over_steps w (a :: rest) <= c * (last rest a - a).
Proof.
  intros Hw. induction rest as [|b rest IH]; intros a Hs Hh.
  - cbn. lra.
  - destruct Hs as [Hab Hs], Hh as [Hb Hh]. specialize (IH b Hs Hh). rewrite last_two.
    change (over_steps w (a :: b :: rest)) with (w (b - a) + over_steps w (b :: rest)).
    specialize (Hw (b - a) ltac:(lra)). lra.
Qed.
Lemma changes_nonneg K f a b : a < b -> changes_within K f a b -> 0 <= K.
Proof.
  intros H HK. specialize (HK a b ltac:(lra) ltac:(lra) ltac:(lra)). pose proof (Rabs_pos (f b - f a)).
  apply Rmult_le_reg_r with (b - a); lra.
Qed.
Lemma bends_nonneg M f a b : a <= b -> bends_within M f a b -> 0 <= M.
Proof. intros H (f1 & f2 & _ & _ & HM). specialize (HM a ltac:(lra)). pose proof (Rabs_pos (f2 a)). lra. Qed.

Lemma average_eq v t F : Rabs (v - F) / t = Rabs (v / t - F / t) \/ t <= 0.
Proof.
  destruct (Rle_or_lt t 0) as [H|H]; [now right|left].
  replace (v / t - F / t) with ((v - F) * / t) by (unfold Rdiv; ring).
  rewrite Rabs_mult, (Rabs_pos_eq (/ t)); [reflexivity|]. apply Rlt_le, Rinv_0_lt_compat, H.
Qed.
Lemma average_smooth (F f : R -> R) M h time t : grid_to time t -> steps_within h time ->
  antiderivative F f 0 t -> bends_within M f 0 t ->
  Rabs (average time (map f time) t - (F t - F 0) / t) <= M * h ^ 2 / 12.
Proof.
  intros Hg Hh HF HM. pose proof Hg as (Hs & _ & _ & Ht).
  destruct (grid_last _ _ Hg) as (rest & -> & El).
  pose proof (quad_smooth F f M 0 rest Hs) as H. rewrite El in H. specialize (H HF HM).
  rewrite integrate_trapezoid in H.
  pose proof (bends_nonneg M f 0 t ltac:(lra) HM) as H0.
  pose proof (steps_bound (fun s => M * s ^ 3 / 12) (M * h ^ 2 / 12) h) as Hb.
  assert (Hw : forall s, 0 <= s <= h -> M * s ^ 3 / 12 <= M * h ^ 2 / 12 * s) by (intros s Hsh;
      assert (0 <= M * s * ((h - s) * (h + s))) by (apply Rmult_le_pos; apply Rmult_le_pos; lra); nra).
  specialize (Hb Hw rest 0 Hs Hh). rewrite El in Hb.
  unfold average. destruct (average_eq (trapezoid (combine (0 :: rest) (map f (0 :: rest)))) t (F t - F 0)) as [<-|Hn]; [|lra].
  apply Rmult_le_reg_r with t; [exact Ht|]. unfold Rdiv at 1. rewrite Rmult_assoc, Rinv_l, Rmult_1_r by lra. lra.
Qed.
Lemma average_lipschitz (F f : R -> R) K h time t : grid_to time t -> steps_within h time ->
  antiderivative F f 0 t -> changes_within K f 0 t ->
  Rabs (average time (map f time) t - (F t - F 0) / t) <= K * h / 4.
Proof.
  intros Hg Hh HF HM. pose proof Hg as (Hs & _ & _ & Ht).
  destruct (grid_last _ _ Hg) as (rest & -> & El).
  pose proof (quad_lipschitz F f K 0 rest Hs) as H. rewrite El in H. specialize (H HF HM).
  rewrite integrate_trapezoid in H.
  pose proof (changes_nonneg K f 0 t ltac:(lra) HM) as H0.
  pose proof (steps_bound (fun s => K * s ^ 2 / 4) (K * h / 4) h) as Hb.
  assert (Hw : forall s, 0 <= s <= h -> K * s ^ 2 / 4 <= K * h / 4 * s) by (intros s Hsh;
      assert (0 <= K * s * (h - s)) by (apply Rmult_le_pos; [apply Rmult_le_pos|]; lra); nra).
  specialize (Hb Hw rest 0 Hs Hh). rewrite El in Hb.
  unfold average. destruct (average_eq (trapezoid (combine (0 :: rest) (map f (0 :: rest)))) t (F t - F 0)) as [<-|Hn]; [|lra].
  apply Rmult_le_reg_r with t; [exact Ht|]. unfold Rdiv at 1. rewrite Rmult_assoc, Rinv_l, Rmult_1_r by lra. lra.
Qed.

(** ** The reports *)
Lemma pressure_accuracy (v : Values R) p time (q Q : R -> R) t h M :
  Pressure_from_values v = Ret p -> vs_time v = time -> vs_P v = map q time ->
  grid_to time t -> steps_within h time -> antiderivative Q q 0 t -> bends_within M q 0 t ->
  Rabs (pr_avg p - (Q t - Q 0) / t) <= M * h ^ 2 / 12.
Proof.
  intros Hp Et EP Hg Hh HQ HM. destruct (pressure_stats v p Hp) as (_ & _ & _ & t' & El & ->).
  rewrite Et in El |- *. rewrite (grid_final _ _ Hg) in El. injection El as <-. rewrite EP.
  apply average_smooth; assumption.
Qed.
Lemma regen_accuracy (v : Values R) Tk Th res hf time (q Q : R -> R) t h M :
  HeatFlows_from_values v Tk Th res = Ret hf -> vs_time v = time -> vs_Q_dot_r v = map q time ->
  grid_to time t -> steps_within h time -> antiderivative Q q 0 t -> bends_within M q 0 t ->
  Rabs (hf_regen hf - (Q t - Q 0) / t) <= M * h ^ 2 / 12.
Proof.
  intros Hp Et EP Hg Hh HQ HM. destruct (heat_flows v Tk Th res hf Hp) as (t' & El & _ & -> & _).
  rewrite Et in El |- *. rewrite (grid_final _ _ Hg) in El. injection El as <-. rewrite EP.
  apply average_smooth; assumption.
Qed.
Lemma hhx_heat_accuracy (v : Values R) Tk Th res hf time (T q Q : R -> R) t h M :
  HeatFlows_from_values v Tk Th res = Ret hf -> vs_time v = time ->
  vs_T_e v = map T time -> vs_Q_dot_l v = map q time ->
  grid_to time t -> steps_within h time ->
  antiderivative Q (fun u => (Th - T u) / tr_exp res + q u) 0 t ->
  bends_within M (fun u => (Th - T u) / tr_exp res + q u) 0 t ->
  Rabs (hf_hhx hf - (Q t - Q 0) / t) <= M * h ^ 2 / 12.
Proof.
  intros Hp Et ET Eq Hg Hh HQ HM. destruct (heat_flows v Tk Th res hf Hp) as (t' & El & _ & _ & ->).
  rewrite Et in El |- *. rewrite (grid_final _ _ Hg) in El. injection El as <-. rewrite ET, Eq, map_map.
  replace (average time (map (fun u => (Th - T u) / tr_exp res) time) t + average time (map q time) t)
    with (average time (map (fun u => (Th - T u) / tr_exp res + q u) time) t).
  - apply average_smooth; assumption.
  - unfold average. set (g := fun u => (Th - T u) / tr_exp res).
    enough (H : trapezoid (combine time (map (fun u => g u + q u) time))
                = trapezoid (combine time (map g time)) + trapezoid (combine time (map q time))).
    { change (fun u => (Th - T u) / tr_exp res + q u) with (fun u => g u + q u). rewrite H. unfold Rdiv. ring. }
    clear. induction time as [|a time IH]; [cbn; ring|].
    destruct time as [|b time]; [cbn; ring|].
    cbn [map combine] in IH |- *.
    change (trapezoid ((a, g a + q a) :: (b, g b + q b) :: combine time (map (fun u => g u + q u) time)))
      with ((g a + q a + (g b + q b)) / 2 * (b - a)
            + trapezoid ((b, g b + q b) :: combine time (map (fun u => g u + q u) time))).
    change (trapezoid ((a, g a) :: (b, g b) :: combine time (map g time)))
      with ((g a + g b) / 2 * (b - a) + trapezoid ((b, g b) :: combine time (map g time))).
    change (trapezoid ((a, q a) :: (b, q b) :: combine time (map q time)))
      with ((q a + q b) / 2 * (b - a) + trapezoid ((b, q b) :: combine time (map q time))).
    rewrite IH. field.
Qed.
Lemma chx_flow_accuracy (v : Values R) m time (l r Q : R -> R) t h K :
  MassFlows_from_values v = Ret m -> vs_time v = time ->
  vs_m_dot_ck v = map l time -> vs_m_dot_kr v = map r time ->
  grid_to time t -> steps_within h time ->
  antiderivative Q (fun u => Rabs (l u + r u) / 2) 0 t ->
  changes_within K l 0 t -> changes_within K r 0 t ->
  Rabs (mf_chx m - (Q t - Q 0) / t) <= K * h / 4.
Proof.
  intros Hp Et El Er Hg Hh HQ HKl HKr. destruct (mass_flows v m Hp) as (t' & Ef & -> & _ & _).
  rewrite Et in Ef |- *. rewrite (grid_final _ _ Hg) in Ef. injection Ef as <-. rewrite El, Er.
  replace (interface_mean (map l time) (map r time)) with (map (fun u => Rabs (l u + r u) / 2) time).
  - apply average_lipschitz; try assumption. intros u w A B C.
    specialize (HKl u w A B C). specialize (HKr u w A B C).
    pose proof (Rabs_triang_inv2 (l w + r w) (l u + r u)) as H1.
    pose proof (Rabs_triang (l w - l u) (r w - r u)) as H2.
    replace (l w - l u + (r w - r u)) with (l w + r w - (l u + r u)) in H2 by ring.
    replace (Rabs (l w + r w) / 2 - Rabs (l u + r u) / 2) with ((Rabs (l w + r w) - Rabs (l u + r u)) * / 2) by field.
    rewrite Rabs_mult, (Rabs_pos_eq (/ 2)) by lra. lra.
  - clear. induction time as [|a time IH]; [reflexivity|]. unfold interface_mean in *. cbn [map combine]. now rewrite IH.
Qed.

(** ** A case, where the bound is attained *)
Lemma square_bends : grid_to [0; 1; 2] 2 /\ steps_within 1 [0; 1; 2] /\
  antiderivative (fun u => u * u * u / 3) (fun u => u * u) 0 2 /\ bends_within 2 (fun u => u * u) 0 2 /\
  Rabs (average [0; 1; 2] (map (fun u => u * u) [0; 1; 2]) 2 - (2 * 2 * 2 / 3 - 0 * 0 * 0 / 3) / 2) = 2 * 1 ^ 2 / 12.
Proof.
  split; [|split; [|split; [|split]]].
  - split; [cbn; lra|]. split; [eauto|]. split; [now exists [0; 1]|lra].
  - cbn. lra.
  - intros u Hu. eapply deriv_eq; [deriv; lra|cbv beta; field].
  - exists (fun u => 2 * u), (fun _ => 2). split; [|split]; intros u Hu.
    + eapply deriv_eq; [deriv|cbv beta; ring].
    + eapply deriv_eq; [deriv|cbv beta; ring].
    + rewrite Rabs_pos_eq; lra.
  - unfold average. cbn [map combine trapezoid]. rewrite Rabs_pos_eq; lra.
Qed.
Lemma slope_changes : changes_within 1 Rabs (-1) 1.
Proof. intros u v A B C. rewrite Rmult_1_l, <- (Rabs_pos_eq (v - u)) by lra. apply Rabs_triang_inv2. Qed.
