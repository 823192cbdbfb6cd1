(** * Samples of a trajectory and the figures computed from them *)
From Coq Require Import ZArith NArith List Reals Lra Lia.
From Verif Require Import Num ModelTypes ModelWs ModelHx ModelStateEq ModelEngine ModelApi RNum Spec SpecR SpecGas
  SpecKin SpecTraj SpecLaws SpecUnique SpecExist SpecDepend SpecSeries SpecQuad SpecReport SpecSample Fixture PolySolve
  PolyReport RSolve RGauss RFluid RKin RMass RLaws RClose RPairs RPicard RLocal RExist RStart RDepend RQuad RSeries RSmooth.
Import ListNotations.
Local Open Scope R_scope.

(** ** A clamped clock *)
Definition clamp (a b t : R) : R := Rmax a (Rmin b t).
Lemma clamp_in a b t : a <= b -> a <= clamp a b t <= b.
Proof. intros H. unfold clamp, Rmin. repeat match goal with |- context [Rle_dec ?x ?y] => destruct (Rle_dec x y) end; unfold Rmax; repeat match goal with |- context [Rle_dec ?x ?y] => destruct (Rle_dec x y) end; lra. Qed.
Lemma clamp_id a b t : a <= t <= b -> clamp a b t = t.
Proof. intros H. unfold clamp, Rmin. repeat match goal with |- context [Rle_dec ?x ?y] => destruct (Rle_dec x y) end; unfold Rmax; repeat match goal with |- context [Rle_dec ?x ?y] => destruct (Rle_dec x y) end; lra. Qed.
Lemma clamp_near a b t u : a <= b -> Rabs (clamp a b t - clamp a b u) <= Rabs (t - u).
Proof.
  intros H. unfold clamp, Rmin. repeat match goal with |- context [Rle_dec ?x ?y] => destruct (Rle_dec x y) end; unfold Rmax; repeat match goal with |- context [Rle_dec ?x ?y] => destruct (Rle_dec x y) end;
    unfold Rabs; repeat match goal with |- context [Rcase_abs ?x] => destruct (Rcase_abs x) end; lra.
Qed.
Lemma changes_abs K f a b u v : changes_within K f a b -> a <= u <= b -> a <= v <= b -> Rabs (f v - f u) <= K * Rabs (v - u).
Proof.
  intros H Hu Hv. destruct (Rle_dec u v) as [C|C].
  - rewrite (Rabs_pos_eq (v - u)) by lra. apply H; lra.
  - rewrite (Rabs_minus_sym (f v)), (Rabs_minus_sym v), (Rabs_pos_eq (u - v)) by lra. apply H; lra.
Qed.
Lemma changes_weaken K K' f a b : K <= K' -> changes_within K f a b -> changes_within K' f a b.
Proof.
  intros H HK u v A B C. eapply Rle_trans; [apply HK; assumption|]. apply Rmult_le_compat_r; lra.
Qed.
Lemma integral_exists K f a b : a <= b -> changes_within K f a b -> exists I, integral f a b I.
Proof.
  intros Hab HK.
  assert (HC : forall t, continuity_pt (fun u => f (clamp a b u)) t).
  { intros t. apply cont_iff. intros e He. exists (e / (Rabs K + 1)). pose proof (Rabs_pos K) as K0.
    split; [apply Rdiv_lt_0_compat; lra|]. intros y Hy.
    eapply Rle_lt_trans; [apply (changes_abs K f a b); [exact HK| |]; apply clamp_in; exact Hab|].
    eapply Rle_lt_trans with ((Rabs K + 1) * Rabs (y - t)).
    - pose proof (clamp_near a b y t Hab) as N. pose proof (Rle_abs K). pose proof (Rabs_pos (clamp a b y - clamp a b t)).
      eapply Rle_trans with (Rabs K * Rabs (clamp a b y - clamp a b t)); [apply Rmult_le_compat_r; lra|].
      apply Rmult_le_compat; lra.
    - apply (Rmult_lt_compat_l (Rabs K + 1)) in Hy; [|lra].
      replace ((Rabs K + 1) * (e / (Rabs K + 1))) with e in Hy by (field; lra). exact Hy. }
  destruct (primitive_exists (fun u => f (clamp a b u)) a b Hab (fun t _ => HC t)) as (F & HF).
  exists (F b - F a), F. split; [|reflexivity]. intros u Hu. specialize (HF u Hu).
  rewrite clamp_id in HF by exact Hu. exact HF.
Qed.

(** ** Trapezoids over nearly equal samples *)
Lemma trapezoid_near {A} (t g k : A -> R) e : forall (vs : list A),
  Forall (fun v => Rabs (g v - k v) <= e) vs -> nondecreasing (map t vs) -> forall v0 vl,
  vs = v0 :: vl -> Rabs (integrate (map t vs) (map g vs) - integrate (map t vs) (map k vs)) <= e * (last (map t vl) (t v0) - t v0).
Proof.
  induction vs as [|v vs IH]; [discriminate|]. intros HF HN v0 vl E. injection E as <- <-.
  rewrite !integrate_trapezoid. destruct vs as [|w vs].
  - cbn. rewrite Rminus_diag_eq, Rabs_R0 by reflexivity. lra.
  - inversion HF as [|? ? H1 H2]; subst. inversion H2 as [|? ? H3 H4]; subst.
    destruct HN as [N1 N2]. specialize (IH H2 N2 w vs eq_refl). rewrite !integrate_trapezoid in IH.
    cbn [map] in *. rewrite last_two.
    change (trapezoid (combine (t v :: t w :: map t vs) (g v :: g w :: map g vs)))
      with ((g v + g w) / 2 * (t w - t v) + trapezoid (combine (t w :: map t vs) (g w :: map g vs))).
    change (trapezoid (combine (t v :: t w :: map t vs) (k v :: k w :: map k vs)))
      with ((k v + k w) / 2 * (t w - t v) + trapezoid (combine (t w :: map t vs) (k w :: map k vs))).
    set (X := trapezoid (combine (t w :: map t vs) (g w :: map g vs))) in *.
    set (Y := trapezoid (combine (t w :: map t vs) (k w :: map k vs))) in *.
    replace ((g v + g w) / 2 * (t w - t v) + X - ((k v + k w) / 2 * (t w - t v) + Y))
      with (((g v - k v) + (g w - k w)) * ((t w - t v) / 2) + (X - Y)) by field.
    eapply Rle_trans; [apply Rabs_triang|]. rewrite Rabs_mult, (Rabs_pos_eq ((t w - t v) / 2)) by lra.
    pose proof (Rabs_triang (g v - k v) (g w - k w)) as TR.
    assert (B : Rabs (g v - k v + (g w - k w)) * ((t w - t v) / 2) <= (2 * e) * ((t w - t v) / 2))
      by (apply Rmult_le_compat_r; lra).
    lra.
Qed.

Section Along.
  Variable g : IdealGas R.
  Let Rg := ig_gas_constant g.
  Hypothesis HR : 0 < Rg.
  Variable r : Run R.
  Hypothesis Hf : ru_fluid r = IdealGas_Fluid g.
  Variables (D : Decomp R) (c : R -> Conditions R) (a b : R).
  Hypothesis HD : sound D.
  Hypothesis Hab : a <= b.
  Hypothesis HT : forall t, a <= t <= b -> physical_trajectory D r c t.
  Hypothesis HW : steady_motion (ru_ws_vol_fn r) a b.
  Let Y (t : R) : C7 -> R := join r (c t) t.

  Lemma Y_temps t : a <= t <= b -> 0 < Y t yC /\ 0 < Y t yE /\ physical (inp7 r (Y t)).
  Proof.
    intros Ht. destruct (HT t Ht) as ((Tp & _) & Hp & _). unfold Y. rewrite inp7_join.
    split; [apply Tp|]. split; [apply Tp|exact Hp].
  Qed.
  Lemma Y_cont t : a <= t <= b -> forall i, continuity_pt (fun u => Y u i) t.
  Proof.
    intros Ht. destruct (HT t Ht) as ((_ & (V1 & V2) & h & s & _ & F1 & F2 & F3) & _ & C1 & C2).
    intros []; unfold Y, join; try assumption; eapply deriv_cont; eassumption.
  Qed.
  Lemma Y_near t dl : a <= t <= b -> 0 < dl -> exists e, 0 < e /\ forall u, Rabs (u - t) <= e -> inside (Y t) dl (Y u).
  Proof.
    intros Ht D0.
    assert (H : forall i, exists e, 0 < e /\ forall u, Rabs (u - t) <= e -> Rabs (Y u i - Y t i) <= dl).
    { intros i. destruct (proj1 (cont_iff _ _) (Y_cont t Ht i) dl D0) as (e & E & H). exists (e / 2). split; [lra|].
      intros u Hu. left. apply H. lra. }
    destruct (H yP) as (e1 & P1 & H1), (H yC) as (e2 & P2 & H2), (H yE) as (e3 & P3 & H3), (H vC) as (e4 & P4 & H4),
      (H vE) as (e5 & P5 & H5), (H wC) as (e6 & P6 & H6), (H wE) as (e7 & P7 & H7).
    exists (Rmin e1 (Rmin e2 (Rmin e3 (Rmin e4 (Rmin e5 (Rmin e6 e7)))))). split.
    { repeat apply Rmin_pos; assumption. }
    intros u Hu.
    pose proof (Rmin_l e1 (Rmin e2 (Rmin e3 (Rmin e4 (Rmin e5 (Rmin e6 e7)))))).
    pose proof (Rmin_r e1 (Rmin e2 (Rmin e3 (Rmin e4 (Rmin e5 (Rmin e6 e7)))))).
    pose proof (Rmin_l e2 (Rmin e3 (Rmin e4 (Rmin e5 (Rmin e6 e7))))).
    pose proof (Rmin_r e2 (Rmin e3 (Rmin e4 (Rmin e5 (Rmin e6 e7))))).
    pose proof (Rmin_l e3 (Rmin e4 (Rmin e5 (Rmin e6 e7)))). pose proof (Rmin_r e3 (Rmin e4 (Rmin e5 (Rmin e6 e7)))).
    pose proof (Rmin_l e4 (Rmin e5 (Rmin e6 e7))). pose proof (Rmin_r e4 (Rmin e5 (Rmin e6 e7))).
    pose proof (Rmin_l e5 (Rmin e6 e7)). pose proof (Rmin_r e5 (Rmin e6 e7)).
    pose proof (Rmin_l e6 e7). pose proof (Rmin_r e6 e7).
    intros []; [apply H1|apply H2|apply H3|apply H4|apply H5|apply H6|apply H7]; lra.
  Qed.

  (** tameness with the same constants along the whole trajectory *)
  Definition along (f : (C7 -> R) -> R) : Prop := forall t, a <= t <= b -> tame (Y t) f.
  Lemma uniform f : along f -> exists h, 0 < h /\ forall t, a <= t <= b -> forall y z,
    inside (Y t) h y -> inside (Y t) h z -> Rabs (f y) <= / h /\ Rabs (f y - f z) <= / h * dist7 y z.
  Proof.
    intros Hfa. apply (creep (fun t h => forall y z, inside (Y t) h y -> inside (Y t) h z ->
      Rabs (f y) <= / h /\ Rabs (f y - f z) <= / h * dist7 y z) a b).
    - intros x h k Hk H y z Hy Hz.
      destruct (H y z (inside_le _ _ _ _ (proj2 Hk) Hy) (inside_le _ _ _ _ (proj2 Hk) Hz)) as (A & B).
      assert (I : / h <= / k) by (apply Rinv_le_contravar; lra). split; [lra|].
      eapply Rle_trans; [exact B|]. apply Rmult_le_compat_r; [apply dist7_nonneg|exact I].
    - intros x Hx. destruct (Hfa x Hx) as (K & dl & K0 & D0 & H).
      destruct (Y_near x (dl / 2) Hx ltac:(lra)) as (e & E & HY).
      assert (IK : 0 < / (K + 1)) by (apply Rinv_0_lt_compat; lra).
      exists (Rmin e (Rmin (dl / 2) (/ (K + 1)))).
      pose proof (Rmin_l e (Rmin (dl / 2) (/ (K + 1)))) as M1. pose proof (Rmin_r e (Rmin (dl / 2) (/ (K + 1)))) as M2.
      pose proof (Rmin_l (dl / 2) (/ (K + 1))) as M3. pose proof (Rmin_r (dl / 2) (/ (K + 1))) as M4.
      assert (M0 : 0 < Rmin e (Rmin (dl / 2) (/ (K + 1)))) by (repeat apply Rmin_pos; lra).
      split; [exact M0|]. set (h := Rmin e (Rmin (dl / 2) (/ (K + 1)))) in *.
      intros u Hu Hux y z Hy Hz. specialize (HY u ltac:(lra)).
      assert (IN : forall w, inside (Y u) h w -> inside (Y x) dl w).
      { intros w Hw i. specialize (Hw i). specialize (HY i).
        replace (w i - Y x i) with ((w i - Y u i) + (Y u i - Y x i)) by ring.
        eapply Rle_trans; [apply Rabs_triang|]. lra. }
      destruct (H y z (IN y Hy) (IN z Hz)) as (A & B).
      assert (I : K + 1 <= / h).
      { rewrite <- (Rinv_inv (K + 1)). apply Rinv_le_contravar; lra. }
      split; [lra|]. eapply Rle_trans; [exact B|]. apply Rmult_le_compat_r; [apply dist7_nonneg|lra].
  Qed.
  Lemma physical_about : exists h, 0 < h /\ forall t, a <= t <= b -> forall y, inside (Y t) h y -> physical (inp7 r y).
  Proof.
    apply (creep (fun t h => forall y, inside (Y t) h y -> physical (inp7 r y)) a b).
    - intros x h k Hk H y Hy. exact (H y (inside_le _ _ _ _ (proj2 Hk) Hy)).
    - intros x Hx. destruct (Y_temps x Hx) as (Tc & Te & Hp).
      destruct (physical7 g HR r Hf (Y x) Tc Te Hp) as (dl & D0 & H).
      destruct (Y_near x (dl / 2) Hx ltac:(lra)) as (e & E & HY). exists (Rmin e (dl / 2)).
      pose proof (Rmin_l e (dl / 2)) as M1. pose proof (Rmin_r e (dl / 2)) as M2.
      split; [apply Rmin_pos; lra|]. intros u Hu Hux y Hy. apply H. intros i. specialize (HY u ltac:(lra) i). specialize (Hy i).
      replace (y i - Y x i) with ((y i - Y u i) + (Y u i - Y x i)) by ring.
      eapply Rle_trans; [apply Rabs_triang|]. lra.
  Qed.
  Lemma near_inside t h c' : gap c' (c t) <= h -> inside (Y t) h (join r c' t).
  Proof. intros H i. eapply Rle_trans; [apply dist7_ge|]. unfold Y. rewrite gap_dist. exact H. Qed.

  (** any accepted solution at a physical state is the one *)
  Lemma solution_is D' t c' s : sound D' -> physical (inp7 r (join r c' t)) -> solved_at D' r t c' s -> s = sol7 r (join r c' t).
  Proof.
    intros HD' Hp (hint & Hs). symmetry.
    pose proof (sol7_solves r (join r c' t) Hp) as H7. rewrite inp7_join in Hp, H7.
    exact (solve_unique _ Hp gauss D' (mkFD Positive Positive Positive Positive) hint _ _ gauss_sound HD' H7 Hs).
  Qed.

  (** ** The seven numbers change at bounded speed *)
  Lemma along_sol :
    along (fun y => so_m_dot_ck (sol7 r y)) /\ along (fun y => so_m_dot_kr (sol7 r y)) /\ along (fun y => so_m_dot_rl (sol7 r y)) /\
    along (fun y => so_m_dot_le (sol7 r y)) /\ along (fun y => so_Q_dot_k (sol7 r y)) /\ along (fun y => so_Q_dot_r (sol7 r y)) /\
    along (fun y => so_Q_dot_l (sol7 r y)) /\ along (fun y => so_dTc_dt (sol7 r y)) /\ along (fun y => so_dTe_dt (sol7 r y)) /\
    along (fun y => so_dP_dt (sol7 r y)).
  Proof.
    assert (H : forall t, a <= t <= b -> _) by
      exact (fun t Ht => solution_tame g HR r Hf (Y t) (proj1 (Y_temps t Ht)) (proj1 (proj2 (Y_temps t Ht))) (proj2 (proj2 (Y_temps t Ht)))).
    repeat match goal with |- _ /\ _ => split end; intros t Ht; apply (H t Ht).
  Qed.
  Lemma follows_sol t : a <= t <= b -> follows c (sol7 r (Y t)) t.
  Proof.
    intros Ht. destruct (HT t Ht) as ((_ & _ & h & s & Hs & Hfo) & Hp & _).
    unfold Y. rewrite <- (solution_is D t (c t) s HD); [exact Hfo| |exists h; exact Hs]. rewrite inp7_join. exact Hp.
  Qed.
  Lemma speed_of (F : R -> R) (f : (C7 -> R) -> R) : along f ->
    (forall t, a <= t <= b -> derivable_pt_lim F t (f (Y t))) -> exists K, 0 <= K /\ changes_within K F a b.
  Proof.
    intros Hfa HF. destruct (uniform f Hfa) as (h & H0 & H). exists (/ h).
    split; [left; apply Rinv_0_lt_compat, H0|]. intros u v A B C.
    rewrite <- (Rabs_pos_eq (v - u)) by lra. apply (moves_little F (fun t => f (Y t)) a b); try lra.
    intros t Ht. split; [apply HF, Ht|]. apply (H t Ht (Y t) (Y t)); apply center, H0.
  Qed.
  Lemma Y_speed : exists L, 0 < L /\ forall i, changes_within L (fun t => Y t i) a b.
  Proof.
    destruct along_sol as (_ & _ & _ & _ & _ & _ & _ & Hc & He & Hp).
    destruct (speed_of (fun t => Y t yP) _ Hp) as (K1 & P1 & S1); [intros t Ht; apply (follows_sol t Ht)|].
    destruct (speed_of (fun t => Y t yC) _ Hc) as (K2 & P2 & S2); [intros t Ht; apply (follows_sol t Ht)|].
    destruct (speed_of (fun t => Y t yE) _ He) as (K3 & P3 & S3); [intros t Ht; apply (follows_sol t Ht)|].
    destruct (speed_of (fun t => Y t vC) (fun y => y wC)) as (K4 & P4 & S4).
    { intros t _. apply tame_coord. } { intros t Ht. apply (HT t Ht). }
    destruct (speed_of (fun t => Y t vE) (fun y => y wE)) as (K5 & P5 & S5).
    { intros t _. apply tame_coord. } { intros t Ht. apply (HT t Ht). }
    destruct HW as (K6 & S6 & S7). pose proof (Rabs_pos K6). pose proof (Rle_abs K6).
    exists (K1 + K2 + K3 + K4 + K5 + Rabs K6 + 1). split; [lra|].
    intros []; (eapply changes_weaken; [|first [exact S1|exact S2|exact S3|exact S4|exact S5|exact S6|exact S7]]); lra.
  Qed.
  Lemma Y_dist L u v : 0 < L -> (forall i, changes_within L (fun t => Y t i) a b) -> a <= u -> u <= v -> v <= b ->
    inside (Y u) (L * (v - u)) (Y v) /\ dist7 (Y v) (Y u) <= 7 * (L * (v - u)).
  Proof.
    intros L0 HL A B C. assert (I : inside (Y u) (L * (v - u)) (Y v)) by (intros i; apply HL; assumption).
    split; [exact I|]. apply dist7_le. exact I.
  Qed.

  (** ** A tame quantity changes at bounded speed, and nearly agrees at nearby states *)
  Lemma steady_quantity f : along f -> exists K d, 0 <= K /\ 0 < d /\ changes_within K (fun t => f (Y t)) a b /\
    forall t c', a <= t <= b -> gap c' (c t) <= d -> Rabs (f (join r c' t) - f (Y t)) <= K * gap c' (c t).
  Proof.
    intros Hfa. destruct (uniform f Hfa) as (h & H0 & H). destruct Y_speed as (L & L0 & HL).
    assert (IH : 0 < / h) by apply Rinv_0_lt_compat, H0.
    assert (LH : 0 < L * / h) by (apply Rmult_lt_0_compat; assumption).
    assert (LHH : 0 < L * / h * / h) by (apply Rmult_lt_0_compat; assumption).
    exists (/ h + 7 * (L * / h) + 2 * (L * / h * / h)), h. split; [lra|]. split; [exact H0|]. split.
    - intros u v A B C. destruct (Y_dist L u v L0 HL A B C) as (I & DD).
      assert (X : 0 <= v - u) by lra.
      assert (Z1 : 0 <= / h * (v - u)) by (apply Rmult_le_pos; lra).
      assert (Z2 : 0 <= L * / h * (v - u)) by (apply Rmult_le_pos; lra).
      assert (Z3 : 0 <= L * / h * / h * (v - u)) by (apply Rmult_le_pos; lra).
      destruct (Rle_lt_dec (L * (v - u)) h) as [N|N].
      + destruct (H u ltac:(lra) (Y v) (Y u)) as (_ & Q); [eapply inside_le; eassumption|apply center, H0|].
        eapply Rle_trans; [exact Q|].
        assert (/ h * dist7 (Y v) (Y u) <= / h * (7 * (L * (v - u)))) by (apply Rmult_le_compat_l; lra). lra.
      + pose proof (proj1 (H u ltac:(lra) (Y u) (Y u) (center _ _ H0) (center _ _ H0))) as B1.
        pose proof (proj1 (H v ltac:(lra) (Y v) (Y v) (center _ _ H0) (center _ _ H0))) as B2.
        assert (Q : 1 <= L * / h * (v - u)).
        { apply Rmult_le_reg_r with h; [exact H0|]. rewrite Rmult_1_l.
          replace (L * / h * (v - u) * h) with (L * (v - u)) by (field; lra). lra. }
        assert (Q2 : / h * 1 <= / h * (L * / h * (v - u))) by (apply Rmult_le_compat_l; lra).
        assert (TR : Rabs (f (Y v) - f (Y u)) <= Rabs (f (Y v)) + Rabs (f (Y u))).
        { eapply Rle_trans; [apply Rabs_triang|]. rewrite Rabs_Ropp. lra. }
        lra.
    - intros t c' Ht Hg. destruct (H t Ht (join r c' t) (Y t) (near_inside t h c' Hg) (center _ _ H0)) as (_ & Q).
      unfold Y in Q at 2. rewrite gap_dist in Q. eapply Rle_trans; [exact Q|]. apply Rmult_le_compat_r; [|lra].
      unfold gap. pose proof (Rabs_pos (cd_P c' - cd_P (c t))). pose proof (Rabs_pos (cd_T_c c' - cd_T_c (c t))).
      pose proof (Rabs_pos (cd_T_e c' - cd_T_e (c t))). lra.
  Qed.
  Lemma sampled_physical : exists d, 0 < d /\ forall D' v, sound D' -> a <= sv_time v <= b ->
    gap (sv_conditions v) (c (sv_time v)) <= d -> solved_at D' r (sv_time v) (sv_conditions v) (sv_solution v) ->
    sv_solution v = sol7 r (join r (sv_conditions v) (sv_time v)).
  Proof.
    destruct physical_about as (h & H0 & H). exists h. split; [exact H0|]. intros D' v HD' Ht Hg Hs.
    apply (solution_is D'); [exact HD'| |exact Hs]. apply (H _ Ht). apply near_inside, Hg.
  Qed.
End Along.
