(** * Errors of single steps add up to an error of the whole cycle *)
From Coq Require Import ZArith NArith List Reals Lra Lia.
From Verif Require Import Num ModelTypes ModelWs ModelHx ModelStateEq ModelEngine ModelApi RNum Spec SpecR SpecGas
  SpecKin SpecTraj SpecLaws SpecUnique SpecExist SpecDepend SpecSeries SpecQuad SpecReport SpecSample SpecGlobal Fixture PolySolve
  PolyReport RSolve RGauss RFluid RKin RMass RLaws RClose RPairs RPicard RLocal RExist RStart RDepend RQuad RSeries RSmooth
  RSample RSampleReport.
Import ListNotations.
Local Open Scope R_scope.

(** ** Real induction *)
Lemma real_induction (A : R -> Prop) a b : A a ->
  (forall x, a <= x < b -> (forall y, a <= y <= x -> A y) -> exists h, 0 < h /\ forall y, x <= y <= x + h -> y <= b -> A y) ->
  (forall x, a < x <= b -> (forall y, a <= y < x -> A y) -> A x) -> forall x, a <= x <= b -> A x.
Proof.
  intros H0 HS HL x0 Hx0.
  set (E := fun x => a <= x <= b /\ forall y, a <= y <= x -> A y).
  assert (Ea : E a). { split; [lra|]. intros y Hy. replace y with a by lra. exact H0. }
  destruct (completeness E) as (s & Hub & Hlub).
  { exists b. intros x (Hx & _). lra. }
  { exists a. exact Ea. }
  assert (S1 : a <= s) by (apply Hub, Ea). assert (S2 : s <= b) by (apply Hlub; intros x (Hx & _); lra).
  assert (BEF : forall y, a <= y < s -> A y).
  { intros y Hy. destruct (Rle_lt_dec s y) as [C|C]; [lra|].
    assert (N : ~ is_upper_bound E y) by (intros U; apply Hlub in U; lra).
    apply Classical_Prop.NNPP. intros NA. apply N. intros x (Hx & HA). destruct (Rle_lt_dec x y) as [Q|Q]; [exact Q|].
    exfalso. apply NA, HA. lra. }
  assert (As : A s).
  { destruct (Rle_lt_or_eq_dec a s S1) as [C|<-]; [|exact H0]. apply HL; [lra|exact BEF]. }
  assert (Es : E s).
  { split; [lra|]. intros y Hy. destruct (Rle_lt_or_eq_dec y s (proj2 Hy)) as [C| ->]; [apply BEF; lra|exact As]. }
  destruct (Rle_lt_or_eq_dec s b S2) as [C| ->].
  - exfalso. destruct (HS s ltac:(lra) (proj2 Es)) as (h & Hh & H).
    assert (Q : E (Rmin b (s + h))).
    { pose proof (Rmin_l b (s + h)). pose proof (Rmin_r b (s + h)). assert (s < Rmin b (s + h)) by (apply Rmin_glb_lt; lra).
      split; [lra|]. intros y Hy. destruct (Rle_lt_dec y s) as [Z|Z]; [apply (proj2 Es); lra|apply H; lra]. }
    apply Hub in Q. assert (s < Rmin b (s + h)) by (apply Rmin_glb_lt; lra). lra.
  - apply (proj2 Es). exact Hx0.
Qed.

(** ** Growth that is only controlled below a bound *)
Lemma grows_below (z : R -> R) a b L m : 0 <= L -> 0 <= z a -> z a * exp (L * (b - a)) < m ->
  (forall t, a <= t <= b -> exists dz, derivable_pt_lim z t dz /\ (z t < m -> dz <= L * z t)) ->
  forall t, a <= t <= b -> z t <= z a * exp (L * (t - a)).
Proof.
  intros L0 Z0 Hm H.
  assert (EM : forall x y, x <= y -> z a * exp (L * (x - a)) <= z a * exp (L * (y - a))).
  { intros x y Hxy. apply Rmult_le_compat_l; [exact Z0|]. destruct (Rle_lt_or_eq_dec x y Hxy) as [C|<-]; [|lra].
    destruct (Rle_lt_or_eq_dec 0 L L0) as [C'|<-]; [left; apply exp_increasing, Rmult_lt_compat_l; lra|rewrite !Rmult_0_l; lra]. }
  assert (CO : forall t, a <= t <= b -> continuity_pt z t).
  { intros t Ht. destruct (H t Ht) as (dz & D & _). exact (deriv_cont _ _ _ D). }
  apply (real_induction (fun t => z t <= z a * exp (L * (t - a)))).
  - replace (L * (a - a)) with 0 by ring. rewrite exp_0. lra.
  - intros x Hx HA. pose proof (HA x ltac:(lra)) as Ax. pose proof (EM x b ltac:(lra)) as XB.
    destruct (proj1 (cont_iff _ _) (CO x ltac:(lra)) (m - z x) ltac:(lra)) as (e & He & Hc).
    exists (e / 2). split; [lra|]. intros y Hy Hyb.
    pose proof (grows z x y L) as G. specialize (G) as G.
    assert (GY : z y <= z x * exp (L * (y - x))).
    { apply G; [|lra]. intros t Ht. destruct (H t ltac:(lra)) as (dz & D & Hd). exists dz. split; [exact D|]. apply Hd.
      assert (Q : Rabs (z t - z x) < m - z x) by (apply Hc; rewrite Rabs_pos_eq; lra).
      pose proof (Rle_abs (z t - z x)). lra. }
    eapply Rle_trans; [exact GY|].
    replace (z a * exp (L * (y - a))) with (z a * exp (L * (x - a)) * exp (L * (y - x))).
    + apply Rmult_le_compat_r; [left; apply exp_pos|exact Ax].
    + rewrite Rmult_assoc, <- exp_plus. do 2 f_equal. ring.
  - intros x Hx HA. destruct (Rle_lt_dec (z x) (z a * exp (L * (x - a)))) as [C|C]; [exact C|]. exfalso.
    destruct (proj1 (cont_iff _ _) (CO x ltac:(lra)) (z x - z a * exp (L * (x - a))) ltac:(lra)) as (e & He & Hc).
    set (y := Rmax a (x - e / 2)). assert (Y1 : a <= y) by apply Rmax_l. assert (Y2 : x - e / 2 <= y) by apply Rmax_r.
    assert (Y3 : y < x) by (apply Rmax_lub_lt; lra).
    pose proof (HA y ltac:(lra)) as Ay. pose proof (EM y x ltac:(lra)) as My.
    assert (Q : Rabs (z y - z x) < z x - z a * exp (L * (x - a))).
    { apply Hc. rewrite Rabs_minus_sym, Rabs_pos_eq; lra. }
    pose proof (Rle_abs (- (z y - z x))) as QQ. rewrite Rabs_Ropp in QQ. lra.
Qed.

(** ** Squared distance *)
Definition square_gap (c c' : Conditions R) : R :=
  (cd_P c - cd_P c') * (cd_P c - cd_P c') + (cd_T_c c - cd_T_c c') * (cd_T_c c - cd_T_c c')
  + (cd_T_e c - cd_T_e c') * (cd_T_e c - cd_T_e c').
Lemma square_abs x : x * x = Rabs x * Rabs x.
Proof. rewrite <- Rabs_mult, Rabs_pos_eq; [reflexivity|apply (Rle_0_sqr x)]. Qed.
Lemma square_gap_bounds c c' : square_gap c c' <= gap c c' * gap c c' <= 3 * square_gap c c'.
Proof.
  unfold square_gap, gap. rewrite (square_abs (cd_P c - cd_P c')), (square_abs (cd_T_c c - cd_T_c c')), (square_abs (cd_T_e c - cd_T_e c')).
  apply square_sum; apply Rabs_pos.
Qed.
Lemma square_gap_nonneg c c' : 0 <= square_gap c c'.
Proof. unfold square_gap. pose proof (Rle_0_sqr (cd_P c - cd_P c')). pose proof (Rle_0_sqr (cd_T_c c - cd_T_c c')). pose proof (Rle_0_sqr (cd_T_e c - cd_T_e c')). unfold Rsqr in *. lra. Qed.
Lemma square_le x y : 0 <= y -> x * x <= y * y -> x <= y.
Proof.
  intros Hy H. destruct (Rle_lt_dec x y) as [C|C]; [exact C|]. exfalso.
  assert (y * y < x * x) by (apply Rmult_le_0_lt_compat; lra). lra.
Qed.
Lemma square_le' x y : 0 <= x -> x <= y -> x * x <= y * y.
Proof. intros Hx H. apply Rmult_le_compat; lra. Qed.
(** through a state in between, with any weight *)
Lemma square_split w x y z : 0 < w -> square_gap x z <= (1 + w) * square_gap y z + (1 + / w) * square_gap x y.
Proof.
  intros Hw. assert (K : forall p q s : R, (p - s) * (p - s) <= (1 + w) * ((q - s) * (q - s)) + (1 + / w) * ((p - q) * (p - q))).
  { intros p q s. pose proof (Rle_0_sqr (w * (q - s) - (p - q))) as S. unfold Rsqr in S.
    apply (Rmult_le_reg_l w); [exact Hw|]. rewrite Rmult_plus_distr_l.
    replace (w * ((1 + / w) * ((p - q) * (p - q)))) with ((w + 1) * ((p - q) * (p - q))) by (field; lra). lra. }
  unfold square_gap. pose proof (K (cd_P x) (cd_P y) (cd_P z)). pose proof (K (cd_T_c x) (cd_T_c y) (cd_T_c z)).
  pose proof (K (cd_T_e x) (cd_T_e y) (cd_T_e z)). lra.
Qed.

Section Global.
  Variable g : IdealGas R.
  Let Rg := ig_gas_constant g.
  Hypothesis HR : 0 < Rg.
  Variable r : Run R.
  Hypothesis Hf : ru_fluid r = IdealGas_Fluid g.
  Variables (D : Decomp R) (c : R -> Conditions R) (tau : R).
  Hypothesis HD : sound D.
  Hypothesis HT : forall t, 0 <= t <= tau -> physical_trajectory D r c t.
  Let Y (t : R) : C7 -> R := join r (c t) t.

  (** rates near the trajectory *)
  Lemma rates_near : exists L m, 0 <= L /\ 0 < m /\ forall D' t z hint s, sound D' -> 0 <= t <= tau -> gap z (c t) <= m ->
    solve D' (Run_calculate_inputs r t z) hint = Ok s ->
    Rabs (so_dP_dt s - so_dP_dt (sol7 r (Y t))) <= L * gap z (c t) /\
    Rabs (so_dTc_dt s - so_dTc_dt (sol7 r (Y t))) <= L * gap z (c t) /\
    Rabs (so_dTe_dt s - so_dTe_dt (sol7 r (Y t))) <= L * gap z (c t).
  Proof.
    destruct (along_sol g HR r Hf D c 0 tau HT) as (_ & _ & _ & _ & _ & _ & _ & Hc & He & Hp).
    destruct (uniform r D c 0 tau HT _ Hp) as (h1 & P1 & U1), (uniform r D c 0 tau HT _ Hc) as (h2 & P2 & U2),
      (uniform r D c 0 tau HT _ He) as (h3 & P3 & U3), (physical_about g HR r Hf D c 0 tau HT) as (h4 & P4 & U4).
    set (m := Rmin (Rmin h1 h2) (Rmin h3 h4)).
    assert (M0 : 0 < m) by (unfold m; repeat apply Rmin_pos; assumption).
    assert (M : m <= h1 /\ m <= h2 /\ m <= h3 /\ m <= h4).
    { unfold m. pose proof (Rmin_l (Rmin h1 h2) (Rmin h3 h4)). pose proof (Rmin_r (Rmin h1 h2) (Rmin h3 h4)).
      pose proof (Rmin_l h1 h2). pose proof (Rmin_r h1 h2). pose proof (Rmin_l h3 h4). pose proof (Rmin_r h3 h4). lra. }
    destruct M as (M1 & M2 & M3 & M4).
    exists (/ h1 + / h2 + / h3), m. pose proof (Rinv_0_lt_compat _ P1). pose proof (Rinv_0_lt_compat _ P2). pose proof (Rinv_0_lt_compat _ P3).
    split; [lra|]. split; [exact M0|]. intros D' t z hint s HD' Ht Hz Hs.
    assert (PH : physical (inp7 r (join r z t))) by (apply (U4 t Ht), (near_inside r c t h4); lra).
    rewrite (solution_is r D' t z s HD' PH (ex_intro _ hint Hs)).
    assert (G : forall h f, 0 < h -> m <= h -> / h <= / h1 + / h2 + / h3 ->
      (forall t, 0 <= t <= tau -> forall y w, inside (join r (c t) t) h y -> inside (join r (c t) t) h w ->
         Rabs (f y) <= / h /\ Rabs (f y - f w) <= / h * dist7 y w) ->
      Rabs (f (join r z t) - f (Y t)) <= (/ h1 + / h2 + / h3) * gap z (c t)).
    { intros h f Hh Hm Hi U.
      destruct (U t Ht (join r z t) (Y t)) as (_ & Q).
      - apply (near_inside r c t h). lra.
      - apply center, Hh.
      - unfold Y in Q at 2. rewrite gap_dist in Q. eapply Rle_trans; [exact Q|].
        apply Rmult_le_compat_r; [apply gap_nonneg|exact Hi]. }
    split; [|split].
    - apply (G h1 (fun y => so_dP_dt (sol7 r y))); try lra. exact U1.
    - apply (G h2 (fun y => so_dTc_dt (sol7 r y))); try lra. exact U2.
    - apply (G h3 (fun y => so_dTe_dt (sol7 r y))); try lra. exact U3.
  Qed.

  (** a trajectory that starts nearby stays nearby *)
  Lemma flow_near : exists k m, 0 <= k /\ 0 < m /\ forall D' z a b, sound D' -> 0 <= a -> b <= tau ->
    (forall t, a <= t <= b -> on_trajectory D' r z t) -> square_gap (z a) (c a) * exp (k * (b - a)) < m ->
    forall t, a <= t <= b -> square_gap (z t) (c t) <= square_gap (z a) (c a) * exp (k * (t - a)).
  Proof.
    destruct rates_near as (L & m & L0 & M0 & HL). exists (6 * L), (m * m / 3). split; [lra|].
    assert (MM : 0 < m * m) by (apply Rmult_lt_0_compat; exact M0). split; [lra|].
    intros D' z a b HD' Ha Hb Hz Hm.
    apply (grows_below (fun t => square_gap (z t) (c t)) a b (6 * L) (m * m / 3)); [lra|apply square_gap_nonneg|exact Hm|].
    intros t Ht. destruct (Hz t Ht) as (_ & _ & hint & s & Hs & F1 & F2 & F3).
    destruct (follows_sol r D c 0 tau HD HT t ltac:(lra)) as (G1 & G2 & G3).
    eexists. split.
    - unfold square_gap. apply deriv_plus; [apply deriv_plus|]; apply deriv_mult; apply deriv_minus; eassumption.
    - cbv beta. intros Hlt. pose proof (square_gap_bounds (z t) (c t)) as (B1 & B2). pose proof (gap_nonneg (z t) (c t)) as G0.
      assert (GM : gap (z t) (c t) <= m) by (apply square_le; lra).
      destruct (HL D' t (z t) hint s HD' ltac:(lra) GM Hs) as (K1 & K2 & K3).
      set (x := cd_P (z t) - cd_P (c t)) in *. set (y := cd_T_c (z t) - cd_T_c (c t)) in *. set (w := cd_T_e (z t) - cd_T_e (c t)) in *.
      assert (PR : forall v dv, Rabs dv <= L * gap (z t) (c t) -> dv * v + v * dv <= 2 * (Rabs v * (L * gap (z t) (c t)))).
      { intros v dv Q. replace (dv * v + v * dv) with (2 * (v * dv)) by ring.
        apply Rmult_le_compat_l; [lra|]. eapply Rle_trans; [apply Rle_abs|]. rewrite Rabs_mult.
        apply Rmult_le_compat_l; [apply Rabs_pos|exact Q]. }
      pose proof (PR x _ K1) as Q1. pose proof (PR y _ K2) as Q2. pose proof (PR w _ K3) as Q3.
      apply Rle_trans with (2 * L * (gap (z t) (c t) * gap (z t) (c t))).
      + eapply Rle_trans; [apply Rplus_le_compat; [apply Rplus_le_compat; [exact Q1|exact Q2]|exact Q3]|].
        unfold gap. fold x y w. lra.
      + apply (Rmult_le_compat_l (2 * L)) in B2; [|lra]. lra.
  Qed.
  Theorem stays_near : exists K d, 0 <= K /\ 0 < d /\ forall D' z a b, sound D' -> 0 <= a -> b <= tau ->
    (forall t, a <= t <= b -> on_trajectory D' r z t) -> gap (z a) (c a) <= d ->
    forall t, a <= t <= b -> gap (z t) (c t) <= K * gap (z a) (c a).
  Proof.
    destruct flow_near as (k & m & K0 & M0 & HF).
    destruct (Rle_lt_dec 0 tau) as [HT0|HT0].
    2:{ exists 0, 1. split; [lra|]. split; [lra|]. intros D' z a b _ H1 H2 _ _ t Ht. lra. }
    set (E := exp (k * tau / 2)). assert (E0 : 0 < E) by apply exp_pos.
    assert (EE : E * E = exp (k * tau)) by (unfold E; rewrite <- exp_plus; f_equal; field).
    assert (EB : forall x, x <= tau -> exp (k * x) <= E * E).
    { intros x Hx. rewrite EE. destruct (Rle_lt_or_eq_dec (k * x) (k * tau)) as [C|C]; [apply Rmult_le_compat_l; assumption| |rewrite C; lra].
      left. apply exp_increasing, C. }
    assert (EM : 0 < E * E) by (apply Rmult_lt_0_compat; exact E0).
    set (d := Rmin 1 (m / (2 * (E * E)))).
    assert (D0 : 0 < d) by (apply Rmin_pos; [lra|apply Rdiv_lt_0_compat; lra]).
    assert (DD : d * d * (E * E) < m).
    { pose proof (Rmin_l 1 (m / (2 * (E * E)))) as X1. pose proof (Rmin_r 1 (m / (2 * (E * E)))) as X2. fold d in X1, X2.
      assert (d * d <= m / (2 * (E * E))) by (replace (m / (2 * (E * E))) with (1 * (m / (2 * (E * E)))) by ring; apply Rmult_le_compat; lra).
      apply Rle_lt_trans with (m / (2 * (E * E)) * (E * E)); [apply Rmult_le_compat_r; lra|].
      replace (m / (2 * (E * E)) * (E * E)) with (m / 2) by (field; lra). lra. }
    exists (2 * E), d. split; [lra|]. split; [exact D0|].
    intros D' z a b HD' Ha Hb Hz Hg t Ht. pose proof (gap_nonneg (z a) (c a)) as G0.
    destruct (square_gap_bounds (z a) (c a)) as (B1 & _). destruct (square_gap_bounds (z t) (c t)) as (_ & B2).
    pose proof (square_gap_nonneg (z a) (c a)) as S0. pose proof (square_le' _ _ G0 Hg) as GD.
    assert (SM : square_gap (z a) (c a) * exp (k * (b - a)) < m).
    { apply Rle_lt_trans with (d * d * (E * E)); [|exact DD]. pose proof (exp_pos (k * (b - a))). pose proof (EB (b - a) ltac:(lra)).
      apply Rmult_le_compat; lra. }
    pose proof (HF D' z a b HD' Ha Hb Hz SM t Ht) as HH.
    assert (Q : square_gap (z a) (c a) * exp (k * (t - a)) <= gap (z a) (c a) * gap (z a) (c a) * (E * E)).
    { pose proof (exp_pos (k * (t - a))). pose proof (EB (t - a) ltac:(lra)). apply Rmult_le_compat; lra. }
    assert (N : 0 <= gap (z a) (c a) * gap (z a) (c a) * (E * E)) by (apply Rmult_le_pos; [apply (Rle_0_sqr (gap (z a) (c a)))|lra]).
    apply square_le; [apply Rmult_le_pos; lra|]. lra.
  Qed.

  (** ** Step by step *)
  Section Steps.
    Variables (k m : R).
    Hypothesis (K0 : 0 <= k).
    Hypothesis HF : forall D' z a b, sound D' -> 0 <= a -> b <= tau ->
      (forall t, a <= t <= b -> on_trajectory D' r z t) -> square_gap (z a) (c a) * exp (k * (b - a)) < m ->
      forall t, a <= t <= b -> square_gap (z t) (c t) <= square_gap (z a) (c a) * exp (k * (t - a)).
    Lemma exp_mono x y : x <= y -> exp x <= exp y.
    Proof. intros [H| ->]; [left; apply exp_increasing, H|lra]. Qed.
    Lemma add_up D' e X : sound D' -> 0 <= e -> 0 <= X ->
      exp ((k + 1) * tau) * (X + e * e * (1 + tau) * tau) < m ->
      forall vs, nondecreasing (map (@sv_time R) vs) -> (forall v, In v vs -> 0 <= sv_time v <= tau) ->
      accurate_steps e D' r vs ->
      match vs with [] => True | v :: _ =>
        square_gap (sv_conditions v) (c (sv_time v)) <= exp ((k + 1) * sv_time v) * (X + e * e * (1 + tau) * sv_time v) end ->
      Forall (fun v => square_gap (sv_conditions v) (c (sv_time v)) <= exp ((k + 1) * tau) * (X + e * e * (1 + tau) * tau)) vs.
    Proof.
      intros HD' He HX Hm. assert (E2 : 0 <= e * e) by (apply (Rle_0_sqr e)).
      assert (BIG : forall t, 0 <= t <= tau -> exp ((k + 1) * t) * (X + e * e * (1 + tau) * t)
                                               <= exp ((k + 1) * tau) * (X + e * e * (1 + tau) * tau)).
      { intros t Ht. pose proof (exp_pos ((k + 1) * t)). 
        assert (exp ((k + 1) * t) <= exp ((k + 1) * tau)) by (apply exp_mono, Rmult_le_compat_l; lra).
        assert (0 <= e * e * (1 + tau)) by (apply Rmult_le_pos; lra).
        assert (e * e * (1 + tau) * t <= e * e * (1 + tau) * tau) by (apply Rmult_le_compat_l; lra).
        assert (0 <= e * e * (1 + tau) * t) by (apply Rmult_le_pos; lra).
        apply Rmult_le_compat; lra. }
      induction vs as [|v vs IH]; intros Hn Hr Ha H0; [constructor|].
      constructor; [eapply Rle_trans; [exact H0|apply BIG, Hr; left; reflexivity]|].
      destruct vs as [|w vs]; [constructor|]. destruct Hn as [N1 N2], Ha as [(z & Ez & Hz & Gz) A2].
      apply IH; [exact N2|intros x Hx; apply Hr; right; exact Hx|exact A2|].
      pose proof (Hr v (or_introl eq_refl)) as Rv. pose proof (Hr w (or_intror (or_introl eq_refl))) as Rw.
      set (t := sv_time v) in *. set (t' := sv_time w) in *.
      assert (TE : 0 <= 1 + tau) by lra.
      assert (EXP : exp (k * (t' - t)) <= exp ((k + 1) * (t' - t))) by (apply exp_mono, Rmult_le_compat_r; lra).
      assert (SM : square_gap (z t) (c t) * exp (k * (t' - t)) < m).
      { rewrite Ez. eapply Rle_lt_trans; [|exact Hm].
        eapply Rle_trans; [apply Rmult_le_compat; [apply square_gap_nonneg|left; apply exp_pos|exact H0|exact EXP]|].
        replace (exp ((k + 1) * t) * (X + e * e * (1 + tau) * t) * exp ((k + 1) * (t' - t)))
          with (exp ((k + 1) * t') * (X + e * e * (1 + tau) * t)).
        2:{ replace ((k + 1) * t') with ((k + 1) * t + (k + 1) * (t' - t)) by ring. rewrite exp_plus. ring. }
        eapply Rle_trans; [|apply (BIG t' Rw)]. apply Rmult_le_compat_l; [left; apply exp_pos|].
        apply Rplus_le_compat_l. apply Rmult_le_compat_l; [|lra]. apply Rmult_le_pos; lra. }
      pose proof (HF D' z t t' HD' (proj1 Rv) (proj2 Rw) Hz SM t' ltac:(lra)) as Q. rewrite Ez in Q.
      destruct (Rle_lt_or_eq_dec t t' N1) as [C|C].
      2:{ assert (GE : sv_conditions w = sv_conditions v).
          { rewrite <- C, Rminus_diag_eq, Rmult_0_r, Ez in Gz by reflexivity. unfold gap in Gz.
            pose proof (Rabs_pos (cd_P (sv_conditions w) - cd_P (sv_conditions v))) as A1.
            pose proof (Rabs_pos (cd_T_c (sv_conditions w) - cd_T_c (sv_conditions v))) as A3.
            pose proof (Rabs_pos (cd_T_e (sv_conditions w) - cd_T_e (sv_conditions v))) as A4.
            assert (Z : forall p q, Rabs (p - q) = 0 -> p = q).
            { intros p q Hpq. destruct (Req_dec (p - q) 0) as [U|U]; [lra|]. apply Rabs_no_R0 in U. lra. }
            assert (E1 : cd_P (sv_conditions w) = cd_P (sv_conditions v)) by (apply Z; lra).
            assert (E3 : cd_T_c (sv_conditions w) = cd_T_c (sv_conditions v)) by (apply Z; lra).
            assert (E4 : cd_T_e (sv_conditions w) = cd_T_e (sv_conditions v)) by (apply Z; lra).
            destruct (sv_conditions w), (sv_conditions v). cbn in *. congruence. }
          rewrite GE, <- C. exact H0. }
      set (h := t' - t) in *. assert (Hh : 0 < h) by (unfold h; lra).
      pose proof (square_split h (sv_conditions w) (z t') (c t') Hh) as SP.
      destruct (square_gap_bounds (sv_conditions w) (z t')) as (B1 & _).
      pose proof (square_le' _ _ (gap_nonneg (sv_conditions w) (z t')) Gz) as B2.
      assert (IH0 : 0 < / h) by (apply Rinv_0_lt_compat, Hh).
      assert (P2 : (1 + / h) * square_gap (sv_conditions w) (z t') <= e * e * (1 + tau) * h).
      { apply Rle_trans with ((1 + / h) * ((e * h) * (e * h))); [apply Rmult_le_compat_l; lra|].
        replace ((1 + / h) * ((e * h) * (e * h))) with (e * e * (1 + h) * h) by (field; lra).
        apply Rmult_le_compat_r; [lra|]. apply Rmult_le_compat_l; [exact E2|]. unfold h. lra. }
      assert (EH : 1 + h <= exp h).
      { pose proof (exp_ineq1 h ltac:(lra)). lra. }
      set (s := exp ((k + 1) * t) * (X + e * e * (1 + tau) * t)) in *.
      assert (P1 : (1 + h) * square_gap (z t') (c t') <= exp ((k + 1) * h) * s).
      { eapply Rle_trans; [apply Rmult_le_compat; [lra|apply square_gap_nonneg|exact EH|exact Q]|].
        replace (exp ((k + 1) * h) * s) with (exp h * (s * exp (k * h))).
        - apply Rmult_le_compat_l; [left; apply exp_pos|]. apply Rmult_le_compat_r; [left; apply exp_pos|exact H0].
        - replace ((k + 1) * h) with (h + k * h) by ring. rewrite exp_plus. ring. }
      assert (W : exp ((k + 1) * t') * (X + e * e * (1 + tau) * t') =
                  exp ((k + 1) * h) * s + exp ((k + 1) * t') * (e * e * (1 + tau) * h)).
      { unfold s, h. replace (exp ((k + 1) * t')) with (exp ((k + 1) * (t' - t)) * exp ((k + 1) * t))
          by (rewrite <- exp_plus; f_equal; ring). ring. }
      assert (O : 1 <= exp ((k + 1) * t')).
      { rewrite <- exp_0 at 1. apply exp_mono. apply Rmult_le_pos; lra. }
      assert (N0 : 0 <= e * e * (1 + tau) * h) by (apply Rmult_le_pos; [apply Rmult_le_pos|]; lra).
      assert (V : e * e * (1 + tau) * h <= exp ((k + 1) * t') * (e * e * (1 + tau) * h)).
      { rewrite <- (Rmult_1_l (e * e * (1 + tau) * h)) at 1. apply Rmult_le_compat_r; lra. }
      lra.
    Qed.
  End Steps.
  Theorem samples_near : exists K d, 0 <= K /\ 0 < d /\ forall D' vs e0 e, sound D' ->
    nondecreasing (map (@sv_time R) vs) -> (forall v, In v vs -> 0 <= sv_time v <= tau) ->
    0 <= e -> 0 <= e0 -> e0 + e <= d -> starts_near e0 c vs -> accurate_steps e D' r vs ->
    Forall (fun v => gap (sv_conditions v) (c (sv_time v)) <= K * (e0 + e)) vs.
  Proof.
    destruct (Rle_lt_dec 0 tau) as [HT0|HT0].
    2:{ exists 0, 1. split; [lra|]. split; [lra|]. intros D' vs e0 e _ _ H _ _ _ _ _. apply Forall_forall. intros v Hv.
        specialize (H v Hv). lra. }
    destruct flow_near as (k & m & K0 & M0 & HF).
    set (A := exp ((k + 1) * tau) * (1 + (1 + tau) * tau)).
    assert (T2 : 0 <= (1 + tau) * tau) by (apply Rmult_le_pos; lra).
    assert (EX : 1 <= exp ((k + 1) * tau)).
    { rewrite <- exp_0 at 1. apply exp_mono. apply Rmult_le_pos; lra. }
    assert (A1 : 1 <= A).
    { unfold A. replace 1 with (1 * 1) at 1 by ring. apply Rmult_le_compat; lra. }
    set (d := Rmin 1 (m / (2 * A))).
    assert (D0 : 0 < d) by (apply Rmin_pos; [lra|apply Rdiv_lt_0_compat; lra]).
    exists (2 * A), d. split; [lra|]. split; [exact D0|].
    intros D' vs e0 e HD' Hn Hr He He0 Hd Hs Ha.
    pose proof (Rmin_l 1 (m / (2 * A))) as X1. pose proof (Rmin_r 1 (m / (2 * A))) as X2. fold d in X1, X2.
    set (u := e0 + e) in *. assert (U0 : 0 <= u) by (unfold u; lra).
    assert (UU : 0 <= u * u) by (apply (Rle_0_sqr u)).
    assert (BB : exp ((k + 1) * tau) * (e0 * e0 + e * e * (1 + tau) * tau) <= A * (u * u)).
    { replace (A * (u * u)) with (exp ((k + 1) * tau) * ((1 + (1 + tau) * tau) * (u * u))) by (unfold A; ring).
      apply Rmult_le_compat_l; [lra|].
      assert (S1 : e0 * e0 <= u * u) by (apply square_le'; unfold u; lra).
      assert (S2 : e * e <= u * u) by (apply square_le'; unfold u; lra).
      apply (Rmult_le_compat_r ((1 + tau) * tau)) in S2; [|exact T2]. lra. }
    assert (UM : A * (u * u) < m).
    { assert (u * u <= m / (2 * A)) by (replace (m / (2 * A)) with (1 * (m / (2 * A))) by ring; apply Rmult_le_compat; lra).
      apply Rle_lt_trans with (A * (m / (2 * A))); [apply Rmult_le_compat_l; lra|].
      replace (A * (m / (2 * A))) with (m / 2) by (field; lra). lra. }
    assert (HH : Forall (fun v => square_gap (sv_conditions v) (c (sv_time v))
        <= exp ((k + 1) * tau) * (e0 * e0 + e * e * (1 + tau) * tau)) vs).
    { apply (add_up k m K0 HF D' e (e0 * e0) HD' He (Rle_0_sqr e0) ltac:(lra) vs Hn Hr Ha).
      destruct vs as [|v vs]; [exact I|]. cbn [starts_near] in Hs. pose proof (Hr v (or_introl eq_refl)) as Rv.
      destruct (square_gap_bounds (sv_conditions v) (c (sv_time v))) as (B1 & _).
      pose proof (square_le' _ _ (gap_nonneg (sv_conditions v) (c (sv_time v))) Hs) as B2.
      assert (O : 1 <= exp ((k + 1) * sv_time v)).
      { rewrite <- exp_0 at 1. apply exp_mono. apply Rmult_le_pos; lra. }
      assert (N : 0 <= e * e * (1 + tau) * sv_time v).
      { apply Rmult_le_pos; [apply Rmult_le_pos; [apply (Rle_0_sqr e)|lra]|lra]. }
      pose proof (Rle_0_sqr e0) as E00. unfold Rsqr in E00.
      apply Rle_trans with (1 * (e0 * e0 + e * e * (1 + tau) * sv_time v)); [lra|].
      apply Rmult_le_compat_r; lra. }
    eapply Forall_impl; [|exact HH]. intros v Hv. cbv beta in Hv |- *.
    destruct (square_gap_bounds (sv_conditions v) (c (sv_time v))) as (_ & B2).
    apply square_le; [apply Rmult_le_pos; lra|].
    assert (AA : A * (u * u) <= A * A * (u * u)) by (apply Rmult_le_compat_r; [exact UU|]; replace A with (A * 1) at 1 by ring; apply Rmult_le_compat_l; lra).
    assert (0 <= A * A * (u * u)) by (apply Rmult_le_pos; [apply Rmult_le_pos; lra|exact UU]).
    lra.
  Qed.
End Global.
