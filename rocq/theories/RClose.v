(** * Real functions that stay close on an interval, and Gronwall's inequality *)
From Coq Require Import ZArith List Reals Lra Lia.
Import ListNotations.
Local Open Scope R_scope.

(** ** A scalar equation with a piecewise linear increasing function *)
Definition chi (g1 g2 m : R) : R := (if Rle_dec 0 m then g1 else g2) * m.

Lemma chi_slope mu M g1 g2 m m' : mu <= g1 <= M -> mu <= g2 <= M ->
  exists al, mu <= al <= M /\ chi g1 g2 m - chi g1 g2 m' = al * (m - m').
Proof.
  intros H1 H2. unfold chi. destruct (Rle_dec 0 m) as [A|A], (Rle_dec 0 m') as [B|B].
  - exists g1. split; [exact H1|ring].
  - assert (0 < m - m') by lra. exists ((g1 * m - g2 * m') / (m - m')). split; [|field; lra].
    split.
    + apply Rmult_le_reg_r with (m - m'); [lra|]. unfold Rdiv. rewrite Rmult_assoc, Rinv_l, Rmult_1_r by lra. nra.
    + apply Rmult_le_reg_r with (m - m'); [lra|]. unfold Rdiv. rewrite Rmult_assoc, Rinv_l, Rmult_1_r by lra. nra.
  - assert (0 < m' - m) by lra. exists ((g2 * m - g1 * m') / (m - m')). split; [|field; lra].
    split.
    + replace ((g2 * m - g1 * m') / (m - m')) with ((g1 * m' - g2 * m) / (m' - m)) by (field; lra).
      apply Rmult_le_reg_r with (m' - m); [lra|]. unfold Rdiv. rewrite Rmult_assoc, Rinv_l, Rmult_1_r by lra. nra.
    + replace ((g2 * m - g1 * m') / (m - m')) with ((g1 * m' - g2 * m) / (m' - m)) by (field; lra).
      apply Rmult_le_reg_r with (m' - m); [lra|]. unfold Rdiv. rewrite Rmult_assoc, Rinv_l, Rmult_1_r by lra. nra.
  - exists g2. split; [exact H2|ring].
Qed.

Lemma chi_close d g1 g2 g1' g2' m : Rabs (g1 - g1') <= d -> Rabs (g2 - g2') <= d ->
  Rabs (chi g1 g2 m - chi g1' g2' m) <= d * Rabs m.
Proof.
  intros H1 H2. unfold chi. destruct (Rle_dec 0 m); rewrite <- Rmult_minus_distr_r, Rabs_mult;
    apply Rmult_le_compat_r; try apply Rabs_pos; assumption.
Qed.

Lemma abs3 x y z : Rabs (x - y - z) <= Rabs x + Rabs y + Rabs z.
Proof.
  pose proof (Rabs_triang (x - y) (- z)) as H1. pose proof (Rabs_triang x (- y)) as H2.
  rewrite Rabs_Ropp in H1, H2. unfold Rminus in *. lra.
Qed.
Lemma abs3' x y z : Rabs (x - y + z) <= Rabs x + Rabs y + Rabs z.
Proof. pose proof (abs3 x y (- z)) as H. rewrite Rabs_Ropp in H. replace (x - y + z) with (x - y - - z) by ring. exact H. Qed.

Lemma div_le mu x y d : 0 < mu -> x <= y * d -> x / mu <= y / mu * d.
Proof.
  intros Hmu H. apply Rmult_le_reg_r with mu; [exact Hmu|].
  replace (x / mu * mu) with x by (field; lra). replace (y / mu * d * mu) with (y * d) by (field; lra). exact H.
Qed.

(** the linear core: [al] and [be] are slopes *)
Lemma core mu M al be B B' K m p n e1 e2 e3 : 0 < mu -> mu <= al <= M -> mu <= be <= M ->
  mu <= B <= M -> mu <= B' <= M -> 0 <= K <= M ->
  al * m + B * p = e1 -> be * n - B' * p = e2 -> n = m - K * p + e3 ->
  Rabs p <= (M / mu * Rabs e1 + Rabs e2 + M * Rabs e3) / mu /\
  Rabs m <= (Rabs e1 + M * ((M / mu * Rabs e1 + Rabs e2 + M * Rabs e3) / mu)) / mu.
Proof.
  intros Hmu Ha Hb HB HB' HK E1 E2 E3.
  set (Y := M / mu * Rabs e1 + Rabs e2 + M * Rabs e3).
  assert (HM : 0 < M) by lra.
  assert (Hp : Rabs p <= Y / mu).
  { assert (S : (B' + be * K + be * B / al) * p = be / al * e1 - e2 + be * e3).
    { rewrite E3 in E2. rewrite <- E1, <- E2. field. lra. }
    assert (D : mu <= B' + be * K + be * B / al).
    { assert (0 <= be * K) by (apply Rmult_le_pos; lra).
      assert (0 <= be * B / al) by (apply Rle_mult_inv_pos; [apply Rmult_le_pos; lra|lra]). lra. }
    apply Rmult_le_reg_r with mu; [exact Hmu|].
    replace (Y / mu * mu) with Y by (field; lra).
    apply Rle_trans with (Rabs ((B' + be * K + be * B / al) * p)).
    { rewrite Rabs_mult, (Rmult_comm (Rabs p)). apply Rmult_le_compat_r; [apply Rabs_pos|].
      rewrite Rabs_pos_eq; lra. }
    rewrite S. unfold Y.
    assert (Q : Rabs (be / al) <= M / mu).
    { rewrite Rabs_pos_eq; [|apply Rle_mult_inv_pos; lra].
      unfold Rdiv. apply Rmult_le_compat; try lra; [left; apply Rinv_0_lt_compat; lra|].
      apply Rinv_le_contravar; lra. }
    assert (T1 : Rabs (be / al * e1) <= M / mu * Rabs e1).
    { rewrite Rabs_mult. apply Rmult_le_compat_r; [apply Rabs_pos|exact Q]. }
    assert (T2 : Rabs (be * e3) <= M * Rabs e3).
    { rewrite Rabs_mult. apply Rmult_le_compat_r; [apply Rabs_pos|]. rewrite Rabs_pos_eq; lra. }
    replace (be / al * e1 - e2 + be * e3) with (be / al * e1 + - e2 + be * e3) by ring.
    eapply Rle_trans; [apply Rabs_triang|]. eapply Rle_trans; [apply Rplus_le_compat_r, Rabs_triang|].
    rewrite Rabs_Ropp. lra. }
  split; [exact Hp|].
  apply Rmult_le_reg_r with mu; [exact Hmu|].
  replace ((Rabs e1 + M * (Y / mu)) / mu * mu) with (Rabs e1 + M * (Y / mu)) by (field; lra).
  apply Rle_trans with (Rabs (al * m)).
  { rewrite Rabs_mult, (Rmult_comm (Rabs m)). apply Rmult_le_compat_r; [apply Rabs_pos|]. rewrite Rabs_pos_eq; lra. }
  replace (al * m) with (e1 + - (B * p)) by lra.
  eapply Rle_trans; [apply Rabs_triang|]. rewrite Rabs_Ropp, Rabs_mult.
  apply Rplus_le_compat_l. apply Rmult_le_compat; try apply Rabs_pos; [rewrite Rabs_pos_eq; lra|exact Hp].
Qed.

(** the coefficients of a system lie between bounds *)
Record Sys := mkSys { y_g1 : R; y_g2 : R; y_h1 : R; y_h2 : R; y_B : R; y_B' : R; y_K : R; y_C : R; y_C' : R }.
Definition within (mu M : R) (s : Sys) : Prop :=
  mu <= y_g1 s <= M /\ mu <= y_g2 s <= M /\ mu <= y_h1 s <= M /\ mu <= y_h2 s <= M /\
  mu <= y_B s <= M /\ mu <= y_B' s <= M /\ 0 <= y_K s <= M /\ Rabs (y_C s) <= M /\ Rabs (y_C' s) <= M.
Definition solved (s : Sys) (m p n : R) : Prop :=
  chi (y_g1 s) (y_g2 s) m + y_B s * p = y_C s /\
  chi (y_h1 s) (y_h2 s) n - y_B' s * p = y_C' s /\ n = m - y_K s * p.
Definition sys_close (d : R) (s s' : Sys) : Prop :=
  Rabs (y_g1 s - y_g1 s') <= d /\ Rabs (y_g2 s - y_g2 s') <= d /\ Rabs (y_h1 s - y_h1 s') <= d /\
  Rabs (y_h2 s - y_h2 s') <= d /\ Rabs (y_B s - y_B s') <= d /\ Rabs (y_B' s - y_B' s') <= d /\
  Rabs (y_K s - y_K s') <= d /\ Rabs (y_C s - y_C s') <= d /\ Rabs (y_C' s - y_C' s') <= d.

Lemma chi_0 g1 g2 : chi g1 g2 0 = 0.
Proof. unfold chi. ring. Qed.

Lemma solved_bounded mu M : 0 < mu -> exists Z, 0 <= Z /\ forall s m p n, within mu M s -> solved s m p n ->
  Rabs m <= Z /\ Rabs p <= Z /\ Rabs n <= Z.
Proof.
  intros Hmu.
  set (X := (M / mu * M + M + M * 0) / mu). set (W := (M + M * X) / mu).
  exists (Rabs X + Rabs W + Rabs M * Rabs X). split.
  { pose proof (Rabs_pos X). pose proof (Rabs_pos W). pose proof (Rabs_pos M). nra. }
  intros s m p n (G1 & G2 & H1 & H2 & HB & HB' & HK & HC & HC') (E1 & E2 & E3).
  destruct (chi_slope mu M _ _ m 0 G1 G2) as (al & Ha & Ea).
  destruct (chi_slope mu M _ _ n 0 H1 H2) as (be & Hb & Eb).
  rewrite chi_0 in Ea, Eb.
  destruct (core mu M al be (y_B s) (y_B' s) (y_K s) m p n (y_C s) (y_C' s) 0 Hmu Ha Hb HB HB' HK) as [Bp Bm];
    try lra.
  assert (HM : 0 < M) by lra.
  assert (HMm : 0 <= M / mu) by (apply Rle_mult_inv_pos; lra).
  assert (Bp' : Rabs p <= X).
  { eapply Rle_trans; [exact Bp|]. unfold X, Rdiv. apply Rmult_le_compat_r; [left; apply Rinv_0_lt_compat; lra|].
    rewrite Rabs_R0. pose proof (Rmult_le_compat_l _ _ _ HMm HC) as Z. unfold Rdiv in Z. lra. }
  assert (Bm' : Rabs m <= W).
  { eapply Rle_trans; [exact Bm|]. unfold W, Rdiv at 1 3. apply Rmult_le_compat_r; [left; apply Rinv_0_lt_compat; lra|].
    apply Rplus_le_compat; [exact HC|]. apply Rmult_le_compat_l; [lra|].
    unfold X, Rdiv. apply Rmult_le_compat_r; [left; apply Rinv_0_lt_compat; lra|].
    rewrite Rabs_R0. pose proof (Rmult_le_compat_l _ _ _ HMm HC) as Z. unfold Rdiv in Z. lra. }
  pose proof (Rle_abs X). pose proof (Rle_abs W). pose proof (Rabs_pos X). pose proof (Rabs_pos W).
  pose proof (Rabs_pos M).
  assert (0 <= Rabs M * Rabs X) by (apply Rmult_le_pos; assumption).
  split; [lra|]. split; [lra|].
  rewrite E3. unfold Rminus. eapply Rle_trans; [apply Rabs_triang|]. rewrite Rabs_Ropp, Rabs_mult.
  assert (Rabs (y_K s) * Rabs p <= Rabs M * Rabs X).
  { apply Rmult_le_compat; try apply Rabs_pos; [rewrite !Rabs_pos_eq; lra|lra]. }
  lra.
Qed.

Lemma solved_close mu M : 0 < mu -> exists L, 0 <= L /\ forall s s' m p n m' p' n' d,
  within mu M s -> within mu M s' -> sys_close d s s' -> solved s m p n -> solved s' m' p' n' ->
  Rabs (m - m') <= L * d /\ Rabs (p - p') <= L * d /\ Rabs (n - n') <= L * d.
Proof.
  intros Hmu. destruct (solved_bounded mu M Hmu) as (Z & HZ & HB).
  set (e := 1 + Z + Z). set (X := (Rabs M / mu * e + e + Rabs M * Z) / mu). set (W := (e + Rabs M * X) / mu).
  assert (Ie : 0 < / mu) by (apply Rinv_0_lt_compat; lra).
  assert (He : 0 <= e) by (unfold e; lra).
  pose proof (Rabs_pos M) as PM.
  assert (HX : 0 <= X).
  { unfold X, Rdiv. apply Rmult_le_pos; [|lra].
    assert (0 <= Rabs M * / mu * e) by (apply Rmult_le_pos; [apply Rmult_le_pos; lra|lra]).
    assert (0 <= Rabs M * Z) by (apply Rmult_le_pos; lra). lra. }
  assert (HMX : 0 <= Rabs M * X) by (apply Rmult_le_pos; lra).
  assert (HW : 0 <= W).
  { unfold W, Rdiv. apply Rmult_le_pos; lra. }
  exists (X + W + Rabs M * X + Z). split; [lra|].
  intros s s' m p n m' p' n' d Hs Hs' Hd Hq Hq'.
  destruct (HB s' m' p' n' Hs' Hq') as (Zm & Zp & Zn).
  destruct Hs as (G1 & G2 & H1 & H2 & HB1 & HB' & HK & HC & HC').
  destruct Hd as (D1 & D2 & D3 & D4 & D5 & D6 & D7 & D8 & D9).
  destruct Hq as (E1 & E2 & E3), Hq' as (E1' & E2' & E3').
  assert (Hd0 : 0 <= d) by (pose proof (Rabs_pos (y_C s - y_C s')); lra).
  assert (HM : 0 < M) by lra. assert (RM : Rabs M = M) by (apply Rabs_pos_eq; lra).
  rewrite RM in HMX, PM |- *.
  destruct (chi_slope mu M _ _ m m' G1 G2) as (al & Ha & Ea).
  destruct (chi_slope mu M _ _ n n' H1 H2) as (be & Hb & Eb).
  pose proof (chi_close d _ _ _ _ m' D1 D2) as F1. pose proof (chi_close d _ _ _ _ n' D3 D4) as F2.
  set (e1 := (y_C s - y_C s') - (chi (y_g1 s) (y_g2 s) m' - chi (y_g1 s') (y_g2 s') m') - (y_B s - y_B s') * p').
  set (e2 := (y_C' s - y_C' s') - (chi (y_h1 s) (y_h2 s) n' - chi (y_h1 s') (y_h2 s') n') + (y_B' s - y_B' s') * p').
  set (e3 := - ((y_K s - y_K s') * p')).
  destruct (core mu M al be (y_B s) (y_B' s) (y_K s) (m - m') (p - p') (n - n') e1 e2 e3 Hmu Ha Hb HB1 HB' HK)
    as [Bp Bm].
  { unfold e1. rewrite <- Ea, <- E1, <- E1'. ring. }
  { unfold e2. rewrite <- Eb, <- E2, <- E2'. ring. }
  { unfold e3. rewrite E3, E3'. ring. }
  assert (Le1 : Rabs e1 <= e * d).
  { unfold e1. eapply Rle_trans; [apply abs3|]. rewrite (Rabs_mult (y_B s - y_B s')).
    assert (Rabs (y_B s - y_B s') * Rabs p' <= d * Z) by (apply Rmult_le_compat; try apply Rabs_pos; assumption).
    assert (d * Rabs m' <= d * Z) by (apply Rmult_le_compat_l; assumption).
    unfold e. lra. }
  assert (Le2 : Rabs e2 <= e * d).
  { unfold e2. eapply Rle_trans; [apply abs3'|]. rewrite (Rabs_mult (y_B' s - y_B' s')).
    assert (Rabs (y_B' s - y_B' s') * Rabs p' <= d * Z) by (apply Rmult_le_compat; try apply Rabs_pos; assumption).
    assert (d * Rabs n' <= d * Z) by (apply Rmult_le_compat_l; assumption).
    unfold e. lra. }
  assert (Le3 : Rabs e3 <= Z * d).
  { unfold e3. rewrite Rabs_Ropp, Rabs_mult, (Rmult_comm Z). apply Rmult_le_compat; try apply Rabs_pos; assumption. }
  assert (HMm : 0 <= M / mu) by (apply Rle_mult_inv_pos; lra).
  assert (N : M / mu * Rabs e1 + Rabs e2 + M * Rabs e3 <= (M / mu * e + e + M * Z) * d).
  { pose proof (Rmult_le_compat_l _ _ _ HMm Le1). assert (M * Rabs e3 <= M * (Z * d)) by (apply Rmult_le_compat_l; lra).
    lra. }
  assert (Bp' : Rabs (p - p') <= X * d).
  { eapply Rle_trans; [exact Bp|]. unfold X. rewrite RM. apply div_le; assumption. }
  assert (Bm' : Rabs (m - m') <= W * d).
  { eapply Rle_trans; [exact Bm|]. unfold W. rewrite RM. apply div_le; [assumption|].
    rewrite Rmult_plus_distr_r. apply Rplus_le_compat; [exact Le1|].
    rewrite Rmult_assoc. apply Rmult_le_compat_l; [lra|]. unfold X. rewrite RM. apply div_le; assumption. }
  assert (P1 : 0 <= X * d) by (apply Rmult_le_pos; lra). assert (P2 : 0 <= W * d) by (apply Rmult_le_pos; lra).
  assert (P3 : 0 <= M * X * d) by (apply Rmult_le_pos; lra). assert (P4 : 0 <= Z * d) by (apply Rmult_le_pos; lra).
  rewrite !Rmult_plus_distr_r.
  split; [lra|]. split; [lra|].
  replace (n - n') with ((m - m') + - (y_K s * (p - p')) + e3) by (unfold e3; rewrite E3, E3'; ring).
  eapply Rle_trans; [apply Rabs_triang|]. eapply Rle_trans; [apply Rplus_le_compat_r, Rabs_triang|].
  rewrite Rabs_Ropp, Rabs_mult.
  assert (Rabs (y_K s) * Rabs (p - p') <= M * (X * d)).
  { apply Rmult_le_compat; try apply Rabs_pos; [rewrite Rabs_pos_eq; lra|exact Bp']. }
  lra.
Qed.

(** a quotient *)
Lemma quotient_close mu Y a a' x x' y y' d e : 0 < mu -> mu <= Rabs a -> mu <= Rabs a' ->
  a * x = y -> a' * x' = y' -> Rabs (a - a') <= d -> Rabs (y - y') <= e -> Rabs y' <= Y ->
  Rabs (x - x') <= (e + d * (Y / mu)) / mu.
Proof.
  intros Hmu Ha Ha' E E' Hd He HY.
  assert (Ie : 0 < / mu) by (apply Rinv_0_lt_compat; lra).
  assert (Bx : Rabs x' <= Y / mu).
  { apply Rmult_le_reg_l with mu; [exact Hmu|]. replace (mu * (Y / mu)) with Y by (field; lra).
    eapply Rle_trans; [|exact HY]. rewrite <- E', Rabs_mult. apply Rmult_le_compat_r; [apply Rabs_pos|exact Ha']. }
  apply Rmult_le_reg_l with mu; [exact Hmu|]. replace (mu * ((e + d * (Y / mu)) / mu)) with (e + d * (Y / mu)) by (field; lra).
  eapply Rle_trans with (Rabs (a * (x - x'))).
  { rewrite Rabs_mult. apply Rmult_le_compat_r; [apply Rabs_pos|exact Ha]. }
  replace (a * (x - x')) with ((y - y') + - ((a - a') * x')) by (rewrite <- E, <- E'; ring).
  eapply Rle_trans; [apply Rabs_triang|]. rewrite Rabs_Ropp, Rabs_mult.
  assert (0 <= d) by (pose proof (Rabs_pos (a - a')); lra).
  apply Rplus_le_compat; [exact He|]. apply Rmult_le_compat; try apply Rabs_pos; assumption.
Qed.

(** ** Gronwall's inequality, in the form needed for uniqueness *)
Lemma exp_mult_deriv z dz k t : derivable_pt_lim z t dz ->
  derivable_pt_lim (fun u => z u * exp (k * u)) t ((dz + k * z t) * exp (k * t)).
Proof.
  intros H.
  assert (HE : derivable_pt_lim (fun u => exp (k * u)) t (exp (k * t) * k)).
  { apply (derivable_pt_lim_comp (fun u => k * u) exp t k (exp (k * t))).
    - pose proof (derivable_pt_lim_scal id k t 1 (derivable_pt_lim_id t)) as Q. rewrite Rmult_1_r in Q. exact Q.
    - apply derivable_pt_lim_exp. }
  replace ((dz + k * z t) * exp (k * t)) with (dz * exp (k * t) + z t * (exp (k * t) * k)) by ring.
  exact (derivable_pt_lim_mult z (fun u => exp (k * u)) t _ _ H HE).
Qed.

(** a derivative that exists can be named *)
Lemma named_deriv f t : (exists l, derivable_pt_lim f t l) -> {l | derivable_pt_lim f t l}.
Proof.
  intros H. set (U n := (f (t + / INR (S n)) - f t) / / INR (S n)).
  assert (HU : forall l, derivable_pt_lim f t l -> Un_cv U l).
  { intros l Hl e He. destruct (Hl e He) as [d Hd].
    destruct (archimed_cor1 d (cond_pos d)) as (N & HN & HN0).
    exists N. intros n Hn. unfold R_dist, U.
    assert (P : 0 < INR (S n)) by (apply lt_0_INR; lia).
    apply Hd.
    - apply Rinv_neq_0_compat. lra.
    - rewrite Rabs_pos_eq by (left; apply Rinv_0_lt_compat, P).
      apply Rle_lt_trans with (/ INR N); [|exact HN]. apply Rinv_le_contravar; [apply lt_0_INR; lia|apply le_INR; lia]. }
  assert (C : Cauchy_crit U).
  { destruct H as [l Hl]. apply CV_Cauchy. exists l. apply HU, Hl. }
  destruct (R_complete U C) as [l Hl]. exists l.
  destruct H as [l' Hl']. rewrite (UL_sequence U l l' Hl (HU l' Hl')). exact Hl'.
Qed.

Lemma MVT_exists f x y (Q : R -> R -> Prop) : x < y ->
  (forall t, x <= t <= y -> exists l, derivable_pt_lim f t l /\ Q t l) ->
  exists c l, x < c < y /\ Q c l /\ f y - f x = l * (y - x).
Proof.
  intros Hxy H.
  assert (D : forall t, x <= t <= y -> {l | derivable_pt_lim f t l}).
  { intros t Ht. apply named_deriv. destruct (H t Ht) as (l & Hl & _). eauto. }
  set (f' t := match Rle_dec x t with
               | left h1 => match Rle_dec t y with left h2 => proj1_sig (D t (conj h1 h2)) | right _ => 0 end
               | right _ => 0 end).
  destruct (MVT_cor2 f f' x y Hxy) as (c & Hc & Hcc).
  { intros c Hc. unfold f'. destruct (Rle_dec x c) as [h1|h1]; [|lra]. destruct (Rle_dec c y) as [h2|h2]; [|lra].
    exact (proj2_sig (D c (conj h1 h2))). }
  exists c, (f' c). split; [exact Hcc|]. split; [|exact Hc].
  unfold f'. destruct (Rle_dec x c) as [h1|h1]; [|lra]. destruct (Rle_dec c y) as [h2|h2]; [|lra].
  destruct (D c (conj h1 h2)) as [l Hl]. cbn [proj1_sig].
  destruct (H c (conj h1 h2)) as (l' & Hl' & HQ). rewrite (uniqueness_limite f c l l' Hl Hl'). exact HQ.
Qed.

Lemma stays_zero (z : R -> R) a b t0 L : a <= t0 <= b ->
  (forall t, a <= t <= b -> 0 <= z t) ->
  (forall t, a <= t <= b -> exists dz, derivable_pt_lim z t dz /\ Rabs dz <= L * z t) ->
  z t0 = 0 -> forall t, a <= t <= b -> z t = 0.
Proof.
  intros H0 Hz Hd Z0 t Ht. apply Rle_antisym; [|apply Hz, Ht].
  assert (K : forall k x y, a <= x -> x < y -> y <= b ->
            exists c d, x < c < y /\ Rabs d <= L * z c /\
              z y * exp (k * y) - z x * exp (k * x) = (d + k * z c) * exp (k * c) * (y - x)).
  { intros k x y Hx Hxy Hy.
    destruct (MVT_exists (fun u => z u * exp (k * u)) x y
      (fun c l => exists d, Rabs d <= L * z c /\ l = (d + k * z c) * exp (k * c)) Hxy) as (c & l & Hc & (d & B & E) & EQ).
    { intros u Hu. destruct (Hd u ltac:(lra)) as (dz & D1 & D2). eexists. split; [apply exp_mult_deriv, D1|]. eauto. }
    exists c, d. rewrite <- E. auto. }
  destruct (Rtotal_order t0 t) as [C|[C|C]].
  - destruct (K (- L) t0 t ltac:(lra) C ltac:(lra)) as (c & d & Hc & B & E). rewrite Z0 in E.
    pose proof (exp_pos (- L * t)) as E1. pose proof (exp_pos (- L * c)) as E2. pose proof (Rle_abs d).
    assert (N : (d + - L * z c) * exp (- L * c) * (t - t0) <= 0).
    { assert (d + - L * z c <= 0) by lra. assert (0 <= exp (- L * c) * (t - t0)) by (apply Rmult_le_pos; lra).
      rewrite Rmult_assoc. nra. }
    apply Rmult_le_reg_r with (exp (- L * t)); [exact E1|]. lra.
  - subst. lra.
  - destruct (K L t t0 ltac:(lra) C ltac:(lra)) as (c & d & Hc & B & E). rewrite Z0 in E.
    pose proof (exp_pos (L * t)) as E1. pose proof (exp_pos (L * c)) as E2.
    assert (- (L * z c) <= d) by (pose proof (Rle_abs (- d)) as Q; rewrite Rabs_Ropp in Q; lra).
    assert (N : 0 <= (d + L * z c) * exp (L * c) * (t0 - t)).
    { apply Rmult_le_pos; [apply Rmult_le_pos|]; lra. }
    apply Rmult_le_reg_r with (exp (L * t)); [exact E1|]. lra.
Qed.
