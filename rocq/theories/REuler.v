(** * Euler's method keeps the promise *)
From Coq Require Import ZArith NArith List Reals Lra Lia.
From Verif Require Import Num ModelTypes ModelStateEq RNum SpecR SpecGas SpecSolver RClose.
Import ListNotations.
Local Open Scope R_scope.

Definition step3 (w : R) (y d : vec3 R) : vec3 R :=
  let '(a, b, c) := y in let '(a', b', c') := d in (a + w * a', b + w * b', c + w * c').
(** [n] steps of length [w] *)
Fixpoint euler_steps (n : nat) (w t : R) (y : vec3 R) (k : vec3 R -> ode_prog R) : ode_prog R :=
  match n with
  | O => k y
  | S n' => OAsk t y (fun d => euler_steps n' w (t + w) (step3 w y d) k)
  end.
(** [m] more output points, [N] steps for each *)
Fixpoint euler_out (N m i : nat) (x dx : R) (y : vec3 R) (xs : list R) (ys : list (vec3 R)) : ode_prog R :=
  match m with
  | O => ODone xs ys
  | S m' => euler_steps N (dx / INR N) (x + INR i * dx) y
      (fun y' => euler_out N m' (S i) x dx y' (xs ++ [x + INR (S i) * dx]) (ys ++ [y']))
  end.
Definition outputs (x b dx : R) : nat := Z.to_nat (up ((b - x) / dx) - 1).
Definition euler_env (N : nat) : Env R := mkEnv
  (fun a => let x := oa_x a in euler_out N (outputs x (oa_x_end a) (oa_dx a)) 0 x (oa_dx a) (oa_y a) [x] [oa_y a]) false.

Lemma apart_pos y z : 0 <= apart y z.
Proof.
  destruct y as [[a b] c], z as [[a' b'] c']. unfold apart. pose proof (Rabs_pos (a - a')). pose proof (Rabs_pos (b - b')). pose proof (Rabs_pos (c - c')). lra.
Qed.
Lemma apart_refl y : apart y y = 0.
Proof. destruct y as [[a b] c]. unfold apart. rewrite !Rminus_diag_eq, Rabs_R0 by reflexivity. ring. Qed.
Lemma outputs_ok x b dx : x < b -> 0 < dx -> INR (outputs x b dx) * dx <= b - x < INR (S (outputs x b dx)) * dx.
Proof.
  intros H D. unfold outputs. set (q := (b - x) / dx). destruct (archimed q) as (A1 & A2).
  assert (Q : 0 < q) by (apply Rdiv_lt_0_compat; lra). assert (E : q * dx = b - x) by (unfold q; field; lra).
  assert (Z1 : (0 < up q)%Z) by (apply lt_IZR; lra).
  rewrite S_INR, INR_IZR_INZ, Z2Nat.id by lia. rewrite minus_IZR. rewrite <- E.
  split; [apply Rmult_le_compat_r; lra|apply Rmult_lt_compat_r; lra].
Qed.

Section Follow.
  Variables (f : R -> vec3 R -> vec3 R) (z : R -> vec3 R) (a b rho L B : R).
  Hypothesis L0 : 0 <= L.
  Hypothesis B0 : 0 <= B.
  Hypothesis rho0 : 0 <= rho.
  Hypothesis HS : solution_of f z a b.
  Hypothesis HR : regular f z a b rho L B.
  Lemma on_tube t : a <= t <= b -> tube z a b rho t (z t).
  Proof. intros Ht. split; [exact Ht|]. rewrite apart_refl. exact rho0. Qed.
  Lemma part_le y : Rabs (part1 y) <= size3 y /\ Rabs (part2 y) <= size3 y /\ Rabs (part3 y) <= size3 y.
  Proof.
    destruct y as [[p q] r]. cbn [part1 part2 part3 size3 fst snd]. pose proof (Rabs_pos p). pose proof (Rabs_pos q). pose proof (Rabs_pos r). lra.
  Qed.
  Lemma part_apart y y' : Rabs (part1 y - part1 y') <= apart y y' /\ Rabs (part2 y - part2 y') <= apart y y' /\ Rabs (part3 y - part3 y') <= apart y y'.
  Proof.
    destruct y as [[p q] r], y' as [[p' q'] r']. cbn [part1 part2 part3 apart fst snd]. pose proof (Rabs_pos (p - p')). pose proof (Rabs_pos (q - q')).
    pose proof (Rabs_pos (r - r')). lra.
  Qed.
  (** a part of the solution moves at most so far, and almost along its first rate *)
  Lemma moves (p : vec3 R -> R) t u : (forall y, Rabs (p y) <= size3 y) ->
    (forall v, a <= v <= b -> has_deriv (fun s => p (z s)) v (p (f v (z v)))) ->
    a <= t -> t <= u -> u <= b -> Rabs (p (z u) - p (z t)) <= B * (u - t).
  Proof.
    intros Hp Hd H1 H2 H3. destruct H2 as [H2|H2]; [|subst u; rewrite !Rminus_diag_eq, Rabs_R0 by reflexivity; lra].
    destruct (MVT_exists (fun s => p (z s)) t u (fun v l => l = p (f v (z v))) H2) as (v & l & Hv & El & E).
    { intros v Hv. exists (p (f v (z v))). split; [apply Hd; lra|reflexivity]. }
    rewrite E, Rabs_mult, (Rabs_pos_eq (u - t)) by lra. apply Rmult_le_compat_r; [lra|]. rewrite El.
    apply Rle_trans with (1 := Hp _). apply (HR v (z v) v (z v)); apply on_tube; lra.
  Qed.
  Lemma moved t u : a <= t -> t <= u -> u <= b -> apart (z u) (z t) <= 3 * (B * (u - t)).
  Proof.
    intros H1 H2 H3.
    pose proof (moves part1 t u (fun y => proj1 (part_le y)) (fun v Hv => proj1 (HS v Hv)) H1 H2 H3) as M1.
    pose proof (moves part2 t u (fun y => proj1 (proj2 (part_le y))) (fun v Hv => proj1 (proj2 (HS v Hv))) H1 H2 H3) as M2.
    pose proof (moves part3 t u (fun y => proj2 (proj2 (part_le y))) (fun v Hv => proj2 (proj2 (HS v Hv))) H1 H2 H3) as M3.
    destruct (z u) as [[p q] r], (z t) as [[p' q'] r']. cbn [part1 part2 part3 apart fst snd] in *. lra.
  Qed.
  Let C := L * (1 + 3 * B).
  Lemma C_pos : 0 <= C.
  Proof. unfold C. apply Rmult_le_pos; lra. Qed.
  Lemma straight (p : vec3 R -> R) t w : (forall y y', Rabs (p y - p y') <= apart y y') ->
    (forall v, a <= v <= b -> has_deriv (fun s => p (z s)) v (p (f v (z v)))) ->
    0 < w -> a <= t -> t + w <= b -> Rabs (p (z (t + w)) - (p (z t) + w * p (f t (z t)))) <= w * (C * w).
  Proof.
    intros Hp Hd Hw H1 H3.
    destruct (MVT_exists (fun s => p (z s)) t (t + w) (fun v l => l = p (f v (z v))) ltac:(lra)) as (v & l & Hv & El & E).
    { intros v Hv. exists (p (f v (z v))). split; [apply Hd; lra|reflexivity]. }
    replace (p (z (t + w)) - (p (z t) + w * p (f t (z t)))) with (w * (l - p (f t (z t)))) by (replace (t + w - t) with w in E by ring; lra).
    rewrite Rabs_mult, (Rabs_pos_eq w) by lra. apply Rmult_le_compat_l; [lra|]. rewrite El.
    apply Rle_trans with (1 := Hp _ _).
    destruct (HR v (z v) t (z t) (on_tube v ltac:(lra)) (on_tube t ltac:(lra))) as (_ & H). apply Rle_trans with (1 := H).
    unfold C. rewrite Rmult_assoc. apply Rmult_le_compat_l; [exact L0|].
    pose proof (moved t v ltac:(lra) ltac:(lra) ltac:(lra)) as M. rewrite (Rabs_pos_eq (v - t)) by lra.
    assert (B * (v - t) <= B * w) by (apply Rmult_le_compat_l; lra). lra.
  Qed.
  (** one step *)
  Lemma one_step t w y : 0 < w -> a <= t -> t + w <= b -> apart y (z t) <= rho ->
    apart (step3 w y (f t y)) (z (t + w)) <= (1 + L * w) * apart y (z t) + 3 * (w * (C * w)).
  Proof.
    intros Hw H1 H3 Hy. assert (Hb : a <= t <= b) by lra.
    destruct (HR t y t (z t) (conj Hb Hy) (on_tube t Hb)) as (_ & HL). rewrite Rminus_diag_eq, Rabs_R0, Rplus_0_l in HL by reflexivity.
    pose proof (straight part1 t w (fun y y' => proj1 (part_apart y y')) (fun v Hv => proj1 (HS v Hv)) Hw H1 H3) as M1.
    pose proof (straight part2 t w (fun y y' => proj1 (proj2 (part_apart y y'))) (fun v Hv => proj1 (proj2 (HS v Hv))) Hw H1 H3) as M2.
    pose proof (straight part3 t w (fun y y' => proj2 (proj2 (part_apart y y'))) (fun v Hv => proj2 (proj2 (HS v Hv))) Hw H1 H3) as M3.
    destruct (f t y) as [[d1 d2] d3], (f t (z t)) as [[g1 g2] g3], (z (t + w)) as [[u1 u2] u3], (z t) as [[v1 v2] v3], y as [[y1 y2] y3].
    cbn [part1 part2 part3 apart step3 fst snd] in *.
    assert (K : forall yi vi di gi ui, Rabs (yi + w * di - ui) <= Rabs (yi - vi) + w * Rabs (di - gi) + Rabs (ui - (vi + w * gi))).
    { intros yi vi di gi ui. replace (yi + w * di - ui) with ((yi - vi) + (w * (di - gi) + - (ui - (vi + w * gi)))) by ring.
      eapply Rle_trans; [apply Rabs_triang|]. rewrite Rplus_assoc. apply Rplus_le_compat_l. eapply Rle_trans; [apply Rabs_triang|].
      rewrite Rabs_Ropp, Rabs_mult, (Rabs_pos_eq w) by lra. lra. }
    pose proof (K y1 v1 d1 g1 u1). pose proof (K y2 v2 d2 g2 u2). pose proof (K y3 v3 d3 g3 u3).
    apply (Rmult_le_compat_l w) in HL; [|lra]. 
    replace ((1 + L * w) * (Rabs (y1 - v1) + Rabs (y2 - v2) + Rabs (y3 - v3))) with
      (Rabs (y1 - v1) + Rabs (y2 - v2) + Rabs (y3 - v3) + w * (L * (Rabs (y1 - v1) + Rabs (y2 - v2) + Rabs (y3 - v3)))) by ring.
    lra.
  Qed.
  Variable w : R.
  Hypothesis w0 : 0 < w.
  (** error after some time *)
  Let err (t : R) : R := 3 * (C * w) * (t - a) * exp (L * (t - a)).
  Lemma err_step t : a <= t -> (1 + L * w) * err t + 3 * (w * (C * w)) <= err (t + w).
  Proof.
    intros Ht. unfold err. replace (L * (t + w - a)) with (L * w + L * (t - a)) by ring. rewrite exp_plus.
    pose proof (exp_ineq1_le (L * w)) as E1. pose proof (exp_pos (L * (t - a))) as E2. pose proof C_pos as C0.
    assert (Lw : 0 <= L * w) by (apply Rmult_le_pos; lra). assert (La : 0 <= L * (t - a)) by (apply Rmult_le_pos; lra).
    assert (E3 : 1 <= exp (L * (t - a))) by (pose proof (exp_ineq1_le (L * (t - a))); lra).
    set (x := exp (L * w)) in *. set (y := exp (L * (t - a))) in *. assert (CW : 0 <= 3 * (C * w)) by (apply Rmult_le_pos; [lra|apply Rmult_le_pos; lra]).
    set (c := 3 * (C * w)) in *. replace (3 * (w * (C * w))) with (c * w) by (unfold c; ring).
    assert (XY : (1 + L * w) * y <= x * y) by (apply Rmult_le_compat_r; lra).
    assert (Q1 : c * (t - a) * ((1 + L * w) * y) <= c * (t - a) * (x * y)) by (apply Rmult_le_compat_l; [apply Rmult_le_pos; lra|exact XY]).
    assert (X1 : 1 <= x * y) by (assert (1 * 1 <= x * y) by (apply Rmult_le_compat; lra); lra).
    assert (Q2 : c * w * 1 <= c * w * (x * y)) by (apply Rmult_le_compat_l; [apply Rmult_le_pos; lra|exact X1]).
    lra.
  Qed.
  Lemma err_mono t u : a <= t -> t <= u -> err t <= err u.
  Proof.
    intros H1 H2. unfold err. pose proof C_pos as C0. assert (CW : 0 <= 3 * (C * w)) by (apply Rmult_le_pos; [lra|apply Rmult_le_pos; lra]).
    apply Rmult_le_compat; [apply Rmult_le_pos; lra|left; apply exp_pos|apply Rmult_le_compat_l; lra|].
    assert (M : L * (t - a) <= L * (u - a)) by (apply Rmult_le_compat_l; lra).
    destruct M as [M|M]; [left; apply exp_increasing, M|right; f_equal; exact M].
  Qed.
  Hypothesis small : err b <= rho.
  Lemma steps_served (Q : list R -> list (vec3 R) -> Prop) k : forall n t y, a <= t -> t + INR n * w <= b -> apart y (z t) <= err t ->
    (forall y', apart y' (z (t + INR n * w)) <= err (t + INR n * w) -> exists xs ys, served (tube z a b rho) f (k y') xs ys /\ Q xs ys) ->
    exists xs ys, served (tube z a b rho) f (euler_steps n w t y k) xs ys /\ Q xs ys.
  Proof.
    induction n as [|n IH]; intros t y Ht Hb Hy Hk.
    - cbn [euler_steps INR] in *. apply Hk. rewrite Rmult_0_l, Rplus_0_r. exact Hy.
    - assert (En : t + INR (S n) * w = t + w + INR n * w) by (rewrite S_INR; ring). rewrite En in Hb, Hk.
      assert (P : 0 <= INR n * w) by (apply Rmult_le_pos; [apply pos_INR|lra]).
      assert (Hr : apart y (z t) <= rho) by (pose proof (err_mono t b Ht ltac:(lra)); lra).
      destruct (IH (t + w) (step3 w y (f t y))) as (xs & ys & S1 & S2); try assumption; try lra.
      + pose proof (one_step t w y w0 Ht ltac:(lra) Hr) as O. pose proof (err_step t Ht) as ES.
        assert (Lw : 0 <= L * w) by (apply Rmult_le_pos; lra).
        assert ((1 + L * w) * apart y (z t) <= (1 + L * w) * err t) by (apply Rmult_le_compat_l; lra). lra.
      + exists xs, ys. split; [|exact S2]. cbn [euler_steps]. apply served_ask; [|exact S1]. split; [lra|exact Hr].
  Qed.
  Variables (N : nat) (dx : R).
  Hypothesis Nw : INR N * w = dx.
  Hypothesis wN : dx / INR N = w.
  Hypothesis d0 : 0 < dx.
  Lemma out_served y0 : forall m i y ys, a + INR (i + m) * dx <= b -> apart y (z (a + INR i * dx)) <= err (a + INR i * dx) ->
    Forall2 (fun t y => apart y (z t) <= err b) (output_times a dx i) (y0 :: ys) ->
    exists xs ys', served (tube z a b rho) f (euler_out N m i a dx y (output_times a dx i) (y0 :: ys)) xs ys' /\
      exists ys'', xs = output_times a dx (i + m) /\ ys' = y0 :: ys'' /\
      Forall2 (fun t y => apart y (z t) <= err b) (output_times a dx (i + m)) (y0 :: ys'').
  Proof.
    induction m as [|m IH]; intros i y ys Hb Hy HF.
    - rewrite Nat.add_0_r in *. exists (output_times a dx i), (y0 :: ys). split; [apply served_done|]. exists ys. auto.
    - cbn [euler_out]. rewrite wN.
      assert (E1 : a + INR i * dx + INR N * w = a + INR (S i) * dx) by (rewrite Nw, S_INR; ring).
      assert (B1 : a + INR (S i) * dx <= b).
      { apply Rle_trans with (2 := Hb). apply Rplus_le_compat_l, Rmult_le_compat_r; [lra|]. apply le_INR. lia. }
      assert (P : 0 <= INR i * dx) by (apply Rmult_le_pos; [apply pos_INR|lra]).
      apply (steps_served (fun xs ys' => exists ys'', xs = output_times a dx (i + S m) /\ ys' = y0 :: ys'' /\
        Forall2 (fun t y => apart y (z t) <= err b) (output_times a dx (i + S m)) (y0 :: ys''))); try lra.
      intros y' Hy'. rewrite E1 in Hy'.
      assert (ET : output_times a dx i ++ [a + INR (S i) * dx] = output_times a dx (S i)).
      { unfold output_times. rewrite (seq_S (S i)), map_app. reflexivity. }
      rewrite ET. change ((y0 :: ys) ++ [y']) with (y0 :: (ys ++ [y'])).
      replace (i + S m)%nat with (S i + m)%nat in * by lia. apply IH; [exact Hb|exact Hy'|].
      rewrite <- ET. change (y0 :: (ys ++ [y'])) with ((y0 :: ys) ++ [y']). apply Forall2_app; [exact HF|].
      constructor; [|constructor]. apply Rle_trans with (1 := Hy'). apply err_mono; [|exact B1].
      assert (0 <= INR (S i) * dx) by (apply Rmult_le_pos; [apply pos_INR|lra]). lra.
  Qed.
End Follow.

(** with enough steps, Euler's method follows every solution as closely as desired *)
Theorem euler_keeps H rho L B e : 0 < H -> 0 < rho -> 0 <= L -> 0 <= B -> 0 < e ->
  exists N0, forall N rtol atol, (N0 <= N)%nat -> solver_within (euler_env N) rtol atol H rho L B e.
Proof.
  intros H0 r0 L0 B0 e0. set (G := 3 * (L * (1 + 3 * B)) * H * exp (L * H)).
  assert (C0 : 0 <= L * (1 + 3 * B)) by (apply Rmult_le_pos; lra).
  assert (G0 : 0 <= G) by (unfold G; apply Rmult_le_pos; [apply Rmult_le_pos; lra|left; apply exp_pos]).
  set (mn := Rmin rho e). assert (M0 : 0 < mn) by (apply Rmin_pos; assumption).
  destruct (archimed (G * H / mn)) as (A & _). set (N0 := S (Z.to_nat (up (G * H / mn)))).
  exists N0. intros N rtol atol HN a f z x b dx _ _ Hxb HH Hdx Hz HS HR.
  assert (N1 : 1 <= INR N) by (change 1 with (INR 1); apply le_INR; lia).
  assert (NG : G * H / mn <= INR N).
  { apply Rle_trans with (IZR (up (G * H / mn))); [lra|]. apply Rle_trans with (INR (Z.to_nat (up (G * H / mn)))).
    - rewrite INR_IZR_INZ. apply IZR_le. lia.
    - apply le_INR. lia. }
  pose proof (outputs_ok x b dx Hxb Hdx) as OK. set (m := outputs x b dx) in *.
  assert (GH : G * H <= INR N * mn).
  { apply (Rmult_le_compat_r mn) in NG; [|lra]. replace (G * H / mn * mn) with (G * H) in NG by (field; lra). exact NG. }
  set (w := dx / INR N). assert (W0 : 0 < w) by (apply Rdiv_lt_0_compat; lra).
  assert (Nw : INR N * w = dx) by (unfold w; field; lra).
  exists m. cbn [euler_env env_ode]. fold x b dx m.
  destruct m as [|m'] eqn:Em.
  - exists []. split; [exact OK|]. cbn [euler_out]. unfold output_times. cbn [seq map INR].
    replace (x + 0 * dx) with x by ring. split; [apply served_done|]. constructor; [|constructor]. rewrite <- Hz, apart_refl. lra.
  - assert (DH : dx <= H).
    { destruct OK as (O1 & _). rewrite S_INR in O1. assert (0 <= INR m' * dx) by (apply Rmult_le_pos; [apply pos_INR|lra]). lra. }
    set (err := 3 * (L * (1 + 3 * B) * w) * (b - x) * exp (L * (b - x))).
    assert (SM : err <= mn).
    { apply Rle_trans with (G * w).
      - unfold err, G. replace (3 * (L * (1 + 3 * B)) * H * exp (L * H) * w) with (3 * (L * (1 + 3 * B) * w) * H * exp (L * H)) by ring.
        assert (CW : 0 <= 3 * (L * (1 + 3 * B) * w)) by (apply Rmult_le_pos; [lra|apply Rmult_le_pos; lra]).
        apply Rmult_le_compat; [apply Rmult_le_pos; lra|left; apply exp_pos|apply Rmult_le_compat_l; lra|].
        assert (ML : L * (b - x) <= L * H) by (apply Rmult_le_compat_l; lra).
        destruct ML as [ML|ML]; [left; apply exp_increasing, ML|right; f_equal; exact ML].
      - apply (Rmult_le_reg_l (INR N)); [lra|]. replace (INR N * (G * w)) with (G * dx) by (rewrite <- Nw; ring).
        apply Rle_trans with (2 := GH). apply Rmult_le_compat_l; lra. }
    pose proof (Rmin_l rho e) as ML. pose proof (Rmin_r rho e) as MR. fold mn in ML, MR.
    assert (SR : err <= rho) by lra.
    destruct (out_served f z x b rho L B L0 B0 (Rlt_le _ _ r0) HS HR w W0 SR N dx Nw eq_refl Hdx (oa_y a) (S m') 0 (oa_y a) [])
      as (xs & ys' & S1 & ys & -> & -> & S2).
    + cbn [plus]. lra.
    + cbn [INR]. rewrite Rmult_0_l, Rplus_0_r, Hz, apart_refl. replace (x - x) with 0 by ring. rewrite !Rmult_0_r, !Rmult_0_l. lra.
    + unfold output_times. cbn [seq map INR]. constructor; [|constructor]. rewrite Rmult_0_l, Rplus_0_r, Hz, apart_refl. fold err.
      unfold err. apply Rmult_le_pos; [|left; apply exp_pos]. apply Rmult_le_pos; [|lra]. apply Rmult_le_pos; [lra|apply Rmult_le_pos; lra].
    + exists ys. split; [exact OK|]. cbn [plus] in S1, S2. split.
      * unfold output_times at 1 in S1. cbn [seq map INR] in S1. rewrite Rmult_0_l, Rplus_0_r in S1. exact S1.
      * clear - S2 SM MR. fold err in S2. induction S2 as [|t y l l' Hh _ IH]; constructor; [lra|exact IH].
Qed.
