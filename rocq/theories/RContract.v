(** * Two solutions of the temperature equations approach each other *)
From Coq Require Import Reals Lra Lia.
From Verif Require Import RNum RFluid RKin RMass RPeriod RStart RBounds.
Local Open Scope R_scope.

Lemma exp_mono_le x y : x <= y -> exp x <= exp y.
Proof. intros [H|H]; [left; apply exp_increasing, H|right; f_equal; exact H]. Qed.
(** a function pulled towards zero and pushed by at most [M] *)
Lemma pulled (u e p : R -> R) a b M : a <= b -> 0 <= M ->
  (forall t, a <= t <= b -> derivable_pt_lim u t (- e t * u t + p t) /\ 0 <= e t /\ Rabs (p t) <= M) ->
  Rabs (u b) <= Rabs (u a) + M * (b - a).
Proof.
  intros Hab HM H.
  assert (S : forall s, (s = 1 \/ s = -1) -> s * u b <= Rabs (u a) + M * (b - a)).
  { intros s Hs. assert (B : s * u b - M * (b - a) <= Rabs (u a)); [|lra].
    apply (barrier (fun t => s * u t - M * (t - a)) a b (Rabs (u a))); [| |lra].
    - intros t Ht. destruct (H t Ht) as (D & He & Hp). exists (s * (- e t * u t + p t) - M). split.
      + eapply deriv_eq; [apply derivable_pt_lim_minus; [apply (derivable_pt_lim_scal u s t _ D)|]|].
        * apply (derivable_pt_lim_scal (fun t => t - a) M t 1).
          eapply deriv_eq; [apply (derivable_pt_lim_minus id (fun _ => a) t 1 0); [apply derivable_pt_lim_id|apply deriv_const]|ring].
        * ring.
      + intros L. assert (0 <= s * u t).
        { pose proof (Rabs_pos (u a)). assert (0 <= M * (t - a)) by (apply Rmult_le_pos; lra). lra. }
        assert (0 <= e t * (s * u t)) by (apply Rmult_le_pos; assumption).
        assert (s * p t <= M).
        { pose proof (Rle_abs (p t)). pose proof (Rle_abs (- p t)) as Q. rewrite Rabs_Ropp in Q. destruct Hs as [-> | ->]; lra. }
        lra.
    - pose proof (Rle_abs (u a)). pose proof (Rle_abs (- u a)) as Q. rewrite Rabs_Ropp in Q. destruct Hs as [-> | ->]; lra. }
  pose proof (S 1 (or_introl eq_refl)). pose proof (S (-1) (or_intror eq_refl)).
  apply Rabs_le. lra.
Qed.

Section Flow.
  (** [a] is cv / cp; [T0] the temperature up to which flow carries nothing; [z] is 1 / temperature *)
  Variables (a T0 : R).
  Hypothesis Ha : 0 < a <= 1.
  Hypothesis HT0 : 0 <= T0.
  Definition out (z : R) : R := z / (1 - T0 * z).
  Definition flow (V dV ze y z : R) : R := let w := a * V * y + dV in Rmax w 0 * ze + Rmin w 0 * out z.
  Definition slope (z z' : R) : R := / ((1 - T0 * z) * (1 - T0 * z')).
  Lemma out_diff z z' : T0 * z < 1 -> T0 * z' < 1 -> out z - out z' = slope z z' * (z - z').
  Proof. intros H H'. unfold out, slope. field. lra. Qed.
  Lemma slope_ge z z' : 0 <= z -> 0 <= z' -> T0 * z < 1 -> T0 * z' < 1 -> 1 <= slope z z'.
  Proof.
    intros P P' H H'. unfold slope. pose proof (Rmult_le_pos _ _ HT0 P). pose proof (Rmult_le_pos _ _ HT0 P').
    rewrite <- Rinv_1. apply Rinv_le_contravar; [apply Rmult_lt_0_compat; lra|].
    rewrite <- (Rmult_1_r 1) at 3. apply Rmult_le_compat; lra.
  Qed.
  Lemma slope_le z z' zh : 0 <= z <= zh -> 0 <= z' <= zh -> T0 * zh < 1 -> slope z z' <= / ((1 - T0 * zh) * (1 - T0 * zh)).
  Proof.
    intros P P' H. unfold slope. assert (T0 * z <= T0 * zh) by (apply Rmult_le_compat_l; lra).
    assert (T0 * z' <= T0 * zh) by (apply Rmult_le_compat_l; lra).
    apply Rinv_le_contravar; [apply Rmult_lt_0_compat; lra|]. apply Rmult_le_compat; lra.
  Qed.
  Lemma out_pos z : 0 < z -> T0 * z < 1 -> 0 < out z.
  Proof. intros. apply Rdiv_lt_0_compat; lra. Qed.
  Lemma out_le z zh : 0 <= z <= zh -> T0 * zh < 1 -> out z <= out zh.
  Proof.
    intros H Hz. assert (T0 * z <= T0 * zh) by (apply Rmult_le_compat_l; lra).
    assert (Q : 0 <= out zh - out z); [|lra]. rewrite out_diff by lra. apply Rmult_le_pos; [|lra].
    apply Rle_trans with 1; [lra|]. apply slope_ge; lra.
  Qed.
  (** how the flow depends on the temperature of the gas and on the change of pressure *)
  Lemma flow_temp V dV ze y z z' : T0 * z < 1 -> T0 * z' < 1 ->
    flow V dV ze y z - flow V dV ze y z' = Rmin (a * V * y + dV) 0 * slope z z' * (z - z').
  Proof.
    intros H H'. unfold flow. cbv zeta. generalize (Rmin (a * V * y + dV) 0). intros w.
    replace (_ - _) with (w * (out z - out z')) by ring. rewrite out_diff by assumption. ring.
  Qed.
  Lemma flow_rate V dV ze y y' z zm : 0 < V -> 0 < ze <= zm -> 0 < out z <= zm -> y' <= y ->
    0 <= flow V dV ze y z - flow V dV ze y' z <= zm * (a * V * (y - y')).
  Proof.
    intros HV H1 H2 Hy. unfold flow. cbv zeta. set (w := a * V * y + dV). set (w' := a * V * y' + dV).
    assert (HW : w - w' = a * V * (y - y')) by (unfold w, w'; ring).
    assert (HW0 : 0 <= w - w').
    { rewrite HW. apply Rmult_le_pos; [apply Rmult_le_pos; lra|lra]. }
    rewrite <- HW. clearbody w w'.
    assert (A1 : 0 <= Rmax w 0 - Rmax w' 0) by (unfold Rmax; destruct (Rle_dec w 0), (Rle_dec w' 0); lra).
    assert (A2 : 0 <= Rmin w 0 - Rmin w' 0) by (unfold Rmin; destruct (Rle_dec w 0), (Rle_dec w' 0); lra).
    assert (A3 : (Rmax w 0 - Rmax w' 0) + (Rmin w 0 - Rmin w' 0) = w - w').
    { pose proof (Rmax_min w). pose proof (Rmax_min w'). lra. }
    replace (_ - _) with ((Rmax w 0 - Rmax w' 0) * ze + (Rmin w 0 - Rmin w' 0) * out z) by ring.
    rewrite <- A3. revert A1 A2. generalize (Rmax w 0 - Rmax w' 0) (Rmin w 0 - Rmin w' 0). intros p q Hp Hq.
    assert (0 <= p * ze) by (apply Rmult_le_pos; lra). assert (0 <= q * out z) by (apply Rmult_le_pos; lra).
    assert (p * ze <= p * zm) by (apply Rmult_le_compat_l; lra). assert (q * out z <= q * zm) by (apply Rmult_le_compat_l; lra). lra.
  Qed.
  Lemma flow_abs V dV ze y y' z zm : 0 < V -> 0 < ze <= zm -> 0 < out z <= zm ->
    Rabs (flow V dV ze y z - flow V dV ze y' z) <= zm * (a * V * Rabs (y - y')).
  Proof.
    intros HV H1 H2. destruct (Rle_lt_dec y' y) as [C|C].
    - pose proof (flow_rate V dV ze y y' z zm HV H1 H2 C). rewrite !Rabs_right by lra. lra.
    - pose proof (flow_rate V dV ze y' y z zm HV H1 H2 ltac:(lra)).
      rewrite (Rabs_minus_sym (flow _ _ _ _ _)), (Rabs_minus_sym y). rewrite !Rabs_right by lra. lra.
  Qed.
  Lemma flow_factor V dV ze y z zm : 0 < ze <= zm -> 0 < out z <= zm ->
    exists k, 0 < k <= zm /\ flow V dV ze y z = (a * V * y + dV) * k.
  Proof.
    intros H1 H2. unfold flow. cbv zeta. destruct (Rle_lt_dec 0 (a * V * y + dV)) as [C|C].
    - exists ze. split; [lra|]. rewrite Rmax_left, Rmin_right by lra. ring.
    - exists (out z). split; [lra|]. rewrite Rmax_right, Rmin_left by lra. ring.
  Qed.

  (** ** One space of two engines *)
  Section Space.
    Variables (V dV : R -> R) (ze : R) (y y' z z' : R -> R) (tau zh zm Y d : R).
    Let moves (y z : R -> R) t := derivable_pt_lim z t (- z t * (y t + dV t / V t) + flow (V t) (dV t) ze (y t) (z t) / V t).
    Hypothesis HV : forall t, 0 <= t <= tau -> 0 < V t /\ derivable_pt_lim V t (dV t).
    Hypothesis Hm : forall t, 0 <= t <= tau -> moves y z t /\ moves y' z' t.
    Hypothesis Hz : forall t, 0 <= t <= tau -> 0 < z t <= zh /\ 0 < z' t <= zh.
    Hypothesis Hzh : T0 * zh < 1.
    Hypothesis Hzm : 0 < ze <= zm /\ out zh <= zm.
    Hypothesis HY : forall t, 0 <= t <= tau -> Rabs (y t) <= Y.
    (** the pressures change at rates that differ by at most [d] *)
    Hypothesis Hd : forall t, 0 <= t <= tau -> Rabs (y t - y' t) <= d.
    Let w t := a * V t * y t + dV t.
    Let push t := - z' t * (y t - y' t) + (flow (V t) (dV t) ze (y t) (z' t) - flow (V t) (dV t) ze (y' t) (z' t)) / V t.
    Let hold t := Rmax (w t) 0 / V t + Rmin (w t) 0 / V t * (1 - slope (z t) (z' t)).
    Let F := (zh + a * zm) * d.
    Lemma z_ok t : 0 <= t <= tau -> T0 * z t < 1 /\ T0 * z' t < 1.
    Proof.
      intros Ht. destruct (Hz t Ht). assert (T0 * z t <= T0 * zh) by (apply Rmult_le_compat_l; lra).
      assert (T0 * z' t <= T0 * zh) by (apply Rmult_le_compat_l; lra). lra.
    Qed.
    Lemma out_ok x : 0 < x <= zh -> 0 < out x <= zm.
    Proof.
      intros Hx. split; [apply out_pos; [lra|]|].
      - assert (T0 * x <= T0 * zh) by (apply Rmult_le_compat_l; lra). lra.
      - apply Rle_trans with (out zh); [apply out_le; lra|apply Hzm].
    Qed.
    Lemma diff_moves t : 0 <= t <= tau ->
      derivable_pt_lim (fun t => z t - z' t) t (- ((1 - a) * y t + hold t) * (z t - z' t) + push t).
    Proof.
      intros Ht. destruct (Hm t Ht) as (M & M'). destruct (HV t Ht) as (V0 & _). destruct (z_ok t Ht) as (Z1 & Z2).
      eapply deriv_eq; [apply derivable_pt_lim_minus; [exact M|exact M']|].
      pose proof (flow_temp (V t) (dV t) ze (y t) (z t) (z' t) Z1 Z2) as FT.
      assert (E : flow (V t) (dV t) ze (y t) (z t) = flow (V t) (dV t) ze (y t) (z' t) + Rmin (w t) 0 * slope (z t) (z' t) * (z t - z' t))
        by (unfold w; lra).
      rewrite E. unfold hold, push.
      assert (DV : dV t = Rmax (w t) 0 + Rmin (w t) 0 - a * V t * y t) by (rewrite <- Rmax_min; unfold w; ring).
      set (f1 := flow (V t) (dV t) ze (y t) (z' t)). set (f2 := flow (V t) (dV t) ze (y' t) (z' t)).
      clearbody f1 f2. set (sl := slope (z t) (z' t)). clearbody sl.
      assert (DV' : dV t / V t = Rmax (w t) 0 / V t + Rmin (w t) 0 / V t - a * y t) by (rewrite DV at 1; field; lra).
      rewrite DV'. generalize (Rmax (w t) 0) (Rmin (w t) 0). intros p q. field. lra.
    Qed.
    Lemma push_small t : 0 <= t <= tau -> Rabs (push t) <= F.
    Proof.
      intros Ht. unfold push, F. destruct (HV t Ht) as (V0 & _). destruct (Hz t Ht) as (_ & Z).
      pose proof (flow_abs (V t) (dV t) ze (y t) (y' t) (z' t) zm V0 (proj1 Hzm) (out_ok _ Z)) as FA.
      pose proof (Hd t Ht) as D. eapply Rle_trans; [apply Rabs_triang|].
      rewrite Rabs_mult, Rabs_Ropp, (Rabs_right (z' t)) by lra.
      unfold Rdiv. rewrite Rabs_mult, (Rabs_right (/ V t)) by (left; apply Rinv_0_lt_compat, V0).
      assert (Q : Rabs (flow (V t) (dV t) ze (y t) (z' t) - flow (V t) (dV t) ze (y' t) (z' t)) * / V t <= a * zm * d).
      { apply Rle_trans with (zm * (a * V t * Rabs (y t - y' t)) * / V t).
        - apply Rmult_le_compat_r; [left; apply Rinv_0_lt_compat, V0|exact FA].
        - replace (zm * (a * V t * Rabs (y t - y' t)) * / V t) with (a * zm * Rabs (y t - y' t)) by (field; lra).
          apply Rmult_le_compat_l; [apply Rmult_le_pos; lra|exact D]. }
      assert (z' t * Rabs (y t - y' t) <= zh * d).
      { apply Rmult_le_compat; [lra|apply Rabs_pos|lra|exact D]. }
      lra.
    Qed.
    Lemma hold_ge t : 0 <= t <= tau -> 0 <= hold t /\ w t / V t <= hold t.
    Proof.
      intros Ht. unfold hold. destruct (HV t Ht) as (V0 & _). destruct (z_ok t Ht) as (Z1 & Z2). destruct (Hz t Ht).
      pose proof (slope_ge (z t) (z' t) ltac:(lra) ltac:(lra) Z1 Z2) as SG.
      assert (VI : 0 < / V t) by (apply Rinv_0_lt_compat, V0).
      assert (A : 0 <= Rmax (w t) 0 / V t) by (apply Rmult_le_pos; [apply Rmax_r|lra]).
      assert (B : 0 <= Rmin (w t) 0 / V t * (1 - slope (z t) (z' t))).
      { replace (_ * _) with (- Rmin (w t) 0 * / V t * (slope (z t) (z' t) - 1)) by (unfold Rdiv; ring).
        apply Rmult_le_pos; [apply Rmult_le_pos; [pose proof (Rmin_r (w t) 0); lra|lra]|lra]. }
      assert (C : w t / V t = Rmax (w t) 0 / V t + Rmin (w t) 0 / V t) by (rewrite (Rmax_min (w t)) at 1; unfold Rdiv; ring).
      assert (E : Rmin (w t) 0 / V t <= 0).
      { assert (0 <= - Rmin (w t) 0 * / V t) by (apply Rmult_le_pos; [pose proof (Rmin_r (w t) 0); lra|lra]). unfold Rdiv. lra. }
      lra.
    Qed.
    Lemma Y_pos t : 0 <= t <= tau -> 0 <= Y + y t /\ 0 <= Y + (1 - a) * y t.
    Proof.
      intros Ht. pose proof (HY t Ht) as H. pose proof (Rabs_pos (y t)). pose proof (Rle_abs (- y t)) as Q. rewrite Rabs_Ropp in Q.
      split; [lra|]. assert ((1 - a) * (- y t) <= Y); [|lra]. apply Rle_trans with (Rabs (y t)); [|lra].
      apply Rle_trans with ((1 - a) * Rabs (y t)); [apply Rmult_le_compat_l; lra|].
      rewrite <- (Rmult_1_l (Rabs (y t))) at 2. apply Rmult_le_compat_r; lra.
    Qed.
    Lemma d_pos t : 0 <= t <= tau -> 0 <= d.
    Proof. intros Ht. pose proof (Hd t Ht). pose proof (Rabs_pos (y t - y' t)). lra. Qed.
    Lemma F_pos t : 0 <= t <= tau -> 0 <= F.
    Proof. intros Ht. apply Rle_trans with (1 := Rabs_pos (push t)). apply push_small, Ht. Qed.
    Lemma decay_deriv s t : derivable_pt_lim (fun u => exp (- Y * (u - s))) t (- Y * exp (- Y * (t - s))).
    Proof.
      eapply deriv_eq; [apply (derivable_pt_lim_comp (fun u => - Y * (u - s)) exp t (- Y) (exp (- Y * (t - s))))|ring].
      - eapply deriv_eq; [apply (derivable_pt_lim_scal (fun u => u - s) (- Y) t 1)|ring].
        eapply deriv_eq; [apply (derivable_pt_lim_minus id (fun _ => s) t 1 0); [apply derivable_pt_lim_id|apply deriv_const]|ring].
      - apply derivable_pt_lim_exp.
    Qed.
    Lemma decay_le s t : 0 <= Y -> s <= t -> 0 < exp (- Y * (t - s)) <= 1.
    Proof.
      intros H0 H. split; [apply exp_pos|]. rewrite <- exp_0. apply exp_mono_le.
      assert (0 <= Y * (t - s)) by (apply Rmult_le_pos; lra). lra.
    Qed.
    (** at any time *)
    Lemma anytime s t : 0 <= s -> s <= t -> t <= tau ->
      Rabs (z t - z' t) <= exp (Y * (t - s)) * (Rabs (z s - z' s) + F * (t - s)).
    Proof.
      intros Hs Hst Ht.
      assert (Y0 : 0 <= Y) by (apply Rle_trans with (1 := Rabs_pos (y s)); apply HY; lra).
      pose proof (pulled (fun u => (z u - z' u) * exp (- Y * (u - s))) (fun u => Y + (1 - a) * y u + hold u)
        (fun u => push u * exp (- Y * (u - s))) s t F Hst (F_pos s ltac:(lra))) as P.
      cbv beta in P. rewrite !Rabs_mult, !(Rabs_right (exp _)) in P by (left; apply exp_pos).
      replace (- Y * (s - s)) with 0 in P by ring. rewrite exp_0, Rmult_1_r in P.
      replace (- Y * (t - s)) with (- (Y * (t - s))) in P by ring. rewrite exp_Ropp in P.
      apply (Rmult_le_reg_r (/ exp (Y * (t - s)))); [apply Rinv_0_lt_compat, exp_pos|].
      rewrite (Rmult_comm (exp (Y * (t - s)))), Rmult_assoc, Rinv_r, Rmult_1_r by (apply Rgt_not_eq, exp_pos).
      apply P. intros u Hu. split; [|split].
      - eapply deriv_eq; [apply deriv_mult; [apply diff_moves; lra|apply decay_deriv]|]. cbv beta. ring.
      - pose proof (proj2 (Y_pos u ltac:(lra))). pose proof (hold_ge u ltac:(lra)). lra.
      - rewrite Rabs_mult, (Rabs_right (exp _)) by (left; apply exp_pos).
        pose proof (push_small u ltac:(lra)). pose proof (decay_le s u Y0 ltac:(lra)). pose proof (F_pos u ltac:(lra)).
        rewrite <- (Rmult_1_r F). apply Rmult_le_compat; [apply Rabs_pos|lra|assumption|lra].
    Qed.
    (** as the space fills *)
    Lemma filled Vh s t : 0 <= s -> s <= t -> t <= tau -> (forall u, s <= u <= t -> V u <= Vh) ->
      Rabs (z t - z' t) * V t <= exp (Y * (t - s)) * (Rabs (z s - z' s) * V s + F * Vh * (t - s)).
    Proof.
      intros Hs Hst Ht HVh.
      assert (Y0 : 0 <= Y) by (apply Rle_trans with (1 := Rabs_pos (y s)); apply HY; lra).
      assert (FV : 0 <= F * Vh).
      { apply Rmult_le_pos; [apply (F_pos s); lra|]. pose proof (HVh s ltac:(lra)). pose proof (HV s ltac:(lra)). lra. }
      pose proof (pulled (fun u => (z u - z' u) * (V u * exp (- Y * (u - s)))) (fun u => Y + y u + (hold u - w u / V u))
        (fun u => push u * (V u * exp (- Y * (u - s)))) s t (F * Vh) Hst FV) as P.
      cbv beta in P. rewrite !Rabs_mult, !(Rabs_right (exp _)) in P by (left; apply exp_pos).
      rewrite (Rabs_right (V t)) in P by (left; apply HV; lra). rewrite (Rabs_right (V s)) in P by (left; apply HV; lra).
      replace (- Y * (s - s)) with 0 in P by ring. rewrite exp_0, Rmult_1_r in P.
      replace (- Y * (t - s)) with (- (Y * (t - s))) in P by ring. rewrite exp_Ropp in P.
      apply (Rmult_le_reg_r (/ exp (Y * (t - s)))); [apply Rinv_0_lt_compat, exp_pos|].
      rewrite (Rmult_comm (exp (Y * (t - s)))), Rmult_assoc.
      rewrite (Rmult_assoc (_ + _) (exp _) (/ exp _)), Rinv_r, Rmult_1_r by (apply Rgt_not_eq, exp_pos).
      apply P. intros u Hu. destruct (HV u ltac:(lra)) as (V0 & DV). split; [|split].
      - eapply deriv_eq; [apply deriv_mult; [apply diff_moves; lra|apply deriv_mult; [exact DV|apply decay_deriv]]|].
        cbv beta. unfold w. field. lra.
      - pose proof (proj1 (Y_pos u ltac:(lra))). pose proof (hold_ge u ltac:(lra)). lra.
      - rewrite !Rabs_mult, (Rabs_right (exp _)), (Rabs_right (V u)) by (left; first [apply exp_pos|exact V0]).
        pose proof (push_small u ltac:(lra)). pose proof (decay_le s u Y0 ltac:(lra)). pose proof (F_pos u ltac:(lra)).
        pose proof (HVh u Hu). rewrite <- (Rmult_1_r Vh).
        apply Rmult_le_compat; [apply Rabs_pos|apply Rmult_le_pos; lra|assumption|apply Rmult_le_compat; lra].
    Qed.
    (** after a cycle in which the space fills from [V t1] to [V t2] *)
    Lemma after_cycle Vh t1 t2 : 0 <= t1 -> t1 <= t2 -> t2 <= tau -> V t1 <= V t2 -> (forall u, 0 <= u <= tau -> V u <= Vh) ->
      Rabs (z tau - z' tau) <= exp (Y * tau) * (V t1 / V t2 * Rabs (z 0 - z' 0) + Vh / V t2 * (F * tau)).
    Proof.
      intros H1 H12 H2 HV12 HVh.
      pose proof (anytime 0 t1 ltac:(lra) H1 ltac:(lra)) as A1. rewrite Rminus_0_r in A1.
      pose proof (filled Vh t1 t2 H1 H12 H2 (fun u Hu => HVh u ltac:(lra))) as A2.
      pose proof (anytime t2 tau ltac:(lra) H2 ltac:(lra)) as A3.
      destruct (HV t1 ltac:(lra)) as (V1 & _). destruct (HV t2 ltac:(lra)) as (V2 & _).
      pose proof (HVh t2 ltac:(lra)) as V2h. pose proof (F_pos 0 ltac:(lra)) as F0.
      assert (Y0 : 0 <= Y) by (apply Rle_trans with (1 := Rabs_pos (y 0)); apply HY; lra).
      set (E1 := exp (Y * t1)) in *. set (E2 := exp (Y * (t2 - t1))) in *. set (E3 := exp (Y * (tau - t2))) in *.
      assert (EE : exp (Y * tau) = E1 * E2 * E3).
      { unfold E1, E2, E3. rewrite <- !exp_plus. f_equal. ring. }
      assert (G1 : 1 <= E1 /\ 1 <= E2 /\ 1 <= E3).
      { unfold E1, E2, E3. assert (Q : forall x, 0 <= x -> 1 <= exp (Y * x)); [|repeat split; apply Q; lra].
        intros x Hx. rewrite <- exp_0. apply exp_mono_le, Rmult_le_pos; assumption. }
      destruct G1 as (G1 & G2 & G3). clearbody E1 E2 E3. rewrite EE.
      set (D0 := Rabs (z 0 - z' 0)) in *. set (D1 := Rabs (z t1 - z' t1)) in *. set (D2 := Rabs (z t2 - z' t2)) in *.
      assert (P0 : 0 <= D0) by apply Rabs_pos.
      assert (I2 : 0 < / V t2) by (apply Rinv_0_lt_compat, V2).
      assert (B2 : D2 <= E2 * (D1 * (V t1 / V t2) + F * (Vh / V t2) * (t2 - t1))).
      { apply (Rmult_le_reg_r (V t2)); [exact V2|]. apply Rle_trans with (1 := A2). right. field. lra. }
      set (rho := V t1 / V t2) in *. set (rv := Vh / V t2) in *.
      assert (R0 : 0 <= rho <= 1).
      { unfold rho. split; [apply Rmult_le_pos; lra|]. apply (Rmult_le_reg_r (V t2)); [exact V2|].
        replace (V t1 / V t2 * V t2) with (V t1) by (field; lra). lra. }
      assert (RV : 1 <= rv).
      { unfold rv. apply (Rmult_le_reg_r (V t2)); [exact V2|]. replace (Vh / V t2 * V t2) with Vh by (field; lra). lra. }
      clearbody rho rv D0 D1 D2.
      assert (M1 : D1 * rho <= E1 * (D0 * rho + F * t1)).
      { apply Rle_trans with (E1 * (D0 + F * t1) * rho); [apply Rmult_le_compat_r; lra|].
        replace (E1 * (D0 + F * t1) * rho) with (E1 * (D0 * rho + F * t1 * rho)) by ring.
        apply Rmult_le_compat_l; [lra|]. assert (F * t1 * rho <= F * t1 * 1) by (apply Rmult_le_compat_l; [apply Rmult_le_pos; lra|lra]). lra. }
      assert (X1 : 0 <= D0 * rho + F * t1).
      { assert (0 <= D0 * rho) by (apply Rmult_le_pos; lra). assert (0 <= F * t1) by (apply Rmult_le_pos; lra). lra. }
      assert (X2 : 0 <= F * rv * (t2 - t1)) by (apply Rmult_le_pos; [apply Rmult_le_pos; lra|lra]).
      assert (X3 : 0 <= F * (tau - t2)) by (apply Rmult_le_pos; lra).
      assert (M2 : D2 <= E1 * E2 * (D0 * rho + F * t1 + F * rv * (t2 - t1))).
      { apply Rle_trans with (1 := B2). apply Rle_trans with (E2 * (E1 * (D0 * rho + F * t1) + E1 * (F * rv * (t2 - t1)))).
        - apply Rmult_le_compat_l; [lra|].
          assert (1 * (F * rv * (t2 - t1)) <= E1 * (F * rv * (t2 - t1))) by (apply Rmult_le_compat_r; lra). lra.
        - right. ring. }
      apply Rle_trans with (1 := A3).
      apply Rle_trans with (E3 * (E1 * E2 * (D0 * rho + F * t1 + F * rv * (t2 - t1) + F * (tau - t2)))).
      - apply Rmult_le_compat_l; [lra|].
        assert (1 <= E1 * E2) by (rewrite <- (Rmult_1_r 1); apply Rmult_le_compat; lra).
        assert (1 * (F * (tau - t2)) <= E1 * E2 * (F * (tau - t2))) by (apply Rmult_le_compat_r; lra). lra.
      - replace (E1 * E2 * E3 * (rho * D0 + rv * (F * tau))) with (E3 * (E1 * E2 * (D0 * rho + rv * (F * tau)))) by ring.
        apply Rmult_le_compat_l; [lra|]. apply Rmult_le_compat_l; [apply Rmult_le_pos; lra|].
        assert (F * t1 * 1 <= F * t1 * rv) by (apply Rmult_le_compat_l; [apply Rmult_le_pos; lra|lra]).
        assert (F * (tau - t2) * 1 <= F * (tau - t2) * rv) by (apply Rmult_le_compat_l; [exact X3|lra]).
        replace (rv * (F * tau)) with (F * t1 * rv + F * rv * (t2 - t1) + F * (tau - t2) * rv) by ring. lra.
    Qed.
  End Space.

  (** ** Both spaces of two engines, joined by exchangers of fixed temperature *)
  Section Pair.
    Variables (Vc dVc Ve dVe : R -> R) (fc fe K : R) (y y' c c' e e' : R -> R) (tau zh zm Vh dh : R).
    Let moves (V dV : R -> R) (f : R) (y z : R -> R) t :=
      derivable_pt_lim z t (- z t * (y t + dV t / V t) + flow (V t) (dV t) f (y t) (z t) / V t).
    Let joined (y c e : R -> R) t := flow (Vc t) (dVc t) fc (y t) (c t) + flow (Ve t) (dVe t) fe (y t) (e t) + K * y t = 0.
    Hypothesis Htau : 0 <= tau.
    Hypothesis HK : 0 < K.
    Hypothesis HVc : forall t, 0 <= t <= tau -> 0 < Vc t /\ derivable_pt_lim Vc t (dVc t).
    Hypothesis HVe : forall t, 0 <= t <= tau -> 0 < Ve t /\ derivable_pt_lim Ve t (dVe t).
    Hypothesis Hsize : forall t, 0 <= t <= tau -> Vc t <= Vh /\ Ve t <= Vh /\ Rabs (dVc t) <= dh /\ Rabs (dVe t) <= dh.
    Hypothesis Hc : forall t, 0 <= t <= tau -> moves Vc dVc fc y c t /\ moves Vc dVc fc y' c' t.
    Hypothesis He : forall t, 0 <= t <= tau -> moves Ve dVe fe y e t /\ moves Ve dVe fe y' e' t.
    Hypothesis Hj : forall t, 0 <= t <= tau -> joined y c e t /\ joined y' c' e' t.
    Hypothesis Hcz : forall t, 0 <= t <= tau -> 0 < c t <= zh /\ 0 < c' t <= zh.
    Hypothesis Hez : forall t, 0 <= t <= tau -> 0 < e t <= zh /\ 0 < e' t <= zh.
    Hypothesis Hzh : T0 * zh < 1.
    Hypothesis Hfc : 0 < fc <= zm.
    Hypothesis Hfe : 0 < fe <= zm.
    Hypothesis Hzm : out zh <= zm.
    Definition top_rate : R := 2 * dh * zm / K.
    Definition top_flow : R := a * Vh * top_rate + dh.
    Definition top_slope : R := / ((1 - T0 * zh) * (1 - T0 * zh)).
    (** how much a difference of temperature pushes, over the whole time *)
    Definition coupling : R := 2 * ((zh + a * zm) * (top_slope * top_flow / K)) * tau * exp (top_rate * tau).
    Let d t := Rabs (c t - c' t) + Rabs (e t - e' t).
    Lemma dh_pos : 0 <= dh.
    Proof. destruct (Hsize 0 ltac:(lra)) as (_ & _ & H & _). pose proof (Rabs_pos (dVc 0)). lra. Qed.
    Lemma Vh_pos : 0 < Vh.
    Proof. destruct (Hsize 0 ltac:(lra)) as (H & _). destruct (HVc 0 ltac:(lra)). lra. Qed.
    Lemma zz : 0 < zh /\ 0 < zm.
    Proof. destruct (Hcz 0 ltac:(lra)). lra. Qed.
    Lemma rate_pos : 0 <= top_rate.
    Proof.
      unfold top_rate. pose proof dh_pos. pose proof zz. apply Rmult_le_pos; [|left; apply Rinv_0_lt_compat, HK].
      apply Rmult_le_pos; lra.
    Qed.
    Lemma flow_pos : 0 <= top_flow.
    Proof. unfold top_flow. pose proof rate_pos. pose proof Vh_pos. pose proof dh_pos.
      assert (0 <= a * Vh * top_rate) by (apply Rmult_le_pos; [apply Rmult_le_pos; lra|lra]). lra. Qed.
    Lemma slope_pos : 0 < top_slope.
    Proof. apply Rinv_0_lt_compat, Rmult_lt_0_compat; lra. Qed.
    Lemma rates y0 c0 e0 t : 0 <= t <= tau -> 0 < c0 <= zh -> 0 < e0 <= zh ->
      flow (Vc t) (dVc t) fc y0 c0 + flow (Ve t) (dVe t) fe y0 e0 + K * y0 = 0 -> Rabs y0 <= top_rate.
    Proof.
      intros Ht C E J.
      destruct (flow_factor (Vc t) (dVc t) fc y0 c0 zm Hfc (out_ok fc zh zm Hzh (conj Hfc Hzm) c0 C)) as (k1 & K1 & E1).
      destruct (flow_factor (Ve t) (dVe t) fe y0 e0 zm Hfe (out_ok fe zh zm Hzh (conj Hfe Hzm) e0 E)) as (k2 & K2 & E2).
      rewrite E1, E2 in J. destruct (HVc t Ht) as (V1 & _). destruct (HVe t Ht) as (V2 & _).
      destruct (Hsize t Ht) as (_ & _ & D1 & D2).
      assert (Q : y0 * (K + a * Vc t * k1 + a * Ve t * k2) = - (dVc t * k1 + dVe t * k2)) by lra.
      assert (P1 : 0 <= a * Vc t * k1) by (apply Rmult_le_pos; [apply Rmult_le_pos; lra|lra]).
      assert (P2 : 0 <= a * Ve t * k2) by (apply Rmult_le_pos; [apply Rmult_le_pos; lra|lra]).
      assert (B : Rabs y0 * K <= 2 * dh * zm).
      { apply Rle_trans with (Rabs y0 * (K + a * Vc t * k1 + a * Ve t * k2)).
        - apply Rmult_le_compat_l; [apply Rabs_pos|lra].
        - rewrite <- (Rabs_right (K + a * Vc t * k1 + a * Ve t * k2)), <- Rabs_mult, Q, Rabs_Ropp by lra.
          eapply Rle_trans; [apply Rabs_triang|]. rewrite !Rabs_mult, (Rabs_right k1), (Rabs_right k2) by lra.
          assert (Rabs (dVc t) * k1 <= dh * zm) by (apply Rmult_le_compat; [apply Rabs_pos|lra|assumption|lra]).
          assert (Rabs (dVe t) * k2 <= dh * zm) by (apply Rmult_le_compat; [apply Rabs_pos|lra|assumption|lra]). lra. }
      unfold top_rate. apply (Rmult_le_reg_r K); [exact HK|]. replace (2 * dh * zm / K * K) with (2 * dh * zm) by (field; lra). exact B.
    Qed.
    Lemma top_w V dV y0 : 0 < V <= Vh -> Rabs dV <= dh -> Rabs y0 <= top_rate -> Rabs (Rmin (a * V * y0 + dV) 0) <= top_flow.
    Proof.
      intros HV HD HY. apply Rle_trans with (Rabs (a * V * y0 + dV)).
      - unfold Rmin. destruct (Rle_dec (a * V * y0 + dV) 0); [lra|]. rewrite Rabs_R0. apply Rabs_pos.
      - unfold top_flow. eapply Rle_trans; [apply Rabs_triang|]. apply Rplus_le_compat; [|exact HD].
        rewrite Rabs_mult, (Rabs_right (a * V)) by (apply Rle_ge, Rmult_le_pos; lra).
        apply Rmult_le_compat; [apply Rmult_le_pos; lra|apply Rabs_pos|apply Rmult_le_compat_l; lra|exact HY].
    Qed.
    Lemma temp_push V dV f y0 z z' : 0 < V <= Vh -> Rabs dV <= dh -> Rabs y0 <= top_rate -> 0 < z <= zh -> 0 < z' <= zh ->
      Rabs (flow V dV f y0 z - flow V dV f y0 z') <= top_flow * top_slope * Rabs (z - z').
    Proof.
      intros HV HD HY Z Z'. assert (T0 * z <= T0 * zh) by (apply Rmult_le_compat_l; lra).
      assert (T0 * z' <= T0 * zh) by (apply Rmult_le_compat_l; lra).
      rewrite flow_temp by lra. rewrite !Rabs_mult. apply Rmult_le_compat_r; [apply Rabs_pos|].
      apply Rmult_le_compat; [apply Rabs_pos|apply Rabs_pos|apply top_w; assumption|].
      pose proof (slope_ge z z' ltac:(lra) ltac:(lra) ltac:(lra) ltac:(lra)). rewrite Rabs_right by lra. apply slope_le; lra.
    Qed.
    Lemma rates_close t : 0 <= t <= tau -> Rabs (y t - y' t) <= top_slope * top_flow / K * d t.
    Proof.
      intros Ht. destruct (Hj t Ht) as (J & J'). unfold joined in J, J'. destruct (Hcz t Ht) as (C & C'). destruct (Hez t Ht) as (E & E').
      pose proof (rates (y' t) (c' t) (e' t) t Ht C' E' J') as HY'. destruct (HVc t Ht) as (V1 & _). destruct (HVe t Ht) as (V2 & _).
      destruct (Hsize t Ht) as (S1 & S2 & D1 & D2).
      pose proof (temp_push (Vc t) (dVc t) fc (y' t) (c t) (c' t) (conj V1 S1) D1 HY' C C') as P1.
      pose proof (temp_push (Ve t) (dVe t) fe (y' t) (e t) (e' t) (conj V2 S2) D2 HY' E E') as P2.
      pose proof (out_ok fc zh zm Hzh (conj Hfc Hzm) (c t) C) as O1. pose proof (out_ok fe zh zm Hzh (conj Hfe Hzm) (e t) E) as O2.
      assert (B : Rabs (y t - y' t) * K <= top_flow * top_slope * d t).
      { unfold d. rewrite Rmult_plus_distr_l.
        set (g1 := flow (Vc t) (dVc t) fc (y' t) (c t) - flow (Vc t) (dVc t) fc (y' t) (c' t)) in *.
        set (g2 := flow (Ve t) (dVe t) fe (y' t) (e t) - flow (Ve t) (dVe t) fe (y' t) (e' t)) in *.
        apply Rle_trans with (Rabs g1 + Rabs g2); [|lra]. clear P1 P2.
        pose proof (Rle_abs g1). pose proof (Rle_abs g2). pose proof (Rle_abs (- g1)) as N1. pose proof (Rle_abs (- g2)) as N2.
        rewrite Rabs_Ropp in N1, N2.
        destruct (Rle_lt_dec (y' t) (y t)) as [L|L].
        - pose proof (flow_rate (Vc t) (dVc t) fc (y t) (y' t) (c t) zm V1 Hfc O1 L) as F1.
          pose proof (flow_rate (Ve t) (dVe t) fe (y t) (y' t) (e t) zm V2 Hfe O2 L) as F2.
          rewrite Rabs_right by lra. unfold g1, g2 in *. lra.
        - pose proof (flow_rate (Vc t) (dVc t) fc (y' t) (y t) (c t) zm V1 Hfc O1 ltac:(lra)) as F1.
          pose proof (flow_rate (Ve t) (dVe t) fe (y' t) (y t) (e t) zm V2 Hfe O2 ltac:(lra)) as F2.
          rewrite Rabs_left by lra. unfold g1, g2 in *. lra. }
      apply (Rmult_le_reg_r K); [exact HK|]. apply Rle_trans with (1 := B). right. field. lra.
    Qed.
    Lemma most : exists m, 0 <= m <= tau /\ forall t, 0 <= t <= tau -> d t <= d m.
    Proof.
      assert (CT : forall t, 0 <= t <= tau -> continuity_pt d t).
      { intros t Ht. destruct (Hc t Ht) as (M1 & M2). destruct (He t Ht) as (M3 & M4).
        assert (Q : forall p p' l l', derivable_pt_lim p t l -> derivable_pt_lim p' t l' -> continuity_pt (fun u => Rabs (p u - p' u)) t).
        { intros p p' l l' H H'. apply (continuity_pt_comp (fun u => p u - p' u) Rabs); [|apply Rcontinuity_abs].
          apply derivable_continuous_pt. exists (l - l'). apply derivable_pt_lim_minus; assumption. }
        apply continuity_pt_plus; eapply Q; eassumption. }
      destruct (continuity_ab_maj d 0 tau Htau CT) as (m & H & Hm). exists m. split; [exact Hm|exact H].
    Qed.
    (** the two stay close at all times *)
    Lemma stay_close : coupling < 1 -> forall t, 0 <= t <= tau -> d t <= exp (top_rate * tau) / (1 - coupling) * d 0.
    Proof.
      intros Hcp t0 Ht0.
      destruct most as (m & Hm & HS). set (S := d m) in *.
      pose proof zz as (Z1 & Z2). pose proof rate_pos as Y0. pose proof flow_pos as W0. pose proof slope_pos as G0.
      set (L := top_slope * top_flow / K) in *.
      assert (L0 : 0 <= L).
      { unfold L. apply Rmult_le_pos; [apply Rmult_le_pos; lra|left; apply Rinv_0_lt_compat, HK]. }
      assert (S0 : 0 <= S).
      { unfold S, d. pose proof (Rabs_pos (c m - c' m)). pose proof (Rabs_pos (e m - e' m)). lra. }
      set (F := (zh + a * zm) * (L * S)).
      assert (F0 : 0 <= F).
      { unfold F. apply Rmult_le_pos; [|apply Rmult_le_pos; assumption]. assert (0 <= a * zm) by (apply Rmult_le_pos; lra). lra. }
      assert (HY : forall t, 0 <= t <= tau -> Rabs (y t) <= top_rate).
      { intros t Ht. destruct (Hj t Ht) as (J & _). apply (rates (y t) (c t) (e t) t Ht); [apply Hcz, Ht|apply Hez, Ht|exact J]. }
      assert (HD : forall t, 0 <= t <= tau -> Rabs (y t - y' t) <= L * S).
      { intros t Ht. apply Rle_trans with (1 := rates_close t Ht). apply Rmult_le_compat_l; [exact L0|apply HS, Ht]. }
      assert (Esub : forall t, 0 <= t <= tau -> exp (top_rate * (t - 0)) <= exp (top_rate * tau)).
      { intros t Ht. apply exp_mono_le. apply Rmult_le_compat_l; lra. }
      set (EE := exp (top_rate * tau)) in *. assert (E0 : 0 < EE) by apply exp_pos.
      assert (CPL : coupling = 2 * ((zh + a * zm) * L) * tau * EE) by reflexivity. rewrite CPL in *.
      assert (Hst : forall p, 0 <= p -> EE * (p + F * tau) >= exp (top_rate * (m - 0)) * (p + F * (m - 0))).
      { intros p Hp. apply Rle_ge. assert (0 <= F * m) by (apply Rmult_le_pos; lra). assert (F * m <= F * tau) by (apply Rmult_le_compat_l; lra).
        rewrite Rminus_0_r. apply Rmult_le_compat; [left; apply exp_pos|lra|rewrite <- (Rminus_0_r m); apply Esub, Hm|lra]. }
      assert (SB : S <= EE * d 0 + 2 * ((zh + a * zm) * L) * tau * EE * S).
      { pose proof (anytime Vc dVc fc y y' c c' tau zh zm top_rate (L * S) HVc Hc Hcz Hzh (conj Hfc Hzm) HY HD 0 m ltac:(lra) ltac:(lra) ltac:(lra)) as A1.
        pose proof (anytime Ve dVe fe y y' e e' tau zh zm top_rate (L * S) HVe He Hez Hzh (conj Hfe Hzm) HY HD 0 m ltac:(lra) ltac:(lra) ltac:(lra)) as A2.
        fold F in A1, A2. pose proof (Hst _ (Rabs_pos (c 0 - c' 0))). pose proof (Hst _ (Rabs_pos (e 0 - e' 0))).
        unfold S at 1, d at 1. apply Rle_trans with (EE * (Rabs (c 0 - c' 0) + F * tau) + EE * (Rabs (e 0 - e' 0) + F * tau)); [lra|].
        unfold d, F. right. ring. }
      set (be := 2 * ((zh + a * zm) * L) * tau * EE) in *.
      assert (SB2 : S <= EE * d 0 / (1 - be)).
      { apply (Rmult_le_reg_r (1 - be)); [lra|]. replace (EE * d 0 / (1 - be) * (1 - be)) with (EE * d 0) by (field; lra). lra. }
      apply Rle_trans with (1 := HS t0 Ht0). fold S. apply Rle_trans with (1 := SB2). right. field. lra.
    Qed.
    Variables (c1 c2 e1 e2 rho rv : R).
    Hypothesis Hc12 : 0 <= c1 /\ c1 <= c2 /\ c2 <= tau /\ Vc c1 <= Vc c2.
    Hypothesis He12 : 0 <= e1 /\ e1 <= e2 /\ e2 <= tau /\ Ve e1 <= Ve e2.
    Hypothesis Hrho : Vc c1 / Vc c2 <= rho /\ Ve e1 / Ve e2 <= rho.
    Hypothesis Hrv : Vh / Vc c2 <= rv /\ Vh / Ve e2 <= rv.
    Hypothesis Hcp : coupling < 1.
    Definition approach_factor : R := exp (top_rate * tau) * (rho + rv * (coupling / (1 - coupling))).
    Lemma contracts : d tau <= approach_factor * d 0.
    Proof.
      destruct most as (m & Hm & HS). set (S := d m) in *.
      pose proof zz as (Z1 & Z2). pose proof rate_pos as Y0. pose proof flow_pos as W0. pose proof slope_pos as G0.
      set (L := top_slope * top_flow / K) in *.
      assert (L0 : 0 <= L).
      { unfold L. apply Rmult_le_pos; [apply Rmult_le_pos; lra|left; apply Rinv_0_lt_compat, HK]. }
      assert (S0 : 0 <= S).
      { unfold S, d. pose proof (Rabs_pos (c m - c' m)). pose proof (Rabs_pos (e m - e' m)). lra. }
      set (F := (zh + a * zm) * (L * S)).
      assert (F0 : 0 <= F).
      { unfold F. apply Rmult_le_pos; [|apply Rmult_le_pos; assumption]. assert (0 <= a * zm) by (apply Rmult_le_pos; lra). lra. }
      assert (HY : forall t, 0 <= t <= tau -> Rabs (y t) <= top_rate).
      { intros t Ht. destruct (Hj t Ht) as (J & _). apply (rates (y t) (c t) (e t) t Ht); [apply Hcz, Ht|apply Hez, Ht|exact J]. }
      assert (HD : forall t, 0 <= t <= tau -> Rabs (y t - y' t) <= L * S).
      { intros t Ht. apply Rle_trans with (1 := rates_close t Ht). apply Rmult_le_compat_l; [exact L0|apply HS, Ht]. }
      assert (Esub : forall t, 0 <= t <= tau -> exp (top_rate * (t - 0)) <= exp (top_rate * tau)).
      { intros t Ht. apply exp_mono_le. apply Rmult_le_compat_l; lra. }
      set (EE := exp (top_rate * tau)) in *. assert (E0 : 0 < EE) by apply exp_pos.
      assert (CPL : coupling = 2 * ((zh + a * zm) * L) * tau * EE) by reflexivity. rewrite CPL in *.
      assert (Hst : forall p, 0 <= p -> EE * (p + F * tau) >= exp (top_rate * (m - 0)) * (p + F * (m - 0))).
      { intros p Hp. apply Rle_ge. assert (0 <= F * m) by (apply Rmult_le_pos; lra). assert (F * m <= F * tau) by (apply Rmult_le_compat_l; lra).
        rewrite Rminus_0_r. apply Rmult_le_compat; [left; apply exp_pos|lra|rewrite <- (Rminus_0_r m); apply Esub, Hm|lra]. }
      assert (SB : S <= EE * d 0 + 2 * ((zh + a * zm) * L) * tau * EE * S).
      { pose proof (anytime Vc dVc fc y y' c c' tau zh zm top_rate (L * S) HVc Hc Hcz Hzh (conj Hfc Hzm) HY HD 0 m ltac:(lra) ltac:(lra) ltac:(lra)) as A1.
        pose proof (anytime Ve dVe fe y y' e e' tau zh zm top_rate (L * S) HVe He Hez Hzh (conj Hfe Hzm) HY HD 0 m ltac:(lra) ltac:(lra) ltac:(lra)) as A2.
        fold F in A1, A2. pose proof (Hst _ (Rabs_pos (c 0 - c' 0))). pose proof (Hst _ (Rabs_pos (e 0 - e' 0))).
        unfold S at 1, d at 1. apply Rle_trans with (EE * (Rabs (c 0 - c' 0) + F * tau) + EE * (Rabs (e 0 - e' 0) + F * tau)); [lra|].
        unfold d, F. right. ring. }
      set (be := 2 * ((zh + a * zm) * L) * tau * EE) in *.
      assert (SB2 : S <= EE * d 0 / (1 - be)).
      { apply (Rmult_le_reg_r (1 - be)); [lra|]. replace (EE * d 0 / (1 - be) * (1 - be)) with (EE * d 0) by (field; lra). lra. }
      destruct Hc12 as (I1 & I2 & I3 & I4). destruct He12 as (J1 & J2 & J3 & J4).
      pose proof (after_cycle Vc dVc fc y y' c c' tau zh zm top_rate (L * S) HVc Hc Hcz Hzh (conj Hfc Hzm) HY HD Vh c1 c2 I1 I2 I3 I4
        (fun u Hu => proj1 (Hsize u Hu))) as B1.
      pose proof (after_cycle Ve dVe fe y y' e e' tau zh zm top_rate (L * S) HVe He Hez Hzh (conj Hfe Hzm) HY HD Vh e1 e2 J1 J2 J3 J4
        (fun u Hu => proj1 (proj2 (Hsize u Hu)))) as B2.
      fold F EE in B1, B2.
      assert (FT : 0 <= F * tau) by (apply Rmult_le_pos; lra).
      assert (B : d tau <= EE * (rho * d 0 + rv * (2 * (F * tau)))).
      { unfold d.
        assert (Q1 : EE * (Vc c1 / Vc c2 * Rabs (c 0 - c' 0) + Vh / Vc c2 * (F * tau)) <= EE * (rho * Rabs (c 0 - c' 0) + rv * (F * tau))).
        { apply Rmult_le_compat_l; [lra|]. apply Rplus_le_compat; apply Rmult_le_compat_r; try apply Rabs_pos; try lra. }
        assert (Q2 : EE * (Ve e1 / Ve e2 * Rabs (e 0 - e' 0) + Vh / Ve e2 * (F * tau)) <= EE * (rho * Rabs (e 0 - e' 0) + rv * (F * tau))).
        { apply Rmult_le_compat_l; [lra|]. apply Rplus_le_compat; apply Rmult_le_compat_r; try apply Rabs_pos; try lra. }
        lra. }
      apply Rle_trans with (1 := B). unfold approach_factor. fold EE. rewrite CPL. fold be.
      assert (BF : EE * (2 * (F * tau)) = be * S) by (unfold be, F; ring).
      assert (RV : 0 <= rv).
      { apply Rle_trans with (Vh / Vc c2); [|apply Hrv]. pose proof Vh_pos. destruct (HVc c2 ltac:(lra)).
        apply Rmult_le_pos; [lra|left; apply Rinv_0_lt_compat; assumption]. }
      assert (B0 : 0 <= be).
      { unfold be. apply Rmult_le_pos; [|lra]. apply Rmult_le_pos; [|lra]. apply Rmult_le_pos; [lra|].
        apply Rmult_le_pos; [|exact L0]. assert (0 <= a * zm) by (apply Rmult_le_pos; lra). lra. }
      assert (BS : be * S <= be * (EE * d 0 / (1 - be))) by (apply Rmult_le_compat_l; assumption).
      assert (RB : rv * (be * S) <= rv * (be * (EE * d 0 / (1 - be)))) by (apply Rmult_le_compat_l; assumption).
      replace (EE * (rho * d 0 + rv * (2 * (F * tau)))) with (EE * rho * d 0 + rv * (EE * (2 * (F * tau)))) by ring.
      rewrite BF. apply Rle_trans with (EE * rho * d 0 + rv * (be * (EE * d 0 / (1 - be)))); [lra|]. right. field. lra.
    Qed.
  End Pair.
End Flow.
