(** * Helium in two cylinders that barely move, between large exchangers *)
From Coq Require Import Reals Lra Psatz.
From Verif Require Import RFluid.
Local Open Scope R_scope.

Lemma le_from_derivs (f f' g g' : R -> R) (a b : R) : a <= b ->
  (forall t, a <= t <= b -> derivable_pt_lim f t (f' t)) -> (forall t, a <= t <= b -> derivable_pt_lim g t (g' t)) ->
  (forall t, a <= t <= b -> f' t <= g' t) -> f b - f a <= g b - g a.
Proof.
  intros Hab Hf Hg H. destruct (Rle_lt_or_eq_dec a b Hab) as [L| ->]; [|lra].
  destruct (MVT_cor2 (fun t => g t - f t) (fun t => g' t - f' t) a b L) as (u & E & Hu).
  { intros t Ht. apply deriv_minus; auto. }
  assert (0 <= (g' u - f' u) * (b - a)) by (apply Rmult_le_pos; [specialize (H u); lra|lra]). cbv beta in E. lra.
Qed.
Lemma max_share w x : 0 <= w <= 1 -> w * x <= Rmax x 0.
Proof.
  intros H. destruct (Rle_dec 0 x) as [L|L].
  - rewrite Rmax_left by lra. apply Rle_trans with (1 * x); [apply Rmult_le_compat_r; lra|lra].
  - rewrite Rmax_right by lra. assert (0 <= w * - x) by (apply Rmult_le_pos; lra). lra.
Qed.
Lemma abs_mult_le x y a b : Rabs x <= a -> Rabs y <= b -> Rabs (x * y) <= a * b.
Proof. intros. rewrite Rabs_mult. apply Rmult_le_compat; auto using Rabs_pos. Qed.
Lemma div_ge x y z : 0 < y -> z * y <= x -> z <= x / y.
Proof. intros H L. apply (Rmult_le_reg_r y); [exact H|]. replace (x / y * y) with x by (field; lra). exact L. Qed.
Lemma div_le' x y z : 0 < y -> x <= z * y -> x / y <= z.
Proof. intros H L. apply (Rmult_le_reg_r y); [exact H|]. replace (x / y * y) with x by (field; lra). exact L. Qed.

(** ** One cylinder *)
Section Space.
  (** [q] and [f]: relative rates of change of the pressure and of the mass in the cylinder *)
  Variables (n k Tin v Vl Vh D0 tau Q : R) (P q V dV T f S : R -> R).
  Definition T_rate (t : R) : R := - n * f t + (Tin - T t) * Rmax (f t) 0 + k * T t * q t.
  Hypothesis Hn : 99 <= n <= 100.
  Hypothesis Hk : 0 <= k <= / 2.
  Hypothesis HTin : 300 <= Tin <= 900.
  Hypothesis Hv : 0 < v.
  Hypothesis HVl : 0 < Vl.
  Hypothesis HVh : Vh <= 1.1 * Vl.
  Hypothesis HD0 : 1000 * Vh <= D0.
  Hypothesis Htau : 0 < tau.
  (** [P], [T], [V] and the mass *)
  Hypothesis HP : forall t, 0 <= t <= tau -> 0 < P t /\ derivable_pt_lim P t (P t * q t).
  Hypothesis HT : forall t, 0 <= t <= tau -> 200 <= T t <= 1400 /\ derivable_pt_lim T t (T_rate t).
  Hypothesis HV : forall t, 0 <= t <= tau -> Vl <= V t <= Vh /\ Rabs (dV t) <= v /\ derivable_pt_lim V t (dV t).
  Hypothesis Hf : forall t, 0 <= t <= tau -> f t = q t + dV t / V t - T_rate t / T t.

  Definition slope (t : R) : R := if Rle_dec 0 (f t) then Tin - n else T t - n.
  Lemma slope_range t : 0 <= t <= tau -> 100 <= slope t <= 1301.
  Proof. intros Ht. destruct (HT t Ht) as (B & _). unfold slope. destruct (Rle_dec 0 (f t)); lra. Qed.
  Lemma flow t : 0 <= t <= tau -> slope t * (V t / T t * f t) = dV t + (1 - k) * V t * q t.
  Proof.
    intros Ht. destruct (HT t Ht) as (B & _). destruct (HV t Ht) as (C & _). specialize (Hf t Ht).
    assert (E : T t * f t = T t * q t + T t * (dV t / V t) - T_rate t).
    { rewrite Hf at 1. field. lra. }
    assert (X : slope t * f t = T t * f t + T_rate t - k * T t * q t).
    { unfold slope, T_rate. destruct (Rle_dec 0 (f t)) as [L|L]; [rewrite Rmax_left by lra|rewrite Rmax_right by lra]; ring. }
    replace (slope t * (V t / T t * f t)) with (V t / T t * (slope t * f t)) by ring. rewrite X, E. field. lra.
  Qed.
  Lemma flow_bound t : 0 <= t <= tau -> Rabs (V t / T t * f t) <= (v + Vh * Rabs (q t)) / 100.
  Proof.
    intros Ht. pose proof (slope_range t Ht) as S1. pose proof (flow t Ht) as E. destruct (HV t Ht) as (C & C1 & _).
    assert (A : Rabs (slope t * (V t / T t * f t)) <= v + Vh * Rabs (q t)).
    { rewrite E. eapply Rle_trans; [apply Rabs_triang|]. apply Rplus_le_compat; [exact C1|].
      rewrite Rabs_mult. apply Rmult_le_compat_r; [apply Rabs_pos|]. rewrite Rabs_pos_eq by (apply Rmult_le_pos; lra).
      assert (0 <= k * V t) by (apply Rmult_le_pos; lra). lra. }
    rewrite Rabs_mult, (Rabs_pos_eq (slope t)) in A by lra. set (x := Rabs (V t / T t * f t)) in *.
    assert (100 * x <= slope t * x) by (apply Rmult_le_compat_r; [apply Rabs_pos|lra]). lra.
  Qed.

  Hypothesis HQ0 : 0 <= Q.
  Hypothesis HQ : forall t, 0 <= t <= tau -> Rabs (q t) <= Q.
  Hypothesis HQv : Q * D0 <= 0.021 * v.
  Lemma small_Q : Vh * Q <= 0.000021 * v.
  Proof. assert (1000 * Vh * Q <= D0 * Q) by (apply Rmult_le_compat_r; lra). lra. Qed.
  Lemma f_bound t : 0 <= t <= tau -> Rabs (f t) <= 14.1 * v / Vl.
  Proof.
    intros Ht. pose proof (flow_bound t Ht) as F. destruct (HT t Ht) as (B & _). destruct (HV t Ht) as (C & _).
    assert (Vh * Rabs (q t) <= Vh * Q) by (apply Rmult_le_compat_l; [lra|auto]). pose proof small_Q.
    rewrite Rabs_mult, (Rabs_pos_eq (V t / T t)) in F by (apply Rle_mult_inv_pos; lra).
    assert (Vl / 1400 <= V t / T t).
    { apply div_ge; [lra|]. assert (Vl / 1400 * T t <= Vl / 1400 * 1400) by (apply Rmult_le_compat_l; lra). lra. }
    assert (Vl / 1400 * Rabs (f t) <= V t / T t * Rabs (f t)) by (apply Rmult_le_compat_r; [apply Rabs_pos|lra]).
    apply div_ge; [exact HVl|]. lra.
  Qed.
  Lemma T_rate_bound t : 0 <= t <= tau -> Rabs (T_rate t) <= 21200 * v / Vl.
  Proof.
    intros Ht. pose proof (f_bound t Ht) as F. destruct (HT t Ht) as (B & _). pose proof (HQ t Ht) as HQt.
    set (x := 14.1 * v / Vl) in *. unfold T_rate.
    assert (A1 : Rabs (- n * f t) <= 100 * x) by (apply abs_mult_le; [rewrite Rabs_left; lra|exact F]).
    assert (A2 : Rabs ((Tin - T t) * Rmax (f t) 0) <= 1400 * x).
    { apply abs_mult_le; [apply Rabs_le; lra|]. apply Rle_trans with (2 := F). unfold Rmax.
      destruct (Rle_dec (f t) 0); [rewrite Rabs_R0; apply Rabs_pos|lra]. }
    assert (A3 : Rabs (k * T t * q t) <= 700 * Q).
    { apply abs_mult_le; [|exact HQt]. assert (0 <= k * T t) by (apply Rmult_le_pos; lra). rewrite Rabs_pos_eq by assumption.
      assert (k * T t <= / 2 * 1400) by (apply Rmult_le_compat; lra). lra. }
    assert (A4 : Q <= 0.001 * x).
    { unfold x. replace (0.001 * (14.1 * v / Vl)) with (0.0141 * v / Vl) by (unfold Rdiv; lra). apply div_ge; [exact HVl|].
      pose proof small_Q. assert (Vl <= Vh) by (destruct (HV t Ht); lra). assert (Q * Vl <= Q * Vh) by (apply Rmult_le_compat_l; lra). lra. }
    assert (X : x = 14.1 * (v / Vl)) by (unfold x; field; lra).
    assert (0 < v / Vl) by (apply Rdiv_lt_0_compat; lra).
    replace (21200 * v / Vl) with (21200 * (v / Vl)) by (field; lra).
    eapply Rle_trans; [apply Rabs_triang|]. eapply Rle_trans; [apply Rplus_le_compat_r, Rabs_triang|]. lra.
  Qed.
  Variable e : R.
  Hypothesis He : 0 < e.
  Hypothesis Hev : 21200 * v / Vl * tau <= e.
  Lemma nearly_constant t : 0 <= t <= tau -> Rabs (T t - T 0) <= e.
  Proof.
    intros Ht. set (w := 21200 * v / Vl) in *. assert (0 <= w) by (unfold w; left; apply Rdiv_lt_0_compat; lra).
    assert (L : forall u l, derivable_pt_lim (fun s => l * s) u l).
    { intros u l. eapply deriv_eq; [apply deriv_mult; [apply deriv_const|apply deriv_id]|]. cbv beta. ring. }
    pose proof (le_from_derivs T T_rate (fun s => w * s) (fun _ => w) 0 t) as U.
    pose proof (le_from_derivs (fun s => - w * s) (fun _ => - w) T T_rate 0 t) as D. cbv beta in U, D.
    assert (forall u, 0 <= u <= t -> - w <= T_rate u <= w).
    { intros u Hu. assert (B : Rabs (T_rate u) <= w) by (apply T_rate_bound; lra). split.
      - pose proof (Rle_abs (- T_rate u)) as R1. rewrite Rabs_Ropp in R1. lra.
      - pose proof (Rle_abs (T_rate u)). lra. }
    specialize (U ltac:(lra)). specialize (D ltac:(lra)).
    assert (w * t <= w * tau) by (apply Rmult_le_compat_l; lra).
    apply Rabs_le. split.
    - assert (- w * t - - w * 0 <= T t - T 0); [|lra]. apply D; [auto| |intros u Hu; apply H0, Hu]. intros u Hu; apply HT; lra.
    - assert (T t - T 0 <= w * t - w * 0); [|lra]. apply U; [|auto|intros u Hu; apply H0, Hu]. intros u Hu; apply HT; lra.
  Qed.

  (** the cylinder returns, and its motion is that of a sine *)
  Hypothesis RP : P tau = P 0.
  Hypothesis RT : T tau = T 0.
  Hypothesis RV : V tau = V 0.
  Hypothesis HS : forall t, 0 <= t <= tau -> derivable_pt_lim S t (dV t * dV t).
  Hypothesis RS : S tau - S 0 = v * v * tau / 2.
  Lemma ln_deriv (g : R -> R) t l : 0 < g t -> derivable_pt_lim g t l -> derivable_pt_lim (fun u => ln (g u)) t (l / g t).
  Proof.
    intros H0 H. eapply deriv_eq; [apply (deriv_comp g ln t l (/ g t)); [exact H|apply derivable_pt_lim_ln, H0]|].
    unfold Rdiv. ring.
  Qed.
  Lemma share t : 0 <= t <= tau -> / 2 * f t + dV t * dV t / (14400 * v * Vl / 1000) - 7 * Q <= Rmax (f t) 0.
  Proof.
    intros Ht. destruct (HV t Ht) as (C & C1 & _). destruct (HT t Ht) as (B & _). pose proof (slope_range t Ht) as S1.
    assert (W : 0 <= / 2 * (1 + dV t / v) <= 1).
    { assert (- 1 <= dV t / v <= 1); [|lra]. pose proof (Rle_abs (dV t)). pose proof (Rle_abs (- dV t)) as N. rewrite Rabs_Ropp in N.
      split; [apply div_ge; lra|apply div_le'; lra]. }
    apply Rle_trans with (2 := max_share _ (f t) W).
    assert (E : f t * (dV t / v) = (dV t * dV t + (1 - k) * V t * q t * dV t) / (slope t * (V t / T t) * v)).
    { pose proof (flow t Ht) as E. rewrite <- (Rmult_plus_distr_r), <- E. field. lra. }
    set (z := slope t * (V t / T t)) in *.
    assert (Z : 0 < z <= 7.2 * Vl).
    { assert (0 < V t / T t <= 1.1 * Vl / 200).
      { split; [apply Rdiv_lt_0_compat; lra|]. apply div_le'; [lra|].
        assert (1.1 * Vl / 200 * 200 <= 1.1 * Vl / 200 * T t) by (apply Rmult_le_compat_l; lra). lra. }
      split; [apply Rmult_lt_0_compat; lra|].
      assert (z <= 1301 * (1.1 * Vl / 200)) by (apply Rmult_le_compat; lra). lra. }
    assert (A1 : dV t * dV t / (14400 * v * Vl / 1000) <= / 2 * (dV t * dV t / (z * v))).
    { replace (/ 2 * (dV t * dV t / (z * v))) with (dV t * dV t / (2 * (z * v))) by (field; split; lra).
      apply Rmult_le_compat_l; [apply Rle_0_sqr|]. apply Rinv_le_contravar; [assert (0 < z * v) by (apply Rmult_lt_0_compat; lra); lra|].
      assert (z * v <= 7.2 * Vl * v) by (apply Rmult_le_compat_r; lra). lra. }
    assert (A2 : Rabs ((1 - k) * V t * q t * dV t / (z * v)) <= 14 * Q).
    { replace ((1 - k) * V t * q t * dV t / (z * v)) with ((1 - k) * T t * / slope t * (q t * (dV t / v))).
      2:{ unfold z. field. repeat split; lra. }
      apply abs_mult_le.
      - assert (0 < / slope t <= / 100) by (split; [apply Rinv_0_lt_compat; lra|apply Rinv_le_contravar; lra]).
        assert (0 <= (1 - k) * T t) by (apply Rmult_le_pos; lra). assert (0 <= k * T t) by (apply Rmult_le_pos; lra).
        rewrite Rabs_pos_eq by (apply Rmult_le_pos; lra). assert ((1 - k) * T t * / slope t <= 1400 * / 100) by (apply Rmult_le_compat; lra). lra.
      - replace Q with (Q * 1) by ring. apply abs_mult_le; [auto|]. apply Rabs_le. lra. }
    pose proof (Rle_abs (- ((1 - k) * V t * q t * dV t / (z * v)))) as N. rewrite Rabs_Ropp in N.
    assert (E' : f t * (dV t / v) = dV t * dV t / (z * v) + (1 - k) * V t * q t * dV t / (z * v)) by (rewrite E; field; split; lra).
    lra.
  Qed.
  (** on average gas leaves at the temperature at which it came *)
  Lemma drift s : s = 1 \/ s = -1 -> (forall t, 0 <= t <= tau -> e <= s * (Tin - T t)) -> False.
  Proof.
    intros Hs H.
    set (L := fun u => ln (P u) + ln (V u) - ln (T u)).
    set (h := fun u => s * (T u + n * L u - k * T 0 * ln (P u))).
    set (h' := fun u => s * ((Tin - T u) * Rmax (f u) 0 + k * (T u - T 0) * q u)).
    set (g := fun u => e * (/ 2 * L u + S u / (14400 * v * Vl / 1000) - 8 * Q * u)).
    set (g' := fun u => e * (/ 2 * f u + dV u * dV u / (14400 * v * Vl / 1000) - 8 * Q)).
    assert (DL : forall t, 0 <= t <= tau -> derivable_pt_lim L t (f t)).
    { intros t Ht. destruct (HP t Ht) as (P1 & P2). destruct (HV t Ht) as (V1 & _ & V2). destruct (HT t Ht) as (T1 & T2).
      unfold L. eapply deriv_eq; [apply deriv_minus; [apply deriv_plus|]; (apply ln_deriv; [|eassumption]); lra|].
      rewrite (Hf t Ht) at 1. field. lra. }
    assert (DP : forall t, 0 <= t <= tau -> derivable_pt_lim (fun u => ln (P u)) t (q t)).
    { intros t Ht. destruct (HP t Ht) as (P1 & P2). eapply deriv_eq; [apply ln_deriv; eassumption|]. field. lra. }
    pose proof (le_from_derivs g g' h h' 0 tau) as C. specialize (C ltac:(lra)).
    assert (X : g tau - g 0 <= h tau - h 0).
    { apply C.
      - intros t Ht. unfold g, g'. eapply deriv_eq.
        + apply deriv_mult; [apply deriv_const|]. apply deriv_minus; [apply deriv_plus|].
          * apply deriv_mult; [apply deriv_const|apply DL, Ht].
          * apply deriv_div; [apply HS, Ht|apply deriv_const|]. assert (0 < v * Vl) by (apply Rmult_lt_0_compat; lra). lra.
          * apply deriv_mult; [apply deriv_const|apply deriv_id].
        + cbv beta. assert (0 < v * Vl) by (apply Rmult_lt_0_compat; lra). field. lra.
      - intros t Ht. unfold h, h'. eapply deriv_eq.
        + apply deriv_mult; [apply deriv_const|]. apply deriv_minus; [apply deriv_plus; [apply HT, Ht|]|].
          * apply deriv_mult; [apply deriv_const|apply DL, Ht].
          * apply deriv_mult; [apply deriv_const|apply DP, Ht].
        + cbv beta. unfold T_rate. ring.
      - intros t Ht. unfold g', h'. pose proof (share t Ht) as Sh. specialize (H t Ht).
        assert (M : 0 <= Rmax (f t) 0) by apply Rmax_r.
        assert (e * (/ 2 * f t + dV t * dV t / (14400 * v * Vl / 1000) - 7 * Q) <= e * Rmax (f t) 0) by (apply Rmult_le_compat_l; lra).
        assert (e * Rmax (f t) 0 <= s * (Tin - T t) * Rmax (f t) 0) by (apply Rmult_le_compat_r; lra).
        assert (N : Rabs (s * (k * (T t - T 0) * q t)) <= e * Q).
        { replace (e * Q) with (1 * (1 * e * Q)) by ring. apply abs_mult_le; [destruct Hs as [-> | ->]; [rewrite Rabs_R1|rewrite Rabs_left]; lra|].
          apply abs_mult_le; [|auto]. apply abs_mult_le; [rewrite Rabs_pos_eq; lra|apply nearly_constant, Ht]. }
        pose proof (Rle_abs (- (s * (k * (T t - T 0) * q t)))) as N'. rewrite Rabs_Ropp in N'. lra. }
    assert (HL : L tau = L 0) by (unfold L; rewrite RP, RT, RV; reflexivity).
    unfold g, h in X. rewrite HL, RT, RP in X.
    assert (SS : S tau / (14400 * v * Vl / 1000) - S 0 / (14400 * v * Vl / 1000) = v * tau / (28.8 * Vl)).
    { replace (S tau / (14400 * v * Vl / 1000) - S 0 / (14400 * v * Vl / 1000)) with ((S tau - S 0) / (14400 * v * Vl / 1000)) by (unfold Rdiv; ring).
      rewrite RS. assert (0 < v * Vl) by (apply Rmult_lt_0_compat; lra). field_simplify_eq; [lra|lra]. }
    assert (G : e * (v * tau / (28.8 * Vl) - 8 * Q * tau) <= 0).
    { rewrite <- SS. set (a := S tau / _) in *. set (b := S 0 / _) in *. clearbody a b.
      apply Rle_trans with (2 := Rle_refl 0). revert X.
      match goal with |- ?x <= ?y -> _ => replace y with 0 by ring; replace x with (e * (a - b - 8 * Q * tau)) by ring end. auto. }
    assert (0 < v * tau / (28.8 * Vl) - 8 * Q * tau).
    { assert (8 * Q * tau < v * tau / (28.8 * Vl)); [|lra]. apply (Rmult_lt_reg_r (28.8 * Vl)); [lra|].
      replace (v * tau / (28.8 * Vl) * (28.8 * Vl)) with (v * tau) by (field; lra).
      replace (8 * Q * tau * (28.8 * Vl)) with (8 * 28.8 * (Q * Vl) * tau) by ring. apply Rmult_lt_compat_r; [exact Htau|].
      pose proof small_Q. destruct (HV 0 ltac:(lra)) as (V0 & _). assert (Q * Vl <= Q * Vh) by (apply Rmult_le_compat_l; lra). lra. }
    assert (0 < e * (v * tau / (28.8 * Vl) - 8 * Q * tau)) by (apply Rmult_lt_0_compat; assumption). lra.
  Qed.
  Lemma like_exchanger t : 0 <= t <= tau -> Rabs (T t - Tin) <= 3 * e.
  Proof.
    intros Ht. pose proof (nearly_constant t Ht) as B.
    pose proof (Rle_abs (T t - T 0)) as B1. pose proof (Rle_abs (- (T t - T 0))) as B2. rewrite Rabs_Ropp in B2.
    assert (C : forall u, 0 <= u <= tau -> - e <= T u - T 0 <= e).
    { intros u Hu. pose proof (nearly_constant u Hu) as X. pose proof (Rle_abs (T u - T 0)). pose proof (Rle_abs (- (T u - T 0))) as Y.
      rewrite Rabs_Ropp in Y. lra. }
    apply Rabs_le. split.
    - destruct (Rle_lt_dec (Tin - T 0) (2 * e)) as [L|L]; [lra|exfalso].
      apply (drift 1); [left; reflexivity|]. intros u Hu. specialize (C u Hu). lra.
    - destruct (Rle_lt_dec (T 0 - Tin) (2 * e)) as [L|L]; [lra|exfalso].
      apply (drift (-1)); [right; reflexivity|]. intros u Hu. specialize (C u Hu). lra.
  Qed.
  (** so gas flows as if each cylinder had the temperature of its exchanger *)
  Hypothesis He1 : e <= / 2.
  Lemma flow_close t : 0 <= t <= tau -> Rabs (V t / T t * f t - dV t / (Tin - n)) <= 0.0000379 * v.
  Proof.
    intros Ht. pose proof (flow t Ht) as E. pose proof (like_exchanger t Ht) as B. pose proof (slope_range t Ht) as S1.
    destruct (HV t Ht) as (C & C1 & _). destruct (HT t Ht) as (B1 & _).
    assert (D : Rabs (slope t - (Tin - n)) <= 1.5).
    { unfold slope. destruct (Rle_dec 0 (f t)); [rewrite Rminus_diag_eq, Rabs_R0 by reflexivity; lra|].
      replace (T t - n - (Tin - n)) with (T t - Tin) by ring. lra. }
    assert (S2 : 198.5 <= slope t).
    { pose proof (Rle_abs (- (slope t - (Tin - n)))) as X. rewrite Rabs_Ropp in X. lra. }
    replace (V t / T t * f t - dV t / (Tin - n))
      with ((dV t * ((Tin - n) - slope t) * / (Tin - n) + (1 - k) * V t * q t) * / slope t).
    2:{ replace (V t / T t * f t) with ((dV t + (1 - k) * V t * q t) / slope t) by (rewrite <- E; field; lra). field. lra. }
    assert (I : 0 < / slope t <= / 198.5) by (split; [apply Rinv_0_lt_compat; lra|apply Rinv_le_contravar; lra]).
    assert (J : 0 < / (Tin - n) <= / 200) by (split; [apply Rinv_0_lt_compat; lra|apply Rinv_le_contravar; lra]).
    assert (K : Rabs (dV t * ((Tin - n) - slope t) * / (Tin - n)) <= v * 1.5 * / 200).
    { apply abs_mult_le; [apply abs_mult_le; [exact C1|rewrite Rabs_minus_sym; exact D]|rewrite Rabs_pos_eq; lra]. }
    assert (L : Rabs ((1 - k) * V t * q t) <= Vh * Q).
    { apply abs_mult_le; [|auto]. rewrite Rabs_pos_eq by (apply Rmult_le_pos; lra).
      assert (0 <= k * V t) by (apply Rmult_le_pos; lra). lra. }
    pose proof small_Q.
    assert (M : Rabs (dV t * ((Tin - n) - slope t) * / (Tin - n) + (1 - k) * V t * q t) <= v * 1.5 * / 200 + Vh * Q).
    { eapply Rle_trans; [apply Rabs_triang|]. lra. }
    eapply Rle_trans; [apply (abs_mult_le _ _ _ (/ 198.5) M); rewrite Rabs_pos_eq; lra|]. lra.
  Qed.
End Space.

(** ** Two cylinders a quarter of a turn apart *)
Section Pair.
  Variables (n k Tk Tl A w Vm Vl Vh D0 M tau : R) (P q Tc fc Te fe : R -> R).
  Let v := A * w.
  Definition Vc t := Vm + A * cos (w * t).
  Definition Ve t := Vm - A * sin (w * t).
  Definition dVc t := - (A * w) * sin (w * t).
  Definition dVe t := - (A * w) * cos (w * t).
  Hypothesis Hn : 99 <= n <= 100.
  Hypothesis Hk : 0 <= k <= / 2.
  Hypothesis HTk : 300 <= Tk <= 900.
  Hypothesis HTl : 300 <= Tl <= 900.
  Hypothesis HA : 0 < A.
  Hypothesis Hw : 0 < w.
  Hypothesis HVl : 0 < Vl.
  Hypothesis Hlo : Vl <= Vm - A.
  Hypothesis Hhi : Vm + A <= Vh.
  Hypothesis HVh : Vh <= 1.1 * Vl.
  Hypothesis HD0 : 1000 * Vh <= D0.
  Hypothesis Hturn : w * tau = 2 * PI.
  Hypothesis Hsmall : 21200 * v / Vl * tau <= / 2.
  Hypothesis HP : forall t, 0 <= t <= tau -> 0 < P t /\ derivable_pt_lim P t (P t * q t).
  Hypothesis HTc : forall t, 0 <= t <= tau -> 200 <= Tc t <= 1400 /\ derivable_pt_lim Tc t (T_rate n k Tk q Tc fc t).
  Hypothesis HTe : forall t, 0 <= t <= tau -> 200 <= Te t <= 1400 /\ derivable_pt_lim Te t (T_rate n k Tl q Te fe t).
  Hypothesis Hfc : forall t, 0 <= t <= tau -> fc t = q t + dVc t / Vc t - T_rate n k Tk q Tc fc t / Tc t.
  Hypothesis Hfe : forall t, 0 <= t <= tau -> fe t = q t + dVe t / Ve t - T_rate n k Tl q Te fe t / Te t.
  (** the mass of all gas is constant *)
  Hypothesis Hm : forall t, 0 <= t <= tau -> Vc t / Tc t * fc t + Ve t / Te t * fe t + D0 * q t = 0.
  Hypothesis HM : forall t, 0 <= t <= tau -> P t * (D0 + Vc t / Tc t + Ve t / Te t) = M.
  Hypothesis RP : P tau = P 0.
  Hypothesis RTc : Tc tau = Tc 0.
  Hypothesis RTe : Te tau = Te 0.

  Lemma v_pos : 0 < v. Proof. apply Rmult_lt_0_compat; assumption. Qed.
  Lemma tau_pos : 0 < tau.
  Proof. pose proof PI_RGT_0. apply (Rmult_lt_reg_l w); [exact Hw|]. lra. Qed.
  Lemma v_tau : v * tau = 2 * PI * A.
  Proof. unfold v. replace (A * w * tau) with (A * (w * tau)) by ring. rewrite Hturn. ring. Qed.
  Lemma angle t : derivable_pt_lim (fun u => w * u) t w.
  Proof. eapply deriv_eq; [apply deriv_mult; [apply deriv_const|apply deriv_id]|]. cbv beta. ring. Qed.
  Lemma d_cos t : derivable_pt_lim (fun u => cos (w * u)) t (- sin (w * t) * w).
  Proof. apply (deriv_cos (fun u => w * u)), angle. Qed.
  Lemma d_sin t : derivable_pt_lim (fun u => sin (w * u)) t (cos (w * t) * w).
  Proof. apply (deriv_sin (fun u => w * u)), angle. Qed.
  Lemma trig_tau : cos (w * tau) = cos (w * 0) /\ sin (w * tau) = sin (w * 0).
  Proof. rewrite Hturn, Rmult_0_r, cos_2PI, sin_2PI, cos_0, sin_0. auto. Qed.
  Lemma HVc t : 0 <= t <= tau -> Vl <= Vc t <= Vh /\ Rabs (dVc t) <= v /\ derivable_pt_lim Vc t (dVc t).
  Proof.
    intros Ht. pose proof v_pos. unfold Vc, dVc. fold v. split; [|split].
    - pose proof (COS_bound (w * t)). assert (A * -1 <= A * cos (w * t)) by (apply Rmult_le_compat_l; lra).
      assert (A * cos (w * t) <= A * 1) by (apply Rmult_le_compat_l; lra). lra.
    - replace v with (v * 1) at 2 by ring. apply abs_mult_le; [rewrite Rabs_left; lra|]. apply Rabs_le, SIN_bound.
    - eapply deriv_eq; [apply deriv_plus; [apply deriv_const|apply deriv_mult; [apply deriv_const|apply d_cos]]|]. cbv beta. unfold v. ring.
  Qed.
  Lemma HVe t : 0 <= t <= tau -> Vl <= Ve t <= Vh /\ Rabs (dVe t) <= v /\ derivable_pt_lim Ve t (dVe t).
  Proof.
    intros Ht. pose proof v_pos. unfold Ve, dVe. fold v. split; [|split].
    - pose proof (SIN_bound (w * t)). assert (A * -1 <= A * sin (w * t)) by (apply Rmult_le_compat_l; lra).
      assert (A * sin (w * t) <= A * 1) by (apply Rmult_le_compat_l; lra). lra.
    - replace v with (v * 1) at 2 by ring. apply abs_mult_le; [rewrite Rabs_left; lra|]. apply Rabs_le, COS_bound.
    - eapply deriv_eq; [apply deriv_minus; [apply deriv_const|apply deriv_mult; [apply deriv_const|apply d_sin]]|]. cbv beta. unfold v. ring.
  Qed.

  Definition Qm : R := 0.021 * v / D0.
  Lemma D0_pos : 0 < D0. Proof. lra. Qed.
  Lemma Qm_pos : 0 <= Qm. Proof. pose proof v_pos. pose proof D0_pos. unfold Qm. left. apply Rdiv_lt_0_compat; lra. Qed.
  Lemma Qm_v : Qm * D0 <= 0.021 * v. Proof. pose proof D0_pos. unfold Qm. right. field. lra. Qed.
  Lemma q_bound t : 0 <= t <= tau -> Rabs (q t) <= Qm.
  Proof.
    intros Ht. pose proof v_pos. pose proof D0_pos. pose proof tau_pos. unfold Qm. apply div_ge; [assumption|].
    pose proof (flow_bound n k Tk v Vl Vh tau q Vc dVc Tc fc Hn Hk HTk HVl HTc HVc Hfc t Ht) as F1.
    pose proof (flow_bound n k Tl v Vl Vh tau q Ve dVe Te fe Hn Hk HTl HVl HTe HVe Hfe t Ht) as F2.
    specialize (Hm t Ht). set (a := Vc t / Tc t * fc t) in *. set (b := Ve t / Te t * fe t) in *.
    assert (E : Rabs (D0 * q t) <= Rabs a + Rabs b).
    { replace (D0 * q t) with (- (a + b)) by lra. rewrite Rabs_Ropp. apply Rabs_triang. }
    rewrite Rabs_mult, (Rabs_pos_eq D0) in E by lra. set (x := Rabs (q t)) in *.
    assert (0 <= x) by apply Rabs_pos. assert (1000 * Vh * x <= D0 * x) by (apply Rmult_le_compat_r; lra). lra.
  Qed.

  Definition Sc t := v * v * ((t - sin (w * t) * cos (w * t) / w) / 2).
  Definition Se t := v * v * ((t + sin (w * t) * cos (w * t) / w) / 2).
  Lemma one t : cos (w * t) * cos (w * t) = 1 - sin (w * t) * sin (w * t).
  Proof. pose proof (sin2_cos2 (w * t)) as H. unfold Rsqr in H. lra. Qed.
  Lemma d_sc t : derivable_pt_lim (fun u => sin (w * u) * cos (w * u)) t (w * (1 - 2 * (sin (w * t) * sin (w * t)))).
  Proof.
    eapply deriv_eq; [apply deriv_mult; [apply d_sin|apply d_cos]|]. cbv beta.
    replace (cos (w * t) * w * cos (w * t) + sin (w * t) * (- sin (w * t) * w))
      with (w * (cos (w * t) * cos (w * t)) - w * (sin (w * t) * sin (w * t))) by ring. rewrite one. ring.
  Qed.
  Lemma HSc t : 0 <= t <= tau -> derivable_pt_lim Sc t (dVc t * dVc t).
  Proof.
    intros _. unfold Sc, dVc. fold v. eapply deriv_eq.
    - apply deriv_mult; [apply deriv_const|]. apply deriv_div; [apply deriv_minus; [apply deriv_id|]|apply deriv_const|lra].
      apply deriv_div; [apply d_sc|apply deriv_const|lra].
    - cbv beta. field. lra.
  Qed.
  Lemma HSe t : 0 <= t <= tau -> derivable_pt_lim Se t (dVe t * dVe t).
  Proof.
    intros _. unfold Se, dVe. fold v. eapply deriv_eq.
    - apply deriv_mult; [apply deriv_const|]. apply deriv_div; [apply deriv_plus; [apply deriv_id|]|apply deriv_const|lra].
      apply deriv_div; [apply d_sc|apply deriv_const|lra].
    - cbv beta. replace (- v * cos (w * t) * (- v * cos (w * t))) with (v * v * (cos (w * t) * cos (w * t))) by ring.
      rewrite one. field. lra.
  Qed.
  Lemma RSc : Sc tau - Sc 0 = v * v * tau / 2.
  Proof. unfold Sc. destruct trig_tau as (-> & ->). field. lra. Qed.
  Lemma RSe : Se tau - Se 0 = v * v * tau / 2.
  Proof. unfold Se. destruct trig_tau as (-> & ->). field. lra. Qed.
  Lemma RVc : Vc tau = Vc 0.
  Proof. unfold Vc. destruct trig_tau as (-> & _). reflexivity. Qed.
  Lemma RVe : Ve tau = Ve 0.
  Proof. unfold Ve. destruct trig_tau as (_ & ->). reflexivity. Qed.

  Lemma close_c t : 0 <= t <= tau -> Rabs (Vc t / Tc t * fc t - dVc t / (Tk - n)) <= 0.0000379 * v.
  Proof.
    exact (flow_close n k Tk v Vl Vh D0 tau Qm P q Vc dVc Tc fc Sc Hn Hk HTk v_pos HVl HVh HD0 tau_pos HP HTc HVc Hfc Qm_pos q_bound Qm_v
             (/ 2) ltac:(lra) Hsmall RP RTc RVc HSc RSc ltac:(lra) t).
  Qed.
  Lemma close_e t : 0 <= t <= tau -> Rabs (Ve t / Te t * fe t - dVe t / (Tl - n)) <= 0.0000379 * v.
  Proof.
    exact (flow_close n k Tl v Vl Vh D0 tau Qm P q Ve dVe Te fe Se Hn Hk HTl v_pos HVl HVh HD0 tau_pos HP HTe HVe Hfe Qm_pos q_bound Qm_v
             (/ 2) ltac:(lra) Hsmall RP RTe RVe HSe RSe ltac:(lra) t).
  Qed.

  Section Work.
    Variables (ac ae : R) (W : R -> R).
    Hypothesis Hac : 0 <= ac.
    Hypothesis Hae : 0 <= ae.
    Hypothesis HW : forall t, 0 <= t <= tau -> derivable_pt_lim W t (P t * (ac * dVc t + ae * dVe t)).
    Let ik := / (Tk - n).
    Let il := / (Tl - n).
    Let psi t := ac * (A * cos (w * t)) - ae * (A * sin (w * t)).
    Let top := A * (ac + ae).
    Let Xi t := A * A * ((ae * il - ac * ik) * (sin (w * t) * sin (w * t)) / 2
      + ae * ik * ((w * t - sin (w * t) * cos (w * t)) / 2) - ac * il * ((w * t + sin (w * t) * cos (w * t)) / 2)).
    Lemma Xi_deriv t : derivable_pt_lim Xi t ((dVc t * ik + dVe t * il) * psi t).
    Proof.
      unfold Xi, psi, dVc, dVe. eapply deriv_eq.
      - apply deriv_mult; [apply deriv_const|]. apply deriv_minus; [apply deriv_plus|].
        + apply deriv_div; [|apply deriv_const|lra]. apply deriv_mult; [apply deriv_const|]. apply deriv_mult; apply d_sin.
        + apply deriv_mult; [apply deriv_const|]. apply deriv_div; [|apply deriv_const|lra]. apply deriv_minus; [apply angle|apply d_sc].
        + apply deriv_mult; [apply deriv_const|]. apply deriv_div; [|apply deriv_const|lra]. apply deriv_plus; [apply angle|apply d_sc].
      - cbv beta. pose proof (one t) as E. set (s := sin (w * t)) in *. set (c := cos (w * t)) in *. clearbody s c ik il.
        match goal with |- _ = ?r => replace r with (A * A * w * ((ac * - (ik * (s * c)) + ae * (ik * (s * s))) + (ae * il * (s * c) - ac * il * (c * c)))) by ring end.
        rewrite E. field.
    Qed.
    Lemma psi_bound t : Rabs (psi t) <= top.
    Proof.
      unfold psi, top. replace (A * (ac + ae)) with (ac * (A * 1) + ae * (A * 1)) by ring.
      eapply Rle_trans; [apply Rabs_triang|]. rewrite Rabs_Ropp.
      apply Rplus_le_compat; (apply abs_mult_le; [rewrite Rabs_pos_eq; lra|]); (apply abs_mult_le; [rewrite Rabs_pos_eq; lra|]);
        apply Rabs_le; [apply COS_bound|apply SIN_bound].
    Qed.
    Lemma psi_deriv t : derivable_pt_lim psi t (ac * dVc t + ae * dVe t).
    Proof.
      unfold psi, dVc, dVe. eapply deriv_eq.
      - apply deriv_minus; (apply deriv_mult; [apply deriv_const|]); (apply deriv_mult; [apply deriv_const|]); [apply d_cos|apply d_sin].
      - cbv beta. ring.
    Qed.
    Lemma work_low : M / (D0 * D0) * (PI * (A * A) * (ae * ik - ac * il - 2 * (ac + ae) * 0.000076)) <= W tau - W 0.
    Proof.
      pose proof v_pos as Pv. pose proof D0_pos as PD. pose proof tau_pos as Pt.
      assert (PM : 0 < M).
      { rewrite <- (HM 0) by lra. destruct (HP 0 ltac:(lra)) as (P0 & _). destruct (HVc 0 ltac:(lra)) as (V1 & _). destruct (HVe 0 ltac:(lra)) as (V2 & _).
        destruct (HTc 0 ltac:(lra)) as (T1 & _). destruct (HTe 0 ltac:(lra)) as (T2 & _).
        apply Rmult_lt_0_compat; [exact P0|]. assert (0 < Vc 0 / Tc 0) by (apply Rdiv_lt_0_compat; lra).
        assert (0 < Ve 0 / Te 0) by (apply Rdiv_lt_0_compat; lra). lra. }
      assert (PS : 0 < M / (D0 * D0)) by (apply Rdiv_lt_0_compat; [exact PM|apply Rmult_lt_0_compat; assumption]).
      set (sc := M / (D0 * D0)) in *.
      pose proof (le_from_derivs (fun t => sc * (Xi t - v * top * 0.000076 * t))
        (fun t => sc * ((dVc t * ik + dVe t * il) * psi t - v * top * 0.000076))
        (fun t => W t - P t * psi t) (fun t => - (P t * q t * psi t)) 0 tau ltac:(lra)) as C. cbv beta in C.
      assert (X : sc * (Xi tau - v * top * 0.000076 * tau) - sc * (Xi 0 - v * top * 0.000076 * 0) <= W tau - P tau * psi tau - (W 0 - P 0 * psi 0)).
      { apply C.
        - intros t Ht. eapply deriv_eq.
          + apply deriv_mult; [apply deriv_const|]. apply deriv_minus; [apply Xi_deriv|]. apply deriv_mult; [apply deriv_const|apply deriv_id].
          + cbv beta. ring.
        - intros t Ht. eapply deriv_eq.
          + apply deriv_minus; [apply HW, Ht|]. apply deriv_mult; [apply HP, Ht|apply psi_deriv].
          + cbv beta. ring.
        - intros t Ht. destruct (HP t Ht) as (Pp & _). pose proof (HM t Ht) as EM. pose proof (Hm t Ht) as Em.
          destruct (HVc t Ht) as (V1 & V1' & _). destruct (HVe t Ht) as (V2 & V2' & _).
          destruct (HTc t Ht) as (T1 & _). destruct (HTe t Ht) as (T2 & _).
          pose proof (close_c t Ht) as Cc. pose proof (close_e t Ht) as Ce.
          change (dVc t / (Tk - n)) with (dVc t * ik) in Cc. change (dVe t / (Tl - n)) with (dVe t * il) in Ce.
          assert (Yc : 0 < Vc t / Tc t <= Vh / 200).
          { split; [apply Rdiv_lt_0_compat; lra|]. apply div_le'; [lra|].
            assert (Vh / 200 * 200 <= Vh / 200 * Tc t) by (apply Rmult_le_compat_l; lra). lra. }
          assert (Ye : 0 < Ve t / Te t <= Vh / 200).
          { split; [apply Rdiv_lt_0_compat; lra|]. apply div_le'; [lra|].
            assert (Vh / 200 * 200 <= Vh / 200 * Te t) by (apply Rmult_le_compat_l; lra). lra. }
          set (yc := Vc t / Tc t) in *. set (ye := Ve t / Te t) in *. set (gc := yc * fc t) in *. set (ge := ye * fe t) in *.
          set (x := dVc t * ik + dVe t * il) in *.
          assert (Bx : Rabs x <= v * / 100).
          { assert (Ik : 0 < ik <= / 200) by (unfold ik; split; [apply Rinv_0_lt_compat; lra|apply Rinv_le_contravar; lra]).
            assert (Il : 0 < il <= / 200) by (unfold il; split; [apply Rinv_0_lt_compat; lra|apply Rinv_le_contravar; lra]).
            unfold x. eapply Rle_trans; [apply Rabs_triang|].
            assert (Rabs (dVc t * ik) <= v * / 200) by (apply abs_mult_le; [exact V1'|rewrite Rabs_pos_eq; lra]).
            assert (Rabs (dVe t * il) <= v * / 200) by (apply abs_mult_le; [exact V2'|rewrite Rabs_pos_eq; lra]). lra. }
          set (ph := P t * D0 / M).
          assert (Bp : 0.99999 <= ph <= 1).
          { assert (0 < P t * yc) by (apply Rmult_lt_0_compat; lra). assert (0 < P t * ye) by (apply Rmult_lt_0_compat; lra).
            unfold ph. split; [apply div_ge|apply div_le']; try lra.
            rewrite <- EM. assert (P t * (yc + ye) <= P t * (0.00001 * D0)) by (apply Rmult_le_compat_l; lra). lra. }
          assert (Eq : - (P t * q t * psi t) = sc * (ph * (gc + ge) * psi t)).
          { replace (q t) with (- (gc + ge) / D0) by (apply (Rmult_eq_reg_l D0); [|lra]; replace (D0 * (- (gc + ge) / D0)) with (- (gc + ge)) by (field; lra); lra).
            unfold sc, ph. field. split; lra. }
          rewrite Eq. apply Rmult_le_compat_l; [lra|].
          assert (Bg : Rabs (gc + ge - x) <= 0.0000758 * v).
          { replace (gc + ge - x) with ((gc - dVc t * ik) + (ge - dVe t * il)) by (unfold x; ring). eapply Rle_trans; [apply Rabs_triang|]. lra. }
          assert (B : Rabs (psi t * (ph * (gc + ge - x) + (ph - 1) * x)) <= top * (1 * (0.0000758 * v) + 0.00001 * (v * / 100))).
          { apply abs_mult_le; [apply psi_bound|]. eapply Rle_trans; [apply Rabs_triang|].
            apply Rplus_le_compat; apply abs_mult_le; try assumption; [rewrite Rabs_pos_eq; lra|apply Rabs_le; lra]. }
          pose proof (Rle_abs (- (psi t * (ph * (gc + ge - x) + (ph - 1) * x)))) as N. rewrite Rabs_Ropp in N.
          assert (0 <= top * v) by (apply Rmult_le_pos; [apply Rmult_le_pos; lra|lra]).
          assert (top * (1 * (0.0000758 * v) + 0.00001 * (v * / 100)) <= v * top * 0.000076) by lra.
          replace (ph * (gc + ge) * psi t) with (x * psi t + psi t * (ph * (gc + ge - x) + (ph - 1) * x)) by ring. lra. }
      assert (Ep : psi tau = psi 0) by (unfold psi; destruct trig_tau as (-> & ->); reflexivity).
      rewrite RP, Ep in X.
      assert (EX : Xi tau - Xi 0 = PI * (A * A) * (ae * ik - ac * il)).
      { unfold Xi. destruct trig_tau as (-> & ->). rewrite Hturn. field. }
      replace (sc * (PI * (A * A) * (ae * ik - ac * il - 2 * (ac + ae) * 0.000076)))
        with (sc * (Xi tau - v * top * 0.000076 * tau) - sc * (Xi 0 - v * top * 0.000076 * 0)); [lra|].
      replace (sc * (Xi tau - v * top * 0.000076 * tau) - sc * (Xi 0 - v * top * 0.000076 * 0)) with (sc * ((Xi tau - Xi 0) - (v * tau) * top * 0.000076)) by ring.
      rewrite EX, v_tau. unfold top. ring.
    Qed.
  End Work.
End Pair.
