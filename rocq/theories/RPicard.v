(** * Existence of solutions of ordinary differential equations (Picard and Lindelöf) *)
From Coq Require Import ZArith List Reals Lra Lia.
From Verif Require Import RClose RPairs.
Local Open Scope R_scope.

Lemma cont_iff f x : continuity_pt f x <->
  forall e, 0 < e -> exists dl, 0 < dl /\ forall y, Rabs (y - x) < dl -> Rabs (f y - f x) < e.
Proof.
  split.
  - intros H e He. destruct (H e He) as (dl & Hdl & HH). exists dl. split; [exact Hdl|]. intros y Hy.
    destruct (Req_dec x y) as [E|E].
    + subst. replace (f y - f y) with 0 by ring. rewrite Rabs_R0. exact He.
    + apply (HH y). split; [split; [exact I|exact E]|exact Hy].
  - intros H e He. destruct (H e He) as (dl & Hdl & HH). exists dl. split; [exact Hdl|].
    intros y (_ & Hy). apply HH, Hy.
Qed.

(** ** Clamping a number to an interval *)
Definition clamp (a b t : R) : R := Rmax a (Rmin b t).
Lemma clamp_in a b t : a <= b -> a <= clamp a b t <= b.
Proof.
  intros H. unfold clamp. split; [apply Rmax_l|]. apply Rmax_lub; [exact H|apply Rmin_l].
Qed.
Lemma clamp_id a b t : a <= t <= b -> clamp a b t = t.
Proof. intros H. unfold clamp. rewrite Rmin_right, Rmax_right; lra. Qed.
Lemma clamp_lip a b s t : Rabs (clamp a b s - clamp a b t) <= Rabs (s - t).
Proof.
  unfold clamp, Rmin. destruct (Rle_dec b s), (Rle_dec b t); unfold Rmax;
  repeat match goal with |- context [Rle_dec ?x ?y] => destruct (Rle_dec x y) end; unfold Rabs;
  repeat match goal with |- context [Rcase_abs ?x] => destruct (Rcase_abs x) end; lra.
Qed.
Lemma clamp_cont a b t : continuity_pt (clamp a b) t.
Proof.
  apply cont_iff. intros e He. exists e. split; [exact He|]. intros y Hy.
  eapply Rle_lt_trans; [apply clamp_lip|exact Hy].
Qed.

Lemma primitive_exists f a b : a <= b -> (forall t, a <= t <= b -> continuity_pt f t) ->
  {F | forall t, a <= t <= b -> derivable_pt_lim F t (f t)}.
Proof.
  intros h C. exists (primitive h (FTC_P1 h C)). intros t Ht. apply RiemannInt_P28, Ht.
Qed.

(** a function with small derivative moves little *)
Lemma moves_little F f a b s t K : a <= s <= b -> a <= t <= b ->
  (forall u, a <= u <= b -> derivable_pt_lim F u (f u) /\ Rabs (f u) <= K) ->
  Rabs (F t - F s) <= K * Rabs (t - s).
Proof.
  intros Hs Ht H.
  assert (K0 : forall x y, a <= x -> x < y -> y <= b -> Rabs (F y - F x) <= K * (y - x)).
  { intros x y Hx Hxy Hy. destruct (MVT_cor2 F f x y Hxy) as (c & E & Hc).
    - intros c Hc. apply H. lra.
    - rewrite E, Rabs_mult, (Rabs_pos_eq (y - x)) by lra. apply Rmult_le_compat_r; [lra|]. apply H. lra. }
  destruct (Rtotal_order s t) as [C|[C|C]].
  - rewrite (Rabs_pos_eq (t - s)) by lra. apply K0; lra.
  - subst. replace (F t - F t) with 0 by ring. replace (t - t) with 0 by ring. rewrite Rabs_R0. lra.
  - rewrite (Rabs_minus_sym (F t)), (Rabs_minus_sym t), (Rabs_pos_eq (s - t)) by lra. apply K0; lra.
Qed.

(** ** Three unknowns *)
Inductive C3 := uP | uC | uE.
Definition dist3 (x y : C3 -> R) : R := Rabs (x uP - y uP) + Rabs (x uC - y uC) + Rabs (x uE - y uE).
Lemma dist3_le x y e : (forall i, Rabs (x i - y i) <= e) -> dist3 x y <= 3 * e.
Proof. intros H. unfold dist3. pose proof (H uP). pose proof (H uC). pose proof (H uE). lra. Qed.
Lemma dist3_nonneg x y : 0 <= dist3 x y.
Proof.
  unfold dist3. pose proof (Rabs_pos (x uP - y uP)). pose proof (Rabs_pos (x uC - y uC)). pose proof (Rabs_pos (x uE - y uE)). lra.
Qed.
Definition smooth (X : R -> C3 -> R) : Prop := forall t i, continuity_pt (fun s => X s i) t.

Section Picard.
  Variables (G : R -> (C3 -> R) -> C3 -> R) (t0 h L M : R) (x0 : C3 -> R).
  Hypothesis Hh : 0 < h.
  Hypothesis HL : 0 <= L.
  Hypothesis HLh : 3 * (L * h) <= / 2.
  Hypothesis HG : forall t x y i, Rabs (G t x i - G t y i) <= L * dist3 x y.
  Hypothesis HM : forall t x i, Rabs (G t x i) <= M.
  Hypothesis HC : forall X, smooth X -> smooth (fun t => G t (X t)).

  Let a := t0 - h.
  Let b := t0 + h.
  Lemma a_le_b : a <= b. Proof. unfold a, b. lra. Qed.
  Lemma M_nonneg : 0 <= M.
  Proof. pose proof (HM t0 x0 uP). pose proof (Rabs_pos (G t0 x0 uP)). lra. Qed.
  Lemma in_h t : a <= t <= b -> Rabs (t - t0) <= h.
  Proof. unfold a, b. intros H. apply Rabs_le. lra. Qed.

  (** the antiderivative of [G] along a curve *)
  Definition prim (X : R -> C3 -> R) (HX : smooth X) (i : C3) : R -> R :=
    proj1_sig (primitive_exists (fun t => G t (X t) i) a b a_le_b (fun t _ => HC X HX t i)).
  Lemma prim_deriv X HX i t : a <= t <= b -> derivable_pt_lim (prim X HX i) t (G t (X t) i).
  Proof.
    intros Ht. unfold prim.
    exact (proj2_sig (primitive_exists (fun t => G t (X t) i) a b a_le_b (fun t _ => HC X HX t i)) t Ht).
  Qed.
  Definition next (X : R -> C3 -> R) (HX : smooth X) (t : R) (i : C3) : R :=
    x0 i + (prim X HX i (clamp a b t) - prim X HX i t0).
  Lemma next_smooth X HX : smooth (next X HX).
  Proof.
    intros t i. unfold next.
    apply (continuity_pt_plus (fun _ => x0 i) (fun s => prim X HX i (clamp a b s) - prim X HX i t0)).
    - apply continuity_pt_const. intros u v. reflexivity.
    - apply (continuity_pt_minus (fun s => prim X HX i (clamp a b s)) (fun _ => prim X HX i t0)).
      + apply (continuity_pt_comp (clamp a b) (prim X HX i)); [apply clamp_cont|].
        eapply deriv_cont, prim_deriv, clamp_in, a_le_b.
      + apply continuity_pt_const. intros u v. reflexivity.
  Qed.
  Lemma t0_in : a <= t0 <= b. Proof. unfold a, b. lra. Qed.

  (** two curves that are [e] apart have successors half as far apart *)
  Lemma next_close X HX Y HY e : 0 <= e -> (forall t i, a <= t <= b -> Rabs (X t i - Y t i) <= e) ->
    forall t i, Rabs (next X HX t i - next Y HY t i) <= e / 2.
  Proof.
    intros He H t i. unfold next.
    set (F u := prim X HX i u - prim Y HY i u). set (u := clamp a b t).
    replace (x0 i + (prim X HX i u - prim X HX i t0) - (x0 i + (prim Y HY i u - prim Y HY i t0))) with (F u - F t0)
      by (unfold F; ring).
    assert (Hu : a <= u <= b) by apply clamp_in, a_le_b.
    apply Rle_trans with (L * (3 * e) * Rabs (u - t0)).
    - apply (moves_little F (fun s => G s (X s) i - G s (Y s) i) a b t0 u); [exact t0_in|exact Hu|].
      intros s Hs. split.
      + exact (derivable_pt_lim_minus _ _ s _ _ (prim_deriv X HX i s Hs) (prim_deriv Y HY i s Hs)).
      + eapply Rle_trans; [apply HG|]. apply Rmult_le_compat_l; [exact HL|]. apply dist3_le. intros j. apply H, Hs.
    - apply Rle_trans with (L * (3 * e) * h).
      + apply Rmult_le_compat_l; [apply Rmult_le_pos; [exact HL|lra]|]. apply in_h, Hu.
      + replace (L * (3 * e) * h) with (3 * (L * h) * e) by ring. replace (e / 2) with (/ 2 * e) by field.
        apply Rmult_le_compat_r; assumption.
  Qed.

  Lemma start_smooth : smooth (fun _ => x0).
  Proof. intros t i. apply continuity_pt_const. intros u v. reflexivity. Qed.
  Fixpoint iter (n : nat) : {X | smooth X} :=
    match n with
    | O => exist _ (fun _ => x0) start_smooth
    | S n => exist _ (next (proj1_sig (iter n)) (proj2_sig (iter n))) (next_smooth _ _)
    end.
  Let X n := proj1_sig (iter n).
  Lemma X_next n : X (S n) = next (X n) (proj2_sig (iter n)).
  Proof. reflexivity. Qed.
  Let e n := M * h * (/ 2) ^ n.
  Lemma e_nonneg n : 0 <= e n.
  Proof.
    unfold e. apply Rmult_le_pos; [apply Rmult_le_pos; [apply M_nonneg|lra]|]. apply pow_le. lra.
  Qed.
  Lemma step n : forall t i, Rabs (X (S n) t i - X n t i) <= e n.
  Proof.
    induction n as [|n IH]; intros t i.
    - rewrite X_next. unfold next. set (P := prim (X 0) (proj2_sig (iter 0)) i).
      replace (x0 i + (P (clamp a b t) - P t0) - X 0 t i) with (P (clamp a b t) - P t0) by (unfold X; cbn; ring).
      assert (Hu : a <= clamp a b t <= b) by apply clamp_in, a_le_b.
      unfold e. cbn [pow]. rewrite Rmult_1_r.
      apply Rle_trans with (M * Rabs (clamp a b t - t0)).
      + apply (moves_little P (fun s => G s (X 0 s) i) a b t0 (clamp a b t)); [exact t0_in|exact Hu|].
        intros s Hs. split; [apply prim_deriv, Hs|apply HM].
      + apply Rmult_le_compat_l; [apply M_nonneg|apply in_h, Hu].
    - replace (e (S n)) with (e n / 2) by (unfold e; cbn [pow]; field).
      apply (next_close (X (S n)) (proj2_sig (iter (S n))) (X n) (proj2_sig (iter n)) (e n)); [apply e_nonneg|]. intros s j _. exact (IH s j).
  Qed.
  Lemma steps n k : forall t i, Rabs (X (n + k) t i - X n t i) <= 2 * e n - 2 * e (n + k).
  Proof.
    induction k as [|k IH]; intros t i.
    - rewrite Nat.add_0_r. replace (X n t i - X n t i) with 0 by ring. rewrite Rabs_R0. lra.
    - rewrite Nat.add_succ_r. replace (X (S (n + k)) t i - X n t i)
        with ((X (S (n + k)) t i - X (n + k) t i) + (X (n + k) t i - X n t i)) by ring.
      eapply Rle_trans; [apply Rabs_triang|]. pose proof (step (n + k) t i) as H1. pose proof (IH t i) as H2.
      assert (e (S (n + k)) = e (n + k) / 2) by (unfold e; cbn [pow]; field). lra.
  Qed.
  Lemma steps_le n m t i : (n <= m)%nat -> Rabs (X m t i - X n t i) <= 2 * e n.
  Proof.
    intros H. replace m with (n + (m - n))%nat by lia. pose proof (steps n (m - n) t i). pose proof (e_nonneg (n + (m - n))). lra.
  Qed.
  Lemma e_small d : 0 < d -> exists N, forall n, (N <= n)%nat -> 2 * e n < d.
  Proof.
    intros Hd. pose proof M_nonneg as M0.
    assert (Hq : 0 < d / (2 * (M * h) + 1)).
    { apply Rdiv_lt_0_compat; [exact Hd|]. assert (0 <= M * h) by (apply Rmult_le_pos; lra). lra. }
    destruct (pow_lt_1_zero (/ 2) ltac:(rewrite Rabs_pos_eq; lra) _ Hq) as (N & HN).
    exists N. intros n Hn. specialize (HN n Hn). rewrite Rabs_pos_eq in HN by (apply pow_le; lra).
    unfold e. assert (MH : 0 <= M * h) by (apply Rmult_le_pos; lra).
    apply Rmult_lt_compat_r with (r := 2 * (M * h) + 1) in HN; [|lra].
    replace (d / (2 * (M * h) + 1) * (2 * (M * h) + 1)) with d in HN by (field; lra).
    assert (0 < (/ 2) ^ n) by (apply pow_lt; lra). lra.
  Qed.
  Lemma X_cauchy t i : Cauchy_crit (fun n => X n t i).
  Proof.
    intros d Hd. destruct (e_small (d / 2) ltac:(lra)) as (N & HN). exists N. intros n m Hn Hm.
    unfold R_dist. replace (X n t i - X m t i) with ((X n t i - X N t i) - (X m t i - X N t i)) by ring.
    eapply Rle_lt_trans; [apply Rabs_triang|]. rewrite Rabs_Ropp.
    pose proof (steps_le N n t i Hn). pose proof (steps_le N m t i Hm). pose proof (HN N (le_n N)). lra.
  Qed.
  Definition sol (t : R) (i : C3) : R := proj1_sig (R_complete _ (X_cauchy t i)).
  Lemma sol_limit t i : Un_cv (fun n => X n t i) (sol t i).
  Proof. exact (proj2_sig (R_complete _ (X_cauchy t i))). Qed.
  Lemma sol_close n t i : Rabs (sol t i - X n t i) <= 2 * e n.
  Proof.
    apply Rnot_lt_le. intros H. set (d := Rabs (sol t i - X n t i) - 2 * e n) in *.
    destruct (sol_limit t i d ltac:(unfold d; lra)) as (N & HN).
    specialize (HN (N + n)%nat ltac:(lia)). unfold R_dist in HN. pose proof (steps_le n (N + n) t i ltac:(lia)) as HS.
    assert (Rabs (sol t i - X n t i) <= Rabs (X (N + n) t i - sol t i) + Rabs (X (N + n) t i - X n t i)).
    { replace (sol t i - X n t i) with (- (X (N + n) t i - sol t i) + (X (N + n) t i - X n t i)) by ring.
      eapply Rle_trans; [apply Rabs_triang|]. rewrite Rabs_Ropp. lra. }
    unfold d in HN. lra.
  Qed.
  Lemma sol_smooth : smooth sol.
  Proof.
    intros t i. apply (CVU_continuity (fun n s => X n s i) (fun s => sol s i) t (mkposreal 1 Rlt_0_1)).
    - intros d Hd. destruct (e_small d Hd) as (N & HN). exists N. intros n y Hn _.
      eapply Rle_lt_trans; [apply sol_close|]. apply HN, Hn.
    - intros n y _. exact (proj2_sig (iter n) y i).
    - unfold Boule. replace (t - t) with 0 by ring. rewrite Rabs_R0. exact Rlt_0_1.
  Qed.
  (** the limit is its own successor *)
  Lemma sol_fixed t i : sol t i = next sol sol_smooth t i.
  Proof.
    apply Rminus_diag_uniq. apply cond_eq. intros d Hd. rewrite Rminus_0_r.
    destruct (e_small (d / 2) ltac:(lra)) as (N & HN). pose proof (HN N (le_n N)) as H0.
    pose proof (HN (S N) ltac:(lia)) as H1.
    replace (sol t i - next sol sol_smooth t i)
      with ((sol t i - X (S N) t i) + (X (S N) t i - next sol sol_smooth t i)) by ring.
    eapply Rle_lt_trans; [apply Rabs_triang|]. pose proof (sol_close (S N) t i) as H2.
    assert (H3 : Rabs (X (S N) t i - next sol sol_smooth t i) <= 2 * e N / 2).
    { rewrite X_next. apply next_close; [pose proof (e_nonneg N); lra|].
      intros s j _. rewrite Rabs_minus_sym. apply sol_close. }
    lra.
  Qed.
  Lemma sol_start i : sol t0 i = x0 i.
  Proof. rewrite sol_fixed. unfold next. rewrite clamp_id by exact t0_in. ring. Qed.
  Lemma sol_deriv t i : a < t < b -> derivable_pt_lim (fun s => sol s i) t (G t (sol t) i).
  Proof.
    intros Ht. pose proof (prim_deriv sol sol_smooth i t ltac:(lra)) as H.
    intros d Hd. destruct (H d Hd) as (dl & Hdl).
    assert (Hm : 0 < Rmin dl (Rmin (t - a) (b - t))).
    { apply Rmin_pos; [apply cond_pos|]. apply Rmin_pos; lra. }
    exists (mkposreal _ Hm). intros k Hk Hk'. cbn in Hk'.
    assert (K1 : Rabs k < dl) by (eapply Rlt_le_trans; [exact Hk'|apply Rmin_l]).
    assert (K2 : Rabs k < t - a) by (eapply Rlt_le_trans; [exact Hk'|eapply Rle_trans; [apply Rmin_r|apply Rmin_l]]).
    assert (K3 : Rabs k < b - t) by (eapply Rlt_le_trans; [exact Hk'|eapply Rle_trans; [apply Rmin_r|apply Rmin_r]]).
    apply Rabs_def2 in K2, K3.
    rewrite (sol_fixed (t + k) i), (sol_fixed t i). unfold next. rewrite !clamp_id by lra.
    match goal with |- Rabs (?u / k - _) < _ => replace u with (prim sol sol_smooth i (t + k) - prim sol sol_smooth i t) by ring end.
    exact (Hdl k Hk K1).
  Qed.
  Lemma sol_near t i : Rabs (sol t i - x0 i) <= 2 * (M * h).
  Proof.
    pose proof (sol_close 0 t i) as H. unfold X, e in H. cbn in H. lra.
  Qed.
End Picard.

Lemma picard G t0 h L M x0 : 0 < h -> 0 <= L -> 3 * (L * h) <= / 2 ->
  (forall t x y i, Rabs (G t x i - G t y i) <= L * dist3 x y) ->
  (forall t x i, Rabs (G t x i) <= M) ->
  (forall X, smooth X -> smooth (fun t => G t (X t))) ->
  exists X, (forall i, X t0 i = x0 i) /\
    (forall t i, Rabs (X t i - x0 i) <= 2 * (M * h)) /\
    forall t i, t0 - h < t < t0 + h -> derivable_pt_lim (fun s => X s i) t (G t (X t) i).
Proof.
  intros Hh HL HLh HG HM HC. exists (sol G t0 h L M x0 Hh HL HLh HG HM HC).
  split; [intros i; apply sol_start|]. split; [intros t i; apply sol_near|]. intros t i Ht. apply sol_deriv, Ht.
Qed.
