(** * Accuracy of the averages of a cycle in f64 *)
From Coq Require Import ZArith NArith List Reals Bool Lra Lia.
From Flocq Require Import Core BinarySingleNaN.
From Verif Require Import Num ModelTypes ModelWs ModelHx ModelStateEq ModelEngine ModelApi B64 RNum SpecF64 SpecSeries SpecRound F64Base F64Err.
Import ListNotations.
Local Open Scope R_scope.

(** total length of the steps *)
Fixpoint spread (pts : list (R * R)) : R :=
  match pts with
  | (x0, _) :: (((x1, _) :: _) as pts') => Rabs (x1 - x0) + spread pts'
  | _ => 0
  end.
Lemma spread_nonneg pts : 0 <= spread pts.
Proof.
  induction pts as [|(x0, y0) [|(x1, y1) pts] IH]; try (simpl; lra).
  change (0 <= Rabs (x1 - x0) + spread ((x1, y1) :: pts)). pose proof (Rabs_pos (x1 - x0)). lra.
Qed.
Lemma trapezoid_magnitude pts : Rabs (trapezoid pts) <= magnitude pts.
Proof.
  induction pts as [|(x0, y0) [|(x1, y1) pts] IH]; try (simpl; rewrite Rabs_R0; lra).
  change (Rabs ((y0 + y1) / 2 * (x1 - x0) + trapezoid ((x1, y1) :: pts)) <=
          Rabs (y0 + y1) / 2 * Rabs (x1 - x0) + magnitude ((x1, y1) :: pts)).
  eapply Rle_trans; [apply Rabs_triang|]. apply Rplus_le_compat; [|exact IH].
  unfold Rdiv. rewrite !Rabs_mult, (Rabs_right (/ 2)) by lra. lra.
Qed.
(** ordered times and non-negative samples: nothing cancels *)
Lemma magnitude_trapezoid (x y : list R) : nondecreasing x -> Forall (fun a => 0 <= a) y ->
  magnitude (combine x y) = trapezoid (combine x y).
Proof.
  revert y. induction x as [|x0 x IH]; intros [|y0 y]; try reflexivity.
  destruct x as [|x1 x]; [reflexivity|]. destruct y as [|y1 y]; [reflexivity|].
  intros (L & N) H. inversion H as [|? ? H0 H']; subst. inversion H' as [|? ? H1 _]; subst.
  specialize (IH (y1 :: y) N H').
  change (Rabs (y0 + y1) / 2 * Rabs (x1 - x0) + magnitude (combine (x1 :: x) (y1 :: y)) =
          (y0 + y1) / 2 * (x1 - x0) + trapezoid (combine (x1 :: x) (y1 :: y))).
  rewrite IH, !Rabs_right by lra. reflexivity.
Qed.
Lemma nondecreasing_last (x0 : R) (l : list R) : nondecreasing (x0 :: l) -> x0 <= last l x0.
Proof.
  revert x0. induction l as [|a l IH]; intros x0 H; [simpl; lra|]. destruct H as (L & N).
  specialize (IH a N). destruct l as [|b l]; [simpl; lra|].
  change (last (a :: b :: l) x0) with (last (b :: l) x0).
  assert (E : last (b :: l) x0 = last (b :: l) a) by (clear; revert b; induction l as [|c l IH]; intros b; [reflexivity|exact (IH c)]).
  rewrite E. lra.
Qed.
Lemma last_any {A} (l : list A) (a d d' : A) : last (a :: l) d = last (a :: l) d'.
Proof. revert a. induction l as [|b l IH]; intros a; [reflexivity|exact (IH b)]. Qed.
Lemma spread_le (x0 : R) (l y : list R) : nondecreasing (x0 :: l) -> spread (combine (x0 :: l) y) <= last l x0 - x0.
Proof.
  revert x0 y. induction l as [|x1 l IH]; intros x0 [|y0 y] H; pose proof (nondecreasing_last _ _ H) as L; try (simpl in *; lra).
  destruct y as [|y1 y]; [simpl in *; lra|]. destruct H as (S & N).
  specialize (IH x1 (y1 :: y) N).
  change (Rabs (x1 - x0) + spread (combine (x1 :: l) (y1 :: y)) <= last (x1 :: l) x0 - x0).
  assert (E : last (x1 :: l) x0 = last l x1) by (destruct l as [|b l]; [reflexivity|]; change (last (b :: l) x0 = last (b :: l) x1); apply last_any).
  rewrite E, Rabs_right by lra. lra.
Qed.
Lemma grid_spread (x y : list R) (t : R) : grid_to x t -> spread (combine x y) <= t.
Proof.
  intros (N & (r & E) & (p & E') & T). subst x.
  pose proof (spread_le 0 r y N) as S. rewrite Rminus_0_r in S.
  assert (L : last r 0 = t); [|lra].
  destruct p as [|a p]; cbn [app] in E'; injection E' as E1 E2.
  - subst. simpl. lra.
  - subst. apply last_last.
Qed.

(** ** Samples that are known up to an error *)
Section Samples.
  Variables (g h : R).
  Hypothesis (Hg : 0 <= g) (Hh : 0 <= h).
  Definition near (y' y : R) : Prop := 0 <= y /\ Rabs (y' - y) <= g * y + h.

  Lemma near_trapezoid (x y' y : list R) : Forall2 near y' y ->
    Rabs (trapezoid (combine x y') - trapezoid (combine x y))
      <= g * magnitude (combine x y) + h * spread (combine x y) /\
    magnitude (combine x y') <= (1 + g) * magnitude (combine x y) + h * spread (combine x y).
  Proof.
    intros H. revert x. induction H as [|a' a y' y N H IH]; intros x.
    { destruct x; simpl; rewrite Rminus_0_r, Rabs_R0; lra. }
    destruct x as [|x0 x]; [simpl; rewrite Rminus_0_r, Rabs_R0; lra|].
    destruct x as [|x1 x]; [simpl; rewrite Rminus_0_r, Rabs_R0; lra|].
    destruct H as [|b' b y' y N' H]; [simpl; rewrite Rminus_0_r, Rabs_R0; lra|].
    specialize (IH (x1 :: x)).
    change (combine (x0 :: x1 :: x) (a' :: b' :: y')) with ((x0, a') :: (x1, b') :: combine x y').
    change (combine (x0 :: x1 :: x) (a :: b :: y)) with ((x0, a) :: (x1, b) :: combine x y).
    change (combine (x1 :: x) (b' :: y')) with ((x1, b') :: combine x y') in IH.
    change (combine (x1 :: x) (b :: y)) with ((x1, b) :: combine x y) in IH.
    set (p' := (x1, b') :: combine x y') in *. set (p := (x1, b) :: combine x y) in *.
    change (trapezoid ((x0, a') :: p')) with ((a' + b') / 2 * (x1 - x0) + trapezoid p').
    change (trapezoid ((x0, a) :: p)) with ((a + b) / 2 * (x1 - x0) + trapezoid p).
    change (magnitude ((x0, a') :: p')) with (Rabs (a' + b') / 2 * Rabs (x1 - x0) + magnitude p').
    change (magnitude ((x0, a) :: p)) with (Rabs (a + b) / 2 * Rabs (x1 - x0) + magnitude p).
    change (spread ((x0, a) :: p)) with (Rabs (x1 - x0) + spread p).
    destruct IH as (I1 & I2). destruct N as (P & N), N' as (P' & N').
    set (d := Rabs (x1 - x0)). assert (D : 0 <= d) by apply Rabs_pos.
    assert (Q : Rabs ((a' + b') / 2 - (a + b) / 2) <= g * ((a + b) / 2) + h).
    { replace ((a' + b') / 2 - (a + b) / 2) with (((a' - a) + (b' - b)) * / 2) by field.
      rewrite Rabs_mult, (Rabs_right (/ 2)) by lra. pose proof (Rabs_triang (a' - a) (b' - b)). lra. }
    assert (Q2 : Rabs ((a' + b') / 2 - (a + b) / 2) * d <= (g * ((a + b) / 2) + h) * d).
    { apply Rmult_le_compat_r; assumption. }
    rewrite (Rabs_right (a + b)) by lra. split.
    - replace ((a' + b') / 2 * (x1 - x0) + trapezoid p' - ((a + b) / 2 * (x1 - x0) + trapezoid p))
        with (((a' + b') / 2 - (a + b) / 2) * (x1 - x0) + (trapezoid p' - trapezoid p)) by ring.
      eapply Rle_trans; [apply Rabs_triang|]. rewrite Rabs_mult. fold d. lra.
    - assert (Rabs (a' + b') / 2 <= (a + b) / 2 + Rabs ((a' + b') / 2 - (a + b) / 2)).
      { pose proof (Rabs_triang ((a + b) / 2) ((a' + b') / 2 - (a + b) / 2)) as T.
        replace ((a + b) / 2 + ((a' + b') / 2 - (a + b) / 2)) with ((a' + b') * / 2) in T by field.
        rewrite Rabs_mult, (Rabs_right (/ 2)), (Rabs_right ((a + b) / 2)) in T by lra. unfold Rdiv in *. lra. }
      assert (Rabs (a' + b') / 2 * d <= ((a + b) / 2 + Rabs ((a' + b') / 2 - (a + b) / 2)) * d)
        by (apply Rmult_le_compat_r; assumption).
      lra.
  Qed.
End Samples.

Lemma ret_inj {A} (a b : A) : Ret a = Ret b -> a = b.
Proof. intros H. injection H as H. exact H. Qed.

Section Avg.
  Context (lm : Libm) (nt : bool).
  #[local] Instance aops : NumOps b64 := b64_ops lm nt.

  Lemma average_accurate (x y : list b64) (t : b64) : finite (n_div (integrate x y) t) -> 0 < value t ->
    accurate (n_div (integrate x y) t) x y t.
  Proof.
    intros F T. exact (average_err lm nt x y t F T).
  Qed.
  Theorem pressure_accurate (v : Values b64) (p : Pressure b64) (t : b64) :
    Pressure_from_values v = Ret p -> last_unwrap (vs_time v) = Ret t -> 0 < value t ->
    finite (pr_avg p) -> accurate (pr_avg p) (vs_time v) (vs_P v) t.
  Proof.
    unfold Pressure_from_values, final_time. intros H E T. rewrite E in H. cbn [obind] in H.
    destruct (first_unwrap (vs_P v)); [|discriminate]. destruct (max_by (vs_P v)); [|discriminate].
    destruct (min_by (vs_P v)); [|discriminate]. apply ret_inj in H. subst p.
    intros F. exact (average_accurate _ _ _ F T).
  Qed.
  Theorem regen_heat_accurate (v : Values b64) (Tk Th : b64) (res : ThermalResistance b64) (h : HeatFlows b64) (t : b64) :
    HeatFlows_from_values v Tk Th res = Ret h -> last_unwrap (vs_time v) = Ret t -> 0 < value t ->
    finite (hf_regen h) -> accurate (hf_regen h) (vs_time v) (vs_Q_dot_r v) t.
  Proof.
    unfold HeatFlows_from_values, final_time. intros H E T. rewrite E in H. cbn [obind] in H. apply ret_inj in H. subst h.
    intros F. exact (average_accurate _ _ _ F T).
  Qed.

  (** ** Mass flows *)
  Definition half_sum (a b : b64) : b64 := n_mul nhalf (n_abs (n_add a b)).
  Lemma half_sum_near (a b : b64) : finite (half_sum a b) ->
    near (growth 2) tiny (value (half_sum a b)) (Rabs (value a + value b) / 2).
  Proof.
    intros F. destruct (mult_finite _ _ F) as (_ & Fa & V).
    assert (Fs : finite (Bplus mode_NE a b)) by (unfold finite in *; cbn [n_abs n_add aops b64_ops] in Fa; rewrite is_finite_Babs in Fa; exact Fa).
    destruct (plus_finite _ _ Fs) as (_ & _ & Vs). destruct (rounded_plus_ex a b) as (e & He & Re). rewrite Re in Vs.
    unfold half_sum, value in *. cbn [n_mul n_abs n_add aops b64_ops] in *. rewrite V.
    change (@nhalf b64 aops) with (b64_lit 5 (-1)). rewrite half_value, B2R_Babs, Vs.
    set (s := B2R a + B2R b). destruct (rounded_ex (/ 2 * Rabs (s * (1 + e)))) as (d & h & Hd & Hh & Rd). rewrite Rd.
    pose proof (Rabs_pos s) as P. split; [unfold Rdiv; apply Rmult_le_pos; lra|].
    assert (u <= 1 / 2).
    { unfold unit_roundoff. unfold Rdiv. rewrite Rmult_1_l. apply Rinv_le_contravar; [lra|].
      pose proof (pow_R1_Rle 2 52 ltac:(lra)). change (2 ^ 53) with (2 * 2 ^ 52). lra. }
    assert (P1 : 0 <= 1 + e) by (pose proof (Rle_abs (- e)) as Q; rewrite Rabs_Ropp in Q; lra).
    rewrite Rabs_mult, (Rabs_right (1 + e)) by lra.
    set (y := Rabs s / 2).
    assert (A0 : Rabs (y - y) <= growth 0 * Rabs y).
    { unfold growth. simpl. rewrite !Rminus_eq_0, Rabs_R0. lra. }
    pose proof (one_more _ _ _ _ (one_more _ _ _ _ A0 He) Hd) as K.
    assert (Y : 0 <= y) by (unfold y; lra). rewrite (Rabs_right y) in K by lra.
    replace (/ 2 * (Rabs s * (1 + e)) * (1 + d) + h - y) with ((y * (1 + e) * (1 + d) - y) + h) by (unfold y; field).
    eapply Rle_trans; [apply Rabs_triang|]. lra.
  Qed.
  Lemma panels_finite (pts : list (b64 * b64)) (s : b64) :
    finite (fold_left (Bplus mode_NE) (panels_of lm nt pts) s) -> Forall (fun p => finite p) (panels_of lm nt pts).
  Proof.
    revert s. generalize (panels_of lm nt pts) as l. induction l as [|a l IH]; intros s H; [constructor|].
    constructor; [|exact (IH _ H)]. exact (proj1 (proj2 (plus_finite _ _ (sum_finite l _ H)))).
  Qed.
  (** finite panels come from finite samples *)
  Lemma samples_finite (x y : list b64) : finite (integrate x y) -> (2 <= length (combine x y))%nat ->
    Forall (fun a => finite a) (firstn (length x) y).
  Proof.
    change (finite (@integrate b64 (fops lm nt) x y) -> (2 <= length (combine x y))%nat -> Forall (fun a => finite a) (firstn (length x) y)).
    rewrite integrate_panels. intros F. apply panels_finite in F. revert y F.
    induction x as [|x0 x IH]; intros [|y0 y] F L; try (simpl in L; lia).
    destruct x as [|x1 x]; [simpl in L; lia|]. destruct y as [|y1 y]; [simpl in L; lia|].
    change (panels_of lm nt (combine (x0 :: x1 :: x) (y0 :: y1 :: y)))
      with (panel lm nt x0 x1 y0 y1 :: panels_of lm nt (combine (x1 :: x) (y1 :: y))) in F.
    inversion F as [|? ? Fp F']; subst.
    destruct (mult_finite _ _ Fp) as (F1 & _ & _). destruct (mult_finite _ _ F1) as (F2 & _ & _).
    destruct (plus_finite _ _ F2) as (Fy1 & Fy0 & _).
    change (firstn (length (x0 :: x1 :: x)) (y0 :: y1 :: y)) with (y0 :: firstn (length (x1 :: x)) (y1 :: y)).
    constructor; [exact Fy0|].
    destruct x as [|x2 x]; [|destruct y as [|y2 y]].
    - simpl. constructor; [exact Fy1|constructor].
    - simpl. constructor; [exact Fy1|constructor].
    - apply IH; [exact F'|simpl; lia].
  Qed.

  Lemma combine_firstn {A B} (x : list A) (y : list B) : combine x y = combine x (firstn (length x) y).
  Proof. revert y. induction x as [|a x IH]; intros [|b y]; try reflexivity. cbn [combine length firstn]. rewrite <- IH. reflexivity. Qed.
  Lemma half_sums_near (n : nat) (l r : list b64) :
    Forall (fun a => finite a) (firstn n (map (fun '(a, b) => half_sum a b) (combine l r))) ->
    Forall2 (near (growth 2) tiny) (firstn n (map value (map (fun '(a, b) => half_sum a b) (combine l r))))
      (firstn n (interface_mean (map value l) (map value r))).
  Proof.
    unfold interface_mean. revert l r. induction n as [|n IH]; intros l r; [constructor|].
    destruct l as [|a l]; [constructor|]. destruct r as [|b r]; [constructor|].
    cbn [combine map firstn]. intros F. inversion F as [|? ? Fa F']; subst.
    constructor; [exact (half_sum_near a b Fa)|]. apply IH, F'.
  Qed.
  Lemma mean_nonneg (l r : list R) : Forall (fun a => 0 <= a) (interface_mean l r).
  Proof.
    unfold interface_mean. apply Forall_forall. intros z H. apply in_map_iff in H. destruct H as ((a & b) & <- & _).
    pose proof (Rabs_pos (a + b)). lra.
  Qed.
  Lemma trapezoid_short pts : (length pts < 2)%nat -> trapezoid pts = 0 /\ magnitude pts = 0 /\ panels pts = 0%nat.
  Proof. destruct pts as [|(x0, y0) [|p pts]]; simpl; intros H; try lia; repeat split; reflexivity. Qed.
  Lemma underflow_pos n t : 0 < t -> 0 < underflow n t.
  Proof.
    intros T. unfold underflow. pose proof tiny_pos. apply Rmult_lt_0_compat; [|assumption].
    assert (0 <= 2 * INR n * (1 + u) ^ (n + 1) / t); [|lra]. unfold Rdiv.
    repeat apply Rmult_le_pos; try lra; [apply pos_INR|pose proof (one_u_pow (n + 1)); lra|left; apply Rinv_0_lt_compat, T].
  Qed.

  Theorem flow_accurate (x l r : list b64) (t : b64) :
    let m := map (fun '(a, b) => n_mul nhalf (n_abs (n_add a b))) (combine l r) in
    finite (n_div (integrate x m) t) -> grid_to (map value x) (value t) ->
    relatively_accurate 2 (panels (points x m)) (value (n_div (integrate x m) t)) (value t)
      (average (map value x) (interface_mean (map value l) (map value r)) (value t)).
  Proof.
    intros m F G. assert (T : 0 < value t) by (destruct G as (_ & _ & _ & T); exact T).
    pose proof (average_accurate x m t F T) as K. unfold accurate in K. cbv zeta in K.
    set (n := panels (points x m)) in *. set (got := value (n_div (integrate x m) t)) in *.
    set (y := interface_mean (map value l) (map value r)) in *.
    unfold relatively_accurate, average in *. change (combine (map value x) (map value m)) with (points x m) in K.
    assert (EM : magnitude (combine (map value x) y) = trapezoid (combine (map value x) y)).
    { apply magnitude_trapezoid; [exact (proj1 G)|apply mean_nonneg]. }
    assert (Len : length (combine (map value x) y) = length (points x m)).
    { unfold points, y, m, interface_mean. rewrite !combine_length, !map_length, !combine_length, !map_length. reflexivity. }
    pose proof (Rinv_0_lt_compat _ T) as IT. pose proof tiny_pos as TP. pose proof u_pos as U.
    pose proof (one_u_pow (n + 5)) as P5.
    destruct (Nat.lt_ge_cases (length (points x m)) 2) as [L|L].
    - destruct (trapezoid_short _ L) as (Z & M & _). rewrite Z, M in K.
      rewrite <- Len in L. destruct (trapezoid_short _ L) as (Z' & _ & _). rewrite Z'.
      unfold Rdiv in *. rewrite Rmult_0_l, Rmult_0_r in *. assert (0 <= (1 + u) ^ (n + 5) * tiny) by (apply Rmult_le_pos; lra). lra.
    - assert (Fi : finite (integrate x m)).
      { destruct (div_finite _ _ F) as (Fi & _); [unfold value in T; lra|exact Fi]. }
      assert (Fs : Forall (fun a => finite a) (firstn (length x) m)).
      { apply samples_finite; [exact Fi|]. unfold points in L. rewrite combine_length, !map_length in L. rewrite combine_length. exact L. }
      pose proof (half_sums_near _ l r Fs) as Nr.
      change (map (fun '(a, b) => half_sum a b) (combine l r)) with m in Nr. fold y in Nr.
      assert (G2 : 0 <= growth 2) by apply growth_nonneg.
      destruct (near_trapezoid (growth 2) tiny (map value x) _ _ Nr) as (N1 & N2).
      rewrite <- (map_length value x) in N1, N2. rewrite <- !combine_firstn in N1, N2.
      change (combine (map value x) (map value m)) with (points x m) in *.
      pose proof (grid_spread (map value x) y (value t) G) as S.
      pose proof (spread_nonneg (combine (map value x) y)) as S0.
      rewrite EM in *. set (E := trapezoid (combine (map value x) y)) in *. set (E' := trapezoid (points x m)) in *.
      set (A' := magnitude (points x m)) in *. set (X := spread (combine (map value x) y)) in *. set (t' := value t) in *.
      assert (XT : tiny * X * / t' <= tiny).
      { apply Rmult_le_reg_r with t'; [lra|]. rewrite Rmult_assoc, Rinv_l, Rmult_1_r by lra. apply Rmult_le_compat_l; lra. }
      replace (got - E / t') with ((got - E' / t') + (E' - E) * / t') by (unfold Rdiv; ring).
      eapply Rle_trans; [apply Rabs_triang|]. rewrite (Rabs_mult (E' - E)), (Rabs_right (/ t')) by lra.
      assert (M1 : Rabs (E' - E) * / t' <= (growth 2 * E + tiny * X) * / t') by (apply Rmult_le_compat_r; lra).
      assert (M2 : growth (n + 5) * (A' / t') <= growth (n + 5) * (((1 + growth 2) * E + tiny * X) * / t')).
      { apply Rmult_le_compat_l; [apply growth_nonneg|]. apply Rmult_le_compat_r; lra. }
      assert (GG : growth (n + 5 + 2) = growth (n + 5) * (1 + growth 2) + growth 2).
      { unfold growth. rewrite pow_add. ring. }
      rewrite GG.
      assert (M3 : (1 + growth (n + 5)) * (tiny * X * / t') <= (1 + growth (n + 5)) * tiny).
      { apply Rmult_le_compat_l; [pose proof (growth_nonneg (n + 5)); lra|exact XT]. }
      replace ((1 + u) ^ (n + 5)) with (1 + growth (n + 5)) by (unfold growth; ring).
      set (g5 := growth (n + 5)) in *. set (g2 := growth 2) in *.
      unfold Rdiv in *. lra.
  Qed.

  Theorem mass_flows_accurate (v : Values b64) (mf : MassFlows b64) (t : b64) :
    MassFlows_from_values v = Ret mf -> last_unwrap (vs_time v) = Ret t ->
    grid_to (map value (vs_time v)) (value t) ->
    finite (mf_chx mf) -> finite (mf_regen mf) -> finite (mf_hhx mf) ->
    let V l := map value (l v) in
    let exact l r := average (V (@vs_time b64)) (interface_mean (V l) (V r)) (value t) in
    let n l r := panels (combine (vs_time v) (combine (l v) (r v))) in
    relatively_accurate 2 (n (@vs_m_dot_ck b64) (@vs_m_dot_kr b64)) (value (mf_chx mf)) (value t) (exact (@vs_m_dot_ck b64) (@vs_m_dot_kr b64)) /\
    relatively_accurate 2 (n (@vs_m_dot_kr b64) (@vs_m_dot_rl b64)) (value (mf_regen mf)) (value t) (exact (@vs_m_dot_kr b64) (@vs_m_dot_rl b64)) /\
    relatively_accurate 2 (n (@vs_m_dot_rl b64) (@vs_m_dot_le b64)) (value (mf_hhx mf)) (value t) (exact (@vs_m_dot_rl b64) (@vs_m_dot_le b64)).
  Proof.
    intros H E G F1 F2 F3 V exact n.
    unfold MassFlows_from_values, m_dot_chx, m_dot_regen, m_dot_hhx, m_dot_avg, final_time in H.
    rewrite E in H. cbn [obind] in H. apply ret_inj in H. subst mf.
    assert (N : forall l r, panels (combine (vs_time v) (combine l r)) =
      panels (points (vs_time v) (map (fun '(a, b) => n_mul nhalf (n_abs (n_add a b))) (combine l r)))).
    { intros l r. unfold panels, points. rewrite !combine_length, !map_length, combine_length. reflexivity. }
    unfold n. rewrite !N. split; [|split].
    - exact (flow_accurate _ _ _ _ F1 G).
    - exact (flow_accurate _ _ _ _ F2 G).
    - exact (flow_accurate _ _ _ _ F3 G).
  Qed.

  (** ** The average pressure against the extremes *)
  Theorem pressure_relative (v : Values b64) (p : Pressure b64) (t : b64) :
    Pressure_from_values v = Ret p -> last_unwrap (vs_time v) = Ret t -> grid_to (map value (vs_time v)) (value t) ->
    Forall (fun a => 0 <= a) (map value (vs_P v)) -> finite (pr_avg p) ->
    let exact := average (map value (vs_time v)) (map value (vs_P v)) (value t) in
    let n := panels (combine (vs_time v) (vs_P v)) in
    relatively_accurate 0 n (value (pr_avg p)) (value t) exact.
  Proof.
    intros H E G P F exact n. assert (T : 0 < value t) by (destruct G as (_ & _ & _ & T); exact T).
    pose proof (pressure_accurate v p t H E T F) as K. unfold accurate in K. cbv zeta in K.
    unfold relatively_accurate. rewrite Nat.add_0_r.
    assert (N : panels (points (vs_time v) (vs_P v)) = n).
    { unfold n, panels, points. rewrite !combine_length, !map_length. reflexivity. }
    rewrite N in K. unfold exact. unfold points in K. rewrite (magnitude_trapezoid _ _ (proj1 G) P) in K.
    change (trapezoid (combine (map value (vs_time v)) (map value (vs_P v))) / value t)
      with (average (map value (vs_time v)) (map value (vs_P v)) (value t)) in K.
    assert (0 <= (1 + u) ^ (n + 5) * tiny).
    { pose proof tiny_pos. pose proof (one_u_pow (n + 5)). apply Rmult_le_pos; lra. }
    lra.
  Qed.
End Avg.
