(** * Averages in f64: signs, extremes, figures and cases *)
From Coq Require Import ZArith NArith List Reals Bool Lra Lia.
From Flocq Require Import Core BinarySingleNaN.
From Verif Require Import Num ModelTypes ModelWs ModelHx ModelStateEq ModelEngine ModelApi B64 RNum Fixture
  SpecF64 SpecSeries SpecRound F64Base F64More F64Case F64Err F64Avg RSeries.
Import ListNotations.
Local Open Scope R_scope.

Lemma rounded_nonneg x : 0 <= x -> 0 <= rounded x.
Proof. intros H. rewrite <- rounded_0. apply rounded_le, H. Qed.
(** a product, sum or quotient of non-negative numbers that did not overflow *)
Lemma mult_nonneg (x y : b64) : 0 <= B2R x * B2R y -> 0 <= B2R (Bmult mode_NE x y).
Proof.
  intros H. destruct (Bool.bool_dec (is_finite (Bmult mode_NE x y)) true) as [F|F].
  - destruct (mult_finite _ _ F) as (_ & _ & V). rewrite V. apply rounded_nonneg, H.
  - destruct (Bmult mode_NE x y); try (now elim F); simpl; lra.
Qed.
Lemma plus_nonneg (x y : b64) : 0 <= B2R x -> 0 <= B2R y -> 0 <= B2R (Bplus mode_NE x y).
Proof.
  intros H H'. destruct (Bool.bool_dec (is_finite (Bplus mode_NE x y)) true) as [F|F].
  - destruct (plus_finite _ _ F) as (_ & _ & V). rewrite V. apply rounded_nonneg. lra.
  - destruct (Bplus mode_NE x y); try (now elim F); simpl; lra.
Qed.
Lemma minus_nonneg (x y : b64) : B2R y <= B2R x -> 0 <= B2R (Bminus mode_NE x y).
Proof.
  intros H. destruct (Bool.bool_dec (is_finite (Bminus mode_NE x y)) true) as [F|F].
  - destruct (minus_finite _ _ F) as (_ & _ & V). rewrite V. apply rounded_nonneg. lra.
  - destruct (Bminus mode_NE x y); try (now elim F); simpl; lra.
Qed.
Lemma div_nonneg (x y : b64) : 0 <= B2R x -> 0 < B2R y -> 0 <= B2R (Bdiv mode_NE x y).
Proof.
  intros H H'. destruct (Bool.bool_dec (is_finite (Bdiv mode_NE x y)) true) as [F|F].
  - destruct (div_finite _ _ F ltac:(lra)) as (_ & V). rewrite V. apply rounded_nonneg.
    apply Rmult_le_pos; [exact H|]. left. apply Rinv_0_lt_compat, H'.
  - destruct (Bdiv mode_NE x y); try (now elim F); simpl; lra.
Qed.

Section Mean.
  Context (lm : Libm) (nt : bool).
  #[local] Instance mops : NumOps b64 := b64_ops lm nt.

  Lemma sum_nonneg (l : list b64) (s : b64) : 0 <= B2R s -> Forall (fun a => 0 <= B2R a) l ->
    0 <= B2R (fold_left (Bplus mode_NE) l s).
  Proof.
    revert s. induction l as [|a l IH]; intros s Hs H; [exact Hs|]. inversion H; subst.
    cbn [fold_left]. apply IH; [apply plus_nonneg; assumption|assumption].
  Qed.
  Lemma integrate_nonneg (x y : list b64) : nondecreasing (map value x) -> Forall (fun a => 0 <= value a) y ->
    0 <= value (integrate x y).
  Proof.
    change (nondecreasing (map value x) -> Forall (fun a => 0 <= value a) y -> 0 <= value (@integrate b64 (fops lm nt) x y)).
    rewrite integrate_panels. intros N Y. apply sum_nonneg.
    { assert (Z : B2SF (b64_lit 0 0) = SpecFloat.S754_zero false) by (vm_compute; reflexivity).
      change (0 <= B2R (b64_lit 0 0)). rewrite <- SF2R_B2SF, Z. simpl. lra. }
    revert y Y. induction x as [|x0 x IH]; intros [|y0 y] Y; try constructor.
    destruct x as [|x1 x]; [constructor|]. destruct y as [|y1 y]; [constructor|].
    destruct N as (L & N). inversion Y as [|? ? Y0 Y']; subst. inversion Y' as [|? ? Y1 _]; subst.
    change (panels_of lm nt (combine (x0 :: x1 :: x) (y0 :: y1 :: y)))
      with (panel lm nt x0 x1 y0 y1 :: panels_of lm nt (combine (x1 :: x) (y1 :: y))).
    constructor; [|exact (IH N _ Y')].
    unfold value in *. apply mult_nonneg. change (B2R (@nhalf b64 (fops lm nt))) with (B2R (b64_lit 5 (-1))). rewrite half_value.
    apply Rmult_le_pos; [|lra]. apply mult_nonneg. apply Rmult_le_pos; [apply plus_nonneg|apply minus_nonneg]; assumption.
  Qed.
  Theorem mass_flows_nonneg_f64 (v : Values b64) (mf : MassFlows b64) (t : b64) :
    MassFlows_from_values v = Ret mf -> last_unwrap (vs_time v) = Ret t ->
    nondecreasing (map value (vs_time v)) -> 0 < value t ->
    0 <= value (mf_chx mf) /\ 0 <= value (mf_regen mf) /\ 0 <= value (mf_hhx mf).
  Proof.
    intros H E N T. unfold MassFlows_from_values, m_dot_chx, m_dot_regen, m_dot_hhx, m_dot_avg, final_time in H.
    rewrite E in H. cbn [obind] in H. apply ret_inj in H. subst mf.
    assert (K : forall l r, 0 <= value (n_div (integrate (vs_time v)
      (map (fun '(a, b) => n_mul nhalf (n_abs (n_add a b))) (combine l r))) t)).
    { intros l r. apply div_nonneg; [|exact T]. apply integrate_nonneg; [exact N|].
      apply Forall_forall. intros z Hz. apply in_map_iff in Hz. destruct Hz as ((a & b) & <- & _).
      apply mult_nonneg. change (B2R (@nhalf b64 mops)) with (B2R (b64_lit 5 (-1))). rewrite half_value.
      apply Rmult_le_pos; [lra|]. cbn [n_abs mops b64_ops]. rewrite B2R_Babs. apply Rabs_pos. }
    split; [apply K|]. split; apply K.
  Qed.

  (** average pressure and extremes *)
  Theorem pressure_between_f64 (v : Values b64) (p : Pressure b64) (t : b64) :
    Pressure_from_values v = Ret p -> last_unwrap (vs_time v) = Ret t -> grid_to (map value (vs_time v)) (value t) ->
    length (vs_time v) = length (vs_P v) ->
    Forall (fun a => finite a /\ 0 <= value a) (vs_P v) -> finite (pr_avg p) ->
    let g := growth (panels (vs_time v) + 5) in
    let d := underflow (panels (vs_time v)) (value t) + (1 + u) ^ (panels (vs_time v) + 5) * tiny in
    (1 - g) * value (pr_min p) - d <= value (pr_avg p) <= (1 + g) * value (pr_max p) + d.
  Proof.
    intros H E G L P F g d.
    assert (PN : Forall (fun a => 0 <= a) (map value (vs_P v))).
    { apply Forall_map. eapply Forall_impl; [|exact P]. intros a (_ & K). exact K. }
    assert (NN : forall x, In x (vs_P v) -> ~ not_a_number x).
    { intros x I Q. rewrite Forall_forall in P. destruct (P x I) as (K & _). unfold finite in K. unfold not_a_number in Q.
      destruct x; discriminate. }
    destruct (pressure_extrema lm nt v p NN H) as ((Imax & Hmax) & (Imin & Hmin) & _).
    pose proof (pressure_relative lm nt v p t H E G PN F) as K. cbv zeta in K. unfold relatively_accurate in K.
    assert (N : panels (combine (vs_time v) (vs_P v)) = panels (vs_time v)).
    { unfold panels. rewrite combine_length, <- L, Nat.min_id. reflexivity. }
    rewrite N, Nat.add_0_r in K. fold g d in K.
    set (e := average (map value (vs_time v)) (map value (vs_P v)) (value t)) in *.
    rewrite Forall_forall in P.
    assert (B : value (pr_min p) <= e <= value (pr_max p)).
    { apply average_bounds; [exact G|rewrite !map_length; exact L|]. intros b Hb. apply in_map_iff in Hb.
      destruct Hb as (x & <- & I). pose proof (Hmax x I) as A. pose proof (Hmin x I) as B.
      apply Bleb_iff in A as (_ & _ & A). apply Bleb_iff in B as (_ & _ & B).
      rewrite (val_finite x (proj1 (P x I))) in A, B.
      rewrite (val_finite _ (proj1 (P _ Imax))) in A. rewrite (val_finite _ (proj1 (P _ Imin))) in B. split; assumption. }
    pose proof (growth_nonneg (panels (vs_time v) + 5)) as G0. fold g in G0.
    pose proof (proj2 (P _ Imin)) as M0. pose proof (Rabs_le_inv _ _ K) as K'.
    assert (G1 : g <= 1 \/ 1 < g) by lra.
    assert (A1 : g * e <= g * value (pr_max p)) by (apply Rmult_le_compat_l; lra).
    split; [|lra].
    destruct G1 as [G1|G1].
    - assert ((1 - g) * value (pr_min p) <= (1 - g) * e) by (apply Rmult_le_compat_l; lra). lra.
    - (* huge number of panels: the bound is not positive *)
      assert (0 <= value (pr_avg p)).
      { unfold Pressure_from_values, final_time in H. rewrite E in H. cbn [obind] in H.
        destruct (first_unwrap (vs_P v)); [|discriminate]. cbn [obind] in H. destruct (max_by (vs_P v)); [|discriminate]. cbn [obind] in H.
        destruct (min_by (vs_P v)); [|discriminate]. cbn [obind] in H. apply ret_inj in H. subst p.
        apply div_nonneg; [|destruct G as (_ & _ & _ & T); exact T]. apply integrate_nonneg; [exact (proj1 G)|].
        apply Forall_forall. intros z I. exact (proj2 (P z I)). }
      assert (0 <= (g - 1) * value (pr_min p)) by (apply Rmult_le_pos; lra).
      assert (0 <= d).
      { unfold d. pose proof (underflow_pos (panels (vs_time v)) (value t)) as Q.
        pose proof (one_u_pow (panels (vs_time v) + 5)). pose proof tiny_pos.
        assert (0 <= (1 + u) ^ (panels (vs_time v) + 5) * tiny) by (apply Rmult_le_pos; lra).
        destruct G as (_ & _ & _ & T). specialize (Q T). lra. }
      lra.
  Qed.
End Mean.

(** ** Figures *)
Lemma u_figure : INR 1007 * u <= 112 / 10 ^ 15.
Proof.
  unfold unit_roundoff. rewrite (pow_IZR 2 53), (pow_IZR 10 15), INR_IZR_INZ.
  assert (0 < IZR (2 ^ Z.of_nat 53)) by (apply IZR_lt; reflexivity).
  assert (0 < IZR (10 ^ Z.of_nat 15)) by (apply IZR_lt; reflexivity).
  apply Rmult_le_reg_r with (IZR (2 ^ Z.of_nat 53)); [assumption|]. rewrite Rmult_assoc, Rinv_l, Rmult_1_r by lra.
  apply Rmult_le_reg_r with (IZR (10 ^ Z.of_nat 15)); [assumption|].
  replace (112 / IZR (10 ^ Z.of_nat 15) * IZR (2 ^ Z.of_nat 53) * IZR (10 ^ Z.of_nat 15)) with (112 * IZR (2 ^ Z.of_nat 53)) by (field; lra).
  rewrite <- !mult_IZR. apply IZR_le. vm_compute. discriminate.
Qed.
Lemma growth_figure n : (n <= 1007)%nat -> growth n <= 12 / 10 ^ 14.
Proof.
  intros H. eapply Rle_trans; [apply (growth_le n 1007 H)|].
  pose proof u_figure as U. assert (T : 112 / 10 ^ 15 <= 1 / 10 ^ 12) by lra.
  eapply Rle_trans; [apply growth_small; lra|].
  set (k := INR 1007 * u) in *. assert (0 <= k) by (apply Rmult_le_pos; [apply pos_INR|left; apply u_pos]).
  assert (k * (1 + k) <= 112 / 10 ^ 15 * (1 + 1 / 10 ^ 12)) by (apply Rmult_le_compat; lra). lra.
Qed.
Lemma tiny_figure : tiny <= / 10 ^ 300 * / 10 ^ 10.
Proof.
  rewrite <- Rinv_mult, <- pow_add. unfold tiny. apply Rinv_le_contravar; [apply pow_lt; lra|].
  rewrite !pow_IZR. apply IZR_le. apply Z.leb_le. vm_compute. reflexivity.
Qed.
Theorem relative_figures (k n : nat) (got t e : R) : (k <= 2)%nat -> (n <= 1000)%nat -> / 10 ^ 6 <= t -> 0 <= e ->
  relatively_accurate k n got t e -> Rabs (got - e) <= 12 / 10 ^ 14 * e + / 10 ^ 300.
Proof.
  intros K N T E H. unfold relatively_accurate in H.
  assert (G : growth (n + 5 + k) <= 12 / 10 ^ 14) by (apply growth_figure; lia).
  assert (G1 : growth (n + 1) <= 12 / 10 ^ 14) by (apply growth_figure; lia).
  assert (G5 : growth (n + 5) <= 12 / 10 ^ 14) by (apply growth_figure; lia).
  assert (M : growth (n + 5 + k) * e <= 12 / 10 ^ 14 * e) by (apply Rmult_le_compat_r; lra).
  assert (B : underflow n t + (1 + u) ^ (n + 5) * tiny <= / 10 ^ 300); [|lra].
  unfold underflow. pose proof tiny_pos as TP. pose proof tiny_figure as TF.
  assert (P6 : 0 < / 10 ^ 6) by (apply Rinv_0_lt_compat, pow_lt; lra).
  assert (IT : / t <= 10 ^ 6).
  { rewrite <- (Rinv_inv (10 ^ 6)). apply Rinv_le_contravar; assumption. }
  assert (IT0 : 0 < / t) by (apply Rinv_0_lt_compat; lra).
  replace ((1 + u) ^ (n + 5)) with (1 + growth (n + 5)) by (unfold growth; ring).
  replace ((1 + u) ^ (n + 1)) with (1 + growth (n + 1)) by (unfold growth; ring).
  assert (I : 0 <= INR n <= 1000).
  { split; [apply pos_INR|]. replace 1000 with (INR 1000) by (rewrite INR_IZR_INZ; reflexivity). apply le_INR, N. }
  pose proof (growth_nonneg (n + 1)). pose proof (growth_nonneg (n + 5)).
  assert (A : 2 * INR n * (1 + growth (n + 1)) <= 2 * 1000 * 2) by (apply Rmult_le_compat; lra).
  assert (A2 : 2 * INR n * (1 + growth (n + 1)) * / t <= 2 * 1000 * 2 * 10 ^ 6).
  { apply Rmult_le_compat; try lra. apply Rmult_le_pos; lra. }
  unfold Rdiv.
  assert (A3 : (2 * INR n * (1 + growth (n + 1)) * / t + 1 + (1 + growth (n + 5))) * tiny <= 10 ^ 10 * tiny).
  { apply Rmult_le_compat_r; lra. }
  assert (A4 : 10 ^ 10 * tiny <= / 10 ^ 300).
  { apply Rle_trans with (10 ^ 10 * (/ 10 ^ 300 * / 10 ^ 10)); [apply Rmult_le_compat_l; lra|].
    set (q := / 10 ^ 300). right. field. }
  lra.
Qed.

(** ** Cases *)
Local Open Scope bool_scope.
Fixpoint sorted (l : list b64) : bool :=
  match l with a :: ((b :: _) as l') => Bleb a b && sorted l' | _ => true end.
Lemma sorted_sound (l : list b64) : forallb (@is_finite 53 1024) l = true -> sorted l = true -> nondecreasing (map value l).
Proof.
  induction l as [|a [|b l] IH]; intros F S; try exact I.
  apply andb_true_iff in F as (Fa & F). apply andb_true_iff in S as (L & S).
  split; [|exact (IH F S)]. apply Bleb_iff in L as (_ & _ & L).
  rewrite (val_finite a Fa) in L. apply andb_true_iff in F as (Fb & _). rewrite (val_finite b Fb) in L. exact L.
Qed.
Lemma value_n0 : value (b64_lit 0 0) = 0.
Proof.
  assert (Z : B2SF (b64_lit 0 0) = SpecFloat.S754_zero false) by (vm_compute; reflexivity).
  unfold value. rewrite <- SF2R_B2SF, Z. reflexivity.
Qed.
(** a grid that starts with the literal [0.0] *)
Lemma grid_sound (l : list b64) (t : b64) :
  let x := b64_lit 0 0 :: l ++ [t] in
  forallb (@is_finite 53 1024) x && sorted x && pos t = true -> grid_to (map value x) (value t).
Proof.
  intros x H. apply andb_true_iff in H as (H & P). apply andb_true_iff in H as (F & S).
  split; [exact (sorted_sound x F S)|]. split.
  - exists (map value (l ++ [t])). unfold x. cbn [map]. rewrite value_n0. reflexivity.
  - split; [|exact (proj2 (pos_sound t P))]. exists (map value (b64_lit 0 0 :: l)). unfold x.
    cbn [map app]. rewrite map_app. reflexivity.
Qed.

(** eight samples of one atmosphere, a millisecond apart *)
Definition atmosphere : Values b64 :=
  mkValues (n0 :: map (fun k => n_lit k (-3)) [1; 2; 3; 4; 5; 6]%Z ++ [n_lit 7 (-3)])
    (repeat (n_lit 101325 0) 8) [] [] [] [] [] [] [] [] [].
Definition atmosphere_check : bool :=
  match Pressure_from_values atmosphere with
  | Ret p => Bltb (pr_max p) (pr_avg p) && is_finite (pr_avg p) && is_finite (pr_max p)
  | Panic _ => false
  end.
Lemma atmosphere_checked : atmosphere_check = true.
Proof. vm_cast_no_check (eq_refl true). Qed.
Lemma atmosphere_samples : forallb nonneg (vs_P atmosphere) = true.
Proof. vm_cast_no_check (eq_refl true). Qed.
Lemma atmosphere_grid : grid_to (map value (vs_time atmosphere)) (value (n_lit 7 (-3))).
Proof. apply grid_sound. vm_cast_no_check (eq_refl true). Qed.
Theorem average_above_all : exists (v : Values b64) (p : Pressure b64) (t P : b64),
  Pressure_from_values v = Ret p /\ last_unwrap (vs_time v) = Ret t /\ grid_to (map value (vs_time v)) (value t) /\
  length (vs_time v) = length (vs_P v) /\
  Forall (fun a => finite a /\ 0 <= value a) (vs_P v) /\ finite (pr_avg p) /\
  (forall a, In a (vs_P v) -> a = P) /\ value (pr_max p) < value (pr_avg p).
Proof.
  pose proof atmosphere_checked as C. unfold atmosphere_check in C.
  destruct (Pressure_from_values atmosphere) as [p|] eqn:E; [|discriminate].
  apply andb_true_iff in C as (C & Fm). apply andb_true_iff in C as (C & Fa).
  exists atmosphere, p, (n_lit 7 (-3)), (n_lit 101325 0). split; [exact E|]. split; [reflexivity|].
  split; [exact atmosphere_grid|]. split; [reflexivity|]. split.
  { apply Forall_forall. intros a I. pose proof atmosphere_samples as S. rewrite forallb_forall in S.
    exact (nonneg_sound a (S a I)). }
  split; [exact Fa|]. split; [intros a I; exact (repeat_spec _ _ _ I)|].
  apply Bltb_iff in C as (_ & _ & C). rewrite (val_finite _ Fm), (val_finite _ Fa) in C. exact C.
Qed.

(** a cycle with varying pressure and reversing flows *)
Definition swinging : Values b64 :=
  mkValues (n0 :: [n_lit 1 (-2); n_lit 2 (-2)] ++ [n_lit 3 (-2)])
    [n_lit 10 6; n_lit 12 6; n_lit 11 6; n_lit 10 6] [] []
    [n_lit 1 (-1); n_lit (-3) (-1); n_lit 7 (-2); n_lit 1 (-1)]
    [n_lit 2 (-1); n_lit (-2) (-1); n_lit 1 (-2); n_lit 2 (-1)]
    [n_lit 3 (-1); n_lit (-1) (-1); n_lit (-5) (-2); n_lit 3 (-1)]
    [n_lit 4 (-1); n_lit 1 (-1); n_lit (-9) (-2); n_lit 4 (-1)]
    [] [n_lit 5 1; n_lit (-7) 1; n_lit 3 (-1); n_lit 5 1] [].
Definition swinging_check : bool :=
  match Pressure_from_values swinging, MassFlows_from_values swinging with
  | Ret p, Ret m =>
      is_finite (pr_avg p) && pos (mf_chx m) && pos (mf_regen m) && pos (mf_hhx m) && forallb nonneg (vs_P swinging)
  | _, _ => false
  end.
Lemma swinging_checked : swinging_check = true.
Proof. vm_cast_no_check (eq_refl true). Qed.
Lemma swinging_grid : grid_to (map value (vs_time swinging)) (value (n_lit 3 (-2))).
Proof. apply grid_sound. vm_cast_no_check (eq_refl true). Qed.
Lemma swinging_case :
  last_unwrap (vs_time swinging) = Ret (n_lit 3 (-2)) /\
  grid_to (map value (vs_time swinging)) (value (n_lit 3 (-2))) /\
  length (vs_time swinging) = length (vs_P swinging) /\
  Forall (fun a => finite a /\ 0 <= value a) (vs_P swinging) /\
  exists p m, Pressure_from_values swinging = Ret p /\ MassFlows_from_values swinging = Ret m /\
    finite (pr_avg p) /\ (finite (mf_chx m) /\ 0 < value (mf_chx m)) /\
    (finite (mf_regen m) /\ 0 < value (mf_regen m)) /\ (finite (mf_hhx m) /\ 0 < value (mf_hhx m)).
Proof.
  pose proof swinging_checked as C. unfold swinging_check in C.
  destruct (Pressure_from_values swinging) as [p|] eqn:E; [|discriminate].
  destruct (MassFlows_from_values swinging) as [m|] eqn:E'; [|discriminate].
  apply andb_true_iff in C as (C & S). apply andb_true_iff in C as (C & F3). apply andb_true_iff in C as (C & F2).
  apply andb_true_iff in C as (C & F1).
  split; [reflexivity|]. split; [exact swinging_grid|]. split; [reflexivity|]. split.
  { apply Forall_forall. intros a I. rewrite forallb_forall in S. exact (nonneg_sound a (S a I)). }
  exists p, m. split; [reflexivity|]. split; [reflexivity|]. split; [exact C|].
  split; [exact (pos_sound _ F1)|]. split; [exact (pos_sound _ F2)|exact (pos_sound _ F3)].
Qed.
