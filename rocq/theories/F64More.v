(** * Statistics, special values and degenerate cases in f64 *)
From Coq Require Import ZArith NArith List Reals Bool Lra Lia.
From Flocq Require Import Core BinarySingleNaN.
From Verif Require Import Num ModelTypes ModelWs ModelHx ModelStateEq ModelEngine ModelApi Spec B64
  SpecF64 F64Base F64Conv.
Import ListNotations.
Local Open Scope R_scope.
Local Open Scope bool_scope.

(** ** Extrema under [total_cmp] *)
Lemma Bleb_refl (x : b64) : is_nan x = false -> Bleb x x = true.
Proof. intros N. apply Bleb_iff. split; [exact N|split; [exact N|lra]]. Qed.
Lemma Bleb_trans (x y z : b64) : Bleb x y = true -> Bleb y z = true -> Bleb x z = true.
Proof.
  rewrite !Bleb_iff. intros (A & B & C) (D & E & G). split; [exact A|split; [exact E|lra]].
Qed.
Lemma total_le_cases (nt : bool) (x y : b64) : is_nan x = false -> is_nan y = false ->
  if b64_total_le nt x y then Bleb x y = true else Bleb y x = true.
Proof.
  intros Nx Ny.
  assert (K : if Bleb x y then True else Bleb y x = true).
  { destruct (Bleb x y) eqn:E; [exact I|]. rewrite (Bleb_val x y Nx Ny) in E.
    apply Bleb_iff. split; [exact Ny|split; [exact Nx|]].
    destruct (Rle_bool_spec (val x) (val y)); [discriminate|lra]. }
  destruct x as [sx|sx| |sx mx ex Hx]; try discriminate Nx;
  destruct y as [sy|sy| |sy my ey Hy]; try discriminate Ny; cbn [b64_total_le];
    first [ destruct sx, sy; reflexivity
          | match goal with |- context [if Bleb ?a ?b then _ else _] => destruct (Bleb a b) eqn:E end;
            [reflexivity|exact K] ].
Qed.

Lemma fold_highest (nt : bool) (l : list b64) : forall a, is_nan a = false ->
  (forall y, In y l -> is_nan y = false) ->
  highest (fold_left (fun x y => if b64_total_le nt x y then y else x) l a) (a :: l).
Proof.
  induction l as [|b l IH]; intros a Na Nl; cbn [fold_left].
  - split; [left; reflexivity|]. intros y [<-|[]]. apply Bleb_refl, Na.
  - pose proof (Nl b (or_introl eq_refl)) as Nb.
    pose proof (total_le_cases nt a b Na Nb) as C.
    destruct (b64_total_le nt a b).
    + destruct (IH b Nb (fun y H => Nl y (or_intror H))) as [I M]. split.
      * right. exact I.
      * intros y [<-|H]; [|apply M, H].
        exact (Bleb_trans _ _ _ C (M b (or_introl eq_refl))).
    + destruct (IH a Na (fun y H => Nl y (or_intror H))) as [I M]. split.
      * destruct I as [I|I]; [left; exact I|right; right; exact I].
      * intros y [<-|[<-|H]]; [apply M; left; reflexivity| |apply M; right; exact H].
        exact (Bleb_trans _ _ _ C (M a (or_introl eq_refl))).
Qed.
Lemma fold_lowest (nt : bool) (l : list b64) : forall a, is_nan a = false ->
  (forall y, In y l -> is_nan y = false) ->
  lowest (fold_left (fun x y => if b64_total_le nt x y then x else y) l a) (a :: l).
Proof.
  induction l as [|b l IH]; intros a Na Nl; cbn [fold_left].
  - split; [left; reflexivity|]. intros y [<-|[]]. apply Bleb_refl, Na.
  - pose proof (Nl b (or_introl eq_refl)) as Nb.
    pose proof (total_le_cases nt a b Na Nb) as C.
    destruct (b64_total_le nt a b).
    + destruct (IH a Na (fun y H => Nl y (or_intror H))) as [I M]. split.
      * destruct I as [I|I]; [left; exact I|right; right; exact I].
      * intros y [<-|[<-|H]]; [apply M; left; reflexivity| |apply M; right; exact H].
        exact (Bleb_trans _ _ _ (M a (or_introl eq_refl)) C).
    + destruct (IH b Nb (fun y H => Nl y (or_intror H))) as [I M]. split.
      * right. exact I.
      * intros y [<-|H]; [|apply M, H].
        exact (Bleb_trans _ _ _ (M b (or_introl eq_refl)) C).
Qed.

(** ** The constant [1e-14] *)
Lemma guard_value : / 2 ^ 47 < value (b64_lit 1 (-14)) < / 2 ^ 46 /\ finite (b64_lit 1 (-14)).
Proof.
  assert (E : B2SF (b64_lit 1 (-14)) = SpecFloat.S754_finite false 6338253001141147 (-99)).
  { vm_compute. reflexivity. }
  split.
  - unfold value. rewrite <- SF2R_B2SF, E. unfold SF2R, F2R. cbn. lra.
  - unfold finite. rewrite <- is_finite_SF_B2SF, E. reflexivity.
Qed.
Lemma lit_256 : B2R (b64_lit 256 0) = 256.
Proof.
  assert (E : B2SF (b64_lit 256 0) = SpecFloat.S754_finite false 4503599627370496 (-44)).
  { vm_compute. reflexivity. }
  rewrite <- SF2R_B2SF, E. unfold SF2R, F2R. cbn. lra.
Qed.

(** neighbours of a float *)
Lemma nearest_up (p : b64) (c : R) : 0 < B2R p -> 0 < c ->
  ulp radix2 fexp64 (B2R p) < 2 * c -> B2R p < rounded (B2R p + c).
Proof.
  intros Hp Hc U. set (x := B2R p + c).
  destruct (Rlt_or_le (B2R p) (rounded x)) as [L|L]; [exact L|exfalso].
  pose proof (round_N_pt radix2 fexp64 (fun z => negb (Z.even z)) x) as [_ N].
  change (round radix2 fexp64 ZnearestE x) with (rounded x) in N.
  assert (Fp : generic_format radix2 fexp64 (B2R p)) by apply generic_format_B2R.
  specialize (N (succ radix2 fexp64 (B2R p)) (generic_format_succ radix2 fexp64 _ Fp)).
  rewrite (succ_eq_pos radix2 fexp64 (B2R p)) in N by lra.
  pose proof (ulp_ge_0 radix2 fexp64 (B2R p)) as U0.
  assert (U1 : 0 < ulp radix2 fexp64 (B2R p)).
  { destruct (Req_dec (ulp radix2 fexp64 (B2R p)) 0) as [Z|Z]; [|lra].
    rewrite ulp_neq_0 in Z by lra. pose proof (bpow_gt_0 radix2 (cexp radix2 fexp64 (B2R p))). lra. }
  unfold x in *. rewrite (Rabs_left1 (rounded _ - _)) in N by lra.
  unfold Rabs in N. destruct (Rcase_abs _) in N; lra.
Qed.
Lemma nearest_same (p : b64) (c : R) : 0 < B2R p -> 0 < c ->
  2 * c < ulp radix2 fexp64 (B2R p) -> rounded (B2R p + c) = B2R p.
Proof.
  intros Hp Hc U. set (x := B2R p + c).
  pose proof (round_N_pt radix2 fexp64 (fun z => negb (Z.even z)) x) as [Fr N].
  change (round radix2 fexp64 ZnearestE x) with (rounded x) in N, Fr.
  assert (Fp : generic_format radix2 fexp64 (B2R p)) by apply generic_format_B2R.
  specialize (N (B2R p) Fp).
  destruct (Rtotal_order (rounded x) (B2R p)) as [L|[L|L]]; [exfalso|exact L|exfalso].
  - rewrite (Rabs_left1 (rounded x - x)), (Rabs_left1 (B2R p - x)) in N by (unfold x in *; lra). lra.
  - pose proof (succ_le_lt radix2 fexp64 _ _ Fp Fr L) as S.
    rewrite (succ_eq_pos radix2 fexp64 (B2R p)) in S by lra.
    rewrite (Rabs_right (rounded x - x)), (Rabs_left1 (B2R p - x)) in N by (unfold x in *; lra).
    unfold x in *. lra.
Qed.

Lemma ulp_below_128 (x : R) : 0 < x < 128 -> ulp radix2 fexp64 x <= / 2 ^ 46.
Proof.
  intros H. rewrite ulp_neq_0 by lra. unfold cexp, SpecFloat.fexp, SpecFloat.emin.
  assert (M : (mag radix2 x <= 7)%Z).
  { apply mag_le_bpow; [lra|]. rewrite Rabs_right by lra. cbn. lra. }
  replace (/ 2 ^ 46) with (bpow radix2 (-46)) by (cbn; lra).
  apply bpow_le. lia.
Qed.
Lemma ulp_from_128 (x : R) : 128 <= x -> / 2 ^ 45 <= ulp radix2 fexp64 x.
Proof.
  intros H. rewrite ulp_neq_0 by lra. unfold cexp, SpecFloat.fexp, SpecFloat.emin.
  assert (M : (8 <= mag radix2 x)%Z).
  { apply mag_ge_bpow. rewrite Rabs_right by lra. cbn. lra. }
  replace (/ 2 ^ 45) with (bpow radix2 (-45)) by (cbn; lra).
  apply bpow_le. lia.
Qed.

Lemma guard_moves (p : b64) : finite p -> 0 < value p < 128 ->
  finite (Bplus mode_NE p (b64_lit 1 (-14))) /\ value p < value (Bplus mode_NE p (b64_lit 1 (-14))).
Proof.
  intros Fp Hp. destruct guard_value as [C Fc]. unfold value in *.
  pose proof (nearest_up p (B2R (b64_lit 1 (-14)))) as N.
  pose proof (ulp_below_128 (B2R p) Hp) as U.
  specialize (N (proj1 Hp)). assert (C0 : 0 < B2R (b64_lit 1 (-14))) by lra.
  specialize (N C0). assert (U' : ulp radix2 fexp64 (B2R p) < 2 * B2R (b64_lit 1 (-14))) by lra.
  specialize (N U').
  destruct (plus_cases p (b64_lit 1 (-14)) Fp Fc) as [(_ & F & V)|(O & _)].
  - split; [exact F|]. rewrite V. exact N.
  - exfalso. unfold overflows in O.
    assert (B : rounded (B2R p + B2R (b64_lit 1 (-14))) <= 256).
    { rewrite <- lit_256. apply rounded_le_float. rewrite lit_256. lra. }
    assert (L : 256 < bpow radix2 1024).
    { apply Rle_lt_trans with (bpow radix2 8); [cbn; lra|]. apply bpow_lt. lia. }
    rewrite Rabs_right in O by lra. lra.
Qed.

Lemma guard_absorbed (p : b64) : finite p -> 128 <= value p -> Bplus mode_NE p (b64_lit 1 (-14)) = p.
Proof.
  intros Fp Hp. destruct guard_value as [C Fc]. unfold value in *.
  pose proof (ulp_from_128 (B2R p) Hp) as U.
  assert (N : rounded (B2R p + B2R (b64_lit 1 (-14))) = B2R p).
  { apply nearest_same; lra. }
  pose proof (Bplus_correct 53 1024 _ _ mode_NE p (b64_lit 1 (-14)) Fp Fc) as K.
  change (round radix2 fexp64 (round_mode mode_NE) (B2R p + B2R (b64_lit 1 (-14))))
    with (rounded (B2R p + B2R (b64_lit 1 (-14)))) in K.
  rewrite N, (Rlt_bool_true _ _ (finite_bound p Fp)) in K. destruct K as (V & F & S).
  apply (B2R_Bsign_inj 53 1024); try assumption.
  rewrite S, Rcompare_Gt by lra.
  destruct p as [s|s| |s m e H]; try discriminate Fp; [cbn in Hp; lra|].
  destruct s; [|reflexivity]. exfalso.
  assert (0 > B2R (B754_finite true m e H : b64)) by (apply F2R_lt_0; reflexivity). lra.
Qed.

Section F64.
  Variables (lm : Libm) (nt : bool).
  Local Instance ops64' : NumOps b64 := b64_ops lm nt.

  Lemma pressure_extrema (v : Values b64) (p : Pressure b64) :
    (forall x, In x (vs_P v) -> ~ not_a_number x) -> Pressure_from_values v = Ret p ->
    highest (pr_max p) (vs_P v) /\ lowest (pr_min p) (vs_P v) /\
    (exists rest, vs_P v = pr_t_zero p :: rest).
  Proof.
    intros N. unfold Pressure_from_values, obind.
    destruct (final_time v) as [t|]; [|discriminate].
    destruct (vs_P v) as [|a l]; [discriminate|]. cbn [first_unwrap max_by min_by].
    intros H. apply (f_equal (fun o => match o with Ret x => Some x | _ => None end)) in H.
    cbv beta iota in H. apply (f_equal (fun o => match o with Some x => x | None => p end)) in H.
    cbv beta iota in H. subst p. cbn [pr_max pr_min pr_t_zero].
    assert (Na : forall x, In x (a :: l) -> is_nan x = false).
    { intros x Hx. specialize (N x Hx). unfold not_a_number in N. destruct (is_nan x); [elim N|]; reflexivity. }
    split; [|split].
    - apply (fold_highest nt); [apply Na; left; reflexivity|intros y Hy; apply Na; right; exact Hy].
    - apply (fold_lowest nt); [apply Na; left; reflexivity|intros y Hy; apply Na; right; exact Hy].
    - exists l. reflexivity.
  Qed.

  (** ** Infinite thermal resistances *)
  Lemma adiabatic_state (v : Values b64) (Tk Th : b64) (sc se : bool) (h : HeatFlows b64) :
    HeatFlows_from_values v Tk Th (mkTR (B754_infinity sc) (B754_infinity se)) = Ret h ->
    exists t, last_unwrap (vs_time v) = Ret t /\
      hf_chx h = n_add n0 (n_div (integrate (vs_time v) (vs_Q_dot_k v)) t) /\
      hf_regen h = n_div (integrate (vs_time v) (vs_Q_dot_r v)) t /\
      hf_hhx h = n_add n0 (n_div (integrate (vs_time v) (vs_Q_dot_l v)) t).
  Proof.
    unfold HeatFlows_from_values, obind, final_time.
    destruct (last_unwrap (vs_time v)) as [t|]; [|discriminate].
    intros H. exists t. split; [reflexivity|].
    apply (f_equal (fun o => match o with Ret x => x | _ => h end)) in H. subst h.
    split; [reflexivity|split; reflexivity].
  Qed.

  Lemma minus_same_sign (x y : b64) : finite x -> finite y -> 0 <= value x -> 0 <= value y ->
    finite (Bminus mode_NE x y).
  Proof.
    intros Fx Fy Px Py. unfold value in *.
    destruct (minus_cases x y Fx Fy) as [(_ & F & _)|(O & _)]; [exact F|exfalso].
    unfold overflows in O. rewrite <- rounded_abs in O.
    pose proof (finite_bounds x Fx). pose proof (finite_bounds y Fy).
    destruct (Rle_or_lt (B2R y) (B2R x)) as [L|L].
    - assert (rounded (Rabs (B2R x - B2R y)) <= B2R x)
        by (apply rounded_le_float; rewrite Rabs_right; lra). lra.
    - assert (rounded (Rabs (B2R x - B2R y)) <= B2R y)
        by (apply rounded_le_float; rewrite Rabs_left1; lra). lra.
  Qed.

  Definition zero64 (x : b64) : Prop := exists s, x = B754_zero s.
  Lemma div_inf_zero (x : b64) (s : bool) : finite x -> zero64 (n_div x (B754_infinity s)).
  Proof. destruct x as [sx|sx| |sx m e H]; intros F; try discriminate F; eexists; reflexivity. Qed.
  Lemma zero_terms (a b d : b64) : zero64 a -> zero64 b -> finite d ->
    zero64 (n_mul (n_mul (n_add a b) d) nhalf).
  Proof.
    intros A B F.
    assert (C : zero64 (n_add a b)) by (destruct A as [[|] ->], B as [[|] ->]; eexists; reflexivity).
    destruct C as [s C]. rewrite C.
    assert (G : zero64 (n_mul (B754_zero s : b64) d)).
    { destruct d as [sx|sx| |sx m e H]; try discriminate F; eexists; reflexivity. }
    destruct G as [s' G]. rewrite G. exists s'. destruct s'; vm_compute; reflexivity.
  Qed.
  Lemma sum_zeros (l : list b64) : Forall zero64 l -> n_sum l = (B754_zero false : b64).
  Proof.
    unfold n_sum. change (@n0 b64 ops64') with (B754_zero false : b64).
    induction 1 as [|x l [s ->] _ IH]; [reflexivity|]. cbn [fold_left].
    replace (n_add (B754_zero false) (B754_zero s)) with (B754_zero false : b64)
      by (destruct s; reflexivity). exact IH.
  Qed.

  Lemma windows2_pairs {A} (P : A -> Prop) (l : list A) : Forall P l ->
    Forall (fun '(a, b) => P a /\ P b) (windows2 l).
  Proof.
    induction 1 as [|x l Hx Hl IH]; [constructor|].
    destruct l as [|y l]; [constructor|]. cbn [windows2]. constructor; [|exact IH].
    split; [exact Hx|inversion Hl; assumption].
  Qed.

  Lemma zero_integral (x y : list b64) :
    Forall (fun t => finite t /\ 0 <= value t) x -> Forall zero64 y ->
    perf_integrate x y = (B754_zero false : b64).
  Proof.
    intros Hx Hy. unfold perf_integrate. apply sum_zeros.
    apply windows2_pairs in Hx. apply windows2_pairs in Hy.
    revert Hx Hy. generalize (windows2 x). generalize (windows2 y). clear x y.
    intros ys xs Hx. revert ys. induction Hx as [|[x0 x1] xs Hx0 _ IH]; intros ys Hy; [constructor|].
    destruct Hy as [|[y0 y1] ys Hy0 Hy]; [constructor|]. cbn [combine map]. constructor; [|apply IH, Hy].
    destruct Hx0 as [[F0 P0] [F1 P1]], Hy0 as [Z0 Z1].
    apply zero_terms; [exact Z1|exact Z0|]. apply minus_same_sign; assumption.
  Qed.
End F64.
