(** * The sign of the approach temperature differences in f64 *)
From Coq Require Import ZArith NArith List Reals Bool Lra Lia.
From Flocq Require Import Core BinarySingleNaN.
From Verif Require Import Num ModelTypes ModelWs ModelHx ModelStateEq ModelEngine B64 SpecF64 SpecSign F64Base F64Err F64Avg F64Mean F64Order.
Local Open Scope R_scope.
Local Open Scope bool_scope.

Lemma mult_sign (x y : b64) : is_nan (Bmult mode_NE x y) = false ->
  Bsign (Bmult mode_NE x y) = xorb (Bsign x) (Bsign y).
Proof.
  intros N. pose proof (Bmult_correct 53 1024 _ _ mode_NE x y) as H.
  destruct (Rlt_bool _ _) in H.
  - exact (proj2 (proj2 H) N).
  - rewrite (overflow_infinite _ _ H). reflexivity.
Qed.
Lemma div_sign (x y : b64) : is_nan (Bdiv mode_NE x y) = false ->
  Bsign (Bdiv mode_NE x y) = xorb (Bsign x) (Bsign y).
Proof.
  intros N. destruct y as [sy|sy| |sy my ey Hy].
  - destruct x; try discriminate N; reflexivity.
  - destruct x; try discriminate N; reflexivity.
  - destruct x; discriminate N.
  - assert (Z : B2R (B754_finite sy my ey Hy : b64) <> 0).
    { apply F2R_neq_0. destruct sy; discriminate. }
    pose proof (Bdiv_correct 53 1024 _ _ mode_NE x _ Z) as H.
    destruct (Rlt_bool _ _) in H.
    + exact (proj2 (proj2 H) N).
    + rewrite (overflow_infinite _ _ H). reflexivity.
Qed.
Lemma nan_or (x : b64) : is_nan x = true \/ is_nan x = false.
Proof. destruct (is_nan x); auto. Qed.
Lemma nan_is (x : b64) : is_nan x = true -> x = B754_nan.
Proof. destruct x; try discriminate. reflexivity. Qed.
Lemma mult_nan_l (y : b64) : Bmult mode_NE B754_nan y = B754_nan. Proof. reflexivity. Qed.
Lemma mult_nan_r (x : b64) : Bmult mode_NE x B754_nan = B754_nan. Proof. destruct x; reflexivity. Qed.
Lemma div_nan_l (y : b64) : Bdiv mode_NE B754_nan y = B754_nan. Proof. reflexivity. Qed.
Lemma div_nan_r (x : b64) : Bdiv mode_NE x B754_nan = B754_nan. Proof. destruct x; reflexivity. Qed.
Lemma plus_nan_r (x : b64) : Bplus mode_NE x B754_nan = B754_nan. Proof. destruct x; reflexivity. Qed.
Lemma minus_nan_l (y : b64) : Bminus mode_NE B754_nan y = B754_nan. Proof. reflexivity. Qed.
Lemma minus_nan_r (x : b64) : Bminus mode_NE x B754_nan = B754_nan. Proof. destruct x; reflexivity. Qed.
Lemma mult_unsigned (x y : b64) : unsigned x -> unsigned y -> unsigned (Bmult mode_NE x y).
Proof.
  unfold unsigned. intros Hx Hy. destruct (nan_or (Bmult mode_NE x y)) as [N|N].
  - rewrite (nan_is _ N). reflexivity.
  - rewrite (mult_sign _ _ N), Hx, Hy. reflexivity.
Qed.
Lemma div_unsigned (x y : b64) : unsigned x -> unsigned y -> unsigned (Bdiv mode_NE x y).
Proof.
  unfold unsigned. intros Hx Hy. destruct (nan_or (Bdiv mode_NE x y)) as [N|N].
  - rewrite (nan_is _ N). reflexivity.
  - rewrite (div_sign _ _ N), Hx, Hy. reflexivity.
Qed.
(** a product with an unsigned factor *)
Lemma mult_like (x y q : b64) : unsigned y -> signed_like x q -> is_nan x = true \/ signed_like (Bmult mode_NE x y) q.
Proof.
  intros Hy [H|H]; [left; exact H|right].
  destruct (nan_or (Bmult mode_NE x y)) as [N|N]; [left; exact N|right].
  rewrite (mult_sign _ _ N), Hy, H. apply xorb_false_r.
Qed.

Lemma one_minus (e : b64) : finite e -> 0 <= value e <= 1 ->
  finite (Bminus mode_NE (b64_lit 1 0) e) /\ unsigned (Bminus mode_NE (b64_lit 1 0) e) /\
  0 <= value (Bminus mode_NE (b64_lit 1 0) e) <= 1.
Proof.
  intros Fe He. unfold value in *. destruct lit_1 as (E1 & F1).
  pose proof (Bminus_correct 53 1024 _ _ mode_NE _ e F1 Fe) as H.
  change (round radix2 fexp64 (round_mode mode_NE) (B2R (b64_lit 1 0) - B2R e)) with (rounded (B2R (b64_lit 1 0) - B2R e)) in H.
  assert (B : 0 <= rounded (B2R (b64_lit 1 0) - B2R e) <= 1).
  { pose proof (rounded_id (b64_lit 1 0)) as I. rewrite E1 in I |- *.
    pose proof (rounded_le 0 (1 - B2R e) ltac:(lra)) as A. pose proof (rounded_le (1 - B2R e) 1 ltac:(lra)) as C.
    rewrite rounded_0 in A. lra. }
  assert (P : 2 < bpow radix2 1024).
  { change 2 with (bpow radix2 1). apply bpow_lt. reflexivity. }
  rewrite Rlt_bool_true in H by (rewrite Rabs_right; lra).
  destruct H as (V & Fi & S). rewrite V. split; [exact Fi|]. split; [|exact B].
  unfold unsigned. rewrite S.
  assert (Sg : Bsign (b64_lit 1 0) = false) by (vm_compute; reflexivity).
  destruct (Rcompare_spec (B2R (b64_lit 1 0) - B2R e) 0) as [L|L|L]; [exfalso; lra|rewrite Sg; reflexivity|reflexivity].
Qed.
Lemma minus_one (x : b64) : finite x -> 1 <= value x -> unsigned (Bminus mode_NE x (b64_lit 1 0)).
Proof.
  intros Fx Hx. unfold value in *. destruct lit_1 as (E1 & F1).
  pose proof (Bminus_correct 53 1024 _ _ mode_NE x _ Fx F1) as H.
  change (round radix2 fexp64 (round_mode mode_NE) (B2R x - B2R (b64_lit 1 0))) with (rounded (B2R x - B2R (b64_lit 1 0))) in H.
  assert (B : 0 <= rounded (B2R x - B2R (b64_lit 1 0)) <= B2R x).
  { pose proof (rounded_id x) as I. rewrite E1.
    pose proof (rounded_le 0 (B2R x - 1) ltac:(lra)) as A. pose proof (rounded_le (B2R x - 1) (B2R x) ltac:(lra)) as C.
    rewrite rounded_0 in A. lra. }
  pose proof (finite_bounds x Fx).
  rewrite Rlt_bool_true in H by (rewrite Rabs_right; lra).
  destruct H as (V & Fi & S). unfold unsigned. rewrite S.
  assert (Sg : Bsign (b64_lit 1 0) = false) by (vm_compute; reflexivity).
  assert (Sx : Bsign x = false).
  { destruct x as [s|s| |[] m e Hb]; try discriminate Fx; cbn [B2R] in Hx; try (exfalso; lra); try reflexivity.
    exfalso. assert (F2R (Float radix2 (cond_Zopp true (Zpos m)) e) < 0) by (apply F2R_lt_0; reflexivity). lra. }
  destruct (Rcompare_spec (B2R x - B2R (b64_lit 1 0)) 0) as [L|L|L]; [exfalso; lra|rewrite Sx; reflexivity|reflexivity].
Qed.

(** the factor of the effectiveness relation *)
Lemma ntu_factor (e : b64) : finite e -> 0 <= value e <= 1 ->
  unsigned (Bminus mode_NE (Bdiv mode_NE (b64_lit 1 0) (Bminus mode_NE (b64_lit 1 0) e)) (b64_lit 1 0)).
Proof.
  intros Fe He. destruct (one_minus e Fe He) as (F & S & V). set (d := Bminus mode_NE (b64_lit 1 0) e) in *.
  destruct lit_1 as (E1 & F1). destruct (Req_dec (value d) 0) as [Z|Z].
  - assert (D : d = B754_zero false).
    { unfold unsigned, value, finite in *. destruct d as [s|s| |s m ex Hb]; try discriminate F.
      - cbn in S. rewrite S. reflexivity.
      - exfalso. revert Z. apply F2R_neq_0. destruct s; discriminate. }
    rewrite D. vm_compute. reflexivity.
  - destruct (div_cases _ d F1 Z) as [(O & Fi & Vd)|(O & s & I)].
    + apply minus_one; [exact Fi|]. unfold value in *. rewrite Vd, E1.
      pose proof (rounded_id (b64_lit 1 0)) as I. rewrite E1 in I. rewrite <- I. apply rounded_le.
      apply Rmult_le_reg_r with (B2R d); [lra|]. unfold Rdiv. rewrite Rmult_assoc, Rinv_l by exact Z. lra.
    + assert (K : unsigned (Bdiv mode_NE (b64_lit 1 0) d)).
      { apply div_unsigned; [vm_compute; reflexivity|exact S]. }
      rewrite I in K |- *. unfold unsigned in K. cbn in K. rewrite K. vm_compute. reflexivity.
Qed.
Section Approach.
  Variables (lm : Libm) (nt : bool).
  Let sops : NumOps b64 := b64_ops lm nt.
  Existing Instance sops.
  Lemma fc_sign (ua cp m q : b64) : exponential_bounded lm -> unsigned ua -> unsigned cp -> unsigned m ->
    let C := n_mul cp m in
    signed_like (n_mul (n_div q C) (n_sub (n_div n1 (n_sub n1 (n_exp (n_opp (n_div ua C))))) n1)) q.
  Proof.
    intros (HN & HE) Hu Hc Hm C. assert (HC : unsigned C) by exact (mult_unsigned cp m Hc Hm).
    change (@n1 b64 sops) with (b64_lit 1 0). cbn [n_mul n_div n_sub n_exp n_opp sops b64_ops].
    pose proof (div_unsigned ua C Hu HC) as HNTU.
    destruct (nan_or (Bdiv mode_NE q C)) as [N|N].
    { rewrite (nan_is _ N). left. reflexivity. }
    assert (HQ : signed_like (Bdiv mode_NE q C) q).
    { right. rewrite (div_sign _ _ N), HC. apply xorb_false_r. }
    destruct (nan_or (Bdiv mode_NE ua C)) as [M|M].
    { rewrite (nan_is _ M). left. change (Bopp (B754_nan : b64)) with (B754_nan : b64).
      rewrite HN, minus_nan_r, div_nan_r, minus_nan_l, mult_nan_r. reflexivity. }
    assert (S : is_nan (Bopp (Bdiv mode_NE ua C)) = false /\ Bsign (Bopp (Bdiv mode_NE ua C)) = true).
    { revert M HNTU. generalize (Bdiv mode_NE ua C). intros x M U. unfold unsigned in U.
      destruct x; try discriminate M; cbn in U |- *; rewrite U; split; reflexivity. }
    destruct S as (S1 & S2). destruct (HE _ S1 S2) as (Fe & Ve).
    destruct (mult_like _ _ q (ntu_factor _ Fe Ve) HQ) as [K|K]; [rewrite K in N; discriminate N|exact K].
  Qed.
  Theorem chx_sign (f : FixedConductance b64) (s : ChxState b64) :
    exponential_bounded lm -> unsigned (fc_UA f) -> unsigned (hx_cp (chs_hxr s)) -> unsigned (hx_m_dot (chs_hxr s)) ->
    signed_like (chx_fc_approach f s) (hx_Q_dot (chs_hxr s)).
  Proof. exact (fc_sign (fc_UA f) _ _ _). Qed.
  Theorem hhx_sign (f : FixedConductance b64) (s : HhxState b64) :
    exponential_bounded lm -> unsigned (fc_UA f) -> unsigned (hx_cp (hhs_hxr s)) -> unsigned (hx_m_dot (hhs_hxr s)) ->
    signed_like (hhx_fc_approach f s) (hx_Q_dot (hhs_hxr s)).
  Proof. exact (fc_sign (fc_UA f) _ _ _). Qed.
  (** the regenerator's effectiveness lies between 0 and 1 *)
  Lemma effectiveness_range (x : b64) : unsigned x ->
    let e := Bdiv mode_NE x (Bplus mode_NE (b64_lit 1 0) x) in is_nan e = true \/ (finite e /\ 0 <= value e <= 1).
  Proof.
    intros Hx e. subst e. destruct lit_1 as (E1 & F1).
    destruct x as [sx|sx| |sx mx ex Hb]; cbn in Hx; unfold unsigned in Hx; cbn in Hx; try rewrite Hx.
    - right. split; [vm_compute; reflexivity|].
      assert (Z : B2SF (Bdiv mode_NE (B754_zero false : b64) (Bplus mode_NE (b64_lit 1 0) (B754_zero false))) = SpecFloat.S754_zero false)
        by (vm_compute; reflexivity).
      unfold value. rewrite <- SF2R_B2SF, Z. cbn. lra.
    - left. vm_compute. reflexivity.
    - left. vm_compute. reflexivity.
    - subst sx. set (x := B754_finite false mx ex Hb : b64).
      assert (Fx : finite x) by reflexivity. assert (Px : 0 < B2R x) by (apply F2R_gt_0; reflexivity).
      destruct (plus_cases _ x F1 Fx) as [(_ & Fs & Vs)|(_ & s & I)].
      + right. assert (Ls : 1 <= B2R (Bplus mode_NE (b64_lit 1 0) x) /\ B2R x <= B2R (Bplus mode_NE (b64_lit 1 0) x)).
        { rewrite Vs, E1. pose proof (rounded_id (b64_lit 1 0)) as I. rewrite E1 in I.
          pose proof (rounded_le 1 (1 + B2R x) ltac:(lra)). pose proof (rounded_le (B2R x) (1 + B2R x) ltac:(lra)).
          rewrite rounded_id in *. lra. }
        set (d := Bplus mode_NE (b64_lit 1 0) x) in *.
        assert (Q : 0 <= B2R x / B2R d <= 1).
        { split; [apply Rmult_le_pos; [lra|left; apply Rinv_0_lt_compat; lra]|]. apply Rmult_le_reg_r with (B2R d); [lra|].
          unfold Rdiv. rewrite Rmult_assoc, Rinv_l by lra. lra. }
        assert (B : 0 <= rounded (B2R x / B2R d) <= 1).
        { pose proof (rounded_id (b64_lit 1 0)) as I. rewrite E1 in I.
          pose proof (rounded_le 0 _ (proj1 Q)). pose proof (rounded_le _ 1 (proj2 Q)). rewrite rounded_0 in *. lra. }
        destruct (div_cases x d Fx ltac:(lra)) as [(_ & Fi & V)|(O & _)].
        * split; [exact Fi|]. unfold value. rewrite V. exact B.
        * exfalso. unfold overflows in O. rewrite Rabs_right in O by lra.
          assert (2 < bpow radix2 1024) by (change 2 with (bpow radix2 1); apply bpow_lt; reflexivity). lra.
      + right. rewrite I. split; [reflexivity|]. unfold value. cbn. lra.
  Qed.
  Theorem regen_sign (f : FixedConductance b64) (s : RegenState b64) :
    unsigned (fc_UA f) -> unsigned (hx_cp (res_hxr s)) -> unsigned (hx_m_dot (res_hxr s)) ->
    signed_like (regen_fc_approach f s) (n_sub (res_temp_hhx s) (res_temp_chx s)).
  Proof.
    intros Hu Hc Hm. unfold regen_fc_approach. set (dT := n_sub (res_temp_hhx s) (res_temp_chx s)). cbv zeta.
    change (@n1 b64 sops) with (b64_lit 1 0). change (@n2 b64 sops) with (b64_lit 2 0).
    cbn [n_mul n_div n_sub n_add sops b64_ops].
    set (x := Bdiv mode_NE (Bdiv mode_NE (fc_UA f) _) (b64_lit 2 0)).
    assert (Hx : unsigned x).
    { apply div_unsigned; [|vm_compute; reflexivity]. apply div_unsigned; [exact Hu|].
      apply mult_unsigned; assumption. }
    destruct (effectiveness_range x Hx) as [N|(Fe & Ve)].
    - left. rewrite (nan_is _ N), minus_nan_r. reflexivity.
    - destruct (one_minus _ Fe Ve) as (F & U & _).
      destruct (nan_or (Bmult mode_NE (Bminus mode_NE (b64_lit 1 0) (Bdiv mode_NE x (Bplus mode_NE (b64_lit 1 0) x))) dT)) as [N|N];
        [left; exact N|right]. rewrite (mult_sign _ _ N), U. apply xorb_false_l.
  Qed.
End Approach.

(** ** Average mass flows *)
Lemma plus_unsigned (x y : b64) : unsigned x -> unsigned y -> unsigned (Bplus mode_NE x y).
Proof.
  unfold unsigned. intros Hx Hy.
  destruct (is_finite x) eqn:Fx; [destruct (is_finite y) eqn:Fy|].
  - pose proof (Bplus_correct 53 1024 _ _ mode_NE x y Fx Fy) as H.
    destruct (Rlt_bool _ _) in H.
    + destruct H as (_ & _ & S). rewrite S, Hx, Hy.
      assert (P : forall z : b64, Bsign z = false -> is_finite z = true -> 0 <= B2R z).
      { intros z Hz Fz. destruct z as [s|s| |[] m e Hb]; try discriminate Fz; try discriminate Hz; cbn [B2R].
        - lra.
        - apply F2R_ge_0. discriminate. }
      pose proof (P x Hx Fx). pose proof (P y Hy Fy).
      destruct (Rcompare_spec (B2R x + B2R y) 0); [exfalso; lra|reflexivity|reflexivity].
    + destruct H as (O & _). rewrite (overflow_infinite _ _ O). exact Hx.
  - destruct y as [s|s| |s m e Hb]; try discriminate Fy; cbn in Hy; [rewrite Hy|];
      destruct x as [a|a| |a m e Hb]; try discriminate Fx; reflexivity.
  - destruct x as [s|s| |s m e Hb]; try discriminate Fx; cbn in Hx; [rewrite Hx|];
      destruct y as [a|a| |a m e Hb]; try reflexivity; cbn in Hy; rewrite Hy; reflexivity.
Qed.
Lemma abs_unsigned (x : b64) : unsigned (Babs x).
Proof. destruct x; reflexivity. Qed.
Section Flows.
  Variables (lm : Libm) (nt : bool).
  Let fops : NumOps b64 := b64_ops lm nt.
  Existing Instance fops.
  Lemma windows_in {A} (P : A -> Prop) (l : list A) a b : (forall x, In x l -> P x) -> In (a, b) (windows2 l) -> P a /\ P b.
  Proof.
    induction l as [|x [|y l] IH]; intros H K; [destruct K|destruct K|]. destruct K as [K|K].
    - injection K as <- <-. split; apply H; [left; reflexivity|right; left; reflexivity].
    - apply IH; [|exact K]. intros z Hz. apply H. right. exact Hz.
  Qed.
  Lemma integral_unsigned (x y : list b64) :
    (forall a b, In (a, b) (windows2 x) -> unsigned (n_sub b a)) -> (forall z, In z y -> unsigned z) ->
    unsigned (integrate x y).
  Proof.
    intros Hx Hy. unfold integrate. cbv zeta.
    assert (K : forall t, In t (map (fun '((x0, x1), (y0, y1)) => n_mul (n_mul (n_add y1 y0) (n_sub x1 x0)) nhalf)
                              (combine (windows2 x) (windows2 y))) -> unsigned t).
    { intros t H. apply in_map_iff in H as (((a & b) & (c & d)) & <- & H).
      pose proof (in_combine_l _ _ _ _ H) as H1. pose proof (in_combine_r _ _ _ _ H) as H2.
      apply mult_unsigned; [apply mult_unsigned|vm_compute; reflexivity].
      - destruct (windows_in _ _ _ _ Hy H2). apply plus_unsigned; assumption.
      - exact (Hx _ _ H1). }
    revert K. generalize (map (fun '((x0, x1), (y0, y1)) => n_mul (n_mul (n_add y1 y0) (n_sub x1 x0)) nhalf)
                              (combine (windows2 x) (windows2 y))). intros l K.
    unfold n_sum. assert (Z : unsigned (n0 : b64)) by (vm_compute; reflexivity). revert Z. generalize (n0 : b64).
    induction l as [|a l IH]; intros z Z; [exact Z|]. cbn [fold_left]. apply IH.
    - intros t Ht. apply K. right. exact Ht.
    - apply plus_unsigned; [exact Z|]. apply K. left. reflexivity.
  Qed.
  Theorem flows_unsigned (v : Values b64) (m : MassFlows b64) (t : b64) :
    (forall a b, In (a, b) (windows2 (vs_time v)) -> unsigned (n_sub b a)) ->
    last_unwrap (vs_time v) = Ret t -> unsigned t -> MassFlows_from_values v = Ret m ->
    unsigned (mf_chx m) /\ unsigned (mf_regen m) /\ unsigned (mf_hhx m).
  Proof.
    intros HW HL Ht H.
    assert (K : forall l r, unsigned (n_div (integrate (vs_time v) (map (fun '(l, r) => n_mul nhalf (n_abs (n_add l r))) (combine l r))) t)).
    { intros l r. apply div_unsigned; [|exact Ht]. apply integral_unsigned; [exact HW|].
      intros z Hz. apply in_map_iff in Hz as ((a & b) & <- & _).
      apply mult_unsigned; [vm_compute; reflexivity|apply abs_unsigned]. }
    unfold MassFlows_from_values, m_dot_chx, m_dot_regen, m_dot_hhx, m_dot_avg, final_time in H.
    rewrite HL in H. cbn [obind] in H. apply F64Avg.ret_inj in H. subst m.
    split; [apply K|]. split; apply K.
  Qed.
End Flows.

(** ** Cases: an exponential kept between 0 and 1 *)
From Verif Require Import Fixture.
Definition kept_exp (x : b64) : b64 :=
  if is_nan x then B754_nan else
  if is_finite (series_exp x) && Bleb (b64_lit 0 0) (series_exp x) && Bleb (series_exp x) (b64_lit 1 0)
  then series_exp x else b64_lit 1 0.
Definition sign_libm : Libm := mkLibm kept_exp (lm_ln demo_libm) (lm_cos demo_libm) (lm_sin demo_libm).
Lemma lit_0 : B2R (b64_lit 0 0) = 0 /\ finite (b64_lit 0 0).
Proof.
  assert (E : B2SF (b64_lit 0 0) = SpecFloat.S754_zero false) by (vm_compute; reflexivity).
  split; [rewrite <- SF2R_B2SF, E; reflexivity|]. unfold finite. rewrite <- is_finite_SF_B2SF, E. reflexivity.
Qed.
Lemma sign_libm_bounded : exponential_bounded sign_libm.
Proof.
  split; [reflexivity|]. intros x N _. change (lm_exp sign_libm x) with (kept_exp x). unfold kept_exp. rewrite N.
  destruct lit_1 as (E1 & F1). destruct lit_0 as (E0 & F0).
  generalize (series_exp x) as c. intros c.
  destruct (is_finite c && Bleb (b64_lit 0 0) c && Bleb c (b64_lit 1 0)) eqn:K.
  - apply andb_true_iff in K as (K & U). apply andb_true_iff in K as (F & L).
    apply Bleb_iff in L as (_ & _ & L). apply Bleb_iff in U as (_ & _ & U).
    rewrite (val_finite c F) in L, U. rewrite (val_finite _ F0) in L. rewrite (val_finite _ F1) in U.
    unfold value. rewrite E0 in L. rewrite E1 in U. split; [exact F|split; assumption].
  - unfold value. rewrite E1. split; [exact F1|lra].
Qed.
(** a cold exchanger that rejects 500 W or takes up 500 W, and a regenerator between 340 K and 800 K *)
Definition sign_fc : FixedConductance b64 := @chx_FixedConductance_default b64 (b64_ops sign_libm true).
Definition sign_hx (q : b64) : HeatExchanger b64 := {| hx_temp := b64_lit 340 0; hx_pres := b64_lit 5 6;
  hx_dens := b64_lit 7 0; hx_cp := b64_lit 5193 0; hx_m_dot := b64_lit 2 (-2); hx_Q_dot := q |}.
Definition cold_state (q : b64) : ChxState b64 := mkChxState (sign_hx q) (b64_lit 300 0).
Definition regen_state : RegenState b64 := mkRegenState (sign_hx (b64_lit 0 0)) (b64_lit 340 0) (b64_lit 800 0).
Definition sign_check : bool :=
  let ops := b64_ops sign_libm true in
  is_finite (@chx_fc_approach b64 ops sign_fc (cold_state (b64_lit 500 0))) &&
  Bltb (b64_lit 1 (-2)) (@chx_fc_approach b64 ops sign_fc (cold_state (b64_lit 500 0))) &&
  Bltb (@chx_fc_approach b64 ops sign_fc (cold_state (b64_lit (-500) 0))) (b64_lit (-1) (-2)) &&
  Bltb (b64_lit 1 0) (@regen_fc_approach b64 ops sign_fc regen_state) &&
  negb (Bsign (fc_UA sign_fc)) && negb (Bsign (b64_lit 5193 0)) && negb (Bsign (b64_lit 2 (-2))).
Lemma sign_check_true : sign_check = true.
Proof. vm_cast_no_check (eq_refl true). Qed.
Lemma sign_case :
  exponential_bounded sign_libm /\ unsigned (fc_UA sign_fc) /\
  unsigned (hx_cp (sign_hx (b64_lit 500 0))) /\ unsigned (hx_m_dot (sign_hx (b64_lit 500 0))) /\
  Bltb (b64_lit 1 (-2)) (@chx_fc_approach b64 (b64_ops sign_libm true) sign_fc (cold_state (b64_lit 500 0))) = true /\
  Bltb (@chx_fc_approach b64 (b64_ops sign_libm true) sign_fc (cold_state (b64_lit (-500) 0))) (b64_lit (-1) (-2)) = true /\
  Bltb (b64_lit 1 0) (@regen_fc_approach b64 (b64_ops sign_libm true) sign_fc regen_state) = true.
Proof.
  pose proof sign_check_true as H. unfold sign_check in H.
  apply andb_true_iff in H as (H & H7). apply andb_true_iff in H as (H & H6). apply andb_true_iff in H as (H & H5).
  apply andb_true_iff in H as (H & H4). apply andb_true_iff in H as (H & H3). apply andb_true_iff in H as (_ & H2).
  apply negb_true_iff in H5, H6, H7.
  split; [exact sign_libm_bounded|]. split; [exact H5|]. split; [exact H6|]. split; [exact H7|].
  split; [exact H2|]. split; [exact H3|exact H4].
Qed.
Definition steps_check (t : list b64) : bool := forallb (fun '(a, b) => negb (Bsign (Bminus mode_NE b a))) (windows2 t).
Lemma swinging_steps : (forall a b, In (a, b) (windows2 (vs_time swinging)) -> unsigned (n_sub b a)) /\
  unsigned (n_lit 3 (-2)).
Proof.
  assert (H : steps_check (vs_time swinging) = true) by (vm_cast_no_check (eq_refl true)).
  split; [|vm_compute; reflexivity]. intros a b K. unfold steps_check in H. rewrite forallb_forall in H.
  specialize (H _ K). apply negb_true_iff in H. exact H.
Qed.
