(** * The search for flow directions in f64 follows the exact one where flows are resolved *)
From Coq Require Import ZArith NArith List Reals Bool Lra Lia.
From Flocq Require Import Core BinarySingleNaN.
From Verif Require Import Num ModelTypes ModelWs ModelHx ModelStateEq ModelEngine ModelApi RNum B64 Spec SpecR SpecF64
  SpecRound SpecBalance SpecMargin F64Base F64Err PolySolve RSolve F64Balance.
Import ListNotations.
Local Open Scope R_scope.

Section Flt.
  Context (lm : Libm) (nt : bool).
  #[local] Instance fops : NumOps b64 := b64_ops lm nt.

  Lemma finite_n0 : finite n0.
  Proof. assert (E : is_finite (b64_lit 0 0) = true) by (vm_compute; reflexivity). exact E. Qed.
  Lemma le_zero (z m : b64) : finite z -> B2R z = 0 -> finite m -> Bleb z m = Rle_bool 0 (value m).
  Proof.
    intros Fz Z F. rewrite (Bleb_val z m (finite_not_nan _ Fz) (finite_not_nan _ F)).
    rewrite (val_finite z Fz), (val_finite m F), Z. reflexivity.
  Qed.
  Lemma le0_value (m : b64) : finite m -> n_le n0 m = Rle_bool 0 (value m).
  Proof. exact (le_zero n0 m finite_n0 (value_0 lm nt)). Qed.
  Lemma resolves_sign m m' : resolves m m' -> sign_of m' = sign_of m.
  Proof.
    intros (F & H). unfold sign_of. rewrite (le0_value m' F).
    assert (E : n_le n0 m = Rle_bool 0 m).
    { assert (Z : n0 = 0) by (cbn -[IZR]; lra).
      cbn [n_le R_ops]. rewrite Z. destruct (Rle_dec 0 m), (Rle_bool_spec 0 m); try reflexivity; exfalso; lra. }
    rewrite E. destruct (Rle_bool_spec 0 m) as [P|P]; destruct (Rle_bool_spec 0 (value m')) as [Q|Q]; try reflexivity; exfalso.
    - rewrite (Rabs_pos_eq m P) in H. apply Rabs_def2 in H. lra.
    - rewrite (Rabs_left m P) in H. apply Rabs_def2 in H. lra.
  Qed.
  Lemma resolves_signs s s' : resolves_flows s s' -> signs s' = signs s.
  Proof.
    intros (H1 & H2 & H3 & H4). unfold signs.
    rewrite (resolves_sign _ _ H1), (resolves_sign _ _ H2), (resolves_sign _ _ H3), (resolves_sign _ _ H4). reflexivity.
  Qed.

  Lemma follow D D' i n d tr r : resolving D D' i -> search D (input_values i) n d tr r ->
    forall s, r = Ok s ->
    exists s', solve_loop D' (System_new i) n d = (tr, Ok s') /\ resolves_flows s s'.
  Proof.
    intros HR H. induction H as [d|n d Hf|n d s Hs He|n d s tr r Hs He Hr IH]; intros s0 E; try discriminate E.
    - assert (s = s0) by congruence. subst s0. destruct (HR _ _ Hs) as (s' & Hs' & Hc). exists s'. split; [|exact Hc].
      apply System_solve_Some in Hs'. cbn [solve_loop]. rewrite Hs', from_solution_signs, (resolves_signs _ _ Hc).
      rewrite (proj2 (FlowDirection_eqb_eq d (signs s)) He). reflexivity.
    - destruct (HR _ _ Hs) as (s1 & Hs' & Hc). destruct (IH s0 E) as (s' & HL & Hc'). exists s'. split; [|exact Hc'].
      apply System_solve_Some in Hs'. cbn [solve_loop]. rewrite Hs', from_solution_signs, (resolves_signs _ _ Hc).
      rewrite (proj2 (FlowDirection_eqb_neq d (signs s)) He), HL. reflexivity.
  Qed.
  Lemma margin D D' i hint : sound D -> complete D -> physical (input_values i) -> resolving D D' i ->
    exists tr s s', solve_traced D (input_values i) hint = (tr, Ok s) /\ solve_traced D' i hint = (tr, Ok s') /\
      resolves_flows s s'.
  Proof.
    intros HS HC HP HR. destruct (solve_succeeds _ HP D hint HS HC) as (s & Hs).
    unfold solve in Hs. destruct (solve_traced D (input_values i) hint) as [tr r] eqn:E. cbn [snd] in Hs. subst r.
    unfold solve_traced in *. pose proof (solve_loop_search D (input_values i) (S ALLOWED_FLOW_UPDATES) hint) as HL.
    rewrite E in HL. cbn [fst snd] in HL.
    destruct (follow D D' i _ _ _ _ HR HL s eq_refl) as (s' & H & Hc).
    exists tr, s, s'. auto.
  Qed.
End Flt.
