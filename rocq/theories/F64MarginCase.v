(** * An engine state in which the flows are resolved *)
From Coq Require Import ZArith NArith List Reals Bool Lra Lia.
From Flocq Require Import Core BinarySingleNaN.
From Verif Require Import Num ModelTypes ModelWs ModelHx ModelStateEq ModelEngine ModelApi RNum B64 Fixture Spec
  SpecR SpecF64 SpecRound SpecBalance SpecMargin F64Base F64Err PolySolve RSolve RGauss F64Balance F64BalanceCase F64Margin.
Import ListNotations.
Local Open Scope R_scope.

(** ** An engine state in which the flows are resolved *)
Definition steady_inputs : Inputs b64 :=
  mkInputs n1 n1 (mkWsIn n1 n1 n0 n1 n1 n0 n0 n1 (n_lit (-10) 0) n0) (mkHxIn n1 n1 n0 n1 n1 n0)
    (mkRegIn n1 n1 n0 n1 n1 n1 n0) (mkHxIn n1 n1 n0 n1 n1 n0) (mkWsIn n1 n1 n0 n1 n1 n0 n0 n1 n0 n0).
Definition known_flows : Decomp b64 := fun _ _ =>
  Some (V10 (n_lit 8 0) (n_lit 6 0) (n_lit 4 0) (n_lit 2 0) n0 n0 n0 n0 n0 n0).
Definition steady_values : Inputs R :=
  mkInputs 1 1 (mkWsIn 1 1 0 1 1 0 0 1 (-10) 0) (mkHxIn 1 1 0 1 1 0)
    (mkRegIn 1 1 0 1 1 1 0) (mkHxIn 1 1 0 1 1 0) (mkWsIn 1 1 0 1 1 0 0 1 0 0).

Lemma float_value (x : b64) (f : float2) (r : R) : to_float x = f -> F2R f = r -> value x = r.
Proof. intros H <-. rewrite <- H. symmetry. apply to_float_value. Qed.
Ltac literal m e := apply (float_value _ (Float radix2 m e)); [vm_compute; reflexivity|unfold F2R; cbn; lra].
Lemma v_1 : value n1 = 1. Proof. literal 4503599627370496%Z (-52)%Z. Qed.
Lemma v_0 : value n0 = 0. Proof. literal 0%Z 0%Z. Qed.
Lemma v_m10 : value (n_lit (-10) 0) = -10. Proof. literal (-5629499534213120)%Z (-49)%Z. Qed.
Lemma v_8 : value (n_lit 8 0) = 8. Proof. literal 4503599627370496%Z (-49)%Z. Qed.
Lemma v_6 : value (n_lit 6 0) = 6. Proof. literal 6755399441055744%Z (-50)%Z. Qed.
Lemma v_4 : value (n_lit 4 0) = 4. Proof. literal 4503599627370496%Z (-50)%Z. Qed.
Lemma v_2 : value (n_lit 2 0) = 2. Proof. literal 4503599627370496%Z (-51)%Z. Qed.
Lemma steady_values_eq : input_values steady_inputs = steady_values.
Proof.
  unfold input_values, steady_inputs, ws_values, hx_values, reg_values.
  cbn [in_pres in_enth_norm in_comp in_chx in_regen in_hhx in_exp wi_vol wi_dens wi_inte wi_enth wi_dd_dP_T wi_dd_dT_P
       wi_du_dP_T wi_du_dT_P wi_dV_dt wi_Q_dot hi_vol hi_dens hi_inte hi_enth hi_dd_dP_T hi_du_dP_T
       gi_vol gi_dens gi_inte gi_enth_cold gi_enth_hot gi_dd_dP_T gi_du_dP_T].
  rewrite v_1, v_0, v_m10. reflexivity.
Qed.
Lemma steady_physical : physical (input_values steady_inputs).
Proof.
  rewrite steady_values_eq. unfold physical, physical_space, steady_values; cbn -[IZR]. repeat split; lra.
Qed.
Lemma known m' m (r : R) : finite m' -> value m' = r -> m = r -> r <> 0 -> resolves m m'.
Proof.
  intros F V -> N. split; [exact F|]. rewrite V. replace (r - r) with 0 by ring. rewrite Rabs_R0. apply Rabs_pos_lt, N.
Qed.
Lemma steady_resolving : resolving gauss known_flows steady_inputs.
Proof.
  intros d s (x & Hx & ->). rewrite steady_values_eq in Hx. apply gauss_sound in Hx.
  destruct x as [x0 x1 x2 x3 x4 x5 x6 x7 x8 x9].
  exists (named (V10 (n_lit 8 0) (n_lit 6 0) (n_lit 4 0) (n_lit 2 0) n0 n0 n0 n0 n0 n0)).
  split; [eexists; split; reflexivity|].
  assert (B : forall q, by_direction q (1 / 1) (1 / 1) = 1).
  { intros []; cbn -[IZR]; lra. }
  unfold steady_values in Hx. cbn [in_enth_norm in_comp in_chx in_regen in_hhx in_exp wi_enth hi_enth gi_enth_cold gi_enth_hot] in Hx.
  cbn [n_div R_ops] in Hx. rewrite !B in Hx.
  unfold mat_vec, dot, state_matrix, state_rhs in Hx; cbn -[IZR] in Hx.
  injection Hx as E0 E1 E2 E3 E4 E5 E6 E7 E8 E9.
  assert (F8 : finite (n_lit 8 0)) by (vm_cast_no_check (eq_refl true)).
  assert (F6 : finite (n_lit 6 0)) by (vm_cast_no_check (eq_refl true)).
  assert (F4 : finite (n_lit 4 0)) by (vm_cast_no_check (eq_refl true)).
  assert (F2 : finite (n_lit 2 0)) by (vm_cast_no_check (eq_refl true)).
  unfold resolves_flows, named; cbn [so_m_dot_ck so_m_dot_kr so_m_dot_rl so_m_dot_le v0 v1 v2 v3].
  split; [apply (known _ _ 8 F8 v_8); lra|]. split; [apply (known _ _ 6 F6 v_6); lra|].
  split; [apply (known _ _ 4 F4 v_4); lra|]. apply (known _ _ 2 F2 v_2); lra.
Qed.
