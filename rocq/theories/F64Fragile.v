(** * Physical f64 inputs for which the search for flow directions never settles *)
From Coq Require Import ZArith NArith List Reals Bool Lra Lia.
From Flocq Require Import Core BinarySingleNaN.
From Verif Require Import Num ModelTypes ModelWs ModelHx ModelStateEq ModelEngine ModelApi RNum B64 Fixture Spec
  SpecR SpecF64 SpecRound SpecBalance SpecMargin F64Base F64Err PolySolve RSolve F64Balance F64BalanceCase F64Margin.
Import ListNotations.
Local Open Scope R_scope.

(** helium at 10 MPa: spaces at 311 K and 854 K, exchangers at 300 K and 900 K,
    regenerator at 600 K; the flow between compression space and cold exchanger
    is about to turn *)
Definition turning_inputs : Inputs b64 :=
  mkInputs (n_lit (1) (7)) (n_lit (31158) (2))
    (mkWsIn (n_lit (16) (-6)) (n_lit (1548) (-2)) (n_lit (96904) (1)) (n_lit (1615) (3)) (n_lit (1548) (-9)) (n_lit (-49776) (-6)) n0 (n_lit (31159) (-1)) (n_lit (23) (-5)) n0)
    (mkHxIn (n_lit (35) (-6)) (n_lit (16048) (-3)) (n_lit (93477) (1)) (n_lit (15579) (2)) (n_lit (16048) (-10)) n0)
    (mkRegIn (n_lit (24) (-6)) (n_lit (8024) (-3)) (n_lit (18695) (2)) (n_lit (15579) (2)) (n_lit (46737) (2)) (n_lit (8024) (-10)) n0)
    (mkHxIn (n_lit (19) (-6)) (n_lit (53493) (-4)) (n_lit (28043) (2)) (n_lit (46737) (2)) (n_lit (53493) (-11)) n0)
    (mkWsIn (n_lit (23) (-6)) (n_lit (56375) (-4)) (n_lit (2661) (3)) (n_lit (44348) (2)) (n_lit (56375) (-11)) (n_lit (-66013) (-7)) n0 (n_lit (31159) (-1)) (n_lit (416388129990437) (-17)) n0).

Definition all_directions : list Direction := [Positive; Negative; Unknown].
Definition all_flow_directions : list FlowDirection :=
  flat_map (fun a => flat_map (fun b => flat_map (fun c => map (fun d => mkFD a b c d) all_directions)
    all_directions) all_directions) all_directions.
Lemma all_flow_directions_complete d : In d all_flow_directions.
Proof.
  assert (A : forall a, In a all_directions) by (intros []; cbn; auto).
  destruct d as [a b c d]. unfold all_flow_directions.
  apply in_flat_map. exists a. split; [apply A|]. apply in_flat_map. exists b. split; [apply A|].
  apply in_flat_map. exists c. split; [apply A|]. apply in_map, A.
Qed.

Definition not_found (r : result (Solution b64) SolveError) : bool :=
  match r with Err FlowDirectionsNotFound => true | _ => false end.
Lemma not_found_eq r : not_found r = true -> r = Err FlowDirectionsNotFound.
Proof. destruct r as [s|[|]]; try discriminate. reflexivity. Qed.
Lemma turning_checked :
  forallb (fun d => not_found (solve checked_gauss turning_inputs d)) all_flow_directions = true.
Proof. vm_cast_no_check (eq_refl true). Qed.
Lemma turning_fails d : solve checked_gauss turning_inputs d = Err FlowDirectionsNotFound.
Proof.
  pose proof turning_checked as H. rewrite forallb_forall in H.
  apply not_found_eq. apply H. apply all_flow_directions_complete.
Qed.

(** ** The inputs are physical *)
Definition lt_checks (x y : b64) : bool := is_finite x && is_finite y && Bltb x y.
Lemma lt_checked x y : lt_checks x y = true -> value x < value y.
Proof.
  unfold lt_checks. rewrite !andb_true_iff. intros ((Fx & Fy) & H). apply Bltb_iff in H. destruct H as (_ & _ & H).
  rewrite (val_finite x Fx), (val_finite y Fy) in H. exact H.
Qed.
Lemma value_n0 : value n0 = 0.
Proof. exact (value_0 demo_libm true). Qed.
Definition pos_checks (x : b64) : bool := lt_checks n0 x.
Lemma pos_checked x : pos_checks x = true -> 0 < value x.
Proof. intros H. apply lt_checked in H. rewrite value_n0 in H. exact H. Qed.
Definition is_zero (x : b64) : bool := match x with B754_zero _ => true | _ => false end.
(** a gas that expands on heating, with energy depending on temperature only *)
Definition space_checks (w : WorkingSpaceIn b64) (h : b64) : bool :=
  pos_checks (wi_vol w) && pos_checks (wi_dens w) && pos_checks (wi_du_dT_P w) && pos_checks (wi_dd_dP_T w) &&
  lt_checks (wi_dd_dT_P w) n0 && is_zero (wi_du_dP_T w) && lt_checks (wi_inte w) (wi_enth w) && lt_checks (wi_inte w) h.
Lemma is_zero_value (x : b64) : is_zero x = true -> value x = 0.
Proof. destruct x; try discriminate. reflexivity. Qed.
Lemma space_checked w h : space_checks w h = true -> physical_space (ws_values w) (value h).
Proof.
  unfold space_checks. rewrite !andb_true_iff. intros (((((((H1 & H2) & H3) & H4) & H5) & H6) & H7) & H8).
  apply pos_checked in H1, H2, H3, H4. apply lt_checked in H5, H7, H8. rewrite value_n0 in H5. apply is_zero_value in H6.
  unfold physical_space, ws_values; cbn [wi_vol wi_dens wi_du_dT_P wi_dd_dT_P wi_du_dP_T wi_dd_dP_T wi_enth wi_inte].
  rewrite H6. repeat split; try assumption; try nra.
Qed.
Definition physical_checks (i : Inputs b64) : bool :=
  is_finite_strict (in_enth_norm i) && space_checks (in_comp i) (hi_enth (in_chx i)) &&
  space_checks (in_exp i) (hi_enth (in_hhx i)) &&
  pos_checks (hi_vol (in_chx i)) && pos_checks (hi_dd_dP_T (in_chx i)) &&
  pos_checks (gi_vol (in_regen i)) && pos_checks (gi_dd_dP_T (in_regen i)) &&
  pos_checks (hi_vol (in_hhx i)) && pos_checks (hi_dd_dP_T (in_hhx i)).
Lemma physical_checked i : physical_checks i = true -> physical (input_values i).
Proof.
  unfold physical_checks. rewrite !andb_true_iff.
  intros ((((((((H0 & H1) & H2) & H3) & H4) & H5) & H6) & H7) & H8).
  apply pos_checked in H3, H4, H5, H6, H7, H8. apply space_checked in H1, H2. apply strict_nonzero in H0.
  split; [exact H0|]. split; [exact H1|]. split; [exact H2|].
  repeat split; apply Rlt_le; assumption.
Qed.
Lemma turning_physical : physical (input_values turning_inputs).
Proof. apply physical_checked. vm_cast_no_check (eq_refl true). Qed.
Lemma turning_exact D hint : sound D -> complete D -> exists s, solve D (input_values turning_inputs) hint = Ok s.
Proof. exact (solve_succeeds _ turning_physical D hint). Qed.

(** the caller panics *)
Lemma turning_panics c p : cy_calculate_inputs c (pt_time p) (pt_conditions p) = turning_inputs ->
  into_state_values checked_gauss c [p] = Panic PSolveFailed.
Proof. intros H. unfold into_state_values. cbn [into_state_values_from]. rewrite H, turning_fails. reflexivity. Qed.
