(** * The rates of change depend evenly on the state and on time *)
From Coq Require Import ZArith NArith List Reals Lra Lia Psatz.
From Verif Require Import RNum RFluid RSampleReport RContract RFlowBound.
Local Open Scope R_scope.

(** two values of size at most [B] that differ by at most [L d] *)
Definition tame (B L d u v : R) : Prop := Rabs u <= B /\ Rabs v <= B /\ Rabs (u - v) <= L * d.
Lemma tame_add B1 L1 B2 L2 d u v x y : tame B1 L1 d u v -> tame B2 L2 d x y -> tame (B1 + B2) (L1 + L2) d (u + x) (v + y).
Proof.
  intros (H1 & H2 & H3) (G1 & G2 & G3). split; [apply abs_le_add; assumption|]. split; [apply abs_le_add; assumption|].
  replace (u + x - (v + y)) with ((u - v) + (x - y)) by ring. rewrite Rmult_plus_distr_r. apply abs_le_add; assumption.
Qed.
Lemma tame_sub B1 L1 B2 L2 d u v x y : tame B1 L1 d u v -> tame B2 L2 d x y -> tame (B1 + B2) (L1 + L2) d (u - x) (v - y).
Proof.
  intros (H1 & H2 & H3) (G1 & G2 & G3). split; [apply abs_le_sub; assumption|]. split; [apply abs_le_sub; assumption|].
  replace (u - x - (v - y)) with ((u - v) - (x - y)) by ring. rewrite Rmult_plus_distr_r. apply abs_le_sub; assumption.
Qed.
Lemma tame_mul B1 L1 B2 L2 d u v x y : tame B1 L1 d u v -> tame B2 L2 d x y -> tame (B1 * B2) (B1 * L2 + L1 * B2) d (u * x) (v * y).
Proof.
  intros (H1 & H2 & H3) (G1 & G2 & G3). split; [apply abs_le_mul; assumption|]. split; [apply abs_le_mul; assumption|].
  replace (u * x - v * y) with (u * (x - y) + (u - v) * y) by ring.
  replace ((B1 * L2 + L1 * B2) * d) with (B1 * (L2 * d) + L1 * d * B2) by ring. apply abs_le_add; apply abs_le_mul; assumption.
Qed.
Lemma tame_const k d : tame (Rabs k) 0 d k k.
Proof. split; [lra|]. split; [lra|]. rewrite Rminus_diag_eq, Rabs_R0 by reflexivity. lra. Qed.
Lemma tame_inv m B L d u v : 0 < m -> m <= u -> m <= v -> tame B L d u v -> tame (/ m) (L * (/ m * / m)) d (/ u) (/ v).
Proof.
  intros M U V (_ & _ & H). assert (I : forall x, m <= x -> 0 < / x <= / m).
  { intros x Hx. split; [apply Rinv_0_lt_compat; lra|apply Rinv_le_contravar; lra]. }
  pose proof (I u U) as IU. pose proof (I v V) as IV. split; [rewrite Rabs_right; lra|]. split; [rewrite Rabs_right; lra|].
  replace (/ u - / v) with ((v - u) * (/ u * / v)) by (field; lra). replace (L * (/ m * / m) * d) with (L * d * (/ m * / m)) by ring.
  apply abs_le_mul; [rewrite Rabs_minus_sym; exact H|]. apply abs_le_mul; rewrite Rabs_right; lra.
Qed.
Lemma tame_max B L d u v : tame B L d u v -> tame B L d (Rmax u 0) (Rmax v 0).
Proof.
  unfold tame. intros (H1 & H2 & H3). apply abs_le_iff in H1, H2, H3. rewrite !abs_le_iff.
  unfold Rmax. destruct (Rle_dec u 0), (Rle_dec v 0); lra.
Qed.
Lemma tame_min B L d u v : tame B L d u v -> tame B L d (Rmin u 0) (Rmin v 0).
Proof.
  unfold tame. intros (H1 & H2 & H3). apply abs_le_iff in H1, H2, H3. rewrite !abs_le_iff.
  unfold Rmin. destruct (Rle_dec u 0), (Rle_dec v 0); lra.
Qed.
Lemma tame_less B L B' L' d u v : 0 <= d -> B <= B' -> L <= L' -> tame B L d u v -> tame B' L' d u v.
Proof.
  intros D H1 H2 (A1 & A2 & A3). split; [lra|]. split; [lra|]. apply Rle_trans with (1 := A3). apply Rmult_le_compat_r; assumption.
Qed.

Section Pure.
  Variables (a T0 T_low T_top P_top V_lo V_hi v_hi K M : R).
  Hypothesis Ha : 0 < a <= 1.
  Hypothesis H0 : 0 < T0 < T_low.
  Hypothesis HV0 : 0 < V_lo.
  Hypothesis Hv : 0 <= v_hi.
  Hypothesis HK : 0 < K.
  Let zm := / (T_low - T0).
  Lemma out_inv T : T0 < T -> out T0 (/ T) = / (T - T0).
  Proof. intros H. unfold out. field. lra. Qed.
  (** the flow into a space, at pressures that change at rates [y1] and [y2] *)
  Lemma flow_tame Y Ly d f V1 V2 dV1 dV2 x1 x2 y1 y2 : 0 < f <= zm -> tame V_hi v_hi d V1 V2 -> tame v_hi M d dV1 dV2 ->
    tame T_top 1 d x1 x2 -> T_low <= x1 -> T_low <= x2 -> tame Y Ly d y1 y2 ->
    let W := Rabs a * V_hi * Y + v_hi in
    let Lw := Rabs a * V_hi * Ly + (Rabs a * v_hi + 0 * V_hi) * Y + M in
    tame (W * zm + W * zm) ((W * 0 + Lw * zm) + (W * (1 * (zm * zm)) + Lw * zm)) d (flow a T0 V1 dV1 f y1 (/ x1)) (flow a T0 V2 dV2 f y2 (/ x2)).
  Proof.
    intros Hf HV HdV HT L1 L2 Hy W Lw. unfold flow. cbv zeta. rewrite !out_inv by lra.
    assert (TW : tame W Lw d (a * V1 * y1 + dV1) (a * V2 * y2 + dV2)).
    { apply tame_add; [|exact HdV]. apply tame_mul; [|exact Hy]. apply tame_mul; [apply tame_const|exact HV]. }
    assert (TZ : tame zm (1 * (zm * zm)) d (/ (x1 - T0)) (/ (x2 - T0))).
    { apply (tame_inv (T_low - T0) (T_top + Rabs T0) 1); try lra. replace 1 with (1 + 0) by ring. apply tame_sub; [exact HT|apply tame_const]. }
    apply tame_add; (apply tame_mul; [first [apply tame_max, TW|apply tame_min, TW]|]); [|exact TZ].
    split; [rewrite Rabs_right; lra|]. split; [rewrite Rabs_right; lra|]. rewrite Rminus_diag_eq, Rabs_R0 by reflexivity. lra.
  Qed.
  Let Y := 2 * v_hi * zm / K.
  Section Two.
    Variables (d fc fe F V1 V2 dV1 dV2 W1 W2 dW1 dW2 x1 x2 z1 z2 P1 P2 y1 y2 : R).
    Hypothesis Hd : 0 <= d.
    Hypothesis Hfc : 0 < fc <= zm.
    Hypothesis Hfe : 0 < fe <= zm.
    Hypothesis HF : K <= F.
    Hypothesis TV : tame V_hi v_hi d V1 V2.
    Hypothesis TW : tame V_hi v_hi d W1 W2.
    Hypothesis TdV : tame v_hi M d dV1 dV2.
    Hypothesis TdW : tame v_hi M d dW1 dW2.
    Hypothesis Tx : tame T_top 1 d x1 x2.
    Hypothesis Tz : tame T_top 1 d z1 z2.
    Hypothesis TP : tame P_top 1 d P1 P2.
    Hypothesis Lo : V_lo <= V1 /\ V_lo <= V2 /\ V_lo <= W1 /\ V_lo <= W2 /\ T_low <= x1 /\ T_low <= x2 /\ T_low <= z1 /\ T_low <= z2.
    Let nc V dV x y := flow a T0 V dV fc y (/ x).
    Let ne V dV x y := flow a T0 V dV fe y (/ x).
    Hypothesis E1 : nc V1 dV1 x1 y1 + ne W1 dW1 z1 y1 + F * y1 = 0.
    Hypothesis E2 : nc V2 dV2 x2 y2 + ne W2 dW2 z2 y2 + F * y2 = 0.
    Lemma zm_pos : 0 < zm.
    Proof. apply Rinv_0_lt_compat. lra. Qed.
    Lemma out_range x : T_low <= x -> 0 < out T0 (/ x) <= zm.
    Proof. intros H. rewrite out_inv by lra. split; [apply Rinv_0_lt_compat; lra|apply Rinv_le_contravar; lra]. Qed.
    Lemma y_bound V dV x W dW z y : 0 < V -> 0 < W -> Rabs dV <= v_hi -> Rabs dW <= v_hi -> T_low <= x -> T_low <= z ->
      nc V dV x y + ne W dW z y + F * y = 0 -> Rabs y <= Y.
    Proof.
      intros PV PW A1 A2 B1 B2 E. unfold nc, ne in E. pose proof zm_pos as Z0.
      destruct (flow_factor a T0 V dV fc y (/ x) zm Hfc (out_range x B1)) as (k1 & K1 & N1).
      destruct (flow_factor a T0 W dW fe y (/ z) zm Hfe (out_range z B2)) as (k2 & K2 & N2).
      rewrite N1, N2 in E.
      assert (Q : y * (F + a * V * k1 + a * W * k2) = - (dV * k1 + dW * k2)) by lra.
      assert (P1' : 0 <= a * V * k1) by (apply Rmult_le_pos; [apply Rmult_le_pos|]; lra).
      assert (P2' : 0 <= a * W * k2) by (apply Rmult_le_pos; [apply Rmult_le_pos|]; lra).
      assert (B : Rabs y * K <= 2 * v_hi * zm).
      { apply Rle_trans with (Rabs y * (F + a * V * k1 + a * W * k2)).
        - apply Rmult_le_compat_l; [apply Rabs_pos|lra].
        - rewrite <- (Rabs_right (F + a * V * k1 + a * W * k2)), <- Rabs_mult, Q, Rabs_Ropp by lra.
          replace (2 * v_hi * zm) with (v_hi * zm + v_hi * zm) by ring.
          apply abs_le_add; apply abs_le_mul; try assumption; rewrite Rabs_right; lra. }
      unfold Y. apply (Rmult_le_reg_r K); [exact HK|]. replace (2 * v_hi * zm / K * K) with (2 * v_hi * zm) by (field; lra). exact B.
    Qed.
    Let W0 := Rabs a * V_hi * Y + v_hi.
    Let Lw0 := Rabs a * V_hi * 0 + (Rabs a * v_hi + 0 * V_hi) * Y + M.
    Let Lf := (W0 * 0 + Lw0 * zm) + (W0 * (1 * (zm * zm)) + Lw0 * zm).
    Definition y_speed := 2 * Lf / K.
    Lemma y_tame : tame Y y_speed d y1 y2.
    Proof.
      destruct TV as (_ & _ & TV3). destruct TdV as (V1b & V2b & _). destruct TdW as (W1b & W2b & _).
      destruct Lo as (L1 & L2 & L3 & L4 & L5 & L6 & L7 & L8).
      assert (B1 : Rabs y1 <= Y) by (apply (y_bound V1 dV1 x1 W1 dW1 z1); try assumption; lra).
      assert (B2 : Rabs y2 <= Y) by (apply (y_bound V2 dV2 x2 W2 dW2 z2); try assumption; lra).
      split; [exact B1|]. split; [exact B2|].
      assert (TY : tame Y 0 d y2 y2) by (split; [exact B2|split; [exact B2|rewrite Rminus_diag_eq, Rabs_R0 by reflexivity; lra]]).
      destruct (flow_tame Y 0 d fc V1 V2 dV1 dV2 x1 x2 y2 y2 Hfc TV TdV Tx L5 L6 TY) as (_ & _ & D1).
      destruct (flow_tame Y 0 d fe W1 W2 dW1 dW2 z1 z2 y2 y2 Hfe TW TdW Tz L7 L8 TY) as (_ & _ & D2).
      fold W0 in D1, D2. fold Lw0 in D1, D2. fold Lf in D1, D2.
      assert (MO : K * Rabs (y1 - y2) <= Rabs ((nc V1 dV1 x1 y1 - nc V1 dV1 x1 y2) + (ne W1 dW1 z1 y1 - ne W1 dW1 z1 y2) + F * (y1 - y2))).
      { assert (R1 : forall p q, q <= p -> 0 <= nc V1 dV1 x1 p - nc V1 dV1 x1 q).
        { intros p q Hpq. unfold nc. apply (flow_rate a T0 Ha V1 dV1 fc p q (/ x1) zm); [lra|exact Hfc|apply out_range; assumption|exact Hpq]. }
        assert (R2 : forall p q, q <= p -> 0 <= ne W1 dW1 z1 p - ne W1 dW1 z1 q).
        { intros p q Hpq. unfold ne. apply (flow_rate a T0 Ha W1 dW1 fe p q (/ z1) zm); [lra|exact Hfe|apply out_range; assumption|exact Hpq]. }
        destruct (Rle_lt_dec y2 y1) as [C|C].
        - specialize (R1 y1 y2 C). specialize (R2 y1 y2 C). assert (K * (y1 - y2) <= F * (y1 - y2)) by (apply Rmult_le_compat_r; lra).
          rewrite (Rabs_right (y1 - y2)) by lra. eapply Rle_trans; [|apply Rle_abs]. lra.
        - specialize (R1 y2 y1 ltac:(lra)). specialize (R2 y2 y1 ltac:(lra)). assert (K * (y2 - y1) <= F * (y2 - y1)) by (apply Rmult_le_compat_r; lra).
          rewrite (Rabs_left (y1 - y2)) by lra. rewrite <- Rabs_Ropp. eapply Rle_trans; [|apply Rle_abs]. lra. }
      replace (nc V1 dV1 x1 y1 - nc V1 dV1 x1 y2 + (ne W1 dW1 z1 y1 - ne W1 dW1 z1 y2) + F * (y1 - y2))
        with (- ((nc V1 dV1 x1 y2 - nc V2 dV2 x2 y2) + (ne W1 dW1 z1 y2 - ne W2 dW2 z2 y2))) in MO by lra.
      rewrite Rabs_Ropp in MO. assert (S : K * Rabs (y1 - y2) <= Lf * d + Lf * d).
      { apply Rle_trans with (1 := MO). apply abs_le_add; assumption. }
      unfold y_speed. apply (Rmult_le_reg_l K); [exact HK|]. replace (K * (2 * Lf / K * d)) with (Lf * d + Lf * d) by (field; lra). exact S.
    Qed.
  End Two.
  Lemma rates_tame_evenly : exists B L, 0 <= B /\ 0 <= L /\
    forall d fc fe F V1 V2 dV1 dV2 W1 W2 dW1 dW2 x1 x2 z1 z2 P1 P2 y1 y2,
    0 <= d -> 0 < fc <= zm -> 0 < fe <= zm -> K <= F ->
    tame V_hi v_hi d V1 V2 -> tame V_hi v_hi d W1 W2 -> tame v_hi M d dV1 dV2 -> tame v_hi M d dW1 dW2 ->
    tame T_top 1 d x1 x2 -> tame T_top 1 d z1 z2 -> tame P_top 1 d P1 P2 ->
    V_lo <= V1 /\ V_lo <= V2 /\ V_lo <= W1 /\ V_lo <= W2 /\ T_low <= x1 /\ T_low <= x2 /\ T_low <= z1 /\ T_low <= z2 ->
    flow a T0 V1 dV1 fc y1 (/ x1) + flow a T0 W1 dW1 fe y1 (/ z1) + F * y1 = 0 ->
    flow a T0 V2 dV2 fc y2 (/ x2) + flow a T0 W2 dW2 fe y2 (/ z2) + F * y2 = 0 ->
    tame B L d (y1 * P1) (y2 * P2) /\
    tame B L d (x1 * (y1 + dV1 * / V1) - x1 * x1 * (flow a T0 V1 dV1 fc y1 (/ x1) * / V1))
      (x2 * (y2 + dV2 * / V2) - x2 * x2 * (flow a T0 V2 dV2 fc y2 (/ x2) * / V2)) /\
    tame B L d (z1 * (y1 + dW1 * / W1) - z1 * z1 * (flow a T0 W1 dW1 fe y1 (/ z1) * / W1))
      (z2 * (y2 + dW2 * / W2) - z2 * z2 * (flow a T0 W2 dW2 fe y2 (/ z2) * / W2)).
  Proof.
    set (B1 := Y * P_top). set (L1 := Y * 1 + y_speed * P_top).
    set (Wb := Rabs a * V_hi * Y + v_hi). set (Lw := Rabs a * V_hi * y_speed + (Rabs a * v_hi + 0 * V_hi) * Y + M).
    set (Fb := Wb * zm + Wb * zm). set (Fl := (Wb * 0 + Lw * zm) + (Wb * (1 * (zm * zm)) + Lw * zm)).
    assert (X : exists B2 L2, forall d f V1 V2 dV1 dV2 x1 x2 y1 y2, 0 < f <= zm -> tame V_hi v_hi d V1 V2 -> tame v_hi M d dV1 dV2 ->
      tame T_top 1 d x1 x2 -> T_low <= x1 -> T_low <= x2 -> V_lo <= V1 -> V_lo <= V2 -> tame Y y_speed d y1 y2 ->
      tame B2 L2 d (x1 * (y1 + dV1 * / V1) - x1 * x1 * (flow a T0 V1 dV1 f y1 (/ x1) * / V1))
        (x2 * (y2 + dV2 * / V2) - x2 * x2 * (flow a T0 V2 dV2 f y2 (/ x2) * / V2))).
    { eexists. eexists. intros d f V1 V2 dV1 dV2 x1 x2 y1 y2 Hf TV TdV Tx A1 A2 A3 A4 TY.
      pose proof (flow_tame Y y_speed d f V1 V2 dV1 dV2 x1 x2 y1 y2 Hf TV TdV Tx A1 A2 TY) as TF. cbv zeta in TF. fold Wb Lw in TF. fold Fb Fl in TF.
      pose proof (tame_inv V_lo V_hi v_hi d V1 V2 HV0 A3 A4 TV) as TI.
      exact (tame_sub _ _ _ _ _ _ _ _ _ (tame_mul _ _ _ _ _ _ _ _ _ Tx (tame_add _ _ _ _ _ _ _ _ _ TY (tame_mul _ _ _ _ _ _ _ _ _ TdV TI)))
        (tame_mul _ _ _ _ _ _ _ _ _ (tame_mul _ _ _ _ _ _ _ _ _ Tx Tx) (tame_mul _ _ _ _ _ _ _ _ _ TF TI))). }
    destruct X as (B2 & L2 & X).
    exists (Rmax 0 (Rmax B1 B2)), (Rmax 0 (Rmax L1 L2)). split; [apply Rmax_l|]. split; [apply Rmax_l|].
    assert (QB1 : B1 <= Rmax 0 (Rmax B1 B2)) by (eapply Rle_trans; [|apply Rmax_r]; apply Rmax_l).
    assert (QB2 : B2 <= Rmax 0 (Rmax B1 B2)) by (eapply Rle_trans; [|apply Rmax_r]; apply Rmax_r).
    assert (QL1 : L1 <= Rmax 0 (Rmax L1 L2)) by (eapply Rle_trans; [|apply Rmax_r]; apply Rmax_l).
    assert (QL2 : L2 <= Rmax 0 (Rmax L1 L2)) by (eapply Rle_trans; [|apply Rmax_r]; apply Rmax_r).
    intros d fc fe F V1 V2 dV1 dV2 W1 W2 dW1 dW2 x1 x2 z1 z2 P1 P2 y1 y2 Hd Hfc Hfe HF TV TW TdV TdW Tx Tz TP Lo E1 E2.
    pose proof (y_tame d fc fe F V1 V2 dV1 dV2 W1 W2 dW1 dW2 x1 x2 z1 z2 y1 y2 Hfc Hfe HF TV TW TdV TdW Tx Tz Lo E1 E2) as TY.
    destruct Lo as (A1 & A2 & A3 & A4 & A5 & A6 & A7 & A8).
    split; [|split].
    - apply (tame_less B1 L1); try assumption. unfold B1, L1. apply tame_mul; assumption.
    - apply (tame_less B2 L2); try assumption. apply X; assumption.
    - apply (tame_less B2 L2); try assumption. apply X; assumption.
  Qed.
End Pure.
