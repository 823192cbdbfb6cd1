(** * Rates, flows and heats depend evenly on the state of the gas and on the temperatures of the exchangers *)
From Coq Require Import ZArith NArith List Reals Lra Lia Psatz.
From Verif Require Import RNum RFluid RSampleReport RContract RFlowBound RTame.
Local Open Scope R_scope.

Lemma tame_opp B L d u v : tame B L d u v -> tame B L d (- u) (- v).
Proof.
  intros (H1 & H2 & H3). split; [rewrite Rabs_Ropp; exact H1|]. split; [rewrite Rabs_Ropp; exact H2|].
  replace (- u - - v) with (- (u - v)) by ring. rewrite Rabs_Ropp. exact H3.
Qed.
Lemma tame_same B d u : Rabs u <= B -> tame B 0 d u u.
Proof. intros H. split; [exact H|]. split; [exact H|]. rewrite Rminus_diag_eq, Rabs_R0 by reflexivity. lra. Qed.
Lemma tame_abs B L d u v : tame B L d u v -> tame B L d (Rabs u) (Rabs v).
Proof.
  intros (H1 & H2 & H3). rewrite <- (Rabs_Rabsolu u) in H1. rewrite <- (Rabs_Rabsolu v) in H2. split; [exact H1|]. split; [exact H2|].
  apply Rle_trans with (2 := H3). apply Rabs_triang_inv2.
Qed.

Section Pure.
  Variables (a T0 T_low T_top P_top V_lo V_hi v_hi K vk vr vl Rg cp cv Tr : R).
  Hypothesis Ha : 0 < a <= 1.
  Hypothesis H0 : 0 < T0 < T_low.
  Hypothesis HV0 : 0 < V_lo.
  Hypothesis Hv : 0 <= v_hi.
  Hypothesis HK : 0 < K.
  Let zm := / (T_low - T0).
  Let Y := 2 * v_hi * zm / K.
  Lemma zm_pos' : 0 < zm.
  Proof. apply Rinv_0_lt_compat. lra. Qed.
  Lemma out_is T : T0 < T -> out T0 (/ T) = / (T - T0).
  Proof. intros H. unfold out. field. lra. Qed.
  Let inside T := T_low <= T <= T_top.
  Let heat_in T := cp * (T - Tr).
  Let up m h1 h2 := Rmax m 0 * h1 + Rmin m 0 * h2.
  Let enters T := / (T - T0).
  Let ratio Tk Ta Tl := vk * / Tk + vr * / Ta + vl * / Tl.
  Let n V dV Tf y T := flow a T0 V dV (enters Tf) y (/ T).
  Lemma inv_tame d T1 T2 : inside T1 -> inside T2 -> tame T_top 1 d T1 T2 -> tame (/ T_low) (1 * (/ T_low * / T_low)) d (/ T1) (/ T2).
  Proof. intros (A1 & _) (A2 & _) H. apply (tame_inv T_low T_top 1); try assumption. lra. Qed.
  Lemma enters_tame d T1 T2 : inside T1 -> inside T2 -> tame T_top 1 d T1 T2 -> tame zm (1 * (zm * zm)) d (enters T1) (enters T2).
  Proof.
    intros (A1 & _) (A2 & _) H. unfold enters. apply (tame_inv (T_low - T0) (T_top + Rabs T0) 1); try lra.
    replace 1 with (1 + 0) by ring. apply tame_sub; [exact H|apply tame_const].
  Qed.
  Lemma n_tame Ly d V dV Tf1 Tf2 y1 y2 x1 x2 : Rabs V <= V_hi -> Rabs dV <= v_hi -> inside Tf1 -> inside Tf2 -> inside x1 -> inside x2 ->
    tame T_top 1 d Tf1 Tf2 -> tame T_top 1 d x1 x2 -> tame Y Ly d y1 y2 ->
    let W := Rabs a * V_hi * Y + v_hi in
    let Lw := Rabs a * V_hi * Ly + (Rabs a * 0 + 0 * V_hi) * Y + 0 in
    tame (W * zm + W * zm) ((W * (1 * (zm * zm)) + Lw * zm) + (W * (1 * (zm * zm)) + Lw * zm)) d (n V dV Tf1 y1 x1) (n V dV Tf2 y2 x2).
  Proof.
    intros HV HdV If1 If2 I1 I2 TF Tx Ty W Lw. unfold n, flow. cbv zeta. unfold inside in *. rewrite !out_is by lra.
    assert (TW : tame W Lw d (a * V * y1 + dV) (a * V * y2 + dV)).
    { apply tame_add; [|apply tame_same, HdV]. apply tame_mul; [|exact Ty]. apply tame_mul; [apply tame_const|apply tame_same, HV]. }
    apply tame_add; (apply tame_mul; [first [apply tame_max, TW|apply tame_min, TW]|]); apply enters_tame; assumption.
  Qed.
  Section Two.
    Variables (d V dV W dW x1 x2 z1 z2 P1 P2 Tk1 Tk2 Ta1 Ta2 Tl1 Tl2 y1 y2 : R).
    Hypothesis Hd : 0 <= d.
    Hypothesis LV : V_lo <= V <= V_hi.
    Hypothesis LW : V_lo <= W <= V_hi.
    Hypothesis LdV : Rabs dV <= v_hi.
    Hypothesis LdW : Rabs dW <= v_hi.
    Hypothesis I : (inside x1 /\ inside x2 /\ inside z1 /\ inside z2) /\ inside Tk1 /\ inside Tk2 /\ inside Ta1 /\ inside Ta2 /\ inside Tl1 /\ inside Tl2.
    Hypothesis Tx : tame T_top 1 d x1 x2.
    Hypothesis Tz : tame T_top 1 d z1 z2.
    Hypothesis TP : tame P_top 1 d P1 P2.
    Hypothesis Tk : tame T_top 1 d Tk1 Tk2.
    Hypothesis Ta : tame T_top 1 d Ta1 Ta2.
    Hypothesis Tl : tame T_top 1 d Tl1 Tl2.
    Hypothesis HF1 : K <= ratio Tk1 Ta1 Tl1.
    Hypothesis HF2 : K <= ratio Tk2 Ta2 Tl2.
    Hypothesis E1 : n V dV Tk1 y1 x1 + n W dW Tl1 y1 z1 + ratio Tk1 Ta1 Tl1 * y1 = 0.
    Hypothesis E2 : n V dV Tk2 y2 x2 + n W dW Tl2 y2 z2 + ratio Tk2 Ta2 Tl2 * y2 = 0.
    Let W0 := Rabs a * V_hi * Y + v_hi.
    Let Lw0 := Rabs a * V_hi * 0 + (Rabs a * 0 + 0 * V_hi) * Y + 0.
    Let Lf := (W0 * (1 * (zm * zm)) + Lw0 * zm) + (W0 * (1 * (zm * zm)) + Lw0 * zm).
    Let ip := / T_low.
    Let Br := Rabs vk * ip + Rabs vr * ip + Rabs vl * ip.
    Let Lr := (Rabs vk * (1 * (ip * ip)) + 0 * ip) + (Rabs vr * (1 * (ip * ip)) + 0 * ip) + (Rabs vl * (1 * (ip * ip)) + 0 * ip).
    Definition y_change := (2 * Lf + (Br * 0 + Lr * Y)) / K.
    Lemma ratio_tame : tame Br Lr d (ratio Tk1 Ta1 Tl1) (ratio Tk2 Ta2 Tl2).
    Proof.
      destruct I as (_ & K1 & K2 & A1 & A2 & B1 & B2). unfold ratio.
      apply tame_add; [apply tame_add|]; (apply tame_mul; [apply tame_const|]); apply inv_tame; assumption.
    Qed.
    Lemma enters_range T : inside T -> 0 < enters T <= zm.
    Proof. intros (A1 & A2). unfold enters. split; [apply Rinv_0_lt_compat; lra|apply Rinv_le_contravar; lra]. Qed.
    Lemma y_varies : tame Y y_change d y1 y2.
    Proof.
      pose proof I as ((X1 & X2 & Z1 & Z2) & K1 & K2 & A1 & A2 & B1 & B2).
      assert (BY : forall Tk' Ta' Tl' x z y, inside x -> inside z -> inside Tk' -> inside Tl' -> K <= ratio Tk' Ta' Tl' ->
        n V dV Tk' y x + n W dW Tl' y z + ratio Tk' Ta' Tl' * y = 0 -> Rabs y <= Y).
      { intros Tk' Ta' Tl' x z y Hx Hz Hk Hl HF E. unfold Y, zm.
        apply (y_bound a T0 T_low v_hi K Ha H0 HK (enters Tk') (enters Tl') (ratio Tk' Ta' Tl')) with (V := V) (dV := dV) (x := x) (W := W) (dW := dW) (z := z);
          try assumption; try (apply enters_range; assumption); unfold inside in *; lra. }
      assert (Y1 : Rabs y1 <= Y) by (apply (BY Tk1 Ta1 Tl1 x1 z1); assumption).
      assert (Y2 : Rabs y2 <= Y) by (apply (BY Tk2 Ta2 Tl2 x2 z2); assumption).
      split; [exact Y1|]. split; [exact Y2|].
      pose proof (tame_same Y d y2 Y2) as TY.
      destruct (n_tame 0 d V dV Tk1 Tk2 y2 y2 x1 x2 ltac:(rewrite Rabs_right; lra) LdV K1 K2 X1 X2 Tk Tx TY) as (_ & _ & D1).
      destruct (n_tame 0 d W dW Tl1 Tl2 y2 y2 z1 z2 ltac:(rewrite Rabs_right; lra) LdW B1 B2 Z1 Z2 Tl Tz TY) as (_ & _ & D2).
      destruct (tame_mul _ _ _ _ _ _ _ _ _ ratio_tame TY) as (_ & _ & D3).
      fold W0 in D1, D2. fold Lw0 in D1, D2. fold Lf in D1, D2.
      assert (MO : K * Rabs (y1 - y2) <= Rabs ((n V dV Tk1 y1 x1 - n V dV Tk1 y2 x1) + (n W dW Tl1 y1 z1 - n W dW Tl1 y2 z1) + ratio Tk1 Ta1 Tl1 * (y1 - y2))).
      { assert (OR : forall x, inside x -> 0 < out T0 (/ x) <= zm).
        { intros x (Hx & _). rewrite out_is by lra. split; [apply Rinv_0_lt_compat; lra|apply Rinv_le_contravar; lra]. }
        assert (R1 : forall p q, q <= p -> 0 <= n V dV Tk1 p x1 - n V dV Tk1 q x1).
        { intros p q Hpq. unfold n. apply (flow_rate a T0 Ha V dV (enters Tk1) p q (/ x1) zm); [lra|apply enters_range, K1|apply OR, X1|exact Hpq]. }
        assert (R2 : forall p q, q <= p -> 0 <= n W dW Tl1 p z1 - n W dW Tl1 q z1).
        { intros p q Hpq. unfold n. apply (flow_rate a T0 Ha W dW (enters Tl1) p q (/ z1) zm); [lra|apply enters_range, B1|apply OR, Z1|exact Hpq]. }
        destruct (Rle_lt_dec y2 y1) as [C|C].
        - specialize (R1 y1 y2 C). specialize (R2 y1 y2 C). assert (K * (y1 - y2) <= ratio Tk1 Ta1 Tl1 * (y1 - y2)) by (apply Rmult_le_compat_r; lra).
          rewrite (Rabs_right (y1 - y2)) by lra. eapply Rle_trans; [|apply Rle_abs]. lra.
        - specialize (R1 y2 y1 ltac:(lra)). specialize (R2 y2 y1 ltac:(lra)). assert (K * (y2 - y1) <= ratio Tk1 Ta1 Tl1 * (y2 - y1)) by (apply Rmult_le_compat_r; lra).
          rewrite (Rabs_left (y1 - y2)) by lra. rewrite <- Rabs_Ropp. eapply Rle_trans; [|apply Rle_abs]. lra. }
      replace (n V dV Tk1 y1 x1 - n V dV Tk1 y2 x1 + (n W dW Tl1 y1 z1 - n W dW Tl1 y2 z1) + ratio Tk1 Ta1 Tl1 * (y1 - y2))
        with (- ((n V dV Tk1 y2 x1 - n V dV Tk2 y2 x2) + (n W dW Tl1 y2 z1 - n W dW Tl2 y2 z2) + (ratio Tk1 Ta1 Tl1 * y2 - ratio Tk2 Ta2 Tl2 * y2))) in MO by lra.
      rewrite Rabs_Ropp in MO. assert (S : K * Rabs (y1 - y2) <= Lf * d + Lf * d + (Br * 0 + Lr * Y) * d).
      { apply Rle_trans with (1 := MO). apply abs_le_add; [apply abs_le_add|]; assumption. }
      unfold y_change. apply (Rmult_le_reg_l K); [exact HK|].
      replace (K * ((2 * Lf + (Br * 0 + Lr * Y)) / K * d)) with (Lf * d + Lf * d + (Br * 0 + Lr * Y) * d) by (field; lra). exact S.
    Qed.
  End Two.
  Let m_ck V dV x P Tk y := - (P * / Rg * n V dV Tk y x).
  Let m_le W dW z P Tl y := P * / Rg * n W dW Tl y z.
  Let m_kr V dV x P Tk y := m_ck V dV x P Tk y - vk * / Tk * (y * P * / Rg).
  Let m_rl W dW z P Tl y := m_le W dW z P Tl y + vl * / Tl * (y * P * / Rg).
  Let Q_k V dV x P Tk Tco y := up (m_ck V dV x P Tk y) (heat_in x) (heat_in Tk) - up (m_kr V dV x P Tk y) (heat_in Tk) (heat_in Tco)
    - cv * (Tk - Tr) * (m_ck V dV x P Tk y - m_kr V dV x P Tk y).
  Let Q_l W dW z P Tl Tho y := up (m_le W dW z P Tl y) (heat_in Tl) (heat_in z) - up (m_rl W dW z P Tl y) (heat_in Tho) (heat_in Tl)
    + cv * (Tl - Tr) * (m_rl W dW z P Tl y - m_le W dW z P Tl y).
  Let dT V dV x Tk y := x * (y + dV * / V) - x * x * (n V dV Tk y x * / V).
  (** all at once *)
  Lemma varies_evenly : exists B L, 0 <= B /\ 0 <= L /\
    forall d V dV W dW x1 x2 z1 z2 P1 P2 Tk1 Tk2 Ta1 Ta2 Tl1 Tl2 Tc1 Tc2 Th1 Th2 y1 y2,
    0 <= d -> V_lo <= V <= V_hi -> V_lo <= W <= V_hi -> Rabs dV <= v_hi -> Rabs dW <= v_hi ->
    (inside x1 /\ inside x2 /\ inside z1 /\ inside z2) /\ inside Tk1 /\ inside Tk2 /\ inside Ta1 /\ inside Ta2 /\ inside Tl1 /\ inside Tl2 ->
    tame T_top 1 d x1 x2 -> tame T_top 1 d z1 z2 -> tame P_top 1 d P1 P2 ->
    tame T_top 1 d Tk1 Tk2 -> tame T_top 1 d Ta1 Ta2 -> tame T_top 1 d Tl1 Tl2 -> tame T_top 1 d Tc1 Tc2 -> tame T_top 1 d Th1 Th2 ->
    K <= ratio Tk1 Ta1 Tl1 -> K <= ratio Tk2 Ta2 Tl2 ->
    n V dV Tk1 y1 x1 + n W dW Tl1 y1 z1 + ratio Tk1 Ta1 Tl1 * y1 = 0 ->
    n V dV Tk2 y2 x2 + n W dW Tl2 y2 z2 + ratio Tk2 Ta2 Tl2 * y2 = 0 ->
    (tame B L d (y1 * P1) (y2 * P2) /\ tame B L d (dT V dV x1 Tk1 y1) (dT V dV x2 Tk2 y2) /\ tame B L d (dT W dW z1 Tl1 y1) (dT W dW z2 Tl2 y2)) /\
    (tame B L d (m_ck V dV x1 P1 Tk1 y1) (m_ck V dV x2 P2 Tk2 y2) /\ tame B L d (m_kr V dV x1 P1 Tk1 y1) (m_kr V dV x2 P2 Tk2 y2) /\
     tame B L d (m_rl W dW z1 P1 Tl1 y1) (m_rl W dW z2 P2 Tl2 y2) /\ tame B L d (m_le W dW z1 P1 Tl1 y1) (m_le W dW z2 P2 Tl2 y2)) /\
    tame B L d (Q_k V dV x1 P1 Tk1 Tc1 y1) (Q_k V dV x2 P2 Tk2 Tc2 y2) /\ tame B L d (Q_l W dW z1 P1 Tl1 Th1 y1) (Q_l W dW z2 P2 Tl2 Th2 y2).
  Proof.
    (* one space *)
    assert (X : exists B2 L2, forall d V dV x1 x2 Tk1 Tk2 y1 y2, V_lo <= V <= V_hi -> Rabs dV <= v_hi -> inside x1 -> inside x2 -> inside Tk1 -> inside Tk2 ->
      tame T_top 1 d x1 x2 -> tame T_top 1 d Tk1 Tk2 -> tame Y y_change d y1 y2 -> tame B2 L2 d (dT V dV x1 Tk1 y1) (dT V dV x2 Tk2 y2)).
    { eexists. eexists. intros d V dV x1 x2 Tk1 Tk2 y1 y2 LV LdV X1 X2 K1 K2 Tx Tk TY.
      pose proof (n_tame y_change d V dV Tk1 Tk2 y1 y2 x1 x2 ltac:(rewrite Rabs_right; lra) LdV K1 K2 X1 X2 Tk Tx TY) as TF. cbv zeta in TF.
      pose proof (tame_inv V_lo V_hi 0 d V V HV0 (proj1 LV) (proj1 LV) (tame_same V_hi d V ltac:(rewrite Rabs_right; lra))) as TI.
      exact (tame_sub _ _ _ _ _ _ _ _ _ (tame_mul _ _ _ _ _ _ _ _ _ Tx (tame_add _ _ _ _ _ _ _ _ _ TY (tame_mul _ _ _ _ _ _ _ _ _ (tame_same v_hi d dV LdV) TI)))
        (tame_mul _ _ _ _ _ _ _ _ _ (tame_mul _ _ _ _ _ _ _ _ _ Tx Tx) (tame_mul _ _ _ _ _ _ _ _ _ TF TI))). }
    destruct X as (B2 & L2 & X).
    assert (M : exists B3 L3, forall d V dV x1 x2 P1 P2 Tk1 Tk2 y1 y2, V_lo <= V <= V_hi -> Rabs dV <= v_hi -> inside x1 -> inside x2 -> inside Tk1 -> inside Tk2 ->
      tame T_top 1 d x1 x2 -> tame P_top 1 d P1 P2 -> tame T_top 1 d Tk1 Tk2 -> tame Y y_change d y1 y2 -> tame B3 L3 d (m_le V dV x1 P1 Tk1 y1) (m_le V dV x2 P2 Tk2 y2)).
    { eexists. eexists. intros d V dV x1 x2 P1 P2 Tk1 Tk2 y1 y2 LV LdV X1 X2 K1 K2 Tx TP Tk TY.
      pose proof (n_tame y_change d V dV Tk1 Tk2 y1 y2 x1 x2 ltac:(rewrite Rabs_right; lra) LdV K1 K2 X1 X2 Tk Tx TY) as TF. cbv zeta in TF.
      exact (tame_mul _ _ _ _ _ _ _ _ _ (tame_mul _ _ _ _ _ _ _ _ _ TP (tame_const (/ Rg) d)) TF). }
    destruct M as (B3 & L3 & M).
    assert (S : forall v, exists B4 L4, forall d P1 P2 Tk1 Tk2 y1 y2, inside Tk1 -> inside Tk2 ->
      tame P_top 1 d P1 P2 -> tame T_top 1 d Tk1 Tk2 -> tame Y y_change d y1 y2 -> tame B4 L4 d (v * / Tk1 * (y1 * P1 * / Rg)) (v * / Tk2 * (y2 * P2 * / Rg))).
    { intros v. eexists. eexists. intros d P1 P2 Tk1 Tk2 y1 y2 K1 K2 TP Tk TY.
      exact (tame_mul _ _ _ _ _ _ _ _ _ (tame_mul _ _ _ _ _ _ _ _ _ (tame_const v d) (inv_tame d Tk1 Tk2 K1 K2 Tk))
        (tame_mul _ _ _ _ _ _ _ _ _ (tame_mul _ _ _ _ _ _ _ _ _ TY TP) (tame_const (/ Rg) d))). }
    destruct (S vk) as (B4 & L4 & S1). destruct (S vl) as (B5 & L5 & S2). clear S.
    assert (HI : exists Bh Lh, forall k d T1 T2, Rabs k <= Rmax (Rabs cp) (Rabs cv) -> tame T_top 1 d T1 T2 -> tame Bh Lh d (k * (T1 - Tr)) (k * (T2 - Tr))).
    { eexists. eexists. intros k d T1 T2 Hk HT. exact (tame_mul _ _ _ _ _ _ _ _ _ (tame_same _ d k Hk) (tame_sub _ _ _ _ _ _ _ _ _ HT (tame_const Tr d))). }
    destruct HI as (Bh & Lh & HI).
    assert (UP : forall Bm Lm Bq Lq, exists B6 L6, forall d m1 m2 h1 h2 g1 g2, tame Bm Lm d m1 m2 -> tame Bq Lq d h1 h2 -> tame Bq Lq d g1 g2 ->
      tame B6 L6 d (up m1 h1 g1) (up m2 h2 g2)).
    { intros Bm Lm Bq Lq. eexists. eexists. intros d m1 m2 h1 h2 g1 g2 Tm Th Tg.
      exact (tame_add _ _ _ _ _ _ _ _ _ (tame_mul _ _ _ _ _ _ _ _ _ (tame_max _ _ _ _ _ Tm) Th) (tame_mul _ _ _ _ _ _ _ _ _ (tame_min _ _ _ _ _ Tm) Tg)). }
    set (Bm := Rmax B3 (Rmax (B3 + B4) (B3 + B5))). set (Lm := Rmax L3 (Rmax (L3 + L4) (L3 + L5))).
    assert (QB : B3 <= Bm /\ B3 + B4 <= Bm /\ B3 + B5 <= Bm).
    { unfold Bm. split; [apply Rmax_l|]. split; (eapply Rle_trans; [|apply Rmax_r]); [apply Rmax_l|apply Rmax_r]. }
    assert (QL : L3 <= Lm /\ L3 + L4 <= Lm /\ L3 + L5 <= Lm).
    { unfold Lm. split; [apply Rmax_l|]. split; (eapply Rle_trans; [|apply Rmax_r]); [apply Rmax_l|apply Rmax_r]. }
    destruct (UP Bm Lm Bh Lh) as (B6 & L6 & UP6). clear UP.
    set (B7 := B6 + B6 + Bh * (Bm + Bm)). set (L7 := L6 + L6 + (Bh * (Lm + Lm) + Lh * (Bm + Bm))).
    set (B1 := Y * P_top). set (L1 := Y * 1 + y_change * P_top).
    exists (Rmax 0 (Rmax (Rmax B1 B2) (Rmax Bm B7))), (Rmax 0 (Rmax (Rmax L1 L2) (Rmax Lm L7))). split; [apply Rmax_l|]. split; [apply Rmax_l|].
    assert (MX : forall p q s t, p <= Rmax 0 (Rmax (Rmax p q) (Rmax s t)) /\ q <= Rmax 0 (Rmax (Rmax p q) (Rmax s t)) /\
      s <= Rmax 0 (Rmax (Rmax p q) (Rmax s t)) /\ t <= Rmax 0 (Rmax (Rmax p q) (Rmax s t))).
    { intros p q s t. pose proof (Rmax_r 0 (Rmax (Rmax p q) (Rmax s t))). pose proof (Rmax_l (Rmax p q) (Rmax s t)). pose proof (Rmax_r (Rmax p q) (Rmax s t)).
      pose proof (Rmax_l p q). pose proof (Rmax_r p q). pose proof (Rmax_l s t). pose proof (Rmax_r s t). lra. }
    destruct (MX B1 B2 Bm B7) as (MB1 & MB2 & MB3 & MB4). destruct (MX L1 L2 Lm L7) as (ML1 & ML2 & ML3 & ML4).
    set (B := Rmax 0 _) in *. set (L := Rmax 0 _) in *. clearbody B L. clear MX.
    intros d V dV W dW x1 x2 z1 z2 P1 P2 Tk1 Tk2 Ta1 Ta2 Tl1 Tl2 Tc1 Tc2 Th1 Th2 y1 y2 Hd LV LW LdV LdW HIn Tx Tz TP Tk Ta Tl Tc Th F1 F2 E1 E2.
    pose proof (y_varies d V dV W dW x1 x2 z1 z2 Tk1 Tk2 Ta1 Ta2 Tl1 Tl2 y1 y2 LV LW LdV LdW HIn Tx Tz Tk Ta Tl F1 F2 E1 E2) as TY.
    destruct HIn as ((X1 & X2 & Z1 & Z2) & K1 & K2 & _ & _ & J1 & J2).
    assert (N1 : tame B3 L3 d (m_ck V dV x1 P1 Tk1 y1) (m_ck V dV x2 P2 Tk2 y2)) by (apply tame_opp; apply M; assumption).
    assert (N4 : tame B3 L3 d (m_le W dW z1 P1 Tl1 y1) (m_le W dW z2 P2 Tl2 y2)) by (apply M; assumption).
    assert (N2 : tame (B3 + B4) (L3 + L4) d (m_kr V dV x1 P1 Tk1 y1) (m_kr V dV x2 P2 Tk2 y2)) by (apply tame_sub; [exact N1|apply S1; assumption]).
    assert (N3 : tame (B3 + B5) (L3 + L5) d (m_rl W dW z1 P1 Tl1 y1) (m_rl W dW z2 P2 Tl2 y2)) by (apply tame_add; [exact N4|apply S2; assumption]).
    apply (tame_less _ _ Bm Lm) in N1; [|lra..]. apply (tame_less _ _ Bm Lm) in N2; [|lra..]. apply (tame_less _ _ Bm Lm) in N3; [|lra..]. apply (tame_less _ _ Bm Lm) in N4; [|lra..].
    assert (CP : forall T1 T2, tame T_top 1 d T1 T2 -> tame Bh Lh d (heat_in T1) (heat_in T2)) by (intros; apply HI; [apply Rmax_l|assumption]).
    assert (CV : forall T1 T2, tame T_top 1 d T1 T2 -> tame Bh Lh d (cv * (T1 - Tr)) (cv * (T2 - Tr))) by (intros; apply HI; [apply Rmax_r|assumption]).
    split; [split; [|split]|split; [split; [|split; [|split]]|split]].
    - apply (tame_less B1 L1); try assumption. unfold B1, L1. apply tame_mul; assumption.
    - apply (tame_less B2 L2); try assumption. apply X; assumption.
    - apply (tame_less B2 L2); try assumption. apply X; assumption.
    - apply (tame_less Bm Lm); assumption.
    - apply (tame_less Bm Lm); assumption.
    - apply (tame_less Bm Lm); assumption.
    - apply (tame_less Bm Lm); assumption.
    - apply (tame_less B7 L7); try assumption. unfold B7, L7, Q_k. apply tame_sub; [apply tame_sub; apply UP6; try assumption; apply CP; assumption|].
      apply tame_mul; [apply CV; assumption|]. apply tame_sub; assumption.
    - apply (tame_less B7 L7); try assumption. unfold B7, L7, Q_l. apply tame_add; [apply tame_sub; apply UP6; try assumption; apply CP; assumption|].
      apply tame_mul; [apply CV; assumption|]. apply tame_sub; assumption.
  Qed.
End Pure.
