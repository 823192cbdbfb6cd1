(** * A concrete case for the accuracy of the rhombic drive *)
From Coq Require Import ZArith NArith List Reals Bool Lra Lia.
From Flocq Require Import Core BinarySingleNaN.
From Verif Require Import Num ModelTypes ModelWs ModelHx ModelStateEq ModelEngine B64 Spec SpecF64 SpecRound SpecBalance
  SpecRange SpecProps SpecAngle SpecDrive SpecLink F64Base F64Err F64Balance F64Norm F64Range F64Props F64PropsCase F64Pi F64Angle F64AngleCase F64Link.
Import ListNotations.
Local Open Scope R_scope.
Local Open Scope bool_scope.

(** the default rhombic drive a quarter turn after the start, 0.005 s; the yoke stays 24 mm away *)
Section Case.
  Variable nan_top : bool.
  Local Instance rops : NumOps b64 := b64_ops floored_libm nan_top.
  Definition default_rhombic : RhombicDrive b64 := RhombicDrive_default.
  Definition rh_quarter : b64 := n_lit 5 (-3).
  Definition rhombic_check : bool :=
    let g := rd_geometry default_rhombic in
    upto_check 20 (rd_frequency default_rhombic) && upto_check 40 rh_quarter &&
    (upto_check 7 (rg_eccentricity g) && upto_check 7 (rg_r_crank g) && upto_check 7 (rg_L_conn g) && upto_check 7 (rg_D_p g) && upto_check 7 (rg_D_d g) &&
     upto_check 7 (rd_V_clearance_c default_rhombic) && upto_check 7 (rd_V_clearance_e default_rhombic)) &&
    (lit_check 1 (rg_eccentricity g) 2065 100000 && lit_check 1 (rg_r_crank g) 1397 100000 && lit_check 1 (rg_L_conn g) 4602 100000 &&
     lit_check 1 (rg_D_p g) 698 10000 && lit_check 1 (rg_D_d g) 696 10000 &&
     lit_check 1 (rd_V_clearance_c default_rhombic) 5785 1000000000 && lit_check 1 (rd_V_clearance_e default_rhombic) 413 100000000 &&
     lit_check 0 (rd_frequency default_rhombic) 50 1 && lit_check 1 rh_quarter 5 1000).
  Lemma rhombic_checked : rhombic_check = true.
  Proof. vm_cast_no_check (eq_refl true). Qed.
  Lemma close (x : b64) (k : nat) (a : R) : (k <= 1)%nat -> 0 <= a <= 100 -> Rabs (value x - a) <= growth k * Rabs a + 0 * tiny -> a - 0.0000000000001 <= value x <= a + 0.0000000000001.
  Proof.
    intros K A H. rewrite (Rabs_pos_eq a) in H by lra. pose proof (growth_16 k ltac:(lia)). pose proof (growth_nonneg k). pose proof u_small.
    assert (G : growth k <= 1 * u) by (apply Rle_trans with (growth 1); [apply growth_le, K|unfold growth; cbn [pow]; lra]).
    assert (growth k * a <= 0.00000000000000012 * 100) by (apply Rmult_le_compat; lra). apply Rabs_le_inv in H. lra.
  Qed.
  Lemma rhombic_values : ordinary_rhombic default_rhombic 0.024 /\ upto 40 rh_quarter /\
    Rabs (value (rd_frequency default_rhombic) * value rh_quarter) <= 1 /\
    (let g := rd_geometry default_rhombic in 0.0139 <= value (rg_r_crank g) <= 0.014 /\ 0.046 <= value (rg_L_conn g) <= 0.0461 /\
     0.0697 <= value (rg_D_p g) <= 0.07 /\ 0.0695 <= value (rg_D_d g) <= 0.07) /\
    Rabs (value (rd_V_clearance_c default_rhombic)) <= 0.000006 /\ Rabs (value (rd_V_clearance_e default_rhombic)) <= 0.000006.
  Proof.
    pose proof rhombic_checked as H. unfold rhombic_check in H. cbv zeta in H. rewrite !andb_true_iff in H.
    destruct H as (((U1 & U2) & ((((((U3 & U4) & U5) & U6) & U7) & U8) & U9)) & ((((((((L1 & L2) & L3) & L4) & L5) & L6) & L7) & L8) & L9)).
    apply lit_sound in L1, L2, L3, L4, L5, L6, L7, L8, L9.
    destruct L1 as (L1 & _). destruct L2 as (L2 & _). destruct L3 as (L3 & _). destruct L4 as (L4 & _). destruct L5 as (L5 & _).
    destruct L6 as (L6 & _). destruct L7 as (L7 & _). destruct L8 as (L8 & _). destruct L9 as (L9 & _).
    apply close in L1; [|lia|lra]. apply close in L2; [|lia|lra]. apply close in L3; [|lia|lra]. apply close in L4; [|lia|lra].
    apply close in L5; [|lia|lra]. apply close in L6; [|lia|lra]. apply close in L7; [|lia|lra]. apply close in L8; [|lia|lra]. apply close in L9; [|lia|lra].
    split; [|split; [exact (upto_checked _ _ U2)|split; [|split; [cbv zeta; repeat split; lra|split; apply Rabs_le; lra]]]].
    - unfold ordinary_rhombic. cbv zeta. split; [exact (upto_checked _ _ U1)|]. split; [repeat apply Forall_cons; try apply Forall_nil; apply upto_checked; assumption|].
      split; [lra|]. split; [lra|]. split; [replace (/ 2 ^ 20) with (1 / 1048576) by (cbn; lra); lra|].
      set (e := value (rg_eccentricity (rd_geometry default_rhombic))) in *.
      set (m := value (rg_L_conn (rd_geometry default_rhombic)) - value (rg_r_crank (rd_geometry default_rhombic))).
      assert (e * e <= 0.0207 * 0.0207) by (apply Rmult_le_compat; lra). assert (0.032 * 0.032 <= m * m) by (apply Rmult_le_compat; unfold m; lra). lra.
    - rewrite Rabs_mult. apply Rle_trans with (51 * 0.006); [|lra]. apply Rmult_le_compat; try apply Rabs_pos; apply Rabs_le; lra.
  Qed.
  Theorem rhombic_case : cosine_bounded floored_libm /\ sine_bounded floored_libm /\ trig_accurate floored_libm (/ 2 ^ 52) /\
    ordinary_rhombic default_rhombic 0.024 /\ upto 40 rh_quarter /\
    let v := rh_volumes default_rhombic rh_quarter in let g := rd_geometry default_rhombic in
    let e := value (rg_eccentricity g) in let r := value (rg_r_crank g) in let l := value (rg_L_conn g) in
    exists above below above' below' highest,
    linkage e r l (turn_angle (value (rd_frequency default_rhombic)) (value rh_quarter)) above below /\ linkage e r l PI above' below' /\
    highest <= 0 /\ e * e + highest * highest = (l - r) * (l - r) /\
    Rabs (value (v_value (fst v)) - (value (rd_V_clearance_c default_rhombic) + disc (value (rg_D_p g)) * ((above' - below') - (above - below)))) <= 0.0000000000000002 /\
    Rabs (value (v_value (snd v)) - (value (rd_V_clearance_e default_rhombic) + disc (value (rg_D_d g)) * (highest - below))) <= 0.0000000000000002.
  Proof.
    destruct floored_trig as (HC & HS & HA). destruct rhombic_values as (D & Q & F & G & C1 & C2). cbv zeta in G.
    split; [exact HC|]. split; [exact HS|]. split; [exact HA|]. split; [exact D|]. split; [exact Q|]. cbv zeta.
    destruct (linkage_exists 0.024 default_rhombic D (turn_angle (value (rd_frequency default_rhombic)) (value rh_quarter))) as (above & below & K1).
    destruct (linkage_exists 0.024 default_rhombic D PI) as (above' & below' & K2).
    destruct (highest_exists 0.024 default_rhombic D) as (highest & K3 & K4).
    exists above, below, above', below', highest. split; [exact K1|]. split; [exact K2|]. split; [exact K3|]. split; [exact K4|].
    destruct (linkage_volumes floored_libm nan_top _ 0.024 default_rhombic rh_quarter HC HS HA D Q above below above' below' highest K1 K2 K3 K4) as (V1 & V2).
    pose proof (first_turn (/ 2 ^ 52) _ _ 0 F ltac:(rewrite Rabs_R0; lra)) as T.
    assert (E : / 2 ^ 52 <= 0.0000000000000003) by (replace (/ 2 ^ 52) with (1 / 4503599627370496) by (cbn; lra); lra).
    assert (T0 : 0 <= trig_error (/ 2 ^ 52) (value (rd_frequency default_rhombic)) (value rh_quarter) 0).
    { destruct (trig_off floored_libm nan_top (/ 2 ^ 52) 0.024 default_rhombic rh_quarter HA D Q) as (_ & H & _).
      eapply Rle_trans; [apply Rabs_pos|exact H]. }
    set (tr := trig_error (/ 2 ^ 52) (value (rd_frequency default_rhombic)) (value rh_quarter) 0) in *.
    assert (TB : tr <= 0.000000000000041) by lra.
    pose proof (growth_16 8 ltac:(lia)) as G8. pose proof (growth_16 11 ltac:(lia)) as G11. pose proof (growth_nonneg 8). pose proof (growth_nonneg 11). pose proof u_small. pose proof u_pos.
    assert (FA : / 2 ^ 900 <= 0.00000000000000000000001).
    { apply Rle_trans with (/ 2 ^ 80); [apply Rinv_le_contravar; [apply pow_lt; lra|apply Rle_pow; [lra|lia]]|].
      apply (Rmult_le_reg_l (2 ^ 80)); [cbn; lra|]. rewrite Rinv_r by (cbn; lra). cbn. lra. }
    assert (DB : forall x, 0.069 <= x <= 0.07 -> 0 <= disc x <= 0.004).
    { intros x B. split; [apply disc_nonneg|]. unfold disc. pose proof pi_bounds. assert (x * x <= 0.07 * 0.07) by (apply Rmult_le_compat; lra).
      assert (0 <= x * x) by (apply Rmult_le_pos; lra). assert (PI * (x * x) <= 3.15 * (0.07 * 0.07)) by (apply Rmult_le_compat; lra). lra. }
    destruct G as (GR & GL & GP & GD).
    assert (RB : forall tt, 0 <= tt <= tr -> 0 <= rod_error (value (rg_L_conn (rd_geometry default_rhombic))) (value (rg_r_crank (rd_geometry default_rhombic))) 0.024 tt <= 0.000000000000005).
    { intros tt B. unfold rod_error. set (l := value (rg_L_conn _)) in *. set (r := value (rg_r_crank _)) in *.
      assert (B1 : 0 <= l * l <= 0.0461 * 0.0461) by (split; [apply Rmult_le_pos|apply Rmult_le_compat]; lra).
      assert (B2 : 0 <= growth 11 * (l * l) <= (17 * 0.00000000000000012) * 0.0022) by (split; [apply Rmult_le_pos|apply Rmult_le_compat]; lra).
      assert (B3 : 0 <= 3 * l * r <= 0.139 * 0.014) by (split; [apply Rmult_le_pos|apply Rmult_le_compat]; lra).
      assert (B4 : 0 <= 3 * l * r * tt <= 0.002 * 0.000000000000041) by (split; [apply Rmult_le_pos|apply Rmult_le_compat]; lra).
      assert (0 < / 2 ^ 900) by (apply Rinv_0_lt_compat, pow_lt; lra). lra. }
    pose proof (RB tr ltac:(lra)) as R1. pose proof (RB 0 ltac:(lra)) as R2.
    pose proof (DB _ ltac:(exact (conj (Rle_trans 0.069 0.0697 _ ltac:(lra) (proj1 GP)) (proj2 GP)))) as A1.
    pose proof (DB _ ltac:(exact (conj (Rle_trans 0.069 0.0695 _ ltac:(lra) (proj1 GD)) (proj2 GD)))) as A2.
    fold tr in V1, V2.
    set (l := value (rg_L_conn _)) in *. set (r := value (rg_r_crank _)) in *.
    set (Ap := disc (value (rg_D_p _))) in *. set (Ad := disc (value (rg_D_d _))) in *.
    set (e0 := rod_error l r 0.024 0) in *. set (e1 := rod_error l r 0.024 tr) in *.
    set (c1 := value (rd_V_clearance_c default_rhombic)) in *. set (c2 := value (rd_V_clearance_e default_rhombic)) in *.
    pose proof (Rabs_pos c1). pose proof (Rabs_pos c2).
    assert (rt : 0 <= r * tr <= 0.014 * 0.000000000000041) by (split; [apply Rmult_le_pos|apply Rmult_le_compat]; lra).
    split; (eapply Rle_trans; [eassumption|]).
    - assert (8 * Ap * l <= 0.032 * 0.0461) by (apply Rmult_le_compat; lra). assert (0 <= 8 * Ap * l) by (apply Rmult_le_pos; lra).
      assert (growth 8 * (Rabs c1 + 8 * Ap * l) <= (17 * 0.00000000000000012) * 0.0016) by (apply Rmult_le_compat; lra).
      assert (2 * Ap * (e0 + e1) <= 0.008 * 0.00000000000001) by (apply Rmult_le_compat; lra). lra.
    - assert (8 * Ad * l <= 0.032 * 0.0461) by (apply Rmult_le_compat; lra). assert (0 <= 8 * Ad * l) by (apply Rmult_le_pos; lra).
      assert (growth 8 * (Rabs c2 + 8 * Ad * l) <= (17 * 0.00000000000000012) * 0.0016) by (apply Rmult_le_compat; lra).
      assert (Ad * (e0 + e1 + r * tr) <= 0.004 * 0.000000000000011) by (apply Rmult_le_compat; lra). lra.
  Qed.
  Lemma rhombic_frequency : 49 <= value (rd_frequency default_rhombic) <= 50.1.
  Proof.
    pose proof rhombic_checked as H. unfold rhombic_check in H. cbv zeta in H. rewrite !andb_true_iff in H. destruct H as (_ & ((_ & L8) & _)).
    apply lit_sound in L8. destruct L8 as (L8 & _). apply close in L8; [|lia|lra]. lra.
  Qed.
  Theorem rhombic_rate_case : ordinary_rhombic default_rhombic 0.024 /\ upto 40 rh_quarter /\
    let d := default_rhombic in let t := rh_quarter in let g := rd_geometry d in let f := value (rd_frequency d) in
    let v := rh_volumes d t in
    ordinary_rates d 0.024 (trig_error (/ 2 ^ 52) f (value t) 0) /\
    exists (above below : R -> R) (rate_c rate_e : R),
    (forall u, linkage (value (rg_eccentricity g)) (value (rg_r_crank g)) (value (rg_L_conn g)) (turn_angle f u) (above u) (below u)) /\
    derivable_pt_lim (fun u => 0 - disc (value (rg_D_p g)) * (above u - below u)) (value t) rate_c /\
    derivable_pt_lim (fun u => 0 - disc (value (rg_D_d g)) * below u) (value t) rate_e /\
    Rabs (value (v_deriv (fst v)) - rate_c) <= 0.00000000000005 /\ Rabs (value (v_deriv (snd v)) - rate_e) <= 0.00000000000005.
  Proof.
    destruct floored_trig as (HC & HS & HA). destruct rhombic_values as (D & Q & F & G & _). cbv zeta in G. split; [exact D|]. split; [exact Q|]. cbv zeta.
    pose proof (first_turn (/ 2 ^ 52) _ _ 0 F ltac:(rewrite Rabs_R0; lra)) as T.
    assert (E : / 2 ^ 52 <= 0.0000000000000003) by (replace (/ 2 ^ 52) with (1 / 4503599627370496) by (cbn; lra); lra).
    assert (T0 : 0 <= trig_error (/ 2 ^ 52) (value (rd_frequency default_rhombic)) (value rh_quarter) 0).
    { destruct (trig_off floored_libm nan_top (/ 2 ^ 52) 0.024 default_rhombic rh_quarter HA D Q) as (_ & H & _).
      eapply Rle_trans; [apply Rabs_pos|exact H]. }
    set (tr := trig_error (/ 2 ^ 52) (value (rd_frequency default_rhombic)) (value rh_quarter) 0) in *.
    assert (TB : tr <= 0.000000000000041) by lra.
    pose proof (growth_16 2 ltac:(lia)) as G2. pose proof (growth_16 11 ltac:(lia)) as G11. pose proof (growth_16 12 ltac:(lia)) as G12. pose proof (growth_16 14 ltac:(lia)) as G14.
    pose proof (growth_nonneg 2). pose proof (growth_nonneg 11). pose proof (growth_nonneg 12). pose proof (growth_nonneg 14). pose proof u_small. pose proof u_pos.
    assert (FA : 0 < / 2 ^ 900 <= 0.00000000000000000000001).
    { split; [apply Rinv_0_lt_compat, pow_lt; lra|]. apply Rle_trans with (/ 2 ^ 80); [apply Rinv_le_contravar; [apply pow_lt; lra|apply Rle_pow; [lra|lia]]|].
      apply (Rmult_le_reg_l (2 ^ 80)); [cbn; lra|]. rewrite Rinv_r by (cbn; lra). cbn. lra. }
    assert (DB : forall x, 0.069 <= x <= 0.07 -> 0 <= disc x <= 0.004).
    { intros x B. split; [apply disc_nonneg|]. unfold disc. pose proof pi_bounds. assert (x * x <= 0.07 * 0.07) by (apply Rmult_le_compat; lra).
      assert (0 <= x * x) by (apply Rmult_le_pos; lra). assert (PI * (x * x) <= 3.15 * (0.07 * 0.07)) by (apply Rmult_le_compat; lra). lra. }
    destruct G as (GR & GL & GP & GD).
    assert (RB : 0 <= rod_error (value (rg_L_conn (rd_geometry default_rhombic))) (value (rg_r_crank (rd_geometry default_rhombic))) 0.024 tr <= 0.000000000000005).
    { unfold rod_error. set (l := value (rg_L_conn _)) in *. set (r := value (rg_r_crank _)) in *.
      assert (B1 : 0 <= l * l <= 0.0461 * 0.0461) by (split; [apply Rmult_le_pos|apply Rmult_le_compat]; lra).
      assert (B2 : 0 <= growth 11 * (l * l) <= (17 * 0.00000000000000012) * 0.0022) by (split; [apply Rmult_le_pos|apply Rmult_le_compat]; lra).
      assert (B3 : 0 <= 3 * l * r <= 0.139 * 0.014) by (split; [apply Rmult_le_pos|apply Rmult_le_compat]; lra).
      assert (B4 : 0 <= 3 * l * r * tr <= 0.002 * 0.000000000000041) by (split; [apply Rmult_le_pos|apply Rmult_le_compat]; lra). lra. }
    assert (HR : ordinary_rates default_rhombic 0.024 tr).
    { unfold ordinary_rates. cbv zeta. split; [|lra]. unfold from. change (bpow radix2 (-10)) with (/ 1024). rewrite Rabs_pos_eq; lra. }
    split; [exact HR|].
    destruct (yokes_exist floored_libm nan_top _ 0.024 default_rhombic rh_quarter HC HA D Q HR) as (above & below & rate_c & rate_e & K1 & K2 & K3).
    exists above, below, rate_c, rate_e. split; [exact K1|]. split; [exact K2|]. split; [exact K3|].
    destruct (linkage_rates floored_libm nan_top _ 0.024 default_rhombic rh_quarter HC HS HA D Q HR above below rate_c rate_e 0 0 K1 K2 K3) as (V1 & V2).
    pose proof (DB _ ltac:(exact (conj (Rle_trans 0.069 0.0697 _ ltac:(lra) (proj1 GP)) (proj2 GP)))) as A1.
    pose proof (DB _ ltac:(exact (conj (Rle_trans 0.069 0.0695 _ ltac:(lra) (proj1 GD)) (proj2 GD)))) as A2.
    fold tr in V1, V2. pose proof rhombic_frequency as FB.
    assert (WB : 0 <= 2 * PI * Rabs (value (rd_frequency default_rhombic)) <= 6.3 * 50.1).
    { pose proof pi_bounds. rewrite Rabs_pos_eq by lra. split; [apply Rmult_le_pos|apply Rmult_le_compat]; lra. }
    set (W := 2 * PI * Rabs (value (rd_frequency default_rhombic))) in *.
    set (l := value (rg_L_conn _)) in *. set (r := value (rg_r_crank _)) in *.
    set (Ap := disc (value (rg_D_p _))) in *. set (Ad := disc (value (rg_D_d _))) in *.
    assert (SE : 0 <= slope_error l r 0.024 tr <= 0.0000000000011).
    { unfold slope_error. set (e1 := rod_error l r 0.024 tr) in *.
      assert (0 <= r * tr <= 0.014 * 0.000000000000041) by (split; [apply Rmult_le_pos|apply Rmult_le_compat]; lra).
      assert (0 <= l * tr <= 0.0461 * 0.000000000000041) by (split; [apply Rmult_le_pos|apply Rmult_le_compat]; lra).
      assert (0 <= l * e1 <= 0.0461 * 0.000000000000005) by (split; [apply Rmult_le_pos|apply Rmult_le_compat]; lra).
      assert (0 <= growth 2 * l <= (17 * 0.00000000000000012) * 0.0461) by (split; [apply Rmult_le_pos|apply Rmult_le_compat]; lra). lra. }
    set (se := slope_error l r 0.024 tr) in *.
    assert (rl : 0 <= r * l <= 0.014 * 0.0461) by (split; [apply Rmult_le_pos|apply Rmult_le_compat]; lra).
    assert (rs : 0 <= r * se <= 0.014 * 0.0000000000011) by (split; [apply Rmult_le_pos|apply Rmult_le_compat]; lra).
    assert (rt : 0 <= r * tr <= 0.014 * 0.000000000000041) by (split; [apply Rmult_le_pos|apply Rmult_le_compat]; lra).
    split; (eapply Rle_trans; [eassumption|]).
    - replace (4 * Ap * r * l / 0.024) with (Ap * (r * l) * (4 / 0.024)) by (field; lra). replace (2 * Ap * r * se) with (2 * (Ap * (r * se))) by ring.
      assert (P1 : 0 <= Ap * (r * l) <= 0.004 * (0.014 * 0.0461)) by (split; [apply Rmult_le_pos|apply Rmult_le_compat]; lra).
      assert (P2 : 0 <= Ap * (r * se) <= 0.004 * (0.014 * 0.0000000000011)) by (split; [apply Rmult_le_pos|apply Rmult_le_compat]; lra).
      assert (P3 : 0 <= growth 12 * (Ap * (r * l) * (4 / 0.024)) <= (17 * 0.00000000000000012) * 0.00044) by (split; [apply Rmult_le_pos|apply Rmult_le_compat]; lra).
      assert ((growth 12 * (Ap * (r * l) * (4 / 0.024)) + 2 * (Ap * (r * se))) * W <= 0.000000000000000126 * (6.3 * 50.1)) by (apply Rmult_le_compat; lra). lra.
    - replace (2 * r * l / 0.024) with (r * l * (2 / 0.024)) by (field; lra).
      assert (P3 : 0 <= growth 14 * (r * l * (2 / 0.024) + r) <= (17 * 0.00000000000000012) * 0.07) by (split; [apply Rmult_le_pos|apply Rmult_le_compat]; lra).
      assert (P4 : 0 <= Ad * (growth 14 * (r * l * (2 / 0.024) + r) + r * se + r * tr) <= 0.004 * 0.000000000000018) by (split; [apply Rmult_le_pos|apply Rmult_le_compat]; lra).
      assert (Ad * (growth 14 * (r * l * (2 / 0.024) + r) + r * se + r * tr) * W <= 0.004 * 0.000000000000018 * (6.3 * 50.1)) by (apply Rmult_le_compat; lra). lra.
  Qed.
End Case.
