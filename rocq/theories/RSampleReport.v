(** * The report of an engine sampled along a trajectory *)
From Coq Require Import ZArith NArith List Reals Lra Lia.
From Verif Require Import Num ModelTypes ModelWs ModelHx ModelStateEq ModelEngine ModelApi RNum Spec SpecR SpecGas
  SpecKin SpecTraj SpecLaws SpecUnique SpecExist SpecDepend SpecSeries SpecQuad SpecReport SpecSample Fixture PolySolve
  PolyReport RSolve RGauss RFluid RKin RMass RLaws RClose RPairs RPicard RLocal RExist RStart RDepend RQuad RSeries RSmooth
  RSample.
Import ListNotations.
Local Open Scope R_scope.

Lemma sorted_range : forall rest a x, nondecreasing (a :: rest) -> In x (a :: rest) -> a <= x <= last rest a.
Proof.
  induction rest as [|b rest IH]; intros a x Hn Hx.
  - destruct Hx as [<- | []]. cbn. lra.
  - rewrite last_two. pose proof Hn as [N1 N2]. destruct Hx as [<- | Hx].
    + split; [lra|]. pose proof (nondecreasing_last rest b N2). lra.
    + specialize (IH b x N2 Hx). lra.
Qed.
Lemma grid_range time t : grid_to time t -> forall x, In x time -> 0 <= x <= t.
Proof.
  intros Hg x Hx. destruct (grid_last _ _ Hg) as (rest & E & El). destruct Hg as (Hn & _). rewrite E in *.
  pose proof (sorted_range rest 0 x Hn Hx). rewrite El in *. assumption.
Qed.

Lemma abs_le_iff x e : Rabs x <= e <-> - e <= x <= e.
Proof. unfold Rabs. destruct (Rcase_abs x); lra. Qed.

Section Report.
  Variable g : IdealGas R.
  Let Rg := ig_gas_constant g.
  Hypothesis HR : 0 < Rg.
  Variable r : Run R.
  Hypothesis Hf : ru_fluid r = IdealGas_Fluid g.
  Variables (D : Decomp R) (c : R -> Conditions R) (tau : R).
  Hypothesis HD : sound D.
  Hypothesis Htau : 0 <= tau.
  Hypothesis HT : forall t, 0 <= t <= tau -> physical_trajectory D r c t.
  Hypothesis HW : steady_motion (ru_ws_vol_fn r) 0 tau.
  Let Y (t : R) : C7 -> R := join r (c t) t.
  Notation along := (along r c 0 tau).
  Definition solves_all (s : R -> Solution R) : Prop := forall t, 0 <= t <= tau -> solved_at D r t (c t) (s t).

  Lemma sol_is s t : solves_all s -> 0 <= t <= tau -> s t = sol7 r (Y t).
  Proof.
    intros Hs Ht. apply (solution_is r D t (c t) (s t) HD); [|exact (Hs t Ht)].
    rewrite inp7_join. apply (HT t Ht).
  Qed.
  Lemma sol_exists : exists s, solves_all s.
  Proof.
    exists (fun t => sol7 r (Y t)). intros t Ht. destruct (HT t Ht) as ((_ & _ & hint & s & Hs & _) & Hp & _).
    exists hint. unfold Y. rewrite <- (solution_is r D t (c t) s HD); [exact Hs|rewrite inp7_join; exact Hp|exists hint; exact Hs].
  Qed.
  Lemma P_pos t : 0 <= t <= tau -> 0 < Y t yP.
  Proof.
    intros Ht. destruct (Y_temps r D c 0 tau HT t Ht) as (Tc & _ & Hp).
    destruct Hp as (_ & (_ & Hd & _) & _). change (join r (c t) t) with (Y t) in Tc, Hd.
    rewrite (i7_comp g r Hf) in Hd. unfold space7 in Hd. cbn [wi_dens] in Hd.
    assert (E : ig_dens g (Y t yC) (Y t yP) = Y t yP / (Rg * Y t yC)) by reflexivity. rewrite E in Hd.
    assert (0 < Rg * Y t yC) by (apply Rmult_lt_0_compat; assumption).
    replace (Y t yP) with (Y t yP / (Rg * Y t yC) * (Rg * Y t yC)) by (field; split; lra).
    apply Rmult_lt_0_compat; assumption.
  Qed.
  Lemma along_ext f f' : along f -> (forall y, f' y = f y) -> along f'.
  Proof. intros H E t Ht. exact (tame_ext _ _ _ (H t Ht) E). Qed.
  Lemma along_plus f f' : along f -> along f' -> along (fun y => f y + f' y).
  Proof. intros H H' t Ht. exact (tame_plus _ _ _ (H t Ht) (H' t Ht)). Qed.
  Lemma along_minus f f' : along f -> along f' -> along (fun y => f y - f' y).
  Proof. intros H H' t Ht. exact (tame_minus _ _ _ (H t Ht) (H' t Ht)). Qed.
  Lemma along_mult f f' : along f -> along f' -> along (fun y => f y * f' y).
  Proof. intros H H' t Ht. exact (tame_mult _ _ _ (H t Ht) (H' t Ht)). Qed.
  Lemma along_const k : along (fun _ => k).
  Proof. intros t Ht. apply tame_const. Qed.
  Lemma along_coord i : along (fun y => y i).
  Proof. intros t Ht. apply tame_coord. Qed.

  Lemma errors_nonneg D' vs h dl : grid_to (map (@sv_time R) vs) tau ->
    steps_within h (map (@sv_time R) vs) -> sampled D' r c dl vs -> 0 <= h /\ 0 <= dl.
  Proof.
    intros Hg Hh Hs. destruct (grid_last _ _ Hg) as (rest & Er & El). pose proof Hg as (Hnd & _ & _ & Htp).
    destruct vs as [|v0 vs]; [discriminate|]. cbn [map] in Er. injection Er as E0 Er. split.
    - destruct vs as [|v1 vs]; [cbn in Er; subst rest; cbn in El; lra|]. cbn [map] in Hh, Hnd.
      destruct Hh as [Hh _], Hnd as [Hnd _]. lra.
    - pose proof (Forall_inv Hs) as (G & _). eapply Rle_trans; [|exact G]. unfold gap.
      pose proof (Rabs_pos (cd_P (sv_conditions v0) - cd_P (c (sv_time v0)))).
      pose proof (Rabs_pos (cd_T_c (sv_conditions v0) - cd_T_c (c (sv_time v0)))).
      pose proof (Rabs_pos (cd_T_e (sv_conditions v0) - cd_T_e (c (sv_time v0)))). lra.
  Qed.
  (** integrals over samples *)
  Lemma figure7 f : along f -> exists K d, 0 <= K /\ 0 < d /\
    forall D' vs (k : SeValues R -> R) h dl I, sound D' -> grid_to (map (@sv_time R) vs) tau ->
    steps_within h (map (@sv_time R) vs) -> sampled D' r c dl vs -> dl <= d ->
    (forall v, In v vs -> 0 <= sv_time v <= tau -> sv_solution v = sol7 r (join r (sv_conditions v) (sv_time v)) ->
       k v = f (join r (sv_conditions v) (sv_time v))) ->
    integral (fun t => f (Y t)) 0 tau I ->
    Rabs (integrate (map (@sv_time R) vs) (map k vs) - I) <= K * (h + dl).
  Proof.
    intros Hfa. destruct (steady_quantity g HR r Hf D c 0 tau HD HT HW f Hfa) as (K & d & K0 & D0 & HK & HN).
    destruct (sampled_physical g HR r Hf D c 0 tau HT) as (d' & D0' & HP).
    exists (K * tau), (Rmin d d'). split; [apply Rmult_le_pos; assumption|]. split; [apply Rmin_pos; assumption|].
    intros D' vs k h dl I HD' Hg Hh Hs Hd Hk (F & HF & ->).
    pose proof (Rmin_l d d'). pose proof (Rmin_r d d').
    destruct (grid_last _ _ Hg) as (rest & Er & El). destruct vs as [|v0 vs]; [discriminate|].
    cbn [map] in Er. injection Er as E0 Er.
    pose proof Hg as (Hnd & _ & _ & Htp).
    assert (HB : forall v, In v (v0 :: vs) -> 0 <= sv_time v <= tau).
    { intros v Hv. exact (grid_range _ _ Hg _ (in_map _ _ _ Hv)). }
    destruct (errors_nonneg D' (v0 :: vs) h dl Hg Hh Hs) as (h0 & d0).
    assert (A : Rabs (integrate (map (@sv_time R) (v0 :: vs)) (map k (v0 :: vs))
                - integrate (map (@sv_time R) (v0 :: vs)) (map (fun v => f (Y (sv_time v))) (v0 :: vs))) <= K * dl * tau).
    { replace tau with (last (map (@sv_time R) vs) (sv_time v0) - sv_time v0) at 1 by (rewrite E0, Er, El; ring).
      apply (trapezoid_near (@sv_time R) k (fun v => f (Y (sv_time v))) (K * dl) (v0 :: vs)); [|exact Hnd|reflexivity].
      apply Forall_forall. intros v Hv. unfold sampled in Hs. rewrite Forall_forall in Hs. destruct (Hs v Hv) as (G & S).
      rewrite (Hk v Hv (HB v Hv) (HP D' v HD' (HB v Hv) ltac:(lra) S)).
      eapply Rle_trans; [apply HN; [apply (HB v Hv)|lra]|]. apply Rmult_le_compat_l; assumption. }
    assert (B : Rabs (integrate (map (@sv_time R) (v0 :: vs)) (map (fun v => f (Y (sv_time v))) (v0 :: vs)) - (F tau - F 0))
                <= K * h / 4 * tau).
    { rewrite <- (map_map (@sv_time R) (fun t => f (Y t))).
      assert (E : map (@sv_time R) (v0 :: vs) = 0 :: rest) by (cbn [map]; congruence). rewrite E in *.
      pose proof (quad_lipschitz F (fun t => f (Y t)) K 0 rest Hnd) as Q. rewrite El in Q.
      eapply Rle_trans; [exact (Q HF HK)|].
      pose proof (steps_bound (fun h => K * h ^ 2 / 4) (K * h / 4) h) as SB.
      eapply Rle_trans; [apply SB; [|exact Hnd|exact Hh]|rewrite El; lra].
      intros x Hx. cbv beta. assert (K * x * x <= K * x * h) by (apply Rmult_le_compat_l; [apply Rmult_le_pos|]; lra). lra. }
    assert (C : 0 <= K * tau * h) by (repeat apply Rmult_le_pos; lra).
    assert (TR : forall X Z W p q, Rabs (X - Z) <= p -> Rabs (Z - W) <= q -> Rabs (X - W) <= p + q).
    { intros X Z W p q HX HZ. replace (X - W) with ((X - Z) + (Z - W)) by ring.
      eapply Rle_trans; [apply Rabs_triang|]. lra. }
    eapply Rle_trans; [exact (TR _ _ _ _ _ A B)|]. lra.
  Qed.

  Context (T : Temperatures R) (a : Replies R).
  Hypothesis HV : forall t, 0 <= t <= tau -> rp_vols a t = ru_ws_vol_fn r t.
  Let fl := IdealGas_Fluid g.
  Let drop7 (y : C7 -> R) : R :=
    let x := sol7 r y in
    drop_in fl (rp_R_chx a) (so_m_dot_ck x) (so_m_dot_kr x) (te_chx T) (y yP)
    + drop_in fl (rp_R_regen a) (so_m_dot_kr x) (so_m_dot_rl x) (rt_avg (te_regen T)) (y yP)
    + drop_in fl (rp_R_hhx a) (so_m_dot_rl x) (so_m_dot_le x) (te_hhx T) (y yP).
  Let work7 (y : C7 -> R) : R := (y yP + drop7 y / 2) * y wC + (y yP - drop7 y / 2) * y wE.
  Let ideal7 (y : C7 -> R) : R := y yP * (y wC + y wE).
  Let wallc7 (y : C7 -> R) : R := (y yC - te_chx T) / tr_comp (rp_res a).
  Let walle7 (y : C7 -> R) : R := (y yE - te_hhx T) / tr_exp (rp_res a).

  Lemma along_drop res m m' Tx : along m -> along m' -> along (fun y => drop_in fl res (m y) (m' y) Tx (y yP)).
  Proof.
    intros Hm Hm'.
    assert (HI : along (fun y => / y yP)) by (intros t Ht; apply tame_inv; [apply tame_coord|exact (P_pos t Ht)]).
    apply (along_ext (fun y => res * ((m y + m' y) * / 2 * (/ y yP * / / (Rg * Tx))))).
    - apply along_mult; [apply along_const|]. apply along_mult.
      + apply along_mult; [exact (along_plus _ _ Hm Hm')|apply along_const].
      + apply along_mult; [exact HI|apply along_const].
    - intros y. unfold drop_in, fl. cbn [fl_dens IdealGas_Fluid].
      assert (E : ig_dens g Tx (y yP) = y yP * / (Rg * Tx)) by reflexivity. rewrite E.
      unfold Rdiv. rewrite (Rinv_mult (y yP)). ring.
  Qed.
  Lemma along_all : along work7 /\ along ideal7 /\ along wallc7 /\ along walle7.
  Proof.
    destruct (along_sol g HR r Hf D c 0 tau HT) as (H1 & H2 & H3 & H4 & _).
    assert (HD7 : along drop7).
    { unfold drop7. apply along_plus; [apply along_plus|]; apply along_drop; assumption. }
    assert (HD2 : along (fun y => drop7 y / 2)) by exact (along_mult _ _ HD7 (along_const (/ 2))).
    split; [|split; [|split]].
    - apply along_plus; apply along_mult; try apply along_coord.
      + exact (along_plus _ _ (along_coord yP) HD2).
      + exact (along_minus _ _ (along_coord yP) HD2).
    - apply along_mult; [apply along_coord|]. exact (along_plus _ _ (along_coord wC) (along_coord wE)).
    - apply (along_mult (fun y => y yC - te_chx T) (fun _ => / tr_comp (rp_res a))); [|apply along_const].
      exact (along_minus _ _ (along_coord yC) (along_const _)).
    - apply (along_mult (fun y => y yE - te_hhx T) (fun _ => / tr_exp (rp_res a))); [|apply along_const].
      exact (along_minus _ _ (along_coord yE) (along_const _)).
  Qed.
  Lemma rates_are s t : solves_all s -> 0 <= t <= tau ->
    work_rate fl T a c s t = work7 (Y t) /\ ideal_rate a c t = ideal7 (Y t) /\
    wall_comp_rate T a c t = wallc7 (Y t) /\ wall_exp_rate T a c t = walle7 (Y t).
  Proof.
    intros Hs Ht. unfold work_rate, ideal_rate, drop, dVc_of, dVe_of. rewrite (HV t Ht), (sol_is s t Hs Ht).
    repeat split; reflexivity.
  Qed.
  Lemma integral_ext f f' u v I : (forall t, u <= t <= v -> f t = f' t) -> integral f u v I -> integral f' u v I.
  Proof. intros E (F & HF & EI). exists F. split; [|exact EI]. intros t Ht. rewrite <- (E t Ht). exact (HF t Ht). Qed.

  (** ** Flows and heats change at bounded speed *)
  Lemma rates_bounded s : solves_all s -> exists K, changes_within K (fun t => so_m_dot_ck (s t)) 0 tau /\
    changes_within K (fun t => so_m_dot_kr (s t)) 0 tau /\ changes_within K (fun t => so_m_dot_rl (s t)) 0 tau /\
    changes_within K (fun t => so_m_dot_le (s t)) 0 tau /\ changes_within K (fun t => so_Q_dot_k (s t)) 0 tau /\
    changes_within K (fun t => so_Q_dot_r (s t)) 0 tau /\ changes_within K (fun t => so_Q_dot_l (s t)) 0 tau /\
    changes_within K (fun t => so_dTc_dt (s t)) 0 tau /\ changes_within K (fun t => so_dTe_dt (s t)) 0 tau /\
    changes_within K (fun t => so_dP_dt (s t)) 0 tau.
  Proof.
    intros Hs. destruct (along_sol g HR r Hf D c 0 tau HT) as (H1 & H2 & H3 & H4 & H5 & H6 & H7 & H8 & H9 & H10).
    assert (X : forall p : Solution R -> R, along (fun y => p (sol7 r y)) -> exists K, 0 <= K /\ changes_within K (fun t => p (s t)) 0 tau).
    { intros p Hp. destruct (steady_quantity g HR r Hf D c 0 tau HD HT HW _ Hp) as (K & d & K0 & _ & HK & _).
      exists K. split; [exact K0|]. intros u v A B C. rewrite (sol_is s u Hs), (sol_is s v Hs) by lra. apply HK; assumption. }
    destruct (X _ H1) as (K1 & P1 & C1), (X _ H2) as (K2 & P2 & C2), (X _ H3) as (K3 & P3 & C3), (X _ H4) as (K4 & P4 & C4),
      (X _ H5) as (K5 & P5 & C5), (X _ H6) as (K6 & P6 & C6), (X _ H7) as (K7 & P7 & C7), (X _ H8) as (K8 & P8 & C8),
      (X _ H9) as (K9 & P9 & C9), (X _ H10) as (K10 & P10 & C10).
    exists (K1 + K2 + K3 + K4 + K5 + K6 + K7 + K8 + K9 + K10).
    split; [|split; [|split; [|split; [|split; [|split; [|split; [|split; [|split]]]]]]]];
      (eapply changes_weaken; [|eassumption]); lra.
  Qed.

  (** ** The cycle has integrals *)
  Lemma quantity_integral f : along f -> exists I, integral (fun t => f (Y t)) 0 tau I.
  Proof.
    intros Hfa. destruct (steady_quantity g HR r Hf D c 0 tau HD HT HW f Hfa) as (K & _ & _ & _ & HK & _).
    exact (integral_exists K _ 0 tau Htau HK).
  Qed.
  Lemma totals_exist s : solves_all s -> exists X, totals fl T a c s tau X.
  Proof.
    intros Hs. destruct along_all as (A1 & A2 & A3 & A4).
    destruct (along_sol g HR r Hf D c 0 tau HT) as (_ & _ & _ & _ & B1 & B2 & B3 & _).
    destruct (quantity_integral _ A1) as (I1 & Q1), (quantity_integral _ A2) as (I2 & Q2), (quantity_integral _ A3) as (I3 & Q3),
      (quantity_integral _ A4) as (I4 & Q4), (quantity_integral _ B1) as (I5 & Q5), (quantity_integral _ B2) as (I6 & Q6),
      (quantity_integral _ B3) as (I7 & Q7).
    exists (mkTotals I1 I2 I5 I6 I7 I3 I4). unfold totals. cbn [to_work to_ideal to_Q_k to_Q_r to_Q_l to_wall_c to_wall_e].
    split; [|split; [|split; [|split; [|split; [|split]]]]]; (eapply integral_ext; [|eassumption]); intros t Ht;
      try (rewrite (sol_is s t Hs Ht); reflexivity); symmetry; apply (rates_are s t Hs Ht).
  Qed.

  Lemma close_scaled f x y e : Rabs (x - y) <= e -> Rabs (f * x - f * y) <= Rabs f * e.
  Proof.
    intros H. replace (f * x - f * y) with (f * (x - y)) by ring. rewrite Rabs_mult.
    apply Rmult_le_compat_l; [apply Rabs_pos|exact H].
  Qed.

  (** ** The report *)
  Theorem report_near : exists K d, 0 < d /\ forall s X e vs h dl D',
    solves_all s -> totals fl T a c s tau X ->
    s_fluid (en_state e) = fl -> s_temp (en_state e) = T -> replies e a -> series_of vs (en_values e) ->
    sound D' -> grid_to (map (@sv_time R) vs) tau -> steps_within h (map (@sv_time R) vs) -> sampled D' r c dl vs -> dl <= d ->
    exists rep, RunResults_from e = Ret rep /\ report_within a X (K * (h + dl)) rep.
  Proof.
    destruct along_all as (A1 & A2 & A3 & A4).
    destruct (along_sol g HR r Hf D c 0 tau HT) as (_ & _ & _ & _ & B1 & _ & B3 & _).
    destruct (figure7 _ A1) as (K1 & d1 & P1 & D1 & G1), (figure7 _ A2) as (K2 & d2 & P2 & D2 & G2),
      (figure7 _ A3) as (K3 & d3 & P3 & D3 & G3), (figure7 _ A4) as (K4 & d4 & P4 & D4 & G4),
      (figure7 _ B1) as (K5 & d5 & P5 & D5 & G5), (figure7 _ B3) as (K6 & d6 & P6 & D6 & G6).
    set (f := rp_freq a). set (w := Rabs (/ (2 * PI * f))).
    set (Q := Rabs f * (2 * K1 + 2 * K2 + K3 + K4 + K5 + K6)).
    assert (F0 : 0 <= Rabs f) by apply Rabs_pos. assert (W0 : 0 <= w) by apply Rabs_pos.
    assert (Q0 : 0 <= Q) by (apply Rmult_le_pos; lra).
    exists (Q + w * Q), (Rmin d1 (Rmin d2 (Rmin d3 (Rmin d4 (Rmin d5 d6))))).
    split; [repeat apply Rmin_pos; assumption|].
    intros s X e vs h dl D' Hs (I1 & I2 & I3 & _ & I4 & I5 & I6) Ef Et Hrp Hse HD' Hg Hh Hsam Hd.
    pose proof (Rmin_l d1 (Rmin d2 (Rmin d3 (Rmin d4 (Rmin d5 d6))))).
    pose proof (Rmin_r d1 (Rmin d2 (Rmin d3 (Rmin d4 (Rmin d5 d6))))).
    pose proof (Rmin_l d2 (Rmin d3 (Rmin d4 (Rmin d5 d6)))). pose proof (Rmin_r d2 (Rmin d3 (Rmin d4 (Rmin d5 d6)))).
    pose proof (Rmin_l d3 (Rmin d4 (Rmin d5 d6))). pose proof (Rmin_r d3 (Rmin d4 (Rmin d5 d6))).
    pose proof (Rmin_l d4 (Rmin d5 d6)). pose proof (Rmin_r d4 (Rmin d5 d6)).
    pose proof (Rmin_l d5 d6). pose proof (Rmin_r d5 d6).
    destruct (reported e a vs Hse Hrp) as (rep & ER & _ & _ & E1 & E2 & E3 & E4 & E5 & E6 & E7 & _).
    exists rep. split; [exact ER|].
    pose proof Hg as (Hnd & _).
    assert (W1 : Rabs (integrate (map (@sv_time R) vs) (map (work_num e a) vs) - to_work X) <= K1 * (h + dl)).
    { apply (G1 D'); try assumption; try lra.
      - intros v _ Hv Ev. unfold work_num, Pc_num, Pe_num, total_num, dVc_num, dVe_num, drop_num, dens_num.
        rewrite (HV _ Hv), Ef, Et, Ev. unfold work7, drop7, drop_in, join. rewrite R_nhalf. unfold n_add, n_mul, n_sub, n_div, R_ops.
        unfold Rdiv. ring.
      - eapply integral_ext; [|exact I1]. intros t Ht. apply (rates_are s t Hs Ht). }
    assert (W2 : Rabs (integrate (map (@sv_time R) vs) (map (ideal_num a) vs) - to_ideal X) <= K2 * (h + dl)).
    { apply (G2 D'); try assumption; try lra.
      - intros v _ Hv Ev. unfold ideal_num, dVc_num, dVe_num. rewrite (HV _ Hv). reflexivity.
      - eapply integral_ext; [|exact I2]. intros t Ht. apply (rates_are s t Hs Ht). }
    assert (W3 : Rabs (integrate (map (@sv_time R) vs) (map (wall_c_num e a) vs) - to_wall_c X) <= K3 * (h + dl)).
    { apply (G3 D'); try assumption; try lra.
      intros v _ Hv Ev. unfold wall_c_num, wall_num. rewrite Et. reflexivity. }
    assert (W4 : Rabs (integrate (map (@sv_time R) vs) (map (wall_e_num e a) vs) - to_wall_e X) <= K4 * (h + dl)).
    { apply (G4 D'); try assumption; try lra.
      intros v _ Hv Ev. unfold wall_e_num, wall_num. rewrite Et. reflexivity. }
    assert (W5 : Rabs (integrate (map (@sv_time R) vs) (map (fun v => so_Q_dot_k (sv_solution v)) vs) - to_Q_k X) <= K5 * (h + dl)).
    { apply (G5 D'); try assumption; try lra.
      - intros v _ Hv Ev. rewrite Ev. reflexivity.
      - eapply integral_ext; [|exact I3]. intros t Ht. cbv beta. rewrite (sol_is s t Hs Ht). reflexivity. }
    assert (W6 : Rabs (integrate (map (@sv_time R) vs) (map (fun v => so_Q_dot_l (sv_solution v)) vs) - to_Q_l X) <= K6 * (h + dl)).
    { apply (G6 D'); try assumption; try lra.
      - intros v _ Hv Ev. rewrite Ev. reflexivity.
      - eapply integral_ext; [|exact I4]. intros t Ht. cbv beta. rewrite (sol_is s t Hs Ht). reflexivity. }
    apply (close_scaled f) in W1, W2, W3, W4, W5, W6.
    fold (cycle_num a vs (work_num e a)) in W1.
    unfold report_within. rewrite E1, E2, E3, E4, E5, E6, E7. clear E1 E2 E3 E4 E5 E6 E7 G1 G2 G3 G4 G5 G6 I1 I2 I3 I4 I5 I6.
    unfold input_num, rejected_num, losses_num, net_num, shaft_num, indicated_num, ideal_ind_num, fric_c_num, fric_e_num, cycle_num.
    unfold true_indicated, true_ideal, true_net, true_shaft, true_input, true_rejected, true_ideal, true_indicated.
    fold f. unfold n_add, n_mul, n_sub, n_div, R_ops.
    set (N1 := f * integrate _ (map (work_num e a) vs)) in *. set (N2 := f * integrate _ (map (ideal_num a) vs)) in *.
    set (N3 := f * integrate _ (map (wall_c_num e a) vs)) in *. set (N4 := f * integrate _ (map (wall_e_num e a) vs)) in *.
    set (N5 := f * integrate _ (map (fun v => so_Q_dot_k (sv_solution v)) vs)) in *.
    set (N6 := f * integrate _ (map (fun v => so_Q_dot_l (sv_solution v)) vs)) in *.
    set (M1 := f * to_work X) in *. set (M2 := f * to_ideal X) in *. set (M3 := f * to_wall_c X) in *.
    set (M4 := f * to_wall_e X) in *. set (M5 := f * to_Q_k X) in *. set (M6 := f * to_Q_l X) in *.
    destruct (errors_nonneg D' vs h dl Hg Hh Hsam) as (h0 & d0).
    assert (Eb : (Q + w * Q) * (h + dl) = Q * (h + dl) + w * (Q * (h + dl))) by ring. rewrite Eb.
    assert (EQ : Q * (h + dl) = 2 * (Rabs f * (K1 * (h + dl))) + 2 * (Rabs f * (K2 * (h + dl))) + Rabs f * (K3 * (h + dl))
      + Rabs f * (K4 * (h + dl)) + Rabs f * (K5 * (h + dl)) + Rabs f * (K6 * (h + dl))) by (unfold Q; ring).
    assert (NN : forall K, 0 <= K -> 0 <= Rabs f * (K * (h + dl))).
    { intros K HK. apply Rmult_le_pos; [exact F0|]. apply Rmult_le_pos; lra. }
    pose proof (NN K1 P1) as Z1. pose proof (NN K2 P2) as Z2. pose proof (NN K3 P3) as Z3. pose proof (NN K4 P4) as Z4.
    pose proof (NN K5 P5) as Z5. pose proof (NN K6 P6) as Z6.
    assert (ZQ : 0 <= w * (Q * (h + dl))) by (apply Rmult_le_pos; [exact W0|rewrite EQ; lra]).
    revert W1 W2 W3 W4 W5 W6 Z1 Z2 Z3 Z4 Z5 Z6 EQ ZQ.
    set (e1 := Rabs f * (K1 * (h + dl))). set (e2 := Rabs f * (K2 * (h + dl))). set (e3 := Rabs f * (K3 * (h + dl))).
    set (e4 := Rabs f * (K4 * (h + dl))). set (e5 := Rabs f * (K5 * (h + dl))). set (e6 := Rabs f * (K6 * (h + dl))).
    set (q := Q * (h + dl)). intros W1 W2 W3 W4 W5 W6 Z1 Z2 Z3 Z4 Z5 Z6 EQ ZQ.
    apply abs_le_iff in W1, W2, W3, W4, W5, W6.
    assert (SH : forall x, Rabs (N1 - x - (M1 - x)) <= q) by (intros x; apply abs_le_iff; lra).
    split; [apply abs_le_iff; lra|]. split; [apply abs_le_iff; lra|]. split; [apply abs_le_iff; lra|].
    split; [apply abs_le_iff; lra|]. split; [apply abs_le_iff; lra|]. split; [apply abs_le_iff; lra|].
    set (x := pp_mechanical (par_comp (rp_par a))). set (y := pp_mechanical (par_exp (rp_par a))).
    replace ((N1 - x - y) / (n2 * n_pi * f) - (M1 - (x + y)) / (2 * PI * f))
      with ((N1 - (x + y) - (M1 - (x + y))) * / (2 * PI * f)).
    2:{ change (n2 * n_pi * f) with (2 * PI * f). unfold Rdiv. ring. }
    rewrite Rabs_mult, Rmult_comm. fold w.
    assert (w * Rabs (N1 - (x + y) - (M1 - (x + y))) <= w * q) by (apply Rmult_le_compat_l; [exact W0|apply SH]).
    assert (0 <= q) by lra. lra.
  Qed.
End Report.
