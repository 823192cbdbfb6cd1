(** * Averages of samples of a trajectory are near its means *)
From Coq Require Import ZArith NArith List Reals Lra Lia.
From Verif Require Import Num ModelTypes ModelWs ModelHx ModelStateEq ModelEngine ModelApi RNum Spec SpecR SpecGas
  SpecKin SpecTraj SpecLaws SpecUnique SpecExist SpecDepend SpecSeries SpecQuad SpecReport SpecSample SpecMeans Fixture PolySolve PolyLoop
  PolyReport RSolve RGauss RFluid RKin RMass RLaws RClose RPairs RPicard RLocal RExist RStart RDepend RQuad RSeries RSmooth
  RSample RSampleReport.
Import ListNotations.
Local Open Scope R_scope.

Lemma tame_abs y0 f : tame y0 f -> tame y0 (fun y => Rabs (f y)).
Proof.
  intros (K & dl & K0 & D0 & H). exists K, dl. split; [exact K0|]. split; [exact D0|]. intros y z Hy Hz. destruct (H y z Hy Hz) as (A & B).
  split; [rewrite Rabs_Rabsolu; exact A|]. apply Rle_trans with (2 := B). apply Rabs_triang_inv2.
Qed.
Lemma series_map {A} (p : SeValues R -> A) vs l : Forall2 (fun x y => y = p x) vs l -> l = map p vs.
Proof. induction 1 as [|x y vs l E _ IH]; [reflexivity|]. cbn [map]. rewrite E, IH. reflexivity. Qed.
Lemma magnitudes_map (p q : SeValues R -> R) vs : mean_magnitudes (map p vs) (map q vs) = map (fun v => / 2 * Rabs (p v + q v)) vs.
Proof.
  induction vs as [|v vs IH]; [reflexivity|]. cbn [map mean_magnitudes]. rewrite IH, R_nhalf. reflexivity.
Qed.
Lemma below_min x a b : x <= Rmin a b -> x <= a /\ x <= b.
Proof. pose proof (Rmin_l a b). pose proof (Rmin_r a b). lra. Qed.
Lemma average_plus {A} (f f' : A -> R) l x tau :
  integrate x (map f l) / tau + integrate x (map f' l) / tau = integrate x (map (fun i => f i + f' i) l) / tau.
Proof.
  rewrite (map_ext (fun i => f i + f' i) (fun i => 1 * f i + 1 * f' i)) by (intros; ring). rewrite integrate_linear. unfold Rdiv. ring.
Qed.
(** an average of samples on a grid *)
Lemma average_is time y a tau : time_average time y a -> grid_to time tau -> a = integrate time y / tau.
Proof.
  intros (pre & l & -> & ->) (_ & _ & (pre' & E) & _). apply app_inj_tail in E as (_ & ->). rewrite integrate_trapz. reflexivity.
Qed.
Lemma mean_near x I tau K z : 0 < tau -> Rabs (x - tau * I) <= K * z -> Rabs (x / tau - I) <= K / tau * z.
Proof.
  intros T0 H. replace (x / tau - I) with ((x - tau * I) * / tau) by (field; lra). rewrite Rabs_mult.
  rewrite (Rabs_pos_eq (/ tau)) by (left; apply Rinv_0_lt_compat; exact T0).
  replace (K / tau * z) with (K * z * / tau) by (unfold Rdiv; ring).
  apply Rmult_le_compat_r; [left; apply Rinv_0_lt_compat; exact T0|exact H].
Qed.

Section Near.
  Variable g : IdealGas R.
  Let Rg := ig_gas_constant g.
  Hypothesis HR : 0 < Rg.
  Variable r : Run R.
  Hypothesis Hf : ru_fluid r = IdealGas_Fluid g.
  Variables (D : Decomp R) (c : R -> Conditions R) (tau : R).
  Hypothesis HD : sound D.
  Hypothesis Htau : 0 < tau.
  Hypothesis HT : forall t, 0 <= t <= tau -> physical_trajectory D r c t.
  Hypothesis HW : steady_motion (ru_ws_vol_fn r) 0 tau.
  Variables (T : Temperatures R) (res : ThermalResistance R).
  Let T0 := Rlt_le 0 tau Htau.
  Notation along := (along r c 0 tau).
  Let pr7 (p : Solution R -> R) (y : C7 -> R) : R := p (sol7 r y).
  Let heatk7 (y : C7 -> R) : R := (y yC - te_chx T) / tr_comp res + so_Q_dot_k (sol7 r y).
  Let heatl7 (y : C7 -> R) : R := (te_hhx T - y yE) / tr_exp res + so_Q_dot_l (sol7 r y).
  Let flow7 (p q : Solution R -> R) (y : C7 -> R) : R := Rabs (p (sol7 r y) + q (sol7 r y)) * / 2.
  Lemma along_flow p q : along (fun y => p (sol7 r y)) -> along (fun y => q (sol7 r y)) -> along (flow7 p q).
  Proof.
    intros Hp Hq. apply along_mult; [|apply along_const]. intros t Ht. apply tame_abs. exact (along_plus r c tau _ _ Hp Hq t Ht).
  Qed.
  Lemma along_heats : along heatk7 /\ along heatl7.
  Proof.
    destruct (along_sol g HR r Hf D c 0 tau HT) as (_ & _ & _ & _ & B1 & _ & B3 & _).
    split; (apply along_plus; [|assumption]).
    - apply (along_mult r c tau (fun y => y yC - te_chx T) (fun _ => / tr_comp res)); [|apply along_const].
      exact (along_minus r c tau _ _ (along_coord r c tau yC) (along_const r c tau _)).
    - apply (along_mult r c tau (fun y => te_hhx T - y yE) (fun _ => / tr_exp res)); [|apply along_const].
      exact (along_minus r c tau _ _ (along_const r c tau _) (along_coord r c tau yE)).
  Qed.
  Let is_sol s t Hs Ht := sol_is r D c tau HD HT s t Hs Ht.
  (** the cycle has means *)
  Lemma means_exist s : solves_all r D c tau s -> exists M, means T res c s tau M.
  Proof.
    intros Hs. destruct (along_sol g HR r Hf D c 0 tau HT) as (A1 & A2 & A3 & A4 & _ & B2 & _). destruct along_heats as (C1 & C2).
    pose proof (quantity_integral g HR r Hf D c tau HD T0 HT HW) as Q.
    destruct (Q _ (along_coord r c tau yP)) as (I1 & Q1). destruct (Q _ (along_flow _ _ A1 A2)) as (I2 & Q2).
    destruct (Q _ (along_flow _ _ A2 A3)) as (I3 & Q3). destruct (Q _ (along_flow _ _ A3 A4)) as (I4 & Q4).
    destruct (Q _ C1) as (I5 & Q5). destruct (Q _ B2) as (I6 & Q6). destruct (Q _ C2) as (I7 & Q7).
    assert (X : forall I, tau * (I / tau) = I) by (intros I; field; lra).
    exists (mkMeans (I1 / tau) (I2 / tau) (I3 / tau) (I4 / tau) (I5 / tau) (I6 / tau) (I7 / tau)).
    unfold means. cbn [mn_P mn_flow_k mn_flow_r mn_flow_l mn_heat_k mn_heat_r mn_heat_l]. rewrite !X.
    split; [|split; [|split; [|split; [|split; [|split]]]]]; (eapply integral_ext; [|eassumption]); intros t Ht;
      unfold flow_k, flow_r, flow_l, heat_k, heat_l; try rewrite (is_sol s t Hs Ht); reflexivity.
  Qed.
  Theorem means_near : exists K d, 0 <= K /\ 0 < d /\ forall s M vs v h dl D' P m q,
    solves_all r D c tau s -> means T res c s tau M -> series_of vs v ->
    sound D' -> grid_to (map (@sv_time R) vs) tau -> steps_within h (map (@sv_time R) vs) -> sampled D' r c dl vs -> dl <= d ->
    time_average (vs_time v) (vs_P v) P -> mass_flow_averages v m -> heat_flow_averages v (te_chx T) (te_hhx T) res q ->
    averages_within (K * (h + dl)) M P m q.
  Proof.
    destruct (along_sol g HR r Hf D c 0 tau HT) as (A1 & A2 & A3 & A4 & B1 & B2 & B3 & _). destruct along_heats as (C1 & C2).
    pose proof (figure7 g HR r Hf D c tau HD T0 HT HW) as G.
    destruct (G _ (along_coord r c tau yP)) as (K1 & d1 & P1 & D1 & G1). destruct (G _ (along_flow _ _ A1 A2)) as (K2 & d2 & P2 & D2 & G2).
    destruct (G _ (along_flow _ _ A2 A3)) as (K3 & d3 & P3 & D3 & G3). destruct (G _ (along_flow _ _ A3 A4)) as (K4 & d4 & P4 & D4 & G4).
    destruct (G _ C1) as (K5 & d5 & P5 & D5 & G5). destruct (G _ B2) as (K6 & d6 & P6 & D6 & G6). destruct (G _ C2) as (K7 & d7 & P7 & D7 & G7).
    clear G. set (K := K1 + K2 + K3 + K4 + K5 + K6 + K7). set (d := Rmin (Rmin (Rmin d1 d2) (Rmin d3 d4)) (Rmin (Rmin d5 d6) d7)).
    exists (K / tau), d. split; [apply Rle_mult_inv_pos; unfold K; lra|]. split; [unfold d; repeat apply Rmin_pos; assumption|].
    intros s M vs v h dl D' P m q Hs (I1 & I2 & I3 & I4 & I5 & I6 & I7) Hse HD' Hg Hh Hsam Hd HP (M1 & M2 & M3)
      (q_c & q_k & q_e & q_l & (_ & Q1) & (_ & Q2) & Q3 & Q4 & Q5 & Q6 & Q7).
    specialize (Q1 eq_refl). specialize (Q2 eq_refl).
    assert (LD : dl <= d1 /\ dl <= d2 /\ dl <= d3 /\ dl <= d4 /\ dl <= d5 /\ dl <= d6 /\ dl <= d7).
    { unfold d in Hd. apply below_min in Hd as (Hd & Hd'). apply below_min in Hd as (L1 & L2). apply below_min in L1, L2.
      apply below_min in Hd' as (L3 & L4). apply below_min in L3. tauto. }
    destruct LD as (L1 & L2 & L3 & L4 & L5 & L6 & L7).
    destruct (errors_nonneg r c tau D' vs h dl Hg Hh Hsam) as (h0 & dl0).
    destruct Hse as (S1 & S2 & S3 & S4 & S5 & S6 & S7 & S8 & S9 & S10 & S11).
    apply series_map in S1, S2, S3, S4, S5, S6, S7, S8, S9, S10, S11.
    rewrite S1 in *. rewrite ?S2, ?S3, ?S4, ?S5, ?S6, ?S7, ?S8, ?S9, ?S10, ?S11 in *. rewrite ?magnitudes_map in M1, M2, M3. rewrite ?map_map in Q1, Q2.
    set (time := map (@sv_time R) vs) in *.
    apply (average_is time _ _ tau) in HP; [|exact Hg]. apply (average_is time _ _ tau) in M1; [|exact Hg]. apply (average_is time _ _ tau) in M2; [|exact Hg].
    apply (average_is time _ _ tau) in M3; [|exact Hg]. apply (average_is time _ _ tau) in Q1; [|exact Hg]. apply (average_is time _ _ tau) in Q2; [|exact Hg].
    apply (average_is time _ _ tau) in Q3; [|exact Hg]. apply (average_is time _ _ tau) in Q4; [|exact Hg]. apply (average_is time _ _ tau) in Q5; [|exact Hg].
    assert (E : forall f (p : SeValues R -> R) Ki di I, 
      (forall D' vs (k : SeValues R -> R) h dl I, sound D' -> grid_to (map (@sv_time R) vs) tau ->
        steps_within h (map (@sv_time R) vs) -> sampled D' r c dl vs -> dl <= di ->
        (forall v, In v vs -> 0 <= sv_time v <= tau -> sv_solution v = sol7 r (join r (sv_conditions v) (sv_time v)) ->
          k v = f (join r (sv_conditions v) (sv_time v))) ->
        integral (fun t => f (join r (c t) t)) 0 tau I ->
        Rabs (integrate (map (@sv_time R) vs) (map k vs) - I) <= Ki * (h + dl)) -> dl <= di -> Ki <= K ->
      (forall v, sv_solution v = sol7 r (join r (sv_conditions v) (sv_time v)) -> p v = f (join r (sv_conditions v) (sv_time v))) ->
      integral (fun t => f (join r (c t) t)) 0 tau (tau * I) ->
      Rabs (integrate time (map p vs) / tau - I) <= K / tau * (h + dl)).
    { intros f p Ki di I Gi Li LK Hp HI. apply mean_near; [exact Htau|].
      apply Rle_trans with (Ki * (h + dl)); [|apply Rmult_le_compat_r; lra].
      apply (Gi D'); try assumption. intros w _ _ Hw. apply Hp, Hw. }
    assert (KK : K1 <= K /\ K2 <= K /\ K3 <= K /\ K4 <= K /\ K5 <= K /\ K6 <= K /\ K7 <= K) by (unfold K; lra).
    destruct KK as (N1 & N2 & N3 & N4 & N5 & N6 & N7).
    assert (HK5 : hf_chx q = integrate time (map (fun v => (cd_T_c (sv_conditions v) - te_chx T) / tr_comp res + so_Q_dot_k (sv_solution v)) vs) / tau).
    { rewrite Q6, Q1, Q3. apply average_plus. }
    assert (HK7 : hf_hhx q = integrate time (map (fun v => (te_hhx T - cd_T_e (sv_conditions v)) / tr_exp res + so_Q_dot_l (sv_solution v)) vs) / tau).
    { rewrite Q7, Q2, Q4. apply average_plus. }
    unfold averages_within. rewrite HP, M1, M2, M3, Q5, HK5, HK7.
    split; [|split; [|split; [|split; [|split; [|split]]]]].
    - apply (E (fun y => y yP) _ _ _ _ G1 L1 N1); [intros w Hw; reflexivity|exact I1].
    - apply (E (flow7 so_m_dot_ck so_m_dot_kr) _ _ _ _ G2 L2 N2); [intros w Hw; rewrite Hw; unfold flow7; ring|].
      eapply integral_ext; [|exact I2]. intros t Ht. unfold flow_k. rewrite (is_sol s t Hs Ht). reflexivity.
    - apply (E (flow7 so_m_dot_kr so_m_dot_rl) _ _ _ _ G3 L3 N3); [intros w Hw; rewrite Hw; unfold flow7; ring|].
      eapply integral_ext; [|exact I3]. intros t Ht. unfold flow_r. rewrite (is_sol s t Hs Ht). reflexivity.
    - apply (E (flow7 so_m_dot_rl so_m_dot_le) _ _ _ _ G4 L4 N4); [intros w Hw; rewrite Hw; unfold flow7; ring|].
      eapply integral_ext; [|exact I4]. intros t Ht. unfold flow_l. rewrite (is_sol s t Hs Ht). reflexivity.
    - apply (E heatk7 _ _ _ _ G5 L5 N5); [intros w Hw; rewrite Hw; reflexivity|].
      eapply integral_ext; [|exact I5]. intros t Ht. unfold heat_k. rewrite (is_sol s t Hs Ht). reflexivity.
    - apply (E (fun y => so_Q_dot_r (sol7 r y)) _ _ _ _ G6 L6 N6); [intros w Hw; rewrite Hw; reflexivity|].
      eapply integral_ext; [|exact I6]. intros t Ht. cbv beta. rewrite (is_sol s t Hs Ht). reflexivity.
    - apply (E heatl7 _ _ _ _ G7 L7 N7); [intros w Hw; rewrite Hw; reflexivity|].
      eapply integral_ext; [|exact I7]. intros t Ht. unfold heat_l. rewrite (is_sol s t Hs Ht). reflexivity.
  Qed.
End Near.
