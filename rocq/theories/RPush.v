(** * Gas that is pushed from one end of the engine to the other *)
From Coq Require Import ZArith NArith List Reals Lra Lia.
From Verif Require Import Num ModelTypes ModelWs ModelHx ModelStateEq ModelEngine RNum Spec SpecR SpecGas
  SpecKin SpecTraj SpecLaws SpecUnique SpecExist SpecDepend SpecSeries SpecQuad SpecSpaces SpecBounds SpecSample SpecMeans SpecPush Fixture PolySolve
  RSolve RGauss RFluid RSpaces RBounds RSample RSampleReport.
Import ListNotations.
Local Open Scope R_scope.

(** ** At one instant *)
Section Push.
  Variables (i : Inputs R) (s : Solution R).
  Hypothesis HP : physical i.
  Hypothesis HC : conserves i s.
  Hypothesis HE : expands_when_heated i.
  Lemma drive_squeezed w h : physical_space w h -> 0 < in_pres i -> wi_dd_dT_P w <= 0 -> squeezed w -> 0 < drive (in_pres i) w.
  Proof.
    intros (_ & Hd & Hu & _) P D (V & Q). unfold drive.
    assert (0 < wi_dens w * wi_dens w * wi_du_dT_P w * - wi_dV_dt w) by (repeat apply Rmult_lt_0_compat; lra).
    assert (A : in_pres i * wi_dV_dt w <= 0) by (assert (0 <= in_pres i * - wi_dV_dt w) by (apply Rmult_le_pos; lra); lra).
    assert (0 <= - wi_dd_dT_P w * - (in_pres i * wi_dV_dt w + wi_Q_dot w)) by (apply Rmult_le_pos; lra). lra.
  Qed.
  Lemma drive_relaxed w h : physical_space w h -> 0 < in_pres i -> wi_dd_dT_P w <= 0 -> relaxed w -> drive (in_pres i) w <= 0.
  Proof.
    intros (_ & Hd & Hu & _) P D (V & Q). unfold drive.
    assert (0 <= wi_dens w * wi_dens w * wi_du_dT_P w * wi_dV_dt w) by (repeat apply Rmult_le_pos; lra).
    assert (A : 0 <= in_pres i * wi_dV_dt w) by (apply Rmult_le_pos; lra).
    assert (0 <= - wi_dd_dT_P w * (in_pres i * wi_dV_dt w + wi_Q_dot w)) by (apply Rmult_le_pos; lra). lra.
  Qed.
  Lemma flows_eq : let p := so_dP_dt s in
    let Kk := hi_vol (in_chx i) * hi_dd_dP_T (in_chx i) in
    let Kr := gi_vol (in_regen i) * gi_dd_dP_T (in_regen i) in
    let Kl := hi_vol (in_hhx i) * hi_dd_dP_T (in_hhx i) in
    Gc i (signs s) * so_m_dot_ck s = drive (in_pres i) (in_comp i) - stiff (in_comp i) * p /\
    Ge i (signs s) * so_m_dot_le s = stiff (in_exp i) * p - drive (in_pres i) (in_exp i) /\
    so_m_dot_kr s = so_m_dot_ck s - Kk * p /\ so_m_dot_rl s = so_m_dot_kr s - Kr * p /\ so_m_dot_le s = so_m_dot_rl s - Kl * p.
  Proof.
    pose proof (conserves_system i s (norm_nonzero i HP) HC) as H. apply (system_eliminated i HP) in H. rewrite named_vector_of in H.
    destruct H as (A & B & C & D & E & _). cbv zeta. auto.
  Qed.
  Lemma pos_of_mult a b : 0 < a -> 0 < a * b -> 0 < b.
  Proof. intros A H. apply (Rmult_lt_reg_l a); lra. Qed.
  Lemma push_out : squeezed (in_comp i) -> relaxed (in_exp i) -> to_expansion s.
  Proof.
    intros SQ RX. pose proof HP as (_ & PC & PE & _). destruct HE as (P0 & D1 & D2).
    pose proof (drive_squeezed _ _ PC P0 D1 SQ) as C0. pose proof (drive_relaxed _ _ PE P0 D2 RX) as E0.
    pose proof (Bc_pos i HP) as B1. pose proof (Be_pos i HP) as B2. pose proof (Gc_pos i HP (signs s)) as G1. pose proof (Ge_pos i HP (signs s)) as G2.
    pose proof (K_nonneg i HP) as (K1 & K2 & K3). destruct flows_eq as (F1 & F2 & F3 & F4 & F5). unfold to_expansion.
    destruct (Rlt_le_dec 0 (so_dP_dt s)) as [p|p].
    - assert (0 < stiff (in_exp i) * so_dP_dt s) by (apply Rmult_lt_0_compat; assumption).
      assert (L : 0 < so_m_dot_le s) by (apply (pos_of_mult _ _ G2); lra).
      pose proof (Rmult_le_pos _ _ K1 (Rlt_le _ _ p)). pose proof (Rmult_le_pos _ _ K2 (Rlt_le _ _ p)). pose proof (Rmult_le_pos _ _ K3 (Rlt_le _ _ p)).
      repeat split; lra.
    - assert (p' : 0 <= - so_dP_dt s) by lra.
      pose proof (Rmult_le_pos _ _ (Rlt_le _ _ B1) p').
      assert (L : 0 < so_m_dot_ck s) by (apply (pos_of_mult _ _ G1); lra).
      pose proof (Rmult_le_pos _ _ K1 p'). pose proof (Rmult_le_pos _ _ K2 p'). pose proof (Rmult_le_pos _ _ K3 p').
      repeat split; lra.
  Qed.
  Lemma push_in : squeezed (in_exp i) -> relaxed (in_comp i) -> to_compression s.
  Proof.
    intros SQ RX. pose proof HP as (_ & PC & PE & _). destruct HE as (P0 & D1 & D2).
    pose proof (drive_squeezed _ _ PE P0 D2 SQ) as E0. pose proof (drive_relaxed _ _ PC P0 D1 RX) as C0.
    pose proof (Bc_pos i HP) as B1. pose proof (Be_pos i HP) as B2. pose proof (Gc_pos i HP (signs s)) as G1. pose proof (Ge_pos i HP (signs s)) as G2.
    pose proof (K_nonneg i HP) as (K1 & K2 & K3). destruct flows_eq as (F1 & F2 & F3 & F4 & F5). unfold to_compression.
    destruct (Rlt_le_dec 0 (so_dP_dt s)) as [p|p].
    - assert (0 < stiff (in_comp i) * so_dP_dt s) by (apply Rmult_lt_0_compat; assumption).
      assert (L : 0 < - so_m_dot_ck s) by (apply (pos_of_mult _ _ G1); lra).
      pose proof (Rmult_le_pos _ _ K1 (Rlt_le _ _ p)). pose proof (Rmult_le_pos _ _ K2 (Rlt_le _ _ p)). pose proof (Rmult_le_pos _ _ K3 (Rlt_le _ _ p)).
      repeat split; lra.
    - assert (p' : 0 <= - so_dP_dt s) by lra.
      pose proof (Rmult_le_pos _ _ (Rlt_le _ _ B2) p').
      assert (L : 0 < - so_m_dot_le s) by (apply (pos_of_mult _ _ G2); lra).
      pose proof (Rmult_le_pos _ _ K1 p'). pose proof (Rmult_le_pos _ _ K2 p'). pose proof (Rmult_le_pos _ _ K3 p').
      repeat split; lra.
  Qed.
End Push.

(** ** Along a trajectory *)
Section Along.
  Variables (name : GasName) (D : Decomp R) (r : Run R) (c : R -> Conditions R).
  Hypothesis Hf : ru_fluid r = IdealGas_Fluid (IdealGas_new name).
  Hypothesis HD : sound D.
  Hypothesis QC : heat_lost_comp r = 0.
  Hypothesis QE : heat_lost_exp r = 0.
  Lemma pushed_along t sol : physical_trajectory D r c t -> solved_at D r t (c t) sol ->
    let vc := fst (ru_ws_vol_fn r t) in let ve := snd (ru_ws_vol_fn r t) in
    (v_deriv vc < 0 -> 0 <= v_deriv ve -> to_expansion sol) /\ (v_deriv ve < 0 -> 0 <= v_deriv vc -> to_compression sol).
  Proof.
    intros (HO & HP & _) (hint & Hs') vc ve.
    pose proof (energy_conserved D _ hint sol HD (norm_nonzero _ HP) Hs') as (HC & _).
    assert (HR : 0 < ig_gas_constant (IdealGas_new (F := R) name)) by apply gas_R_pos.
    set (i := Run_calculate_inputs r t (c t)) in *.
    pose proof HP as (_ & (_ & ZC & _) & _). destruct HO as ((Tc & Te & _) & _).
    assert (A : in_pres i = cd_P (c t) /\ wi_Q_dot (in_comp i) = 0 /\ wi_Q_dot (in_exp i) = 0 /\
      wi_dens (in_comp i) = cd_P (c t) / (ig_gas_constant (IdealGas_new (F := R) name) * cd_T_c (c t)) /\
      wi_dd_dT_P (in_comp i) = - cd_P (c t) / (ig_gas_constant (IdealGas_new (F := R) name) * (cd_T_c (c t) * cd_T_c (c t))) /\
      wi_dd_dT_P (in_exp i) = - cd_P (c t) / (ig_gas_constant (IdealGas_new (F := R) name) * (cd_T_e (c t) * cd_T_e (c t))) /\
      wi_dV_dt (in_comp i) = v_deriv (fst (ru_ws_vol_fn r t)) /\ wi_dV_dt (in_exp i) = v_deriv (snd (ru_ws_vol_fn r t))).
    { subst i. unfold Run_calculate_inputs. destruct (ru_ws_vol_fn r t) as [v1 v2].
      cbn [in_pres in_comp in_exp comp_inputs exp_inputs wi_Q_dot wi_dens wi_dd_dT_P wi_dV_dt fst snd]. rewrite Hf.
      cbn [IdealGas_Fluid fl_dens fl_dd_dT_P]. repeat split; try reflexivity; [exact QC|exact QE]. }
    destruct A as (A1 & A2 & A3 & A4 & A5 & A6 & A7 & A8). set (Rg := ig_gas_constant (IdealGas_new (F := R) name)) in *.
    set (P := cd_P (c t)) in *. set (x := cd_T_c (c t)) in *. set (y := cd_T_e (c t)) in *.
    assert (P0 : 0 < P).
    { rewrite A4 in ZC. assert (0 < Rg * x) by (apply Rmult_lt_0_compat; assumption).
      replace P with (P / (Rg * x) * (Rg * x)) by (field; split; lra). apply Rmult_lt_0_compat; assumption. }
    assert (N : forall z, 0 < z -> - P / (Rg * (z * z)) <= 0).
    { intros z Hz. assert (0 < P / (Rg * (z * z))) by (apply Rdiv_lt_0_compat; [exact P0|repeat apply Rmult_lt_0_compat; assumption]).
      unfold Rdiv in *. lra. }
    assert (HE : expands_when_heated i) by (unfold expands_when_heated; rewrite A1, A5, A6; auto).
    fold vc in A7. fold ve in A8.
    split; intros U1 U2; [apply (push_out i sol HP HC HE)|apply (push_in i sol HP HC HE)];
      unfold squeezed, relaxed; rewrite ?A2, ?A3, ?A7, ?A8; lra.
  Qed.
  Lemma pushed t sol : physical_trajectory D r c t -> solved_at D r t (c t) sol -> pushes_at r t -> to_expansion sol \/ to_compression sol.
  Proof.
    intros HT Hs HU. destruct (pushed_along t sol HT Hs) as (H1 & H2). unfold pushes_at in HU.
    destruct (ru_ws_vol_fn r t) as [vc ve]. cbn [fst snd] in *. destruct HU as [(U1 & U2)|(U1 & U2)]; auto.
  Qed.
End Along.

(** ** Means *)
Lemma integral_pos f a b I t : (forall u, a <= u <= b -> 0 <= f u) -> a < t < b -> 0 < f t -> integral f a b I -> 0 < I.
Proof.
  intros Hp Ht Hft (F & HF & ->).
  assert (Mo : forall x y, a <= x -> x <= y -> y <= b -> F x <= F y).
  { intros x y Hx Hxy Hy. destruct (Req_dec x y) as [->|N]; [lra|].
    destruct (MVT_cor2 F f x y ltac:(lra)) as (z & E & Hz); [intros u Hu; apply HF; lra|].
    assert (0 <= f z * (y - x)) by (apply Rmult_le_pos; [apply Hp; lra|lra]). lra. }
  destruct (HF t ltac:(lra) (f t / 2) ltac:(lra)) as (d & Hd).
  set (h := Rmin (d / 2) (b - t)). pose proof (cond_pos d) as D0.
  assert (h0 : 0 < h) by (unfold h; apply Rmin_pos; lra).
  pose proof (Rmin_l (d / 2) (b - t)) as M1. pose proof (Rmin_r (d / 2) (b - t)) as M2. fold h in M1, M2.
  specialize (Hd h ltac:(lra)). rewrite (Rabs_right h) in Hd by lra. specialize (Hd ltac:(lra)).
  apply Rabs_def2 in Hd as (_ & Hd).
  assert (U : F t < F (t + h)).
  { assert (Q : 0 < (F (t + h) - F t) / h) by lra.
    assert (0 < (F (t + h) - F t) / h * h) by (apply Rmult_lt_0_compat; lra).
    replace ((F (t + h) - F t) / h * h) with (F (t + h) - F t) in * by (field; lra). lra. }
  pose proof (Mo a t ltac:(lra) ltac:(lra) ltac:(lra)). pose proof (Mo (t + h) b ltac:(lra) ltac:(lra) ltac:(lra)). lra.
Qed.
Lemma flows_positive (T : Temperatures R) (res : ThermalResistance R) (name : GasName) (D : Decomp R) (r : Run R) (c : R -> Conditions R)
    (s : R -> Solution R) tau M t :
  ru_fluid r = IdealGas_Fluid (IdealGas_new name) -> sound D -> heat_lost_comp r = 0 -> heat_lost_exp r = 0 ->
  (forall u, 0 <= u <= tau -> physical_trajectory D r c u) -> (forall u, 0 <= u <= tau -> solved_at D r u (c u) (s u)) ->
  means T res c s tau M -> 0 < t < tau -> pushes_at r t ->
  0 < mn_flow_k M /\ 0 < mn_flow_r M /\ 0 < mn_flow_l M.
Proof.
  intros Hf HD QC QE HT Hs (_ & M1 & M2 & M3 & _) Ht HU.
  pose proof (pushed name D r c Hf HD QC QE t (s t) (HT t ltac:(lra)) (Hs t ltac:(lra)) HU) as HF.
  assert (A : forall p q I, (0 < p (s t) /\ 0 < q (s t) \/ p (s t) < 0 /\ q (s t) < 0) ->
    integral (fun u => Rabs (p (s u) + q (s u)) / 2) 0 tau (tau * I) -> 0 < I).
  { intros p q I HE HI. apply (pos_of_mult tau I ltac:(lra)).
    apply (integral_pos _ 0 tau (tau * I) t) with (4 := HI); [|exact Ht|].
    - intros u _. pose proof (Rabs_pos (p (s u) + q (s u))). lra.
    - assert (0 < Rabs (p (s t) + q (s t))) by (apply Rabs_pos_lt; lra). lra. }
  assert (B : forall a b c d, (0 < a /\ 0 < b /\ 0 < c /\ 0 < d) \/ (a < 0 /\ b < 0 /\ c < 0 /\ d < 0) ->
    (0 < a /\ 0 < b \/ a < 0 /\ b < 0) /\ (0 < b /\ 0 < c \/ b < 0 /\ c < 0) /\ (0 < c /\ 0 < d \/ c < 0 /\ d < 0)) by (intros; tauto).
  apply B in HF as (B1 & B2 & B3).
  split; [exact (A _ _ _ B1 M1)|]. split; [exact (A _ _ _ B2 M2)|exact (A _ _ _ B3 M3)].
Qed.
