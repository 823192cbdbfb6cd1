(** * How long exact trajectories last *)
From Coq Require Import ZArith NArith List Reals Lra Lia.
From Verif Require Import Num ModelTypes ModelWs ModelHx ModelStateEq ModelEngine RNum Spec SpecR SpecGas
  SpecKin SpecTraj SpecLaws SpecUnique SpecHydro SpecExist Fixture PolySolve RSolve RGauss RFluid RHydro RKin RMass
  RCase RLaws RClose RPairs RPicard RLocal RUnique RPeriod RExist.
Local Open Scope R_scope.

(** ** What holds near every point of an interval holds uniformly *)
Lemma creep (A : R -> R -> Prop) a b :
  (forall x h k, 0 < k <= h -> A x h -> A x k) ->
  (forall x, a <= x <= b -> exists h, 0 < h /\ forall y, a <= y <= b -> Rabs (y - x) <= h -> A y h) ->
  exists h, 0 < h /\ forall x, a <= x <= b -> A x h.
Proof.
  intros Hm HL. destruct (Rle_dec a b) as [Hab|Hab]; [|exists 1; split; [lra|intros x Hx; lra]].
  set (E := fun x => a <= x <= b /\ exists h, 0 < h /\ forall y, a <= y <= x -> A y h).
  assert (Ea : E a).
  { split; [lra|]. destruct (HL a ltac:(lra)) as (h & H0 & H). exists h. split; [exact H0|]. intros y Hy.
    apply H; [lra|]. replace (y - a) with 0 by lra. rewrite Rabs_R0. lra. }
  destruct (completeness E) as (s & HU & HS).
  { exists b. intros x Hx. apply Hx. }
  { exists a. exact Ea. }
  assert (Hs : a <= s <= b). { split; [apply HU, Ea|apply HS; intros x Hx; apply Hx]. }
  destruct (HL s Hs) as (h & H0 & H).
  assert (exists x, E x /\ s - h < x) as (x & (Hx & k & K0 & HK) & Hsx).
  { destruct (Classical_Prop.classic (exists x, E x /\ s - h < x)) as [C|C]; [exact C|].
    exfalso. assert (s <= s - h); [|lra]. apply HS. intros x Hx.
    destruct (Rle_dec x (s - h)) as [Q|Q]; [exact Q|]. exfalso. apply C. exists x. split; [exact Hx|lra]. }
  assert (Hxs : x <= s) by (apply HU; split; [exact Hx|exists k; auto]).
  set (m := Rmin h k).
  assert (M0 : 0 < m) by (apply Rmin_pos; assumption).
  assert (AL : forall y, a <= y <= b -> y <= s + h -> A y m).
  { intros y Hy Hy'. destruct (Rle_dec y x) as [Q|Q].
    - apply (Hm y k); [split; [exact M0|apply Rmin_r]|]. apply HK. lra.
    - apply (Hm y h); [split; [exact M0|apply Rmin_l]|]. apply H; [exact Hy|]. apply Rabs_le. lra. }
  assert (Es : E (Rmin b (s + h))).
  { split; [split; [apply Rmin_glb; lra|apply Rmin_l]|]. exists m. split; [exact M0|].
    intros y Hy. pose proof (Rmin_l b (s + h)). pose proof (Rmin_r b (s + h)). apply AL; lra. }
  exists m. split; [exact M0|]. intros y Hy. apply AL; [exact Hy|].
  pose proof (HU _ Es) as Q. unfold Rmin in Q. destruct (Rle_dec b (s + h)); lra.
Qed.

(** the same for four numbers *)
Lemma uniform4 (A : R -> R -> R -> R -> R -> Prop) a b a1 b1 a2 b2 a3 b3 :
  (forall t x y z h k, 0 < k <= h -> A t x y z h -> A t x y z k) ->
  (forall t x y z, a <= t <= b -> a1 <= x <= b1 -> a2 <= y <= b2 -> a3 <= z <= b3 ->
     exists h, 0 < h /\ forall t' x' y' z', Rabs (t' - t) <= h -> Rabs (x' - x) <= h -> Rabs (y' - y) <= h ->
       Rabs (z' - z) <= h -> A t' x' y' z' h) ->
  exists h, 0 < h /\ forall t x y z, a <= t <= b -> a1 <= x <= b1 -> a2 <= y <= b2 -> a3 <= z <= b3 -> A t x y z h.
Proof.
  intros Hm HL.
  assert (S3 : forall t x y, a <= t <= b -> a1 <= x <= b1 -> a2 <= y <= b2 -> exists h, 0 < h /\
    forall z, a3 <= z <= b3 -> forall t' x' y', Rabs (t' - t) <= h -> Rabs (x' - x) <= h -> Rabs (y' - y) <= h -> A t' x' y' z h).
  { intros t x y Ht Hx Hy.
    apply (creep (fun z h => forall t' x' y', Rabs (t' - t) <= h -> Rabs (x' - x) <= h -> Rabs (y' - y) <= h -> A t' x' y' z h)).
    - intros z h k Hk HA t' x' y' H1 H2 H3. apply (Hm _ _ _ _ h k Hk). apply HA; lra.
    - intros z Hz. destruct (HL t x y z Ht Hx Hy Hz) as (h & H0 & H). exists h. split; [exact H0|]. intros z' _ Hz' t' x' y' H1 H2 H3.
      apply H; assumption. }
  assert (S2 : forall t x, a <= t <= b -> a1 <= x <= b1 -> exists h, 0 < h /\
    forall y, a2 <= y <= b2 -> forall t' x', Rabs (t' - t) <= h -> Rabs (x' - x) <= h -> forall z, a3 <= z <= b3 -> A t' x' y z h).
  { intros t x Ht Hx.
    apply (creep (fun y h => forall t' x', Rabs (t' - t) <= h -> Rabs (x' - x) <= h -> forall z, a3 <= z <= b3 -> A t' x' y z h)).
    - intros y h k Hk HA t' x' H1 H2 z Hz. apply (Hm _ _ _ _ h k Hk). apply HA; lra.
    - intros y Hy. destruct (S3 t x y Ht Hx Hy) as (h & H0 & H). exists h. split; [exact H0|]. intros y' _ Hy' t' x' H1 H2 z Hz.
      apply H; assumption. }
  assert (S1 : forall t, a <= t <= b -> exists h, 0 < h /\
    forall x, a1 <= x <= b1 -> forall t', Rabs (t' - t) <= h -> forall y z, a2 <= y <= b2 -> a3 <= z <= b3 -> A t' x y z h).
  { intros t Ht.
    apply (creep (fun x h => forall t', Rabs (t' - t) <= h -> forall y z, a2 <= y <= b2 -> a3 <= z <= b3 -> A t' x y z h)).
    - intros x h k Hk HA t' H1 y z Hy Hz. apply (Hm _ _ _ _ h k Hk). apply HA; lra.
    - intros x Hx. destruct (S2 t x Ht Hx) as (h & H0 & H). exists h. split; [exact H0|]. intros x' _ Hx' t' H1 y z Hy Hz.
      apply (H y Hy t' x'); assumption. }
  destruct (creep (fun t h => forall x y z, a1 <= x <= b1 -> a2 <= y <= b2 -> a3 <= z <= b3 -> A t x y z h) a b) as (h & H0 & H).
  - intros t h k Hk HA x y z Hx Hy Hz. apply (Hm _ _ _ _ h k Hk). apply HA; assumption.
  - intros t Ht. destruct (S1 t Ht) as (h & H0 & H). exists h. split; [exact H0|]. intros t' _ Ht' x y z Hx Hy Hz.
    apply (H x Hx t'); assumption.
  - exists h. split; [exact H0|]. intros t x y z Ht Hx Hy Hz. apply H; assumption.
Qed.

(** ** Joining two trajectories *)
Definition glue (t1 : R) (c c' : R -> Conditions R) (t : R) : Conditions R := if Rle_dec t t1 then c t else c' t.
Lemma glue_deriv (f : Conditions R -> R) t1 c c' t l : c t1 = c' t1 ->
  (t <= t1 -> derivable_pt_lim (fun u => f (c u)) t l) -> (t1 <= t -> derivable_pt_lim (fun u => f (c' u)) t l) ->
  derivable_pt_lim (fun u => f (glue t1 c c' u)) t l.
Proof.
  intros E Hl Hr e He.
  destruct (Rtotal_order t t1) as [C|[C|C]].
  - destruct (Hl ltac:(lra) e He) as (dl & Hdl).
    assert (M : 0 < Rmin dl (t1 - t)) by (apply Rmin_pos; [apply cond_pos|lra]).
    exists (mkposreal _ M). intros h Hh Hh'. cbn in Hh'.
    pose proof (Rmin_l dl (t1 - t)). pose proof (Rmin_r dl (t1 - t)). pose proof (Rle_abs h).
    unfold glue. destruct (Rle_dec (t + h) t1); [|lra]. destruct (Rle_dec t t1); [|lra]. apply Hdl; [exact Hh|lra].
  - subst t. destruct (Hl ltac:(lra) e He) as (d1 & H1). destruct (Hr ltac:(lra) e He) as (d2 & H2).
    assert (M : 0 < Rmin d1 d2) by (apply Rmin_pos; apply cond_pos).
    exists (mkposreal _ M). intros h Hh Hh'. cbn in Hh'.
    pose proof (Rmin_l d1 d2). pose proof (Rmin_r d1 d2).
    unfold glue. destruct (Rle_dec t1 t1); [|lra].
    destruct (Rle_dec (t1 + h) t1); [apply H1; [exact Hh|lra]|]. rewrite E. apply H2; [exact Hh|lra].
  - destruct (Hr ltac:(lra) e He) as (dl & Hdl).
    assert (M : 0 < Rmin dl (t - t1)) by (apply Rmin_pos; [apply cond_pos|lra]).
    exists (mkposreal _ M). intros h Hh Hh'. cbn in Hh'.
    pose proof (Rmin_l dl (t - t1)). pose proof (Rmin_r dl (t - t1)). pose proof (Rle_abs (- h)) as Q. rewrite Rabs_Ropp in Q.
    unfold glue. destruct (Rle_dec (t + h) t1); [lra|]. destruct (Rle_dec t t1); [lra|]. apply Hdl; [exact Hh|lra].
Qed.
Lemma glue_left t1 c c' t : t <= t1 -> glue t1 c c' t = c t.
Proof. intros H. unfold glue. destruct (Rle_dec t t1); [reflexivity|lra]. Qed.
Lemma glue_right t1 c c' t : c t1 = c' t1 -> t1 <= t -> glue t1 c c' t = c' t.
Proof. intros E H. unfold glue. destruct (Rle_dec t t1); [|reflexivity]. replace t with t1 by lra. exact E. Qed.
Lemma glue_trajectory D r t1 c c' t : sound D -> c t1 = c' t1 ->
  (t <= t1 -> physical_trajectory D r c t) -> (t1 <= t -> physical_trajectory D r c' t) ->
  physical_trajectory D r (glue t1 c c') t.
Proof.
  intros HD E Hl Hr.
  assert (S : exists hint s, solve D (Run_calculate_inputs r t (glue t1 c c' t)) hint = Ok s /\
    physical (Run_calculate_inputs r t (glue t1 c c' t)) /\ positive_temps r (glue t1 c c' t) /\
    true_derivatives (ru_ws_vol_fn r) t /\ continuous_rates (ru_ws_vol_fn r) t /\
    (t <= t1 -> follows c s t) /\ (t1 <= t -> follows c' s t)).
  { destruct (Rtotal_order t t1) as [C|[C|C]].
    - rewrite glue_left by lra. destruct (Hl ltac:(lra)) as ((A1 & A2 & hint & s & A3 & A4) & A5 & A6).
      exists hint, s. do 5 (split; [assumption|]). split; intros Q; [exact A4|exfalso; lra].
    - subst t. rewrite glue_left by lra. destruct (Hl ltac:(lra)) as ((A1 & A2 & hint & s & A3 & A4) & A5 & A6).
      destruct (Hr ltac:(lra)) as ((B1 & B2 & hint' & s' & B3 & B4) & B5 & B6).
      rewrite <- E in B3. assert (s' = s) by exact (solve_unique _ A5 D D hint' hint s' s HD HD B3 A3). subst s'.
      exists hint, s. auto 10.
    - rewrite (glue_right t1 c c' t E) by lra. destruct (Hr ltac:(lra)) as ((A1 & A2 & hint & s & A3 & A4) & A5 & A6).
      exists hint, s. do 5 (split; [assumption|]). split; intros Q; [exfalso; lra|exact A4]. }
  destruct S as (hint & s & S1 & S2 & S3 & S4 & S5 & S6 & S7).
  split; [|split; assumption]. split; [exact S3|]. split; [exact S4|]. exists hint, s. split; [exact S1|].
  split; [|split]; (apply glue_deriv; [exact E| |]); intros Q; try apply (S6 Q); apply (S7 Q).
Qed.

Lemma box_dec lo hi c : {in_box lo hi c} + {~ in_box lo hi c}.
Proof.
  unfold in_box.
  destruct (Rle_dec (cd_P lo) (cd_P c)); [|right; intros ?; lra]. destruct (Rle_dec (cd_P c) (cd_P hi)); [|right; intros ?; lra].
  destruct (Rle_dec (cd_T_c lo) (cd_T_c c)); [|right; intros ?; lra]. destruct (Rle_dec (cd_T_c c) (cd_T_c hi)); [|right; intros ?; lra].
  destruct (Rle_dec (cd_T_e lo) (cd_T_e c)); [|right; intros ?; lra]. destruct (Rle_dec (cd_T_e c) (cd_T_e hi)); [|right; intros ?; lra].
  left. auto.
Qed.

Lemma steps_enough e x : 0 < e -> exists n, x < INR n * e.
Proof.
  intros He. destruct (archimed (x / e)) as (A & _). exists (Z.to_nat (up (x / e))).
  assert (x / e < INR (Z.to_nat (up (x / e)))).
  { eapply Rlt_le_trans; [exact A|]. rewrite INR_IZR_INZ. apply IZR_le. lia. }
  apply Rmult_lt_compat_r with (r := e) in H; [|exact He]. replace (x / e * e) with x in H by (field; lra). exact H.
Qed.

Section Lasting.
  Variable name : GasName.
  Variable r : Run R.
  Hypothesis Hf : ru_fluid r = IdealGas_Fluid (IdealGas_new name).
  Variables (t0 T : R) (lo hi c0 : Conditions R).
  Hypothesis HtT : t0 <= T.
  Hypothesis Hv : forall t, true_derivatives (ru_ws_vol_fn r) t /\ continuous_rates (ru_ws_vol_fn r) t.
  Hypothesis Hbox : forall t c, t0 <= t <= T -> in_box lo hi c ->
    positive_temps r c /\ physical (Run_calculate_inputs r t c).
  Hypothesis H0 : in_box lo hi c0.
  Variable D : Decomp R.
  Hypothesis HS : sound D.
  Hypothesis HC : complete D.

  Lemma steps : exists h, 0 < h /\ forall t1 c1, t0 <= t1 <= T -> in_box lo hi c1 ->
    exists c, c t1 = c1 /\ forall t, t1 - h < t < t1 + h -> physical_trajectory D r c t.
  Proof.
    destruct (uniform4 (fun t x y z h => exists c, c t = mkCond x y z /\
        forall u, t - h < u < t + h -> physical_trajectory D r c u)
      t0 T (cd_P lo) (cd_P hi) (cd_T_c lo) (cd_T_c hi) (cd_T_e lo) (cd_T_e hi)) as (h & Hh & H).
    - intros t x y z h k Hk (c & E & A). exists c. split; [exact E|]. intros u Hu. apply A. lra.
    - intros t x y z Ht Hx Hy Hz.
      assert (B : in_box lo hi (mkCond x y z)) by (split; [exact Hx|split; [exact Hy|exact Hz]]).
      destruct (Hbox t _ Ht B) as (P1 & P2).
      destruct (starts name r Hf t 1 (mkCond x y z) Rlt_0_1 P1 P2 (fun u _ => Hv u)) as (h & Hh & H).
      exists h. split; [exact Hh|]. intros t' x' y' z' E1 E2 E3 E4.
      destruct (H t' (mkCond x' y' z') E1) as (c & Ec & A); [split; [exact E2|split; [exact E3|exact E4]]|].
      exists c. split; [exact Ec|]. intros u Hu. apply A; assumption.
    - exists h. split; [exact Hh|]. intros t1 [x y z] Ht (B1 & B2 & B3). apply H; assumption.
  Qed.

  Lemma lasting : lasts D r lo hi c0 t0 T.
  Proof.
    destruct steps as (h & Hh & H).
    assert (N : forall n, lasts D r lo hi c0 t0 (Rmin T (t0 + INR n * (h / 2)))).
    { induction n as [|n IH].
      - destruct (H t0 c0 ltac:(lra) H0) as (c & Ec & A). exists t0, c.
        replace (Rmin T (t0 + INR 0 * (h / 2))) with t0.
        2:{ cbn. rewrite Rmult_0_l, Rplus_0_r, Rmin_right; lra. }
        split; [lra|]. split; [exact Ec|]. split; [|left; reflexivity]. intros t Ht. apply A. lra.
      - assert (I : INR n * (h / 2) <= INR (S n) * (h / 2)) by (rewrite S_INR; lra).
        assert (Imin : Rmin T (t0 + INR n * (h / 2)) <= Rmin T (t0 + INR (S n) * (h / 2))).
        { apply Rmin_glb; [apply Rmin_l|eapply Rle_trans; [apply Rmin_r|lra]]. }
        destruct IH as (t1 & c & Ht1 & Ec & A & [E|E]).
        + destruct (box_dec lo hi (c t1)) as [B|B].
          2:{ exists t1, c. split; [lra|]. split; [exact Ec|]. split; [exact A|right; exact B]. }
          assert (HT1 : t0 <= t1 <= T). { pose proof (Rmin_l T (t0 + INR n * (h / 2))). lra. }
          destruct (H t1 (c t1) HT1 B) as (c' & Ec' & A').
          set (t2 := Rmin T (t0 + INR (S n) * (h / 2))) in *.
          assert (Ht2 : t1 <= t2 < t1 + h).
          { split; [lra|]. unfold t2. rewrite E. unfold Rmin at 2. destruct (Rle_dec T (t0 + INR n * (h / 2))).
            - pose proof (Rmin_l T (t0 + INR (S n) * (h / 2))). lra.
            - pose proof (Rmin_r T (t0 + INR (S n) * (h / 2))). rewrite S_INR in *. lra. }
          exists t2, (glue t1 c c'). split; [lra|]. split; [rewrite glue_left by lra; exact Ec|].
          split; [|left; reflexivity].
          intros t Ht. apply glue_trajectory; [exact HS|symmetry; exact Ec'| |]; intros Q; [apply A; lra|apply A'; lra].
        + exists t1, c. split; [lra|]. split; [exact Ec|]. split; [exact A|right; exact E]. }
    destruct (steps_enough (h / 2) (T - t0) ltac:(lra)) as (n & Hn).
    specialize (N n). replace (Rmin T (t0 + INR n * (h / 2))) with T in N; [exact N|].
    rewrite Rmin_left; [reflexivity|].
    lra.
  Qed.
End Lasting.

Lemma local_trajectory name r t0 c0 eta D :
  ru_fluid r = IdealGas_Fluid (IdealGas_new name) -> sound D -> complete D -> 0 < eta ->
  (forall t, t0 - eta <= t <= t0 + eta -> true_derivatives (ru_ws_vol_fn r) t /\ continuous_rates (ru_ws_vol_fn r) t) ->
  positive_temps r c0 -> physical (Run_calculate_inputs r t0 c0) ->
  exists h c, 0 < h /\ c t0 = c0 /\ forall t, t0 - h < t < t0 + h -> physical_trajectory D r c t.
Proof.
  intros Hf HS HC He Hv HT HP.
  destruct (starts name r Hf t0 eta c0 He HT HP Hv) as (h & Hh & H).
  destruct (H t0 c0) as (c & Ec & A).
  - replace (t0 - t0) with 0 by ring. rewrite Rabs_R0. lra.
  - unfold close3. rewrite !Rminus_diag_eq by reflexivity. rewrite Rabs_R0. lra.
  - exists h, c. split; [exact Hh|]. split; [exact Ec|]. intros t Ht. apply A; assumption.
Qed.

Lemma driven_volumes comps s r : driven (co_ws comps) -> Run_new comps s = Ret r ->
  forall t, true_derivatives (ru_ws_vol_fn r) t /\ continuous_rates (ru_ws_vol_fn r) t.
Proof.
  intros Hd H t. split; [|apply (driven_run comps s r Hd H)]. unfold Run_new in H.
  destruct (ex_volume (co_chx comps)); [|discriminate].
  destruct (ex_volume (co_regen comps)); [|discriminate].
  destruct (ex_volume (co_hhx comps)); [|discriminate]. cbn [obind] in H.
  destruct Hd as [(d & E & Hf)|(d & E & Hf & HT & HD)]; rewrite E in H;
    cbn [SinusoidalDrive_ws RhombicDrive_ws ws_frequency ws_volumes ws_parasitics obind] in H; injection H as <-;
    cbn [ru_ws_vol_fn].
  - exact (sin_true_derivatives d t).
  - exact (rh_true_derivatives d HT t HD).
Qed.

Lemma helium_box r t lo hi c : in_box lo hi c -> helium_conditions r t lo -> helium_conditions r t c.
Proof.
  intros (B1 & B2 & B3) (H1 & H2 & H3 & H4). unfold helium_conditions, warm, cp_he in *.
  split; [lra|]. split; [lra|]. split; [lra|exact H4].
Qed.
Lemma helium_temps r t c : helium_conditions r t c -> positive_temps r c.
Proof.
  intros (H1 & H2 & H3 & H4 & H5 & H6 & _). unfold warm, R_he, T_ref, cp_he in *. unfold positive_temps.
  repeat split; try assumption; lra.
Qed.
Lemma hydrogen_box r t lo hi c : in_box lo hi c -> hydrogen_conditions r t lo -> hydrogen_conditions r t c.
Proof.
  intros (B1 & B2 & B3) (H1 & H2 & H3 & H4). unfold hydrogen_conditions in *.
  split; [lra|]. split; [lra|]. split; [lra|exact H4].
Qed.
Lemma hydrogen_temps r t c : hydrogen_conditions r t c -> positive_temps r c.
Proof.
  intros (H1 & H2 & H3 & H4 & H5 & H6 & _). unfold T_cold in *. unfold positive_temps.
  repeat split; try assumption; lra.
Qed.

Lemma helium_lasts comps s r D lo hi c0 T :
  s_fluid s = IdealGas_Fluid he -> driven (co_ws comps) -> Run_new comps s = Ret r ->
  te_sink (s_temp s) + te_source (s_temp s) <> 500 -> sound D -> complete D -> 0 <= T ->
  (forall t, 0 <= t <= T -> helium_conditions r t lo) -> in_box lo hi c0 -> lasts D r lo hi c0 0 T.
Proof.
  intros Hf Hd Hr Hn HS HC HT H HB.
  assert (Hfr : ru_fluid r = IdealGas_Fluid he) by (rewrite <- Hf; apply (driven_run comps s r Hd Hr)).
  assert (Hn' : ru_enth_norm r <> 0).
  { rewrite (norm_eq comps s r Hf Hr). intros E. apply Hn. apply Rmult_integral in E. destruct E as [E|E]; lra. }
  apply (lasting Helium r Hfr 0 T lo hi c0 HT (driven_volumes comps s r Hd Hr)); try assumption.
  intros t c Ht Hc. pose proof (helium_box r t lo hi c Hc (H t Ht)) as Q.
  split; [exact (helium_temps r t c Q)|exact (helium_physical r t c Hfr Hn' Q)].
Qed.

Lemma hydrogen_lasts comps s r D lo hi c0 T :
  s_fluid s = IdealGas_Fluid h2 -> driven (co_ws comps) -> Run_new comps s = Ret r ->
  250 <= te_sink (s_temp s) -> 250 < te_source (s_temp s) -> sound D -> complete D -> 0 <= T ->
  (forall t, 0 <= t <= T -> hydrogen_conditions r t lo) -> in_box lo hi c0 -> lasts D r lo hi c0 0 T.
Proof.
  intros Hf Hd Hr Hk Hl HS HC HT H HB.
  assert (Hfr : ru_fluid r = IdealGas_Fluid h2) by (rewrite <- Hf; apply (driven_run comps s r Hd Hr)).
  assert (Hn' : ru_enth_norm r <> 0) by (apply Rgt_not_eq; exact (hydrogen_norm comps s r Hf Hr Hk Hl)).
  apply (lasting Hydrogen r Hfr 0 T lo hi c0 HT (driven_volumes comps s r Hd Hr)); try assumption.
  intros t c Ht Hc. pose proof (hydrogen_box r t lo hi c Hc (H t Ht)) as Q.
  split; [exact (hydrogen_temps r t c Q)|exact (hydrogen_physical r t c Hfr Hn' Q)].
Qed.

(** ** The helium engine with sinusoidal drive, over one revolution *)
Definition case_lo : Conditions R := mkCond 100000 200 500.
Definition case_hi : Conditions R := mkCond 10000000 600 1500.
Lemma case_driven : driven (co_ws case_comps).
Proof. left. exists case_drive. split; [reflexivity|]. cbn. lra. Qed.
Lemma case_box : in_box case_lo case_hi case_conditions.
Proof. unfold in_box, case_lo, case_hi, case_conditions. cbn. lra. Qed.
Lemma case_low t : helium_conditions case_run t case_lo.
Proof.
  destruct (sin_bounds case_drive t) as [[H1 _] [H2 _]]; cbn; try lra.
  unfold helium_conditions, warm, R_he, T_ref, cp_he.
  change (ru_ws_vol_fn case_run t) with (sin_volumes case_drive t).
  cbn -[sin_volumes] in *. repeat split; lra.
Qed.
Lemma case_lasts : lasts gauss case_run case_lo case_hi case_conditions 0 (ru_period case_run).
Proof.
  apply (helium_lasts case_comps case_state case_run gauss); try reflexivity.
  - exact case_driven.
  - cbn. lra.
  - exact gauss_sound.
  - exact gauss_complete.
  - cbn. lra.
  - intros t _. apply case_low.
  - exact case_box.
Qed.
