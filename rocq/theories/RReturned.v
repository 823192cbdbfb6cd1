(** * What successful runs with an accurate integrator return *)
From Coq Require Import ZArith NArith List Reals Lra Lia.
From Verif Require Import Num ModelTypes ModelWs ModelHx ModelStateEq ModelEngine ModelApi RNum Spec SpecLoop SpecR SpecGas
  SpecKin SpecTraj SpecLaws SpecUnique SpecExist SpecDepend SpecSeries SpecQuad SpecReport SpecSpaces SpecBounds SpecSteady SpecContract
  SpecSample SpecGlobal SpecSearch SpecConverge SpecAccurate SpecMeans Fixture PolySolve PolyLoop PolyRun PolyReport RSolve RGauss RFluid RKin RPeriod RSeries
  RCase4 RDepend RBounds RSteady RSample RSampleReport RMotion RSampleCase RSearchCase RGlobal RGlobalReport RContractEngine RSettle RSearch RConverge RAccurate RMeans.
Import ListNotations.
Local Open Scope R_scope.

(** the search at the state that a run returns *)
Lemma returned_search {F} {ops : NumOps F} (E : Env F) (U : Decomp F) (comps : Components F) (settings : RunSettings F) en :
  forall n state k, run_loop E U comps settings n state = (k, Ret (Ok en)) ->
  en_components en = comps /\ exists run vs k', Run_new comps (en_state en) = Ret run /\
    find_steady_state_counted E U (Run_Cycle run)
      (mkSSI (pr_t_zero (s_pres (en_state en))) (te_chx (s_temp (en_state en))) (te_hhx (s_temp (en_state en))) (rs_resolution settings)
         (rs_ode_tol settings) (lt_inner (rs_loop_tol settings)) (mi_inner (rs_max_iters settings))) = (k', Ret (Ok vs)) /\
    en_values en = Values_from vs /\
    outer_converged comps (lt_outer (rs_loop_tol settings)) (en_state en) (en_values en).
Proof.
  induction n as [|n IH]; intros state k H; [discriminate H|]. cbn [run_loop] in H.
  destruct (Run_new comps state) as [run|] eqn:Hr; [|discriminate H].
  destruct (find_steady_state_counted _ _ _ _) as [k1 v] eqn:Hf in H. destruct v as [[vs|]|]; try discriminate H.
  destruct (State_update state comps (Values_from vs) (lt_outer (rs_loop_tol settings))) as [[s'|s']|p] eqn:Hu; [| |discriminate H].
  - destruct (run_loop E U comps settings n s') as [k2 o] eqn:Hl. injection H as _ ->. exact (IH _ _ Hl).
  - injection H as _ <-. cbn [en_components en_state en_values]. pose proof Hu as Hu'. apply State_update_spec in Hu as (-> & HO).
    split; [reflexivity|]. exists run, vs, k1. split; [exact Hr|]. split; [exact Hf|]. split; [reflexivity|exact HO].
Qed.

Section Loop.
  Variables (E : Env R) (D : Decomp R) (r : Run R) (T_low V_hi v_hi rho rv e P0 : R) (c' : R -> Conditions R).
  Let q := left_over r T_low V_hi v_hi rho rv.
  Hypothesis HS : settles r T_low V_hi v_hi rho rv.
  Hypothesis HQ : q < 1.
  Hypothesis HD : sound D.
  Hypothesis HC : complete D.
  Hypothesis HW' : warm_trajectory D r T_low c'.
  Hypothesis HE' : c' (ru_period r) = c' 0.
  Variables (region : Conditions R -> Prop) (T_hi : R) (inputs : SteadyStateInputs R).
  Hypothesis HREL : reliable E D r T_low e P0 region (ssi_ode_tol inputs) (ssi_num_points inputs).
  Hypothesis HP0 : ssi_pres_zero inputs = P0.
  Hypothesis HB : forall ic, region ic -> cd_P ic = P0 /\ cd_T_c ic <= T_hi /\ cd_T_e ic <= T_hi.
  Let tol := ssi_conv_tol inputs.
  Lemma loop_found : forall m ic k vs, region ic -> find_steady_state_loop E D (Run_Cycle r) inputs m ic = (k, Ret (Ok vs)) ->
    found_near (c' 0) P0 (test_error T_low q e tol) vs /\
    sampled_from E D r region (ssi_ode_tol inputs) (ssi_num_points inputs) vs.
  Proof.
    induction m as [|m IH]; intros ic k vs HI H; [discriminate H|]. cbn [find_steady_state_loop] in H.
    destruct (HREL ic HI) as ((pts & fin & E1 & TR & HF) & _). rewrite E1 in H. fold tol in H.
    pose proof TR as (T1 & T2 & _). destruct (converged_iff pts ic fin tol T1 T2) as (b & E2 & _). rewrite E2 in H. destruct b.
    - destruct (finish E D r T_low V_hi v_hi rho rv e P0 c' HD region T_hi inputs HC HREL HB ic HI) as (vs' & EV & HN).
      { exact (passed_near D r T_low V_hi v_hi rho rv e c' HS HQ HD HW' HE' ic fin pts tol TR E2). }
      rewrite EV in H. injection H as _ <-. exact HN.
    - destruct (ends_last _ _ T2) as (p & L1 & L2). unfold final_conditions in H. rewrite L1 in H. cbn [obind] in H. rewrite L2, HP0 in H.
      destruct (find_steady_state_loop _ _ _ _ _ _) as [k' o] eqn:EL in H. injection H as _ ->. exact (IH _ _ _ HF EL).
  Qed.
End Loop.

Section Returned.
  Variables (comps : Components R) (s0 : State R) (r : Run R) (D : Decomp R) (cl ch el eh cl' ch' el' eh' : R)
    (T_low V_hi v_hi rho rv : R) (c' : R -> Conditions R) (a : Replies R).
  Hypothesis Hfl : s_fluid s0 = IdealGas_Fluid he.
  Hypothesis Hd : driven (co_ws comps).
  Hypothesis Hr : Run_new comps s0 = Ret r.
  Hypothesis Hn : te_sink (s_temp s0) + te_source (s_temp s0) <> 500.
  Hypothesis HD : sound D.
  Hypothesis HC : complete D.
  Hypothesis HX : sane_exchangers r.
  Let P0 := pr_t_zero (s_pres s0).
  Hypothesis HP0 : 0 < P0.
  Hypothesis VC : forall T, between (V_comp r) cl ch 0 T.
  Hypothesis VE : forall T, between (V_exp r) el eh 0 T.
  Hypothesis O1 : 0 < cl' < cl.
  Hypothesis O2 : ch < ch'.
  Hypothesis O3 : 0 < el' < el.
  Hypothesis O4 : eh < eh'.
  Let q := left_over r T_low V_hi v_hi rho rv.
  Let ic := mkCond P0 (te_chx (s_temp s0)) (te_hhx (s_temp s0)).
  Hypothesis HS : settles r T_low V_hi v_hi rho rv.
  Hypothesis HQ : q < 1.
  Let Tk := te_chx (ru_temp r).
  Let Tl := te_hhx (ru_temp r).
  Hypothesis W1 : T_low < expanded cl' ch' Tk.
  Hypothesis W2 : T_low < expanded el' eh' Tl.
  Hypothesis SC : steady_cycle D r c'.
  Hypothesis WT : warm_trajectory D r T_low c'.
  Hypothesis CP : cd_P (c' 0) = P0.
  Let outer := within_levels r P0 cl' ch' el' eh'.
  Let rev e := e / (T_low * T_low).
  Let err (e : R) (settings : RunSettings R) := test_error T_low q (rev e) (lt_inner (rs_loop_tol settings)).
  (** what the search at the state [s0] is asked for *)
  Definition search_of (settings : RunSettings R) : SteadyStateInputs R :=
    mkSSI P0 (te_chx (s_temp s0)) (te_hhx (s_temp s0)) (rs_resolution settings) (rs_ode_tol settings)
      (lt_inner (rs_loop_tol settings)) (mi_inner (rs_max_iters settings)).
  (** the values that the search finds are samples of the exact steady cycle *)
  Lemma found_samples : exists B d, 1 <= B /\ 0 < d /\
    forall (E : Env R) (settings : RunSettings R) (e h : R) k vs,
    find_steady_state_counted E D (Run_Cycle r) (search_of settings) = (k, Ret (Ok vs)) ->
    0 <= e -> accurate E D r outer (rs_ode_tol settings) 2 (ru_period r) e ->
    accurate E D r outer (rs_ode_tol settings) (rs_resolution settings) h e ->
    e <= d -> err e settings <= d ->
    0 <= err e settings /\ vs <> [] /\ exists dl, grid_to (map (@sv_time R) vs) (ru_period r) /\
      steps_within h (map (@sv_time R) vs) /\ sampled D r c' dl vs /\ 0 <= dl <= B * (e + err e settings).
  Proof.
    pose proof SC as (HT & HP). assert (E0 : c' (ru_period r) = c' 0) by (rewrite <- (HP 0) by lra; f_equal; ring).
    pose proof (low_pos r T_low V_hi v_hi rho rv HS) as LP. destruct (WT 0 (Rle_refl 0)) as (_ & L1 & L2).
    destruct (near_gap (c' 0) ltac:(lra) ltac:(lra)) as (K2 & d2 & P2 & D2 & HG).
    destruct (stays_near he (gas_R_pos Helium) r (eng_fluid Helium comps s0 r Hfl Hd Hr) D c' (ru_period r) HD (fun t Ht => HT t (proj1 Ht)))
      as (K3 & d3 & P3 & D3 & HN).
    destruct (dependable comps s0 r D cl ch el eh cl' ch' el' eh' T_low V_hi v_hi rho rv c' Hfl Hd Hr Hn HD HC HX HP0 VC VE O1 O2 O3 O4 HS HQ W1 W2 WT)
      as (d4 & D4 & HDep). fold P0 in HDep. fold outer in HDep.
    assert (WC' : warm (expanded cl' ch' Tk)).
    { apply (warm_le T_low); [apply nil_warm, HS|lra]. }
    assert (WE' : warm (expanded el' eh' Tl)).
    { apply (warm_le T_low); [apply nil_warm, HS|lra]. }
    assert (VC' : forall T, between (V_comp r) cl' ch' 0 T).
    { intros T. destruct (VC T) as (H1 & H2). split; [lra|]. intros t Ht. specialize (H2 t Ht). lra. }
    assert (VE' : forall T, between (V_exp r) el' eh' 0 T).
    { intros T. destruct (VE T) as (H1 & H2). split; [lra|]. intros t Ht. specialize (H2 t Ht). lra. }
    pose proof (round comps s0 r D P0 cl' ch' el' eh' Hfl Hd Hr Hn HD HC VC' VE' (proj1 (proj2 HS)) (proj1 (proj2 (proj2 HS))) HX HP0 WC' WE') as OR.
    assert (K32 : 0 <= K3 * K2) by (apply Rmult_le_pos; assumption).
    set (B := 1 + K3 * K2) in *. assert (B1 : 1 <= B) by (unfold B; lra).
    set (d := Rmin (Rmin d2 (d3 / (K2 + 1))) d4).
    pose proof (Rmin_l (Rmin d2 (d3 / (K2 + 1))) d4) as M1. pose proof (Rmin_r (Rmin d2 (d3 / (K2 + 1))) d4) as M2.
    pose proof (Rmin_l d2 (d3 / (K2 + 1))) as M3. pose proof (Rmin_r d2 (d3 / (K2 + 1))) as M4. fold d in M1, M2.
    exists B, d. split; [exact B1|].
    split; [unfold d; repeat apply Rmin_pos; try assumption; apply Rdiv_lt_0_compat; lra|].
    intros E settings e h k vs R2 He A2 An Hse Hst.
    assert (TT : 0 < T_low * T_low) by (apply Rmult_lt_0_compat; exact LP).
    assert (RE : 0 <= rev e) by (unfold rev; apply Rle_mult_inv_pos; lra).
    set (te := err e settings) in *.
    unfold find_steady_state_counted, search_of in R2. cbn [ssi_pres_zero ssi_temp_comp_hint ssi_temp_exp_hint ssi_max_iters] in R2.
    fold ic in R2.
    destruct (loop_found E D r T_low V_hi v_hi rho rv (rev e) P0 c' HS HQ HD HC WT E0
      (about s0 r cl ch el eh cl' ch' el' eh' (rev e / (1 - q))) (hottest_start r ch' eh')
      (mkSSI P0 (te_chx (s_temp s0)) (te_hhx (s_temp s0)) (rs_resolution settings) (rs_ode_tol settings)
         (lt_inner (rs_loop_tol settings)) (mi_inner (rs_max_iters settings)))
      (HDep E (rs_ode_tol settings) (rs_resolution settings) h e (conj He (Rle_trans _ _ _ Hse M2)) A2 An) eq_refl) with (3 := R2) as (F6 & F7).
    { intros c (HO & _). destruct HO as (U0 & (_ & U1) & (_ & U2)). split; [exact U0|].
      unfold hottest_start. split; [apply Rle_trans with (1 := U1), Rmax_l|apply Rle_trans with (1 := U2), Rmax_r]. }
    { pose proof (starts_inside comps s0 r cl ch el eh cl' ch' el' eh' T_low V_hi v_hi rho rv Hr HX VC VE HS HQ W1 W2) as HI.
      split; [exact (inner_outer s0 r cl ch el eh cl' ch' el' eh' HX VC VE O1 O2 O3 O4 _ HI)|]. exists ic. split; [exact HI|].
      unfold spread. rewrite !Rminus_diag_eq, Rabs_R0 by reflexivity.
      rewrite Rplus_0_r. pose proof (q_pos D r T_low V_hi v_hi rho rv c' HS WT). apply Rle_mult_inv_pos; unfold q in *; lra. }
    cbn [ssi_conv_tol ssi_ode_tol ssi_num_points] in F6, F7.
    change (test_error T_low (left_over r T_low V_hi v_hi rho rv) (rev e) (lt_inner (rs_loop_tol settings))) with te in F6.
    destruct F7 as (ic' & pts & (RO & _) & R2' & R3'). destruct (An ic' RO) as (pts' & R2'' & (p & rest & G0 & GC) & G1 & G2 & G3).
    assert (pts' = pts) as -> by congruence. rewrite <- (values_times D r pts vs R3') in G1, G2.
    assert (ST : gap ic' (c' 0) <= K2 * te).
    { destruct F6 as (v & rest' & -> & S1 & S2). rewrite G0 in R3'. inversion R3' as [|? ? ? ? (_ & V2 & _) _]; subst. rewrite V2 in S1, S2.
      apply HG; [rewrite S1; symmetry; exact CP|exact S2|lra]. }
    destruct (OR ic' RO) as (z & Z0 & Z1 & _). specialize (G3 z Z0 Z1).
    assert (SD : K2 * te <= d3).
    { apply Rle_trans with ((K2 + 1) * (d3 / (K2 + 1))); [|right; field; lra].
      apply Rle_trans with (K2 * (d3 / (K2 + 1))); [apply Rmult_le_compat_l; lra|].
      apply Rmult_le_compat_r; [left; apply Rdiv_lt_0_compat|]; lra. }
    assert (CL : forall t, 0 <= t <= ru_period r -> gap (z t) (c' t) <= K3 * (K2 * te)).
    { pose proof (tau_nonneg comps s0 r Hd Hr) as T0. intros t Ht. apply Rle_trans with (K3 * gap (z 0) (c' 0)).
      - apply (HN D z 0 (ru_period r) HD); [lra|lra|intros u Hu; apply Z1, Hu|rewrite Z0; lra|exact Ht].
      - apply Rmult_le_compat_l; [exact P3|rewrite Z0; exact ST]. }
    set (dl := e + K3 * (K2 * te)).
    assert (SA : sampled D r c' dl vs).
    { pose proof (values_solved D r pts vs R3') as SV.
      assert (GG : Forall (fun v => gap (sv_conditions v) (c' (sv_time v)) <= dl) vs).
      { pose proof (grid_range _ _ G1) as GR. clear - G3 R3' GR CL.
        induction R3' as [|p v pts vs (H1 & H2 & _) _ IH]; constructor.
        - apply Forall_inv in G3. rewrite H1, H2. pose proof (gap_tri (pt_conditions p) (z (pt_time p)) (c' (pt_time p))) as GT.
          specialize (CL (pt_time p)). rewrite <- H1 in CL at 1 2. specialize (CL (GR _ (or_introl eq_refl))). unfold dl. lra.
        - apply IH; [exact (Forall_inv_tail G3)|]. intros t Ht. apply GR. right. exact Ht. }
      clear - SV GG. induction GG as [|v vs H _ IH]; [constructor|]. pose proof (Forall_inv SV). constructor; [split; assumption|]. apply IH, (Forall_inv_tail SV). }
    assert (T0 : 0 <= te) by (destruct F6 as (v & rest' & _ & _ & S); apply Rle_trans with (2 := S), spread_pos).
    split; [exact T0|]. split; [destruct F6 as (v & rest' & -> & _); discriminate|]. exists dl.
    split; [exact G1|]. split; [exact G2|]. split; [exact SA|].
    assert (0 <= K3 * (K2 * te)) by (rewrite <- Rmult_assoc; apply Rmult_le_pos; assumption).
    unfold dl, B. rewrite Rmult_plus_distr_r, Rmult_1_l. assert (0 <= K3 * K2 * e) by (apply Rmult_le_pos; assumption). lra.
  Qed.
  (** so are those that a run returns *)
  Theorem returned_samples : exists B d, 1 <= B /\ 0 < d /\
    forall (E : Env R) (fl : Fluid R) (inputs : RunInputs R) (settings : RunSettings R) (e h : R) k en,
    Engine_run_counted E D comps fl inputs settings = (k, Ret (Ok en)) -> en_state en = s0 ->
    0 <= e -> accurate E D r outer (rs_ode_tol settings) 2 (ru_period r) e ->
    accurate E D r outer (rs_ode_tol settings) (rs_resolution settings) h e ->
    e <= d -> err e settings <= d ->
    en_components en = comps /\ outer_converged comps (lt_outer (rs_loop_tol settings)) s0 (en_values en) /\ 0 <= err e settings /\
    exists vs dl, series_of vs (en_values en) /\ grid_to (map (@sv_time R) vs) (ru_period r) /\
      steps_within h (map (@sv_time R) vs) /\ sampled D r c' dl vs /\ 0 <= dl <= B * (e + err e settings).
  Proof.
    destruct found_samples as (B & d & B1 & D0 & H). exists B, d. split; [exact B1|]. split; [exact D0|].
    intros E fl inputs settings e h k en HRun Hst0 He A2 An Hse Hst.
    unfold Engine_run_counted in HRun. destruct (State_new_hint comps fl inputs) as [s1|] eqn:H0; [|discriminate HRun].
    destruct (returned_search E D comps settings en _ _ _ HRun) as (EC & run & vs & k' & R1 & R2 & R3 & R4). rewrite Hst0 in *.
    assert (run = r) as -> by congruence.
    destruct (H E settings e h k' vs R2 He A2 An Hse Hst) as (T0 & _ & dl & G).
    split; [exact EC|]. split; [exact R4|]. split; [exact T0|]. exists vs, dl. split; [rewrite R3; apply Values_from_series|exact G].
  Qed.
  Hypothesis HA : forall vals, replies (mkEngine comps s0 vals) a.
  Theorem returned_report : exists K d, 0 <= K /\ 0 < d /\
    forall (E : Env R) (fl : Fluid R) (inputs : RunInputs R) (settings : RunSettings R) (e h : R) k en (s : R -> Solution R) (X : Totals),
    Engine_run_counted E D comps fl inputs settings = (k, Ret (Ok en)) -> en_state en = s0 ->
    0 <= e -> accurate E D r outer (rs_ode_tol settings) 2 (ru_period r) e ->
    accurate E D r outer (rs_ode_tol settings) (rs_resolution settings) h e ->
    e <= d -> err e settings <= d ->
    (forall t, 0 <= t <= ru_period r -> solved_at D r t (c' t) (s t)) ->
    totals (IdealGas_Fluid he) (s_temp s0) a c' s (ru_period r) X ->
    exists rep, RunResults_from en = Ret rep /\ report_within a X (K * (h + e + err e settings)) rep.
  Proof.
    destruct returned_samples as (B & d2 & B1 & D2 & HB). pose proof SC as (HT & _).
    destruct (reply_volumes (mkEngine comps s0 (Values_from [])) a s0 r Hd Hr (HA _)) as (HV & _).
    destruct (eng_report Helium comps s0 r D c' Hfl Hd Hr HD (fun t Ht => HT t (proj1 Ht)) (s_temp s0) a HV) as (K1 & d1 & D1 & HRep).
    exists (Rabs K1 * B), (Rmin d2 (d1 / (2 * B))).
    pose proof (Rmin_l d2 (d1 / (2 * B))) as M1. pose proof (Rmin_r d2 (d1 / (2 * B))) as M2.
    split; [apply Rmult_le_pos; [apply Rabs_pos|lra]|]. split; [apply Rmin_pos; [exact D2|apply Rdiv_lt_0_compat; lra]|].
    intros E fl inputs settings e h k en s X HRun Hs0 He A2 An Hse Hst Hs HX'.
    destruct (HB E fl inputs settings e h k en HRun Hs0 He A2 An ltac:(lra) ltac:(lra)) as (EC & _ & T0 & vs & dl & S1 & S2 & S3 & S4 & dl0 & dl1).
    assert (EN : en = mkEngine comps s0 (en_values en)) by (destruct en; cbn in *; congruence).
    destruct (HRep s X en vs h dl D Hs HX') as (rep & ER & Bd); try assumption.
    - rewrite Hs0. exact Hfl.
    - rewrite Hs0. reflexivity.
    - rewrite EN. apply HA.
    - apply Rle_trans with (1 := dl1). apply Rle_trans with (B * (2 * (d1 / (2 * B)))); [apply Rmult_le_compat_l; lra|right; field; lra].
    - exists rep. split; [exact ER|]. pose proof (steps_nonneg _ _ _ S2 S3) as h0.
      apply (report_wider a X _ _ rep Bd). apply Rle_trans with (Rabs K1 * (h + dl)); [apply Rmult_le_compat_r; [lra|apply Rle_abs]|].
      rewrite Rmult_assoc. apply Rmult_le_compat_l; [apply Rabs_pos|].
      assert (h <= B * h) by (rewrite <- (Rmult_1_l h) at 1; apply Rmult_le_compat_r; assumption). lra.
  Qed.
  Lemma exact_means s : (forall t, 0 <= t <= ru_period r -> solved_at D r t (c' t) (s t)) ->
    exists M, means (s_temp s0) (rp_res a) c' s (ru_period r) M.
  Proof.
    intros Hs. pose proof SC as (HT & _).
    exact (means_exist he (gas_R_pos Helium) r (eng_fluid Helium comps s0 r Hfl Hd Hr) D c' (ru_period r) HD (period_pos comps s0 r Hd Hr)
      (fun t Ht => HT t (proj1 Ht)) (eng_motion comps s0 r Hd Hr) (s_temp s0) (rp_res a) s Hs).
  Qed.
  (** the averages that the last test uses are the means of the exact steady cycle *)
  Theorem returned_means : exists K d, 0 <= K /\ 0 < d /\
    forall (E : Env R) (fl : Fluid R) (inputs : RunInputs R) (settings : RunSettings R) (e h : R) k en (s : R -> Solution R) (M : Means),
    Engine_run_counted E D comps fl inputs settings = (k, Ret (Ok en)) -> en_state en = s0 ->
    0 <= e -> accurate E D r outer (rs_ode_tol settings) 2 (ru_period r) e ->
    accurate E D r outer (rs_ode_tol settings) (rs_resolution settings) h e ->
    e <= d -> err e settings <= d ->
    (forall t, 0 <= t <= ru_period r -> solved_at D r t (c' t) (s t)) -> means (s_temp s0) (rp_res a) c' s (ru_period r) M ->
    0 <= h /\ 0 <= err e settings /\ exists P m q T',
      recomputed comps (s_fluid s0) (s_pres s0) (s_temp s0) (s_regen_imbalance s0) (en_values en) P m q T' /\
      temperatures_close (lt_outer (rs_loop_tol settings)) (s_temp s0) T' /\
      averages_within (K * (h + e + err e settings)) M P m q.
  Proof.
    destruct returned_samples as (B & d2 & B1 & D2 & HB). pose proof SC as (HT & _).
    destruct (means_near he (gas_R_pos Helium) r (eng_fluid Helium comps s0 r Hfl Hd Hr) D c' (ru_period r) HD (period_pos comps s0 r Hd Hr)
      (fun t Ht => HT t (proj1 Ht)) (eng_motion comps s0 r Hd Hr) (s_temp s0) (rp_res a)) as (K1 & d1 & K0 & D1 & HM).
    exists (K1 * B), (Rmin d2 (d1 / (2 * B))).
    pose proof (Rmin_l d2 (d1 / (2 * B))) as M1. pose proof (Rmin_r d2 (d1 / (2 * B))) as M2.
    split; [apply Rmult_le_pos; lra|]. split; [apply Rmin_pos; [exact D2|apply Rdiv_lt_0_compat; lra]|].
    intros E fl inputs settings e h k en s M HRun Hs0 He A2 An Hse Hst Hs HMe.
    destruct (HB E fl inputs settings e h k en HRun Hs0 He A2 An ltac:(lra) ltac:(lra)) as (EC & (P & m & q0 & T' & HRc & HTc) & T0 & vs & dl & S1 & S2 & S3 & S4 & dl0 & dl1).
    pose proof (steps_nonneg _ _ _ S2 S3) as h0. split; [exact h0|]. split; [exact T0|].
    exists P, m, q0, T'. split; [exact HRc|]. split; [exact HTc|].
    destruct HRc as (res & ak & ar & al & R1 & R2 & R3 & R4 & _).
    assert (res = rp_res a).
    { destruct (HA (Values_from [])) as (_ & _ & _ & HA4 & _). cbn [en_components en_state] in HA4. congruence. }
    subst res.
    assert (N : averages_within (K1 * (h + dl)) M P m q0).
    { apply (HM s M vs (en_values en) h dl D P m q0); try assumption.
      apply Rle_trans with (1 := dl1). apply Rle_trans with (B * (2 * (d1 / (2 * B)))); [apply Rmult_le_compat_l; lra|right; field; lra]. }
    assert (L : K1 * (h + dl) <= K1 * B * (h + e + err e settings)).
    { rewrite Rmult_assoc. apply Rmult_le_compat_l; [exact K0|].
      assert (h <= B * h) by (rewrite <- (Rmult_1_l h) at 1; apply Rmult_le_compat_r; assumption). lra. }
    destruct N as (N1 & N2 & N3 & N4 & N5 & N6 & N7).
    split; [|split; [|split; [|split; [|split; [|split]]]]]; (eapply Rle_trans; [eassumption|exact L]).
  Qed.
  (** the exchangers are consistent with the exact steady cycle *)
  Theorem returned_consistent (s : R -> Solution R) (M : Means) (a_k a_r a_l : R) :
    (forall t, 0 <= t <= ru_period r -> solved_at D r t (c' t) (s t)) -> means (s_temp s0) (rp_res a) c' s (ru_period r) M ->
    steady_approaches comps s0 M a_k a_r a_l ->
    forall eps, 0 < eps -> exists d, 0 < d /\
    forall (E : Env R) (fl : Fluid R) (inputs : RunInputs R) (settings : RunSettings R) (e h : R) k en,
    Engine_run_counted E D comps fl inputs settings = (k, Ret (Ok en)) -> en_state en = s0 ->
    0 <= e -> accurate E D r outer (rs_ode_tol settings) 2 (ru_period r) e ->
    accurate E D r outer (rs_ode_tol settings) (rs_resolution settings) h e ->
    e <= d -> err e settings <= d -> h <= d ->
    consistent_within (ct_abs (lt_outer (rs_loop_tol settings)) + eps) (s_temp s0) (s_regen_imbalance s0) a_k a_r a_l.
  Proof.
    intros Hs HM ((K1 & K2) & (R1 & R2) & (L1 & L2)) eps He. destruct returned_means as (K & d & K0 & D0 & H).
    destruct (K2 (eps / 2) ltac:(lra)) as (d1 & D1 & C1). destruct (R2 (eps / 2) ltac:(lra)) as (d2 & D2 & C2).
    destruct (L2 (eps / 2) ltac:(lra)) as (d3 & D3 & C3).
    set (w := Rmin d1 (Rmin d2 d3)). assert (W0 : 0 < w) by (unfold w; repeat apply Rmin_pos; assumption).
    assert (WL : w <= d1 /\ w <= d2 /\ w <= d3).
    { pose proof (Rle_refl w) as A. unfold w in A at 2. apply below_min in A as (A & B). apply below_min in B. tauto. }
    exists (Rmin d (w / (3 * (K + 1)))).
    pose proof (Rmin_l d (w / (3 * (K + 1)))) as M1. pose proof (Rmin_r d (w / (3 * (K + 1)))) as M2.
    split; [apply Rmin_pos; [exact D0|apply Rdiv_lt_0_compat; lra]|].
    intros E fl inputs settings e h k en HRun Hs0 He0 A2 An Hse Hst Hh.
    destruct (H E fl inputs settings e h k en s M HRun Hs0 He0 A2 An ltac:(lra) ltac:(lra) Hs HM)
      as (h0 & T0 & P & m & q0 & T' & (res & b_k & b_r & b_l & _ & _ & _ & _ & B1 & B2 & B3 & HF) & (Q1 & Q2 & Q3 & _ & Q4) & (N1 & N2 & N3 & N4 & N5 & N6 & N7)).
    assert (KW : K * (h + e + err e settings) <= w).
    { apply Rle_trans with ((K + 1) * (3 * (w / (3 * (K + 1))))); [|right; field; lra].
      apply Rle_trans with (K * (3 * (w / (3 * (K + 1))))); [apply Rmult_le_compat_l; lra|].
      apply Rmult_le_compat_r; [|lra]. assert (0 < w / (3 * (K + 1))) by (apply Rdiv_lt_0_compat; lra). lra. }
    assert (X1 : Rabs (b_k - a_k) <= eps / 2) by (apply (C1 P (mf_chx m) (hf_chx q0)); try assumption; lra).
    assert (X2 : Rabs (b_r - a_r) <= eps / 2) by (apply (C2 P (mf_regen m) (hf_regen q0)); try assumption; lra).
    assert (X3 : Rabs (b_l - a_l) <= eps / 2) by (apply (C3 P (mf_hhx m) (hf_hhx q0)); try assumption; lra).
    destruct HF as (_ & _ & F3 & F4 & F5 & F6 & _).
    assert (CL : forall x y, close (lt_outer (rs_loop_tol settings)) x y -> Rabs (x - y) < ct_abs (lt_outer (rs_loop_tol settings))).
    { intros x y (C & _). apply R_lt_iff in C. rewrite Rabs_minus_sym. exact C. }
    apply CL in Q1, Q2, Q3, Q4. apply abs_le_iff in X1, X2, X3. rewrite F3 in Q1. rewrite F4 in Q2. rewrite F5, F3 in Q3. rewrite F6, F4 in Q4.
    assert (IM : n_le n0 (s_regen_imbalance s0) = (if Rle_dec 0 (s_regen_imbalance s0) then true else false)) by (rewrite R_n0; reflexivity).
    rewrite IM in Q3, Q4. unfold consistent_within.
    apply Rlt_le in Q1, Q2, Q3, Q4. rewrite abs_le_iff in Q1, Q2, Q3, Q4. rewrite !abs_le_iff.
    change (@n_add R R_ops) with Rplus in *. change (@n_sub R R_ops) with Rminus in *.
    destruct (Rle_dec 0 (s_regen_imbalance s0)); lra.
  Qed.
End Returned.
