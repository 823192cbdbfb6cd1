(** * Integrations with a solver that keeps its promise are accurate *)
From Coq Require Import ZArith NArith List Reals Lra Lia.
From Verif Require Import Num ModelTypes ModelWs ModelHx ModelStateEq ModelEngine ModelApi RNum Spec SpecR SpecGas
  SpecKin SpecTraj SpecLaws SpecUnique SpecExist SpecDepend SpecSeries SpecQuad SpecReport SpecSpaces SpecBounds SpecSteady SpecContract
  SpecSample SpecGlobal SpecSearch SpecConverge SpecAccurate SpecSolver Fixture PolySolve RSolve RGauss RFluid RKin RMass RLaws RClose RPairs
  RPicard RLocal RExist RStart RPeriod RSeries RCase4 RDepend RBounds RSteady RQuad RSample RSampleReport RMotion RSampleCase RContractEngine RSettle
  RSearch RSearchCase RAccurate REuler RSolver.
Import ListNotations.
Local Open Scope R_scope.

Lemma lit_eq : R_lit 1 (-14) = / 10 ^ 14.
Proof. unfold R_lit, Rdiv. rewrite Rmult_1_l, (pow_IZR 10 14). reflexivity. Qed.
(** ** The points of an integration *)
Lemma points_times (e : R) (z : R -> vec3 R) xs ys : Forall2 (fun t y => apart y (z t) <= e) xs ys ->
  map (@pt_time R) (points_of xs ys) = xs.
Proof.
  intros H. unfold points_of. induction H as [|t [[p x] w] xs ys _ _ IH]; [reflexivity|]. cbn [combine map pt_time]. f_equal. exact IH.
Qed.
Lemma points_near e (c : R -> Conditions R) xs ys : Forall2 (fun t y => apart y (vec_of (c t)) <= e) xs ys ->
  Forall (fun p => gap (pt_conditions p) (c (pt_time p)) <= e) (points_of xs ys).
Proof.
  intros H. unfold points_of. induction H as [|t [[p x] w] xs ys Hy _ IH]; [constructor|]. cbn [combine map]. constructor; [exact Hy|exact IH].
Qed.
Lemma output_even dx m : output_times 0 dx m = even dx 0 (S m).
Proof. unfold output_times, even. apply map_ext. intros i. ring. Qed.

Section Kept.
  Variables (comps : Components R) (s0 : State R) (r : Run R) (D : Decomp R) (P0 cl ch el eh : R).
  Hypothesis Hfl : s_fluid s0 = IdealGas_Fluid he.
  Hypothesis Hd : driven (co_ws comps).
  Hypothesis Hr : Run_new comps s0 = Ret r.
  Hypothesis Hn : te_sink (s_temp s0) + te_source (s_temp s0) <> 500.
  Hypothesis HD : sound D.
  Hypothesis HC : complete D.
  Hypothesis VC : forall T, between (V_comp r) cl ch 0 T.
  Hypothesis VE : forall T, between (V_exp r) el eh 0 T.
  Hypothesis QC : heat_lost_comp r = 0.
  Hypothesis QE : heat_lost_exp r = 0.
  Hypothesis HX : sane_exchangers r.
  Hypothesis HP0 : 0 < P0.
  Let Tk := te_chx (ru_temp r).
  Let Tl := te_hhx (ru_temp r).
  Hypothesis WC : warm (expanded cl ch Tk).
  Hypothesis WE : warm (expanded el eh Tl).
  Let levels := within_levels r P0 cl ch el eh.
  Let tcl := expanded cl ch Tk.
  Let tch := compressed cl ch Tk.
  Let tel := expanded el eh Tl.
  Let teh := compressed el eh Tl.
  Let rlo := cl / tch + fixed_ratio r + el / teh.
  Let rhi := ch / tcl + fixed_ratio r + eh / tel.
  Let lo := mkCond (P0 * rlo / rhi) tcl tel.
  Let hi := mkCond (P0 * rhi / rlo) tch teh.
  (** all trajectories from the levels stay in one range of states *)
  Lemma long_box x y c : levels (mkCond P0 x y) -> c 0 = mkCond P0 x y -> (forall t, 0 <= t -> physical_trajectory D r c t) ->
    forall t, 0 <= t -> in_box lo hi (c t).
  Proof.
    intros (_ & Hx & Hy) E H t Ht. cbn [cd_T_c cd_T_e] in Hx, Hy.
    destruct (T_lo_eq r P0 cl ch el eh x y Hx Hy) as (E1 & E2 & E3 & E4).
    pose proof (start_conditions r P0 cl ch el eh VC VE HX HP0 WC WE x y Hx Hy) as H0.
    set (st := mkCond P0 x y) in *.
    assert (WC' : warm (T_c_lo r st cl ch)) by (rewrite E1; exact WC).
    assert (WE' : warm (T_e_lo r st el eh)) by (rewrite E2; exact WE).
    pose proof (stays comps s0 r D st cl ch el eh Hfl Hd Hr HD VC VE QC QE H0 WC' WE' c t Ht E (fun u Hu => H u (proj1 Hu)) t ltac:(lra)) as B.
    unfold in_box, range_lo, range_hi in B. cbn [cd_P cd_T_c cd_T_e] in B. rewrite E1, E2, E3, E4 in B.
    pose proof (ratio_range r st cl ch el eh VC VE WC' WE' 0 st ltac:(lra)) as RR.
    pose proof (temps0 r st cl ch el eh VC VE H0) as TT. rewrite E1, E2, E3, E4 in TT, RR.
    fold Tk Tl in B, RR, TT. fold tcl tch tel teh in B, RR, TT. fold rlo rhi in B, RR. specialize (RR (proj1 TT) (proj2 TT)).
    pose proof (rlo_pos r st cl ch el eh VC VE H0 WC' WE') as RP. rewrite E3, E4 in RP. fold Tk Tl in RP. fold tch teh in RP. fold rlo in RP.
    unfold in_box, lo, hi. cbn [cd_P cd_T_c cd_T_e]. split; [|apply B]. destruct B as ((B1 & B2) & _).
    change (cd_P st) with P0 in B1, B2.
    assert (M1 : P0 * rlo <= P0 * ratio r 0 st) by (apply Rmult_le_compat_l; lra).
    assert (M2 : P0 * ratio r 0 st <= P0 * rhi) by (apply Rmult_le_compat_l; lra).
    split; [apply Rle_trans with (2 := B1)|apply Rle_trans with (1 := B2)]; apply div_le; lra.
  Qed.
  Let tau := ru_period r.
  Let eps := / 10 ^ 14.
  Let H := tau + eps.
  Lemma eps_pos : 0 < eps.
  Proof. apply Rinv_0_lt_compat, pow_lt. lra. Qed.
  (** states this close to those trajectories are still physical *)
  Lemma margin : exists m, 0 < m /\ physical_box r (mkCond (cd_P lo - m) (tcl - m) (tel - m)) (mkCond (cd_P hi + m) (tch + m) (teh + m)) 0 H.
  Proof.
    pose proof (lowest_pos comps s0 r P0 cl ch el eh Hd Hr VC VE HX HP0 WC WE) as LP.
    change (lowest_pressure r P0 cl ch el eh) with (cd_P lo) in LP.
    pose proof cp_pos as CP. set (tw := R_he * T_ref / cp_he).
    assert (TW : cp_he * tw = R_he * T_ref) by (unfold tw; field; lra).
    assert (W : forall T, warm T <-> tw < T).
    { intros T. unfold warm. rewrite <- TW. split; intros A.
      - apply (Rmult_lt_reg_l cp_he); assumption.
      - apply Rmult_lt_compat_l; assumption. }
    pose proof (proj1 (W _) WC) as W1. pose proof (proj1 (W _) WE) as W2. fold tcl in W1. fold tel in W2.
    set (m := Rmin (cd_P lo / 2) (Rmin ((tcl - tw) / 2) ((tel - tw) / 2))).
    pose proof (Rmin_l (cd_P lo / 2) (Rmin ((tcl - tw) / 2) ((tel - tw) / 2))) as M1.
    pose proof (Rmin_r (cd_P lo / 2) (Rmin ((tcl - tw) / 2) ((tel - tw) / 2))) as M2. fold m in M1, M2.
    pose proof (Rmin_l ((tcl - tw) / 2) ((tel - tw) / 2)) as M3. pose proof (Rmin_r ((tcl - tw) / 2) ((tel - tw) / 2)) as M4.
    exists m. split; [unfold m; repeat apply Rmin_pos; lra|].
    apply (helium_physical_box comps s0 r _ _ 0 H Hfl Hd Hr Hn). intros t Ht.
    destruct HX as (X1 & X2 & X3 & X4 & X5 & X6).
    destruct (VC t) as (C1 & C2). specialize (C2 t ltac:(lra)). destruct (VE t) as (E1 & E2). specialize (E2 t ltac:(lra)).
    unfold V_comp, V_exp in *. unfold helium_conditions. cbn [cd_P cd_T_c cd_T_e].
    assert (Y1 : warm (tcl - m)) by (apply W; lra). assert (Y2 : warm (tel - m)) by (apply W; lra).
    split; [lra|]. split; [exact Y1|]. split; [exact Y2|]. repeat (split; [assumption || lra|]). assumption.
  Qed.
  (** number of intervals between [n] points *)
  Let intervals (n : N) : R := IZR (Z.of_N (N.pred n)).
  (** times of the points *)
  Definition sample_times (period : R) (n : N) : list R := even (period / IZR (Z.of_N (N.pred n))) 0 (S (N.to_nat (N.pred n))).
  (** what a solver has to promise, given bounds on the rates near those trajectories *)
  Lemma promise_timed m L B : 0 < m ->
    let lo' := mkCond (cd_P lo - m) (tcl - m) (tel - m) in let hi' := mkCond (cd_P hi + m) (tch + m) (teh + m) in
    physical_box r lo' hi' 0 H ->
    (forall t1 t2 c1 c2 i, 0 <= t1 <= H -> 0 <= t2 <= H -> in_box lo' hi' c1 -> in_box lo' hi' c2 ->
      Rabs (rate r t1 c1 i) <= B /\ Rabs (rate r t1 c1 i - rate r t2 c2 i) <= L * (Rabs (t1 - t2) + gap c1 c2)) ->
    forall (E : Env R) (tol : OdeTolerance R) (n : N) (e : R), (2 <= n)%N -> eps < tau / intervals n ->
    solver_within E (ot_rel tol) (ot_abs tol) H m (3 * L) (3 * B) e -> accurate E D r levels tol n (tau / intervals n) e /\
    forall ic pts, levels ic -> try_from E D (Run_Cycle r) ic n tol = Ret (Ok pts) -> map (@pt_time R) pts = sample_times tau n.
  Proof.
    intros M0 lo' hi' HB HL E tol n e Hn2 Hdx HSv.
    assert (Q : forall ic, levels ic -> exists pts, try_from E D (Run_Cycle r) ic n tol = Ret (Ok pts) /\ map (@pt_time R) pts = sample_times tau n /\
      starts_at pts ic /\ grid_to (map (@pt_time R) pts) tau /\ steps_within (tau / intervals n) (map (@pt_time R) pts) /\
      forall c, c 0 = ic -> (forall t, 0 <= t <= tau -> physical_trajectory D r c t) -> Forall (fun p => gap (pt_conditions p) (c (pt_time p)) <= e) pts);
      [|split; [intros ic HI; destruct (Q ic HI) as (pts & Q1 & _ & Q2); exists pts; auto|
        intros ic pts HI Hp; destruct (Q ic HI) as (pts' & Q1 & Q2 & _); congruence]]. pose proof (period_pos comps s0 r Hd Hr) as TP. fold tau in TP. pose proof eps_pos as EP.
    pose proof (RSteady.Hf comps s0 r Hfl Hd Hr) as HF.
    intros [p x y] HI. pose proof HI as (HP & Hx & Hy). cbn [cd_P cd_T_c cd_T_e] in HP, Hx, Hy. subst p.
    destruct (from_start comps s0 r D P0 cl ch el eh Hfl Hd Hr Hn HD HC VC VE QC QE HX HP0 WC WE x y Hx Hy) as (c & C0 & HT).
    pose proof (long_box x y c HI C0 HT) as BX. set (ic := mkCond P0 x y) in *.
    set (f := fun t (v : vec3 R) => (rate r t (cond_of v) uP, rate r t (cond_of v) uC, rate r t (cond_of v) uE)).
    set (z := fun t => vec_of (c t)).
    assert (IN : forall t v, tube z 0 H m t v -> 0 <= t <= H /\ in_box lo' hi' (cond_of v)).
    { intros t v (Ht & A). split; [exact Ht|]. unfold z in A. rewrite <- gap_apart in A. apply gap_parts in A as (A1 & A2 & A3).
      apply abs_le_iff in A1, A2, A3. destruct (BX t (proj1 Ht)) as (B1 & B2 & B3). cbn [lo hi cd_P cd_T_c cd_T_e] in B1, B2, B3.
      unfold in_box, lo', hi'. cbn [cd_P cd_T_c cd_T_e lo hi]. lra. }
    assert (CV : forall t, cond_of (z t) = c t) by (intros t; unfold z, vec_of, cond_of; destruct (c t); reflexivity).
    assert (SY : forall t v hint, tube z 0 H m t v -> exists fd, system D (Run_Cycle r) hint t v = Ret (f t v, fd)).
    { intros t v hint Hv. destruct (IN t v Hv) as (Ht & Hb). destruct (HB t _ Ht Hb) as (_ & Hph).
      destruct (solve_succeeds _ Hph D hint HD HC) as (s & Hs).
      destruct (rate_is r 0 H lo' hi' HB D t _ hint s HD Ht Hb Hs) as (R1 & R2 & R3).
      destruct v as [[vp vx] vy]. unfold system. cbn [Run_Cycle cy_calculate_inputs]. cbn [cond_of] in *. rewrite Hs.
      exists (FlowDirection_from_solution s). unfold f. cbn [cond_of]. rewrite R1, R2, R3. reflexivity. }
    assert (SO : solution_of f z 0 H).
    { intros t Ht. destruct (HT t (proj1 Ht)) as ((_ & _ & hint & s & Hs & F1 & F2 & F3) & _).
      assert (Tt : tube z 0 H m t (z t)) by (split; [exact Ht|rewrite apart_refl; lra]).
      destruct (IN t _ Tt) as (_ & Hb). rewrite CV in Hb.
      destruct (rate_is r 0 H lo' hi' HB D t _ hint s HD Ht Hb Hs) as (R1 & R2 & R3).
      unfold f, part1, part2, part3. cbn [fst snd]. rewrite CV. rewrite <- R1, <- R2, <- R3. auto. }
    assert (RG : regular f z 0 H m (3 * L) (3 * B)).
    { intros t v t' v' T1 T2. destruct (IN t v T1) as (H1 & I1). destruct (IN t' v' T2) as (H2 & I2).
      assert (G : gap (cond_of v) (cond_of v') = apart v v').
      { rewrite gap_apart. f_equal. destruct v' as [[? ?] ?]. reflexivity. }
      destruct (HL t t' _ _ uP H1 H2 I1 I2) as (P1 & P2). destruct (HL t t' _ _ uC H1 H2 I1 I2) as (P3 & P4).
      destruct (HL t t' _ _ uE H1 H2 I1 I2) as (P5 & P6). rewrite G in P2, P4, P6. unfold f, size3, apart at 1. split; lra. }
    unfold sample_times. fold (intervals n). set (k := N.to_nat (N.pred n)).
    assert (KN : intervals n = INR k) by (unfold intervals, k; rewrite INR_IZR_INZ, N_nat_Z; reflexivity).
    assert (K1 : 1 <= INR k) by (change 1 with (INR 1); apply le_INR; unfold k; lia).
    rewrite KN in *. set (dx := tau / INR k) in *. assert (DX : INR k * dx = tau) by (unfold dx; field; lra).
    assert (DP : 0 < dx) by (apply Rdiv_lt_0_compat; lra).
    set (a := ode_args (Run_Cycle r) ic (N.pred n) tol) in *.
    assert (A1 : oa_x a = 0) by reflexivity. assert (A2 : oa_x_end a = H) by (unfold H, eps; rewrite <- lit_eq; reflexivity).
    assert (A3 : oa_dx a = dx) by (unfold dx; rewrite <- KN; reflexivity). assert (A4 : oa_y a = z 0) by (unfold z; rewrite C0; reflexivity).
    destruct (HSv a f z) as (mm & ys & OM & SV & FA); rewrite ?A1, ?A2, ?A3, ?A4 in *; try reflexivity; try assumption; try (unfold H; lra).
    assert (MK : mm = k).
    { unfold H in OM. rewrite <- DX, !S_INR in OM. destruct OM as (O1 & O2).
      assert (Q1 : INR mm < INR (S k)) by (apply (Rmult_lt_reg_r dx); [exact DP|rewrite S_INR; lra]).
      assert (Q2 : INR k < INR (S mm)) by (apply (Rmult_lt_reg_r dx); [exact DP|rewrite S_INR; lra]).
      apply INR_lt in Q1, Q2. lia. }
    subst mm. rewrite output_even in SV, FA.
    pose proof (served_exec D (Run_Cycle r) _ f _ _ _ SV SY FlowDirection_default) as EX.
    pose proof (even_grid tau k TP ltac:(unfold k; lia)) as GR. fold dx in GR.
    pose proof (points_times e z _ _ FA) as PT.
    exists (points_of (even dx 0 (S k)) (z 0 :: ys)). split; [|split; [exact PT|split; [|rewrite PT; split; [exact GR|split]]]].
    - assert (UP : u32_pred E n = Ret (N.pred n)) by (destruct n; [lia|reflexivity]).
      unfold try_from, try_from_traced. rewrite UP. fold a. destruct (exec_ode D (Run_Cycle r) (env_ode E a) FlowDirection_default) as (qs & o).
      cbn [snd] in EX |- *. rewrite EX. reflexivity.
    - unfold even. cbn [seq map]. unfold points_of. cbn [combine map]. unfold z at 1, vec_of. rewrite C0. cbn [ic cd_P cd_T_c cd_T_e].
      eexists. eexists. split; reflexivity.
    - apply even_steps. lra.
    - intros c2 C2 HT2. apply points_near.
      assert (AG : forall t, 0 <= t <= tau -> c t = c2 t).
      { intros t Ht. apply (trajectories_agree Helium r D D c c2 0 tau 0 HF HD HD); [lra| |congruence|exact Ht].
        intros u Hu. split; [apply HT; lra|apply HT2; exact Hu]. }
      pose proof (grid_range _ _ GR) as RG'. clear - FA AG RG'. revert FA RG'. generalize (even dx 0 (S k)) (z 0 :: ys). unfold z.
      intros xs vs FA. induction FA as [|t v xs vs A _ IH]; intros RG'; constructor.
      + rewrite <- AG; [exact A|]. apply RG'. left. reflexivity.
      + apply IH. intros u Hu. apply RG'. right. exact Hu.
  Qed.
  Lemma promise_from m L B : 0 < m ->
    let lo' := mkCond (cd_P lo - m) (tcl - m) (tel - m) in let hi' := mkCond (cd_P hi + m) (tch + m) (teh + m) in
    physical_box r lo' hi' 0 H ->
    (forall t1 t2 c1 c2 i, 0 <= t1 <= H -> 0 <= t2 <= H -> in_box lo' hi' c1 -> in_box lo' hi' c2 ->
      Rabs (rate r t1 c1 i) <= B /\ Rabs (rate r t1 c1 i - rate r t2 c2 i) <= L * (Rabs (t1 - t2) + gap c1 c2)) ->
    forall (E : Env R) (tol : OdeTolerance R) (n : N) (e : R), (2 <= n)%N -> eps < tau / intervals n ->
    solver_within E (ot_rel tol) (ot_abs tol) H m (3 * L) (3 * B) e -> accurate E D r levels tol n (tau / intervals n) e.
  Proof. intros. apply (promise_timed m L B); assumption. Qed.
  Theorem kept_promise : exists rho L B, 0 < rho /\ 0 <= L /\ 0 <= B /\
    forall (E : Env R) (tol : OdeTolerance R) (n : N) (e : R), (2 <= n)%N -> eps < tau / intervals n ->
    solver_within E (ot_rel tol) (ot_abs tol) H rho L B e -> accurate E D r levels tol n (tau / intervals n) e.
  Proof.
    destruct margin as (m & M0 & HB).
    pose proof (period_pos comps s0 r Hd Hr) as TP. fold tau in TP. pose proof eps_pos as EP.
    pose proof (RSteady.Hf comps s0 r Hfl Hd Hr) as HF.
    destruct (box_regular Helium r HF 0 H _ _ ltac:(unfold H; lra) (driven_smooth comps s0 r Hd Hr) (driven_motion comps s0 r 0 H Hd Hr) HB)
      as (L & B & L0 & B0 & HL).
    exists m, (3 * L), (3 * B). split; [exact M0|]. split; [lra|]. split; [lra|]. exact (promise_from m L B M0 HB HL).
  Qed.
End Kept.

(** ** Runs *)
Section Limit.
  Variables (comps : Components R) (s0 : State R) (r : Run R) (D : Decomp R) (cl ch el eh cl' ch' el' eh' : R)
    (T_low V_hi v_hi rho rv : R) (a : Replies R).
  Hypothesis Fk : fixed_approach (co_chx comps).
  Hypothesis Fr : fixed_approach (co_regen comps).
  Hypothesis Fl : fixed_approach (co_hhx comps).
  Hypothesis Hfl : s_fluid s0 = IdealGas_Fluid he.
  Hypothesis Hd : driven (co_ws comps).
  Hypothesis Hr : Run_new comps s0 = Ret r.
  Hypothesis Hn : te_sink (s_temp s0) + te_source (s_temp s0) <> 500.
  Hypothesis HD : sound D.
  Hypothesis HC : complete D.
  Hypothesis HX : sane_exchangers r.
  Let P0 := pr_t_zero (s_pres s0).
  Hypothesis HP0 : 0 < P0.
  Hypothesis VC : forall T, between (V_comp r) cl ch 0 T.
  Hypothesis VE : forall T, between (V_exp r) el eh 0 T.
  Hypothesis O1 : 0 < cl' < cl.
  Hypothesis O2 : ch < ch'.
  Hypothesis O3 : 0 < el' < el.
  Hypothesis O4 : eh < eh'.
  Let q := left_over r T_low V_hi v_hi rho rv.
  Hypothesis HS : settles r T_low V_hi v_hi rho rv.
  Hypothesis HQ : q < 1.
  Hypothesis W1 : T_low < expanded cl' ch' (te_chx (ru_temp r)).
  Hypothesis W2 : T_low < expanded el' eh' (te_hhx (ru_temp r)).
  Hypothesis HA : forall vals, replies (mkEngine comps s0 vals) a.
  Let H := ru_period r + / 10 ^ 14.
  Theorem solver_limit : exists d L B c' s X, 0 < d /\ 0 <= L /\ 0 <= B /\
    steady_cycle D r c' /\ warm_trajectory D r T_low c' /\ cd_P (c' 0) = P0 /\
    (forall t, 0 <= t <= ru_period r -> solved_at D r t (c' t) (s t)) /\
    totals (IdealGas_Fluid he) (s_temp s0) a c' s (ru_period r) X /\
    forall eps, 0 < eps -> exists dl, 0 < dl /\
    forall tol, 0 < ct_abs tol -> 0 < ct_rel tol <= dl -> exists e0 n, 0 < e0 /\
    forall (E : Env R) (fl : Fluid R) (inputs : RunInputs R) (settings : RunSettings R),
    let ode := rs_ode_tol settings in
    let h := ru_period r / IZR (Z.of_N (N.pred (rs_resolution settings))) in
    State_new_hint comps fl inputs = Ret s0 ->
    lt_inner (rs_loop_tol settings) = tol ->
    0 < ct_abs (lt_outer (rs_loop_tol settings)) -> 0 < ct_rel (lt_outer (rs_loop_tol settings)) ->
    solver_within E (ot_rel ode) (ot_abs ode) H d L B e0 ->
    (2 <= rs_resolution settings)%N -> / 10 ^ 14 < h -> h <= dl ->
    (n < N.to_nat (mi_inner (rs_max_iters settings)))%nat -> (0 < mi_outer (rs_max_iters settings))%N ->
    exists k en rep, Engine_run_counted E D comps fl inputs settings = (k, Ret (Ok en)) /\ (k <= n + 2)%nat /\
      RunResults_from en = Ret rep /\ report_within a X eps rep.
  Proof.
    assert (VC' : forall T, between (V_comp r) cl' ch' 0 T).
    { intros T. destruct (VC T) as (H1 & H2). split; [lra|]. intros t Ht. specialize (H2 t Ht). lra. }
    assert (VE' : forall T, between (V_exp r) el' eh' 0 T).
    { intros T. destruct (VE T) as (H1 & H2). split; [lra|]. intros t Ht. specialize (H2 t Ht). lra. }
    assert (LW : warm T_low) by (destruct HS as (_ & _ & _ & _ & HN & _); apply nil_warm, HN).
    assert (WC : warm (expanded cl' ch' (te_chx (ru_temp r)))) by (apply (warm_le T_low); [exact LW|lra]).
    assert (WE : warm (expanded el' eh' (te_hhx (ru_temp r)))) by (apply (warm_le T_low); [exact LW|lra]).
    destruct (kept_promise comps s0 r D P0 cl' ch' el' eh' Hfl Hd Hr Hn HD HC VC' VE' (proj1 (proj2 HS)) (proj1 (proj2 (proj2 HS))) HX HP0 WC WE)
      as (d & L & B & D0 & L0 & B0 & HK).
    destruct (accurate_limit comps s0 r D cl ch el eh cl' ch' el' eh' T_low V_hi v_hi rho rv a Fk Fr Fl Hfl Hd Hr Hn HD HC HX HP0 VC VE O1 O2 O3 O4
      HS HQ W1 W2 HA) as (c' & s & X & R1 & R2 & R3 & R4 & R5 & HL).
    exists d, L, B, c', s, X. repeat (split; [assumption|]). intros eps He. destruct (HL eps He) as (dl & DL & HL1).
    exists dl. split; [exact DL|]. intros tol A1 A2. destruct (HL1 tol A1 A2) as (e0 & n & E0 & HL2). exists e0, n. split; [exact E0|].
    intros E fl inputs settings ode h S1 S2 S3 S4 SW RN H1 H2 N1 N2.
    pose proof (period_pos comps s0 r Hd Hr) as TP.
    assert (I1 : 1 <= IZR (Z.of_N (N.pred (rs_resolution settings)))) by (apply IZR_le; lia).
    assert (HT : h <= ru_period r).
    { unfold h. apply (Rmult_le_reg_r (IZR (Z.of_N (N.pred (rs_resolution settings))))); [lra|]. unfold Rdiv.
      rewrite Rmult_assoc, Rinv_l, Rmult_1_r by lra. rewrite <- (Rmult_1_r (ru_period r)) at 1. apply Rmult_le_compat_l; lra. }
    apply (HL2 E fl inputs settings h); try assumption.
    - replace (ru_period r) with (ru_period r / IZR (Z.of_N (N.pred 2))) at 1 by (cbn; field).
      apply (HK E ode 2%N e0); [lia| |exact SW]. replace (ru_period r / IZR (Z.of_N (N.pred 2))) with (ru_period r) by (cbn; field). lra.
    - exact (HK E ode (rs_resolution settings) e0 RN H1 SW).
  Qed.
  (** Euler's method with enough steps *)
  Theorem euler_limit : exists c' s X,
    steady_cycle D r c' /\ warm_trajectory D r T_low c' /\ cd_P (c' 0) = P0 /\
    (forall t, 0 <= t <= ru_period r -> solved_at D r t (c' t) (s t)) /\
    totals (IdealGas_Fluid he) (s_temp s0) a c' s (ru_period r) X /\
    forall eps, 0 < eps -> exists dl, 0 < dl /\
    forall tol, 0 < ct_abs tol -> 0 < ct_rel tol <= dl -> exists n N0,
    forall (N : nat) (fl : Fluid R) (inputs : RunInputs R) (settings : RunSettings R),
    let h := ru_period r / IZR (Z.of_N (N.pred (rs_resolution settings))) in
    (N0 <= N)%nat -> State_new_hint comps fl inputs = Ret s0 ->
    lt_inner (rs_loop_tol settings) = tol ->
    0 < ct_abs (lt_outer (rs_loop_tol settings)) -> 0 < ct_rel (lt_outer (rs_loop_tol settings)) ->
    (2 <= rs_resolution settings)%N -> / 10 ^ 14 < h -> h <= dl ->
    (n < N.to_nat (mi_inner (rs_max_iters settings)))%nat -> (0 < mi_outer (rs_max_iters settings))%N ->
    exists k en rep, Engine_run_counted (euler_env N) D comps fl inputs settings = (k, Ret (Ok en)) /\ (k <= n + 2)%nat /\
      RunResults_from en = Ret rep /\ report_within a X eps rep.
  Proof.
    destruct solver_limit as (d & L & B & c' & s & X & D0 & L0 & B0 & R1 & R2 & R3 & R4 & R5 & HL).
    exists c', s, X. repeat (split; [assumption|]). intros eps He. destruct (HL eps He) as (dl & DL & HL1).
    exists dl. split; [exact DL|]. intros tol A1 A2. destruct (HL1 tol A1 A2) as (e0 & n & E0 & HL2).
    assert (H0 : 0 < H).
    { pose proof (period_pos comps s0 r Hd Hr). pose proof eps_pos. unfold H. lra. }
    destruct (euler_keeps H d L B e0 H0 D0 L0 B0 E0) as (N0 & HN). exists n, N0.
    intros N fl inputs settings h HN0 S1 S2 S3 S4 RN H1 H2 N1 N2.
    apply (HL2 (euler_env N) fl inputs settings); try assumption. apply HN, HN0.
  Qed.
End Limit.
