(** * Reports of engines sampled along their steady cycles *)
From Coq Require Import ZArith NArith List Reals Lra Lia.
From Verif Require Import Num ModelTypes ModelWs ModelHx ModelStateEq ModelEngine ModelApi RNum Spec SpecR SpecGas
  SpecKin SpecTraj SpecLaws SpecUnique SpecExist SpecDepend SpecSeries SpecQuad SpecReport SpecSteady SpecSample Fixture PolySolve
  PolyLoop PolyReport RSolve RGauss RFluid RKin RMass RLaws RPeriod RStart RQuad RSeries RCase RBounds RSteady
  RSample RSampleReport RMotion.
Import ListNotations.
Local Open Scope R_scope.

(** the volumes in the report are those of the run *)
Lemma reply_volumes (e : Engine R) (a : Replies R) (s : State R) (r : Run R) : driven (co_ws (en_components e)) ->
  Run_new (en_components e) s = Ret r -> replies e a -> rp_vols a = ru_ws_vol_fn r /\ ru_period r * rp_freq a = 1.
Proof.
  intros Hd H (Q1 & Q2 & _). unfold Run_new in H.
  destruct (ex_volume (co_chx (en_components e))); [|discriminate].
  destruct (ex_volume (co_regen (en_components e))); [|discriminate].
  destruct (ex_volume (co_hhx (en_components e))); [|discriminate]. cbn [obind] in H.
  destruct Hd as [(d & E & Hf)|(d & E & Hf & HT & HD)]; rewrite E in H, Q1, Q2;
    cbn [SinusoidalDrive_ws RhombicDrive_ws ws_frequency ws_volumes ws_parasitics obind] in H, Q1, Q2; injection H as <-;
    injection Q1 as <-; injection Q2 as <-; cbn [ru_period ru_ws_vol_fn ru_fluid]; (split; [reflexivity|]).
  - change (1 / sd_frequency d * sd_frequency d = 1). field. lra.
  - change (1 / rd_frequency d * rd_frequency d = 1). field. lra.
Qed.

Section Engine.
  Variable name : GasName.
  Let g : IdealGas R := IdealGas_new name.
  Variables (comps : Components R) (s0 : State R) (r : Run R) (D : Decomp R) (c : R -> Conditions R).
  Hypothesis Hfl : s_fluid s0 = IdealGas_Fluid g.
  Hypothesis Hd : driven (co_ws comps).
  Hypothesis Hr : Run_new comps s0 = Ret r.
  Hypothesis HD : sound D.
  Let tau := ru_period r.
  Hypothesis HT : forall t, 0 <= t <= tau -> physical_trajectory D r c t.

  Lemma eng_fluid : ru_fluid r = IdealGas_Fluid g.
  Proof. rewrite <- Hfl. apply (driven_run comps s0 r Hd Hr). Qed.
  Lemma eng_tau : 0 <= tau.
  Proof. apply (driven_run comps s0 r Hd Hr). Qed.
  Lemma eng_motion : steady_motion (ru_ws_vol_fn r) 0 tau.
  Proof. exact (driven_motion comps s0 r 0 tau Hd Hr). Qed.
  Lemma eng_bounded s : (forall t, 0 <= t <= tau -> solved_at D r t (c t) (s t)) -> exists K,
    changes_within K (fun t => so_m_dot_ck (s t)) 0 tau /\
    changes_within K (fun t => so_m_dot_kr (s t)) 0 tau /\ changes_within K (fun t => so_m_dot_rl (s t)) 0 tau /\
    changes_within K (fun t => so_m_dot_le (s t)) 0 tau /\ changes_within K (fun t => so_Q_dot_k (s t)) 0 tau /\
    changes_within K (fun t => so_Q_dot_r (s t)) 0 tau /\ changes_within K (fun t => so_Q_dot_l (s t)) 0 tau /\
    changes_within K (fun t => so_dTc_dt (s t)) 0 tau /\ changes_within K (fun t => so_dTe_dt (s t)) 0 tau /\
    changes_within K (fun t => so_dP_dt (s t)) 0 tau.
  Proof. exact (rates_bounded g (gas_R_pos name) r eng_fluid D c tau HD HT eng_motion s). Qed.
  Lemma eng_totals (T : Temperatures R) (a : Replies R) : rp_vols a = ru_ws_vol_fn r ->
    exists s X, (forall t, 0 <= t <= tau -> solved_at D r t (c t) (s t)) /\ totals (IdealGas_Fluid g) T a c s tau X.
  Proof.
    intros HV. destruct (sol_exists r D c tau HD HT) as (s & Hs).
    destruct (totals_exist g (gas_R_pos name) r eng_fluid D c tau HD eng_tau HT eng_motion T a (fun t _ => f_equal (fun h => h t) HV) s Hs) as (X & HX).
    exists s, X. split; [exact Hs|exact HX].
  Qed.
  Lemma eng_report (T : Temperatures R) (a : Replies R) : rp_vols a = ru_ws_vol_fn r ->
    exists K d, 0 < d /\ forall s X e vs h dl D',
    (forall t, 0 <= t <= tau -> solved_at D r t (c t) (s t)) -> totals (IdealGas_Fluid g) T a c s tau X ->
    s_fluid (en_state e) = IdealGas_Fluid g -> s_temp (en_state e) = T -> replies e a -> series_of vs (en_values e) ->
    sound D' -> grid_to (map (@sv_time R) vs) tau -> steps_within h (map (@sv_time R) vs) -> sampled D' r c dl vs -> dl <= d ->
    exists rep, RunResults_from e = Ret rep /\ report_within a X (K * (h + dl)) rep.
  Proof.
    intros HV. exact (report_near g (gas_R_pos name) r eng_fluid D c tau HD eng_tau HT eng_motion T a (fun t _ => f_equal (fun h => h t) HV)).
  Qed.
End Engine.

(** ** The energy balance of a steady helium engine *)
Lemma helium_totals comps s0 r D c s (fl : Fluid R) (T : Temperatures R) (a : Replies R) X :
  s_fluid s0 = IdealGas_Fluid he -> driven (co_ws comps) -> Run_new comps s0 = Ret r -> sound D ->
  steady_cycle D r c -> rp_vols a = ru_ws_vol_fn r ->
  (forall t, 0 <= t <= ru_period r -> solved_at D r t (c t) (s t)) -> totals fl T a c s (ru_period r) X ->
  to_Q_l X = to_Q_k X + to_Q_r X + to_ideal X
    + ru_period r * (pp_thermal (par_comp (ru_ws_parasitics r)) + pp_thermal (par_exp (ru_ws_parasitics r))).
Proof.
  intros Hfl Hd Hr HD (HT & HS) HV Hs (_ & (F2 & A2 & E2) & (Fk & Ak & Ek) & (Fr & Ar & Er) & (Fl & Al & El) & _).
  set (tau := ru_period r) in *.
  destruct (driven_run comps s0 r Hd Hr) as (T0 & HP & _ & Hf). rewrite Hfl in Hf. fold tau in T0, HP.
  set (q := pp_thermal (par_comp (ru_ws_parasitics r)) + pp_thermal (par_exp (ru_ws_parasitics r))).
  assert (Hn : ru_enth_norm r <> 0).
  { destruct (HT 0 (Rle_refl 0)) as (_ & (N & _) & _). unfold Run_calculate_inputs in N.
    destruct (ru_ws_vol_fn r 0). exact N. }
  pose proof (energy_account he (gas_R_pos Helium) r Hf he_du_deriv Hn D c
    (fun t => Fl t - Fk t - Fr t - t * q) F2 0 tau HD T0) as EA.
  assert (ED : gas_energy r tau (c tau) = gas_energy r 0 (c 0)).
  { pose proof (HS 0 (Rle_refl 0)) as EC. rewrite Rplus_0_l in EC. fold tau in EC. rewrite EC.
    pose proof (HP 0) as EV. rewrite Rplus_0_l in EV. unfold gas_energy. rewrite EV. reflexivity. }
  rewrite ED in EA. assert (G : (Fl tau - Fk tau - Fr tau - tau * q) - (Fl 0 - Fk 0 - Fr 0 - 0 * q) - (F2 tau - F2 0) = 0).
  { rewrite <- EA; [ring|]. intros t Ht. destruct (HT t (proj1 Ht)) as ((Tp & Td & h & x & Hx & Hfo) & Hph & _).
    destruct (Hs t Ht) as (h' & Hx').
    assert (x = s t) as -> by exact (solve_unique _ Hph D D h h' _ _ HD HD Hx Hx').
    split; [exact Tp|]. split; [exact Td|]. exists h, (s t). split; [exact Hx|]. split; [exact Hfo|]. split.
    - eapply deriv_eq.
      + apply deriv_minus; [apply deriv_minus; [apply deriv_minus|]|].
        * exact (Al t Ht). * exact (Ak t Ht). * exact (Ar t Ht).
        * apply deriv_mult; [apply derivable_pt_lim_id|apply deriv_const].
      + cbv beta. unfold q, id. ring.
    - eapply deriv_eq; [exact (A2 t Ht)|]. unfold ideal_rate, dVc_of, dVe_of. rewrite HV. reflexivity. }
  rewrite E2, Ek, Er, El. fold q. lra.
Qed.
Lemma helium_first_law comps s0 r D c (T : Temperatures R) (a : Replies R) :
  s_fluid s0 = IdealGas_Fluid he -> driven (co_ws comps) -> Run_new comps s0 = Ret r -> sound D ->
  steady_cycle D r c -> rp_vols a = ru_ws_vol_fn r -> ru_period r * rp_freq a = 1 ->
  exists K d, 0 < d /\ forall s X e vs h dl D',
  (forall t, 0 <= t <= ru_period r -> solved_at D r t (c t) (s t)) -> totals (IdealGas_Fluid he) T a c s (ru_period r) X ->
  s_fluid (en_state e) = IdealGas_Fluid he -> s_temp (en_state e) = T -> replies e a -> series_of vs (en_values e) ->
  sound D' -> grid_to (map (@sv_time R) vs) (ru_period r) -> steps_within h (map (@sv_time R) vs) ->
  sampled D' r c dl vs -> dl <= d ->
  exists rep, RunResults_from e = Ret rep /\
    Rabs (rrh_input (rr_heat_flow rep) - rrh_rejection (rr_heat_flow rep) - rrp_shaft (rr_power rep)
          - (rp_freq a * (to_Q_r X - to_wall_c X - to_wall_e X)
             + (pp_thermal (par_comp (ru_ws_parasitics r)) + pp_thermal (par_exp (ru_ws_parasitics r))))) <= K * (h + dl).
Proof.
  intros Hfl Hd Hr HD HSt HV HF. pose proof HSt as (HT & _).
  destruct (eng_report Helium comps s0 r D c Hfl Hd Hr HD (fun t Ht => HT t (proj1 Ht)) T a HV) as (K & d & d0 & H).
  exists (3 * K), d. split; [exact d0|]. intros s X e vs h dl D' Hs HX Ef Et Hrp Hse HD' Hg Hh Hsam Hdl.
  destruct (H s X e vs h dl D' Hs HX Ef Et Hrp Hse HD' Hg Hh Hsam Hdl) as (rep & ER & (_ & _ & B3 & _ & B5 & B6 & _)).
  exists rep. split; [exact ER|].
  pose proof (helium_totals comps s0 r D c s _ T a X Hfl Hd Hr HD HSt HV Hs HX) as EQ.
  set (q := pp_thermal (par_comp (ru_ws_parasitics r)) + pp_thermal (par_exp (ru_ws_parasitics r))) in *.
  set (m := K * (h + dl)) in *. replace (3 * K * (h + dl)) with (3 * m) by (unfold m; ring).
  apply abs_le_iff in B3, B5, B6. apply abs_le_iff.
  assert (EB : true_input a X - true_rejected a X - true_shaft a X = rp_freq a * (to_Q_r X - to_wall_c X - to_wall_e X) + q).
  { unfold true_input, true_rejected, true_shaft, true_ideal, true_indicated. rewrite EQ.
    replace q with (ru_period r * rp_freq a * q) at 2 by (rewrite HF; ring). ring. }
  rewrite <- EB. lra.
Qed.

(** ** Samples of the steady cycle of an engine *)
Definition even (w : R) (k m : nat) : list R := map (fun i => INR i * w) (seq k m).
Lemma even_steps w : 0 <= w -> forall m k, nondecreasing (even w k m) /\ steps_within w (even w k m).
Proof.
  intros w0. induction m as [|m IH]; intros k; [split; exact I|].
  destruct m as [|m]; [split; exact I|]. destruct (IH (S k)) as (A & B).
  assert (E : INR (S k) * w = INR k * w + w) by (rewrite S_INR; ring).
  split.
  - change (INR k * w <= INR (S k) * w /\ nondecreasing (even w (S k) (S m))). split; [lra|exact A].
  - change (INR (S k) * w - INR k * w <= w /\ steps_within w (even w (S k) (S m))). split; [lra|exact B].
Qed.
Lemma even_grid tau n : 0 < tau -> (0 < n)%nat -> grid_to (even (tau / INR n) 0 (S n)) tau.
Proof.
  intros H Hn. assert (N0 : 0 < INR n) by (apply lt_0_INR; exact Hn).
  assert (W : 0 < tau / INR n) by (apply Rdiv_lt_0_compat; assumption).
  split; [apply even_steps; lra|]. split; [|split; [|exact H]].
  - exists (even (tau / INR n) 1 n). unfold even. cbn [seq map]. f_equal. cbn [INR]. ring.
  - exists (even (tau / INR n) 0 n). unfold even. rewrite seq_S, map_app. cbn [map]. f_equal. f_equal.
    rewrite Nat.add_0_l. field. lra.
Qed.
Definition samples_of (c : R -> Conditions R) (s : R -> Solution R) (w : R) (n : nat) : list (SeValues R) :=
  map (fun t => mkSeValues t (c t) (s t)) (even w 0 (S n)).
Definition gl_engine (c : R -> Conditions R) (s : R -> Solution R) (n : nat) : Engine R :=
  mkEngine gl_comps case_state (Values_from (samples_of c s (ru_period gl_run / INR n) n)).
Definition gl_replies : Replies R :=
  mkReplies 60 (sin_volumes gl_drive) (mkPar (mkPP 0 10 0) (mkPP 0 10 0)) (mkTR 1 1) 1 2 3 (mkPP 0 1 0) (mkPP 5 0 0) (mkPP 6 2 0).
Lemma gl_replied c s n : replies (gl_engine c s n) gl_replies.
Proof. cbv zeta. unfold replies. cbv zeta. repeat split; reflexivity. Qed.
Lemma gl_sampled : exists c s, steady_cycle gauss gl_run c /\
  (forall t, 0 <= t <= ru_period gl_run -> solved_at gauss gl_run t (c t) (s t)) /\
  forall n, (0 < n)%nat -> let vs := samples_of c s (ru_period gl_run / INR n) n in
    replies (gl_engine c s n) gl_replies /\ series_of vs (en_values (gl_engine c s n)) /\
    grid_to (map (@sv_time R) vs) (ru_period gl_run) /\
    steps_within (ru_period gl_run / INR n) (map (@sv_time R) vs) /\ sampled gauss gl_run c 0 vs.
Proof.
  destruct (gl_steady 1000000 ltac:(lra)) as (c & _ & HS). pose proof HS as (HT & _).
  destruct (sol_exists gl_run gauss c (ru_period gl_run) gauss_sound (fun t Ht => HT t (proj1 Ht))) as (s & Hs).
  exists c, s. split; [exact HS|]. split; [exact Hs|]. intros n Hn vs.
  assert (T0 : 0 < ru_period gl_run) by (cbn; lra).
  assert (N0 : 0 < INR n) by (apply lt_0_INR; exact Hn).
  assert (W : 0 < ru_period gl_run / INR n) by (apply Rdiv_lt_0_compat; assumption).
  assert (ET : map (@sv_time R) vs = even (ru_period gl_run / INR n) 0 (S n)).
  { unfold vs, samples_of. rewrite map_map. cbn [sv_time]. apply map_id. }
  split; [apply gl_replied|]. split; [apply Values_from_series|]. rewrite ET.
  split; [exact (even_grid _ n T0 Hn)|]. split; [apply even_steps; lra|].
  unfold sampled, vs, samples_of. apply Forall_forall. intros v Hv. apply in_map_iff in Hv as (t & <- & Ht).
  cbn [sv_time sv_conditions sv_solution]. split.
  - unfold gap. rewrite !Rminus_diag_eq, Rabs_R0 by reflexivity. lra.
  - apply Hs. exact (grid_range _ _ (even_grid _ n T0 Hn) t Ht).
Qed.
Lemma rh_motion_case a b : turns rh_long_crank /\ steady_motion (rh_volumes rh_long_crank) a b.
Proof. split; [exact rh_long_turns|apply rh_motion, rh_long_turns]. Qed.
