(** * Witnesses for the polymorphic properties, in f64 *)
From Coq Require Import ZArith NArith List Reals Lia.
From Flocq Require Import Core BinarySingleNaN.
From Verif Require Import Num ModelTypes ModelWs ModelHx ModelStateEq ModelEngine ModelApi
  B64 Fixture Replay Demo Spec SpecLoop SpecApi PolySolve PolyLoop PolyRun PolyPanic PolyApi PolyMore.
Import ListNotations.
Local Open Scope bool_scope.

(** ** State equations *)
Lemma hydrogen_checked :
  match solve_traced gauss ideal_gas_hydrogen_inputs FlowDirection_default with
  | (tr, Ok s) => Nat.eqb (length tr) 2 && negb (n_le n0 (so_m_dot_ck s))
  | _ => false
  end = true.
Proof. vm_compute. reflexivity. Qed.

(** two linear solves; the flows are negative *)
Lemma hydrogen_solves : exists tr s,
  solve_traced gauss ideal_gas_hydrogen_inputs FlowDirection_default = (tr, Ok s) /\
  length tr = 2%nat /\ n_le n0 (so_m_dot_ck s) = false.
Proof.
  pose proof hydrogen_checked as H.
  destruct (solve_traced gauss ideal_gas_hydrogen_inputs FlowDirection_default) as [tr [s|e]];
    [|discriminate H].
  apply Bool.andb_true_iff in H as [H1 H2]. exists tr, s.
  split; [reflexivity|]. split; [apply Nat.eqb_eq; exact H1|].
  apply Bool.negb_true_iff. exact H2.
Qed.

Lemma hydrogen_solution : exists s,
  solve gauss ideal_gas_hydrogen_inputs FlowDirection_default = Ok s.
Proof. destruct hydrogen_solves as (tr & s & H & _). exists s. unfold solve. rewrite H. reflexivity. Qed.

(** a decomposition that always contradicts the directions it is asked about *)
Definition contrary : Decomp b64 := fun A b =>
  Some (if n_le (v0 (v1 A)) (n_lit 2 (-1)) then vconst (n_opp n1) else vconst n1).
Lemma contrary_fails : exists tr,
  solve_traced contrary ideal_gas_hydrogen_inputs FlowDirection_default =
  (tr, Err FlowDirectionsNotFound) /\ length tr = 4%nat.
Proof.
  assert (H : match solve_traced contrary ideal_gas_hydrogen_inputs FlowDirection_default with
              | (tr, Err FlowDirectionsNotFound) => Nat.eqb (length tr) 4
              | _ => false
              end = true) by (vm_compute; reflexivity).
  destruct (solve_traced contrary ideal_gas_hydrogen_inputs FlowDirection_default) as [tr [s|[|]]];
    try discriminate H.
  exists tr. split; [reflexivity|]. apply Nat.eqb_eq. exact H.
Qed.
Definition never : Decomp b64 := fun _ _ => None.
Lemma never_fails (i : Inputs b64) hint :
  solve_traced never i hint = ([hint], Err LinearSolveFailed).
Proof. reflexivity. Qed.

(** ** Integrations *)
Section Constant.
  Context {F : Type} {ops : NumOps F}.
  Lemma ask_integration T (c : Cycle F) ic tol s :
    solve T (cy_calculate_inputs c n0 ic) FlowDirection_default = Ok s ->
    exists q pts, try_from_traced ask_env T c ic 2 tol = ([q], Ret (Ok pts)) /\ length pts = 2%nat.
  Proof.
    intros H. unfold try_from_traced. cbn. destruct ic as [P Tc Te]. cbn. rewrite H. cbn.
    eexists _, _. split; reflexivity.
  Qed.
  Lemma two_values T (c : Cycle F) p1 p2 s :
    cy_calculate_inputs c (pt_time p1) (pt_conditions p1) =
    cy_calculate_inputs c (pt_time p2) (pt_conditions p2) ->
    solve T (cy_calculate_inputs c (pt_time p1) (pt_conditions p1)) FlowDirection_default = Ok s ->
    exists vs, into_state_values T c [p1; p2] = Ret vs /\ length vs = 2%nat.
  Proof.
    intros He Hs. unfold into_state_values. cbn [into_state_values_from]. rewrite Hs. cbn [obind].
    pose proof (solve_accepts _ _ _ (solve_upwind _ _ _ _ Hs)) as Ha.
    change (FlowDirection_from_solution s) with (signs s). rewrite <- He, Ha. cbn.
    eexists. split; reflexivity.
  Qed.
  Lemma no_value (c : Cycle F) p :
    into_state_values (fun _ _ => None) c [p] = Panic PSolveFailed.
  Proof. reflexivity. Qed.
End Constant.

Definition constant_cycle : Cycle b64 := mkCycle (fun _ _ => ideal_gas_hydrogen_inputs) n1 n0.
Definition any_tol : OdeTolerance b64 := mkOdeTol n1 n1.
Definition any_ic : Conditions b64 := mkCond (n_lit 10 6) (n_lit 340 0) (n_lit 700 0).

Lemma constant_integration : exists q pts,
  try_from_traced ask_env gauss constant_cycle any_ic 2 any_tol = ([q], Ret (Ok pts)) /\
  length pts = 2%nat.
Proof. destruct hydrogen_solution as (s & H). exact (ask_integration gauss constant_cycle _ _ s H). Qed.

Lemma constant_values : exists vs,
  into_state_values gauss constant_cycle [mkPoint n0 any_ic; mkPoint n1 any_ic] = Ret vs /\
  length vs = 2%nat.
Proof.
  destruct hydrogen_solution as (s & H).
  exact (two_values gauss constant_cycle (mkPoint n0 any_ic) (mkPoint n1 any_ic) s eq_refl H).
Qed.

Lemma no_values :
  into_state_values never constant_cycle [mkPoint n0 any_ic] = Panic PSolveFailed.
Proof. exact (no_value constant_cycle (mkPoint n0 any_ic)). Qed.

(** ** Runs *)
Lemma fa_runs : exists eng,
  Engine_run demo_env gauss fa_comps helium demo_inputs (settings_of fa_config) = Ret (Ok eng) /\
  length (vs_time (en_values eng)) = 4%nat.
Proof. destruct fa_run as (eng & r & H & _ & Hl & _). eauto. Qed.
Lemma fc_runs : exists eng,
  Engine_run demo_env gauss fc_comps helium demo_inputs (settings_of fc_config) = Ret (Ok eng) /\
  length (vs_time (en_values eng)) = 4%nat.
Proof. destruct fc_run as (eng & r & H & _ & Hl & _). eauto. Qed.

Lemma time_average_exists (t y : list b64) : t <> [] -> exists a, time_average t y a.
Proof.
  intros H. destruct (exists_last H) as (t' & tf & ->).
  eexists. exists t', tf. split; reflexivity.
Qed.

(** the averages in a result are not those of its own series *)
Lemma averages_refuted : exists eng m a,
  Engine_run demo_env gauss fc_comps helium demo_inputs (settings_of fc_config) = Ret (Ok eng) /\
  m = mf_chx (s_mass_flow (en_state eng)) /\
  time_average (vs_time (en_values eng))
    (mean_magnitudes (vs_m_dot_ck (en_values eng)) (vs_m_dot_kr (en_values eng))) a /\
  a <> m.
Proof.
  destruct fc_run as (eng & r & H & _ & Hl & _ & _ & Ha).
  destruct (time_average_exists (vs_time (en_values eng))
    (mean_magnitudes (vs_m_dot_ck (en_values eng)) (vs_m_dot_kr (en_values eng)))) as (a & Hav).
  { destruct (vs_time (en_values eng)); discriminate. }
  exists eng, (mf_chx (s_mass_flow (en_state eng))), a. split; [exact H|]. split; [reflexivity|]. split; [exact Hav|]. exact (Ha a Hav).
Qed.

Lemma fa_fixed : fixed_approach (co_chx fa_comps) /\ fixed_approach (co_regen fa_comps) /\
  fixed_approach (co_hhx fa_comps).
Proof. repeat split. Qed.

Lemma fa_close_check :
  match State_new_hint fa_comps helium demo_inputs with
  | Ret s => Temperatures_is_converged (s_temp s) (s_temp s) (lt_outer (rs_loop_tol (settings_of fa_config)))
  | Panic _ => false
  end = true.
Proof. vm_compute. reflexivity. Qed.

Section Determined.
  Context {F : Type} {ops : NumOps F}.
  Lemma follow_det (sink source a b c i : F) T T' :
    temperatures_follow sink source a b c i T -> temperatures_follow sink source a b c i T' -> T = T'.
  Proof.
    destruct T as [s k [rc ra rh] l so], T' as [s' k' [rc' ra' rh'] l' so'].
    unfold temperatures_follow. cbn.
    intros (-> & -> & -> & -> & -> & -> & ->) (-> & -> & -> & -> & -> & -> & ->). reflexivity.
  Qed.
  Lemma initial_det comps (fl : Fluid F) inputs s s0 :
    State_new_hint comps fl inputs = Ret s -> initial_state comps fl inputs s0 ->
    s_temp s0 = s_temp s.
  Proof.
    intros Hs (a & b & c & Ha & Hb & Hc & HT & _).
    apply State_new_hint_spec in Hs as (a' & b' & c' & Ha' & Hb' & Hc' & HT' & _).
    rewrite Ha in Ha'. rewrite Hb in Hb'. rewrite Hc in Hc'.
    injection Ha' as <-. injection Hb' as <-. injection Hc' as <-.
    exact (follow_det _ _ _ _ _ _ _ _ HT HT').
  Qed.
End Determined.

Lemma fa_close s0 : initial_state fa_comps helium demo_inputs s0 ->
  temperatures_close (lt_outer (rs_loop_tol (settings_of fa_config))) (s_temp s0) (s_temp s0).
Proof.
  intros H0. pose proof fa_close_check as H.
  destruct (State_new_hint fa_comps helium demo_inputs) as [s|p] eqn:Hs; [|discriminate H].
  rewrite (initial_det _ _ _ _ _ Hs H0).
  apply temperatures_close_iff. exact H.
Qed.

(** a fixed-approach engine reports that no gas flows *)
Lemma zero_flow_reported : exists eng,
  Engine_run demo_env gauss fa_comps helium demo_inputs (settings_of fa_config) = Ret (Ok eng) /\
  s_mass_flow (en_state eng) = mkMassFlows n0 n0 n0.
Proof.
  destruct fa_runs as (eng & H & _). exists eng. split; [exact H|].
  destruct fa_fixed as (H1 & H2 & H3).
  destruct (run_fixed_approach _ _ _ _ _ _ _ H1 H2 H3 fa_close H)
    as (a & b & c & _ & _ & _ & _ & _ & _ & _ & Hm & _). exact Hm.
Qed.

(** unsolvable equations *)
Lemma never_panics :
  Engine_run ask_env never fa_comps helium demo_inputs (settings_of fa_config) = Panic PSolveFailed.
Proof.
  apply failing_solver_panics.
  - reflexivity.
  - exact ask_env_asks.
  - exact fa_comps_total.
  - discriminate.
  - discriminate.
Qed.

Lemma fa_supported : supported (cf_engine fa_config).
Proof.
  split; [right; reflexivity|]. split; [left; eexists; reflexivity|].
  repeat split; left; eexists; reflexivity.
Qed.
Lemma fc_supported : supported (cf_engine fc_config).
Proof.
  split; [right; reflexivity|]. split; [left; eexists; reflexivity|].
  repeat split; right; eexists; reflexivity.
Qed.
(** the fixed-approach engine with a real-gas fluid *)
Definition refprop_config : Config b64 :=
  mkConfig (mkEngineCfg (FC_Helium FM_RefProp) (ec_components fa_engine)) (cf_solver fa_config)
    demo_conditions.
Lemma refprop_unsupported : ~ supported (cf_engine refprop_config).
Proof. intros [[H|H] _]; discriminate H. Qed.

(** an overall efficiency of zero next to a positive mechanical one *)
Lemma overall_refuted : exists r,
  run_engine demo_env gauss fa_config = Ret (Ok r) /\
  n_lt n0 (rre_mechanical (rr_efficiency r)) = true /\
  rre_overall (rr_efficiency r) = n0.
Proof.
  destruct run_engine_fa as (r & H & Hp). exists r. split; [exact H|]. split.
  - apply Bool.andb_true_iff in Hp as [_ Hp]. exact Hp.
  - exact (run_engine_overall _ _ _ _ H).
Qed.

(** the fixed-approach engine with conducting walls *)
Section Walls.
  Context {F : Type} {ops : NumOps F}.
  Definition walls (c : SinConfig F) (r : F) : SinConfig F :=
    mkSinCfg (sdc_frequency c) (sdc_phase_angle c) (sdc_V_swept_c c) (sdc_V_clearance_c c) r
      (sdc_W_parasitic_c c) (sdc_V_swept_e c) (sdc_V_clearance_e c) r (sdc_W_parasitic_e c)
      (sdc_Q_parasitic_e c).
  Definition drive_with (comps : Components F) (c : SinConfig F) : Components F :=
    mkComponents (SinusoidalDrive_ws (SinusoidalDrive_from c)) (co_chx comps) (co_regen comps)
      (co_hhx comps).
  Lemma walls_same (c : SinConfig F) r comps :
    same_but_resistance (SinusoidalDrive_ws (SinusoidalDrive_from c))
      (co_ws (drive_with comps (walls c r))).
  Proof. repeat split. Qed.
  Lemma walls_resistance comps (c : SinConfig F) r s :
    ws_thermal_resistance (co_ws (drive_with comps (walls c r))) s = Ret (mkTR r r).
  Proof. reflexivity. Qed.
  (** whatever the wall resistance, nothing but the parasitic losses reaches the gas *)
  Lemma walls_no_heat comps (c : SinConfig F) fl (r : F) pres T :
    ex_total (co_chx comps) -> ex_total (co_regen comps) -> ex_total (co_hhx comps) ->
    exists cyc,
    is_cycle_of (drive_with comps (walls c r)) fl pres T cyc /\
    forall t cond, wi_Q_dot (in_comp (cy_calculate_inputs cyc t cond)) = n0 /\
      wi_Q_dot (in_exp (cy_calculate_inputs cyc t cond)) = sdc_Q_parasitic_e c.
  Proof.
    intros [(Vk & Hk) _] [(Vr & Hr) _] [(Vl & Hl) _].
    set (s := mkState fl pres T (mkMassFlows n0 n0 n0) (mkHeatFlows n0 n0 n0) n0).
    destruct (Run_new (drive_with comps (walls c r)) s) as [run|p] eqn:H.
    - exists (Run_Cycle run). split; [exact (Run_new_cycle _ _ _ H)|].
      unfold Run_new in H. cbn in H. rewrite Hk, Hr, Hl in H. cbn in H. injection H as <-.
      intros t cond. split; reflexivity.
    - exfalso. unfold Run_new in H. cbn in H. rewrite Hk, Hr, Hl in H. discriminate H.
  Qed.
  Lemma walls_run_of E U comps (c : SinConfig F) r fl inputs settings e1 :
    co_ws comps = SinusoidalDrive_ws (SinusoidalDrive_from c) ->
    constant_approach (co_chx comps) -> constant_approach (co_regen comps) ->
    constant_approach (co_hhx comps) ->
    Engine_run E U comps fl inputs settings = Ret (Ok e1) ->
    exists e2, Engine_run E U (drive_with comps (walls c r)) fl inputs settings = Ret (Ok e2) /\
      en_values e1 = en_values e2.
  Proof.
    intros Hw A1 A2 A3 H1.
    assert (H : same_run (Engine_run E U comps fl inputs settings)
                  (Engine_run E U (drive_with comps (walls c r)) fl inputs settings)).
    { apply run_ignores_resistance; try assumption; try reflexivity.
      - rewrite Hw. apply walls_same.
      - intros s. rewrite Hw. eexists. reflexivity.
      - intros s. eexists. reflexivity. }
    rewrite H1 in H. unfold same_run in H.
    destruct (Engine_run E U (drive_with comps (walls c r)) fl inputs settings) as [[e2|?]|?];
      try contradiction.
    exists e2. split; [reflexivity|]. apply H.
  Qed.
End Walls.
Definition with_walls (r : b64) : Components b64 := drive_with fa_comps (walls SinConfig_default r).
Lemma fa_walls_heat (r : b64) pres T : exists cyc,
  is_cycle_of (with_walls r) helium pres T cyc /\
  forall t cond, wi_Q_dot (in_comp (cy_calculate_inputs cyc t cond)) = n0.
Proof.
  destruct fa_comps_total as (_ & H1 & H2 & H3).
  destruct (walls_no_heat fa_comps SinConfig_default helium r pres T H1 H2 H3) as (cyc & Hc & H).
  exists cyc. split; [exact Hc|]. intros t cond. apply H.
Qed.
Lemma fa_constant : constant_approach (co_chx fa_comps) /\ constant_approach (co_regen fa_comps) /\
  constant_approach (co_hhx fa_comps).
Proof. repeat split; eexists; intros s; lazy [fa_comps]; reflexivity. Qed.
Lemma fa_drive : co_ws fa_comps = SinusoidalDrive_ws (SinusoidalDrive_from SinConfig_default).
Proof. reflexivity. Qed.
(** a run of the engine with conducting walls gives the same series as the adiabatic one *)
Lemma walls_run r : exists e1 e2,
  Engine_run demo_env gauss fa_comps helium demo_inputs (settings_of fa_config) = Ret (Ok e1) /\
  Engine_run demo_env gauss (with_walls r) helium demo_inputs (settings_of fa_config) = Ret (Ok e2) /\
  en_values e1 = en_values e2.
Proof.
  destruct fa_runs as (e1 & H1 & _). destruct fa_constant as (A1 & A2 & A3).
  destruct (walls_run_of demo_env gauss fa_comps SinConfig_default r helium demo_inputs
    (settings_of fa_config) e1 fa_drive A1 A2 A3 H1) as (e2 & H2 & H).
  exists e1, e2. exact (conj H1 (conj H2 H)).
Qed.

(** resolution 0 *)
Definition zero_points : RunSettings b64 :=
  mkRunSettings 0%N (rs_loop_tol (settings_of fa_config)) any_tol (mkMaxIters 5%N 5%N).

(** the default rhombic drive, whose two diameters differ *)
Lemma rhombic_refuted :
  rg_D_d (rd_geometry (RhombicDrive_from (RhConfig_default : RhConfig b64))) <>
  rdc_D_d (RhConfig_default : RhConfig b64).
Proof.
  intros H. apply (f_equal B2SF) in H. vm_compute in H. discriminate H.
Qed.

(** the same components, the cold exchanger with an electrical parasitic load *)
Section Electrical.
  Context {F : Type} {ops : NumOps F}.
  Definition with_load {S} (x : Exchanger F S) (w : F) : Exchanger F S :=
    mkExch (ex_volume x) (ex_approach x) (ex_hydraulic_resistance x)
      (fun s => let! p := ex_parasitics x s in
                Ret (mkPP (pp_thermal p) (pp_mechanical p) w))
      (ex_initial_approach x).
  Lemma load_ignored (c : Components F) w : comps_total c ->
    agree_but_electrical c (mkComponents (co_ws c) (with_load (co_chx c) w) (co_regen c) (co_hhx c)).
  Proof.
    intros (Hw & Hk & Hr & Hl). unfold agree_but_electrical. cbn.
    repeat (split; [reflexivity|]).
    split; [|repeat (split; [reflexivity|]); split; [|split]]; intros s.
    - destruct (Hw s) as (_ & _ & _ & p & Hp). exists p, p. rewrite Hp. repeat split.
    - destruct Hk as (_ & _ & Hk). destruct (Hk s) as (_ & _ & p & Hp). rewrite Hp.
      eexists _, _. repeat split.
    - destruct Hr as (_ & _ & Hr). destruct (Hr s) as (_ & _ & p & Hp). rewrite Hp.
      eexists _, _. repeat split.
    - destruct Hl as (_ & _ & Hl). destruct (Hl s) as (_ & _ & p & Hp). rewrite Hp.
      eexists _, _. repeat split.
  Qed.
End Electrical.
Lemma fa_load (w : b64) :
  agree_but_electrical fa_comps
    (mkComponents (co_ws fa_comps) (with_load (co_chx fa_comps) w) (co_regen fa_comps) (co_hhx fa_comps)).
Proof. exact (load_ignored fa_comps w fa_comps_total). Qed.
