(** * Results, performance and configuration, any number type *)
From Coq Require Import ZArith NArith List Lia.
From Verif Require Import Num ModelTypes ModelWs ModelHx ModelStateEq ModelEngine ModelApi
  Spec SpecLoop SpecApi PolySolve PolyLoop PolyRun PolyPanic.
Import ListNotations.

Section PolyApi.
  Context {F : Type} {ops : NumOps F}.

  (** ** Vectors *)
  Lemma dv_zip_Ret f (a : list F) : forall b, length a = length b ->
    exists r, dv_zip f a b = Ret r /\ length r = length a /\
      forall j x y, nth_error a j = Some x -> nth_error b j = Some y -> nth_error r j = Some (f x y).
  Proof.
    induction a as [|x a IH]; intros [|y b] H; try discriminate H.
    - exists []. split; [reflexivity|]. split; [reflexivity|]. intros [|j]; discriminate.
    - cbn in H. injection H as H. destruct (IH b H) as (r & Hr & Hl & Hn).
      exists (f x y :: r). cbn [dv_zip]. rewrite Hr. split; [reflexivity|]. split; [cbn; lia|].
      intros [|j] x' y' Ha Hb; cbn in *; [congruence|eauto].
  Qed.

  Lemma dv_zip_inv f (a : list F) : forall b r, dv_zip f a b = Ret r ->
    length a = length b /\ length r = length a.
  Proof.
    induction a as [|x a IH]; intros [|y b] r H; try discriminate H.
    - injection H as <-. auto.
    - cbn [dv_zip] in H. destruct (dv_zip f a b) as [r'|] eqn:Hr; [|discriminate H].
      injection H as <-. destruct (IH _ _ Hr). cbn. lia.
  Qed.

  Lemma dv_zip_not_Panic f (a b : list F) p : length a = length b -> dv_zip f a b <> Panic p.
  Proof. intros H. destruct (dv_zip_Ret f a b H) as (r & -> & _). discriminate. Qed.

  (** ** C18 *)
  Lemma Forall2_len {A B} (R : A -> B -> Prop) l l' : Forall2 R l l' -> length l' = length l.
  Proof. induction 1; cbn; congruence. Qed.

  Lemma series_aligned (vs : list (SeValues F)) v : series_of vs v -> aligned (length vs) v.
  Proof.
    unfold series_of, aligned.
    intros (H1 & H2 & H3 & H4 & H5 & H6 & H7 & H8 & H9 & H10 & H11).
    repeat split; eapply Forall2_len; eassumption.
  Qed.

  Lemma run_aligned E U comps fl inputs settings (eng : Engine F) :
    Engine_run E U comps fl inputs settings = Ret (Ok eng) ->
    exists n, aligned n (en_values eng).
  Proof.
    intros H. apply run_steady in H as (c & ic & pts2 & n & pts & vs & _ & _ & _ & _ & _ & _ & _ & Hs).
    exists (length vs). exact (series_aligned _ _ Hs).
  Qed.

  (** ** C38 *)
  Definition drop (m0 m1 d : list F) R := calculate_hx_pressure_drop m0 m1 d R.
  Lemma pressure_drop_Ret m0 m1 d (R : F) :
    length m0 = length m1 -> length m0 = length d ->
    exists r, calculate_hx_pressure_drop m0 m1 d R = Ret r /\ length r = length d.
  Proof.
    intros H1 H2. unfold calculate_hx_pressure_drop, dv_add, component_div.
    destruct (dv_zip_Ret n_add m0 m1 H1) as (a & -> & Ha & _). cbn [obind].
    destruct (dv_zip_Ret n_div (dv_scale nhalf a) d) as (b & -> & Hb & _).
    { unfold dv_scale. rewrite map_length. congruence. }
    cbn [obind]. eexists. split; [reflexivity|]. unfold dv_scale in *.
    rewrite map_length in *. congruence.
  Qed.

  Lemma PressuresWithDrops_spec (eng : Engine F) n :
    aligned n (en_values eng) ->
    match PressuresWithDrops_new eng with
    | Ret p => length (pwd_P_c p) = n /\ length (pwd_P_e p) = n
    | Panic p => reporting_panics (en_components eng) (en_state eng) p
    end.
  Proof.
    intros (Ht & HP & Hc & He & H1 & H2 & H3 & H4 & H5 & H6 & H7).
    unfold PressuresWithDrops_new.
    match goal with |- context [ex_hydraulic_resistance (co_chx ?c) ?x] =>
      destruct (ex_hydraulic_resistance (co_chx c) x) as [R_k|q] eqn:Hk end;
      cbn [obind]; [|unfold reporting_panics; eauto 12].
    match goal with |- context [calculate_hx_pressure_drop ?a ?b ?d R_k] =>
      destruct (pressure_drop_Ret a b d R_k) as (dk & -> & Ldk) end;
      [congruence|rewrite map_length; congruence|].
    cbn [obind].
    match goal with |- context [ex_hydraulic_resistance (co_hhx ?c) ?x] =>
      destruct (ex_hydraulic_resistance (co_hhx c) x) as [R_l|q] eqn:Hl end;
      cbn [obind]; [|unfold reporting_panics; eauto 12].
    match goal with |- context [calculate_hx_pressure_drop ?a ?b ?d R_l] =>
      destruct (pressure_drop_Ret a b d R_l) as (dl & -> & Ldl) end;
      [congruence|rewrite map_length; congruence|].
    cbn [obind].
    match goal with |- context [ex_hydraulic_resistance (co_regen ?c) ?x] =>
      destruct (ex_hydraulic_resistance (co_regen c) x) as [R_r|q] eqn:Hr end;
      cbn [obind]; [|unfold reporting_panics; eauto 12].
    match goal with |- context [calculate_hx_pressure_drop ?a ?b ?d R_r] =>
      destruct (pressure_drop_Ret a b d R_r) as (dr & -> & Ldr) end;
      [congruence|rewrite map_length; congruence|].
    cbn [obind]. rewrite map_length in Ldk, Ldl, Ldr. unfold dv_add, dv_sub.
    destruct (dv_zip_Ret n_add dk dl) as (a & -> & La & _); [congruence|]. cbn [obind].
    destruct (dv_zip_Ret n_add a dr) as (b & -> & Lb & _); [congruence|]. cbn [obind].
    assert (Ls : length (vs_P (en_values eng)) = length (dv_scale nhalf b))
      by (unfold dv_scale; rewrite map_length; congruence).
    destruct (dv_zip_Ret n_add _ _ Ls) as (c1 & -> & Lc1 & _). cbn [obind].
    destruct (dv_zip_Ret n_sub _ _ Ls) as (c2 & -> & Lc2 & _). cbn [obind].
    cbn. split; congruence.
  Qed.

  Lemma Powers_spec (eng : Engine F) pwd n :
    aligned n (en_values eng) -> length (pwd_P_c pwd) = n -> length (pwd_P_e pwd) = n ->
    forall p, Powers_new pwd eng = Panic p -> reporting_panics (en_components eng) (en_state eng) p.
  Proof.
    intros (Ht & HP & _) Lc Le p. unfold Powers_new, dV_dts, State_ws.
    match goal with |- context [ws_frequency ?w ?x] =>
      destruct (ws_frequency w x) as [f|q] eqn:Hf end;
      cbn [obind]; [|intros H; injection H as ->; unfold reporting_panics; eauto 12].
    match goal with |- context [ws_volumes ?w ?x] =>
      destruct (ws_volumes w x) as [vf|q] eqn:Hv end;
      cbn [obind]; [|intros H; injection H as ->; unfold reporting_panics; eauto 12].
    set (dc := map (fun v : Volume F * Volume F => v_deriv (fst v)) _).
    set (de := map (fun v : Volume F * Volume F => v_deriv (snd v)) _).
    assert (Ldc : length dc = n) by (unfold dc; rewrite !map_length; exact Ht).
    assert (Lde : length de = n) by (unfold de; rewrite !map_length; exact Ht).
    unfold component_mul, dv_add.
    destruct (dv_zip_Ret n_mul (pwd_P_c pwd) dc) as (wc & -> & Lwc & _); [congruence|]. cbn [obind].
    destruct (dv_zip_Ret n_mul (pwd_P_e pwd) de) as (we & -> & Lwe & _); [congruence|]. cbn [obind].
    destruct (dv_zip_Ret n_add wc we) as (w & -> & Lw & _); [congruence|]. cbn [obind].
    destruct (dv_zip_Ret n_add dc de) as (dd & -> & Ldd & _); [congruence|]. cbn [obind].
    destruct (dv_zip_Ret n_mul (vs_P (en_values eng)) dd) as (w0 & -> & Lw0 & _); [congruence|].
    cbn [obind].
    match goal with |- context [ws_parasitics ?w ?x] =>
      destruct (ws_parasitics w x) as [par|q] eqn:Hp end;
      cbn [obind]; [|intros H; injection H as ->; unfold reporting_panics; eauto 12].
    match goal with |- context [ex_parasitics (co_chx ?w) ?x] =>
      destruct (ex_parasitics (co_chx w) x) as [pk|q] eqn:Hpk end;
      cbn [obind]; [|intros H; injection H as ->; unfold reporting_panics; eauto 14].
    match goal with |- context [ex_parasitics (co_hhx ?w) ?x] =>
      destruct (ex_parasitics (co_hhx w) x) as [pl|q] eqn:Hpl end;
      cbn [obind]; [|intros H; injection H as ->; unfold reporting_panics; eauto 14].
    discriminate.
  Qed.

  Lemma Heats_spec (eng : Engine F) pw p : Heats_new pw eng = Panic p ->
    reporting_panics (en_components eng) (en_state eng) p.
  Proof.
    unfold Heats_new, State_ws.
    match goal with |- context [ws_frequency ?w ?x] =>
      destruct (ws_frequency w x) as [f|q] eqn:Hf end;
      cbn [obind]; [|intros H; injection H as ->; unfold reporting_panics; eauto 12].
    match goal with |- context [ex_parasitics (co_hhx ?w) ?x] =>
      destruct (ex_parasitics (co_hhx w) x) as [pl|q] eqn:Hpl end;
      cbn [obind]; [|intros H; injection H as ->; unfold reporting_panics; eauto 14].
    match goal with |- context [ex_parasitics (co_regen ?w) ?x] =>
      destruct (ex_parasitics (co_regen w) x) as [pr|q] eqn:Hpr end;
      cbn [obind]; [|intros H; injection H as ->; unfold reporting_panics; eauto 14].
    match goal with |- context [ws_parasitics ?w ?x] =>
      destruct (ws_parasitics w x) as [par|q] eqn:Hp end;
      cbn [obind]; [|intros H; injection H as ->; unfold reporting_panics; eauto 12].
    match goal with |- context [ws_thermal_resistance ?w ?x] =>
      destruct (ws_thermal_resistance w x) as [R|q] eqn:HR end;
      cbn [obind]; [|intros H; injection H as ->; unfold reporting_panics; eauto 12].
    unfold dv_sub, dv_from_element.
    match goal with |- context [dv_zip n_sub ?a (repeat ?x (length ?a))] =>
      destruct (dv_zip_Ret n_sub a (repeat x (length a))) as (d1 & -> & _ & _) end;
      [now rewrite repeat_length|].
    cbn [obind].
    match goal with |- context [dv_zip n_sub ?a (repeat ?x (length ?a))] =>
      destruct (dv_zip_Ret n_sub a (repeat x (length a))) as (d2 & -> & _ & _) end;
      [now rewrite repeat_length|].
    discriminate.
  Qed.

  Lemma results_panic (eng : Engine F) n p :
    aligned n (en_values eng) -> RunResults_from eng = Panic p ->
    reporting_panics (en_components eng) (en_state eng) p.
  Proof.
    intros Ha. unfold RunResults_from, Performance_from.
    destruct (ws_frequency (co_ws (en_components eng)) (State_ws (en_state eng))) as [f|q] eqn:Hf;
      cbn [obind].
    2:{ intros H; injection H as ->. left. exact Hf. }
    pose proof (PressuresWithDrops_spec eng n Ha) as HP.
    destruct (PressuresWithDrops_new eng) as [pwd|q]; cbn [obind].
    2:{ intros H; injection H as ->. exact HP. }
    destruct HP as [Lc Le].
    destruct (Powers_new pwd eng) as [pw|q] eqn:Hpw; cbn [obind].
    2:{ intros H; injection H as ->. exact (Powers_spec _ _ _ Ha Lc Le _ Hpw). }
    destruct (Heats_new pw eng) as [ht|q] eqn:Hht; cbn [obind]; [discriminate|].
    intros H; injection H as ->. exact (Heats_spec _ _ _ Hht).
  Qed.

  Lemma run_results_panic E U comps fl inputs settings (eng : Engine F) p :
    Engine_run E U comps fl inputs settings = Ret (Ok eng) ->
    RunResults_from eng = Panic p ->
    reporting_panics comps (en_state eng) p.
  Proof.
    intros H HP. pose proof (run_boundary _ _ _ _ _ _ _ H) as (<- & _).
    apply run_aligned in H as [n Hn]. exact (results_panic _ _ _ Hn HP).
  Qed.

  Lemma run_results_total E U comps fl inputs settings (eng : Engine F) :
    comps_total comps ->
    Engine_run E U comps fl inputs settings = Ret (Ok eng) ->
    exists r, RunResults_from eng = Ret r.
  Proof.
    intros Ht H. destruct (RunResults_from eng) as [r|p] eqn:HR; [eauto|]. exfalso.
    pose proof (run_results_panic _ _ _ _ _ _ _ _ H HR) as HP.
    destruct Ht as (Hw & (_ & _ & Hk) & (_ & _ & Hr) & (_ & _ & Hl)).
    destruct (Hw {| wss_pres := s_pres (en_state eng) |}) as ([f Hf] & [vf Hv] & [R HRR] & [pp Hpp]).
    unfold reporting_panics in HP.
    decompose [or] HP; try congruence;
      match goal with H : exists x, _ = Panic p |- _ => destruct H as [x Hx] end;
      first [destruct (Hk x) as (_ & [? ?] & [? ?])|idtac];
      first [destruct (Hr x) as (_ & [? ?] & [? ?])|idtac];
      first [destruct (Hl x) as (_ & [? ?] & [? ?])|idtac]; congruence.
  Qed.

  (** ** C44, C45 *)
  Lemma results_repeat (eng : Engine F) r : RunResults_from eng = Ret r ->
    repeats eng r /\ exists p, Performance_from eng = Ret p /\ repeats_performance p r.
  Proof.
    unfold RunResults_from. destruct (Performance_from eng) as [p|] eqn:Hp; [|discriminate].
    cbn [obind]. intros H; injection H as <-. split.
    - unfold repeats; cbn. repeat split.
    - exists p. split; [reflexivity|]. unfold repeats_performance; cbn. repeat split.
  Qed.

  Lemma results_overall (eng : Engine F) r : RunResults_from eng = Ret r ->
    rre_overall (rr_efficiency r) = n0.
  Proof.
    unfold RunResults_from. destruct (Performance_from eng) as [p|]; [|discriminate].
    cbn [obind]. intros H; injection H as <-. reflexivity.
  Qed.

  Lemma run_engine_overall E U (config : Config F) r :
    run_engine E U config = Ret (Ok r) -> rre_overall (rr_efficiency r) = n0.
  Proof.
    unfold run_engine.
    destruct (fluid_from_config (ec_fluid (cf_engine config))) as [g|]; [|discriminate].
    cbn [obind]. destruct (Components_from _) as [comps|]; [|discriminate].
    cbn [obind]. destruct (Engine_run _ _ _ _ _ _) as [[eng|e]|]; [|discriminate|discriminate].
    cbn [obind]. destruct (RunResults_from eng) as [r'|] eqn:Hr; [|discriminate].
    cbn [obind]. intros H; injection H as ->. exact (results_overall _ _ Hr).
  Qed.

  (** C18 for the results *)
  Lemma run_engine_aligned E U (config : Config F) r :
    run_engine E U config = Ret (Ok r) -> exists n, results_aligned n (rr_values r).
  Proof.
    unfold run_engine.
    destruct (fluid_from_config (ec_fluid (cf_engine config))) as [g|]; [|discriminate].
    cbn [obind]. destruct (Components_from _) as [comps|]; [|discriminate].
    cbn [obind]. destruct (Engine_run _ _ _ _ _ _) as [[eng|e]|] eqn:HE; [|discriminate|discriminate].
    cbn [obind]. destruct (RunResults_from eng) as [r'|] eqn:Hr; [|discriminate].
    cbn [obind]. intros H; injection H as ->.
    apply run_aligned in HE as [n Hn]. exists n.
    pose proof (PressuresWithDrops_spec eng n Hn) as HP.
    apply results_repeat in Hr as ((_ & _ & _ & _ & _ & Hv) & p & Hp & Hpf).
    destruct Hpf as (_ & _ & _ & _ & _ & _ & _ & _ & Hpc & Hpe).
    unfold Performance_from in Hp.
    destruct (ws_frequency (co_ws (en_components eng)) (State_ws (en_state eng))) as [f|];
      [|discriminate Hp].
    cbn [obind] in Hp. destruct (PressuresWithDrops_new eng) as [pwd|]; [|discriminate Hp].
    cbn [obind] in Hp. destruct (Powers_new pwd eng) as [pw|]; [|discriminate Hp].
    cbn [obind] in Hp. destruct (Heats_new pw eng) as [ht|]; [|discriminate Hp].
    cbn [obind] in Hp. injection Hp as <-. cbn in Hpc, Hpe.
    destruct HP as [Lc Le].
    destruct Hv as (E1 & E2 & E3 & E4 & E5 & E6 & E7 & E8 & E9 & E10 & E11).
    unfold results_aligned. rewrite E1, E2, E3, E4, E5, E6, E7, E8, E9, E10, E11, Hpc, Hpe.
    destruct Hn as (A1 & A2 & A3 & A4 & A5 & A6 & A7 & A8 & A9 & A10 & A11).
    repeat split; assumption.
  Qed.

  (** ** C40 *)
  Lemma config_unsupported E U (config : Config F) :
    ~ supported (cf_engine config) -> run_engine E U config = Panic PTodo.
  Proof.
    unfold supported, fluid_supported, ws_supported, chx_supported, regen_supported, hhx_supported.
    destruct config as [[fl [ck cl cr cw]] sv cn]; cbn.
    intros H. unfold run_engine, Components_from. cbn [cf_engine ec_fluid ec_components ccf_ws ccf_chx ccf_regen ccf_hhx].
    destruct fl as [[| | |]|[| | |]]; cbn [fluid_from_config obind]; try reflexivity;
    (destruct cw as [cw|cw|cw|cw]; cbn [ws_from_config obind]; try reflexivity;
     destruct ck as [ck|ck|ck|ck]; cbn [chx_from_config obind]; try reflexivity;
     destruct cr as [cr|cr|cr|cr]; cbn [regen_from_config obind]; try reflexivity;
     destruct cl as [cl|cl|cl|cl|cl|cl]; cbn [hhx_from_config obind]; try reflexivity;
     exfalso; apply H; clear H; repeat split; eauto).
  Qed.

  Lemma config_supported (c : EngineConfig F) :
    supported c ->
    exists gas comps, fluid_from_config (ec_fluid c) = Ret gas /\
      Components_from (ec_components c) = Ret comps /\
      (ec_fluid c = FC_Helium FM_IdealGas -> gas = IdealGas_new Helium) /\
      (ec_fluid c = FC_Hydrogen FM_IdealGas -> gas = IdealGas_new Hydrogen) /\
      comps_total comps /\ carries (ec_components c) comps.
  Proof.
    destruct c as [fl [ck cl cr cw]]; unfold supported; cbn [ec_fluid ec_components ccf_ws ccf_chx ccf_regen ccf_hhx].
    intros (Hf & Hw & Hk & Hr & Hl). unfold Components_from. cbn [ccf_ws ccf_chx ccf_regen ccf_hhx].
    assert (Hw' : exists w, ws_from_config cw = Ret w /\ ws_total w /\ ws_carries cw w).
    { destruct Hw as [[x ->]|[x ->]]; eexists; (split; [reflexivity|]); split.
      all: intros s; cbn; eauto 10. }
    assert (Hk' : exists w, chx_from_config ck = Ret w /\ ex_total w /\ chx_carries ck w).
    { destruct Hk as [[x ->]|[x ->]]; eexists; (split; [reflexivity|]); split.
      all: unfold ex_total; cbn; eauto 12. }
    assert (Hr' : exists w, regen_from_config cr = Ret w /\ ex_total w /\ regen_carries cr w).
    { destruct Hr as [[x ->]|[x ->]]; eexists; (split; [reflexivity|]); split.
      all: unfold ex_total; cbn; eauto 12. }
    assert (Hl' : exists w, hhx_from_config cl = Ret w /\ ex_total w /\ hhx_carries cl w).
    { destruct Hl as [[x ->]|[x ->]]; eexists; (split; [reflexivity|]); split.
      all: unfold ex_total; cbn; eauto 12. }
    destruct Hw' as (w & -> & Tw & Cw). destruct Hk' as (k & -> & Tk & Ck).
    destruct Hr' as (r & -> & Tr & Cr). destruct Hl' as (l & -> & Tl & Cl). cbn [obind].
    assert (Hf' : exists g, fluid_from_config fl = Ret g /\
                    (fl = FC_Helium FM_IdealGas -> g = IdealGas_new Helium) /\
                    (fl = FC_Hydrogen FM_IdealGas -> g = IdealGas_new Hydrogen)).
    { destruct Hf as [-> | ->]; eexists; (split; [reflexivity|]); split; intros H; solve [discriminate H|reflexivity]. }
    destruct Hf' as (g & -> & G1 & G2).
    exists g, {| co_ws := w; co_chx := k; co_regen := r; co_hhx := l |}.
    split; [reflexivity|]. split; [reflexivity|]. split; [exact G1|]. split; [exact G2|].
    split; [repeat split; cbn; assumption || apply Tw || apply Tk || apply Tr || apply Tl|].
    unfold carries. cbn. auto.
  Qed.

  (** A run of a supported configuration panics only because a state-equation
      solve fails, the integrator reports no point, or no point is requested *)
  Lemma supported_run_panics E U (config : Config F) p :
    supported (cf_engine config) -> run_engine E U config = Panic p ->
    p = PSolveFailed \/ p = PEmpty \/
    (p = POverflow /\ oc_num_timesteps (sc_ode (cf_solver config)) = 0%N /\
     env_overflow_checks E = true).
  Proof.
    intros Hs. destruct (config_supported _ Hs) as (g & comps & Hg & Hc & _ & _ & Ht & _).
    unfold run_engine. rewrite Hg, Hc. cbn [obind].
    destruct (Engine_run _ _ _ _ _ _) as [[eng|e]|q] eqn:HE; cbn [obind].
    - destruct (run_results_total _ _ _ _ _ _ _ Ht HE) as [r ->]. discriminate.
    - discriminate.
    - intros H; injection H as ->. apply run_panic in HE.
      destruct Ht as (Tw & (Vk & Ik & Tk) & (Vr & Ir & Tr) & (Vl & Il & Tl)).
      destruct HE as [HE|(s0 & j & s & _ & _ & _ & HE)].
      + exfalso. destruct Ik as [? ?], Ir as [? ?], Il as [? ?].
        unfold initial_approach_panics in HE. decompose [or] HE; congruence.
      + destruct HE as [HE|[HE|[[-> _]|[[-> _]|(-> & H0 & H1)]]]]; [exfalso|exfalso|tauto|tauto|].
        * destruct Vk as [? ?], Vr as [? ?], Vl as [? ?].
          destruct (Tw {| wss_pres := s_pres s |}) as ([? ?] & [? ?] & [? ?] & [? ?]).
          unfold running_panics in HE. decompose [or] HE; congruence.
        * unfold approach_panics in HE. decompose [or] HE;
            match goal with H : exists x, _ = Panic p |- _ => destruct H as [x Hx] end;
            [destruct (Tk x) as ([? ?] & _)|destruct (Tr x) as ([? ?] & _)|destruct (Tl x) as ([? ?] & _)];
            congruence.
        * right; right. auto.
  Qed.

  (** ** C46 *)
  Lemma cycle_ignores_resistance comps1 comps2 fl pres T (c : Cycle F) :
    same_but_resistance (co_ws comps1) (co_ws comps2) ->
    co_chx comps1 = co_chx comps2 -> co_regen comps1 = co_regen comps2 ->
    co_hhx comps1 = co_hhx comps2 ->
    is_cycle_of comps1 fl pres T c -> is_cycle_of comps2 fl pres T c.
  Proof.
    intros (Hf & Hv & Hp) Hk Hr Hl. unfold is_cycle_of.
    rewrite Hk, Hr, Hl, Hf, Hv, Hp. auto.
  Qed.

  Lemma Run_new_ignores_resistance comps1 comps2 (s s' : State F) :
    same_but_resistance (co_ws comps1) (co_ws comps2) ->
    co_chx comps1 = co_chx comps2 -> co_regen comps1 = co_regen comps2 ->
    co_hhx comps1 = co_hhx comps2 ->
    s_fluid s = s_fluid s' -> s_pres s = s_pres s' -> s_temp s = s_temp s' ->
    Run_new comps1 s = Run_new comps2 s'.
  Proof.
    intros (Hf & Hv & Hp) Hk Hr Hl E1 E2 E3. unfold Run_new, State_ws.
    rewrite Hk, Hr, Hl, Hf, Hv, Hp, E1, E2, E3. reflexivity.
  Qed.

  Lemma run_loop_ignores_resistance E U comps1 comps2 settings n :
    same_but_resistance (co_ws comps1) (co_ws comps2) ->
    (forall s, exists R, ws_thermal_resistance (co_ws comps1) s = Ret R) ->
    (forall s, exists R, ws_thermal_resistance (co_ws comps2) s = Ret R) ->
    co_chx comps1 = co_chx comps2 -> co_regen comps1 = co_regen comps2 ->
    co_hhx comps1 = co_hhx comps2 ->
    constant_approach (co_chx comps1) -> constant_approach (co_regen comps1) ->
    constant_approach (co_hhx comps1) ->
    forall s s' : State F,
    s_fluid s = s_fluid s' -> s_pres s = s_pres s' -> s_temp s = s_temp s' ->
    s_mass_flow s = s_mass_flow s' -> s_regen_imbalance s = s_regen_imbalance s' ->
    same_run (snd (run_loop E U comps1 settings n s)) (snd (run_loop E U comps2 settings n s')).
  Proof.
    intros Hw HR1 HR2 Hk Hr Hl [a_k Ak] [a_r Ar] [a_l Al].
    induction n as [|n IH]; intros s s' E1 E2 E3 E4 E5; cbn [run_loop]; [reflexivity|].
    rewrite (Run_new_ignores_resistance _ _ _ _ Hw Hk Hr Hl E1 E2 E3).
    destruct (Run_new comps2 s') as [run|p]; [|reflexivity].
    rewrite E2, E3.
    destruct (find_steady_state_counted _ _ _ _) as [k [[vs|e]|p]]; [|reflexivity|reflexivity].
    unfold State_update.
    destruct (Pressure_from_values (Values_from vs)) as [pr|p]; [|reflexivity]. cbn [obind].
    destruct (MassFlows_from_values (Values_from vs)) as [mf|p]; [|reflexivity]. cbn [obind].
    destruct (HR1 (State_ws s)) as [R1 ->]. destruct (HR2 (State_ws s')) as [R2 ->]. cbn [obind].
    unfold HeatFlows_from_values.
    destruct (final_time (Values_from vs)) as [tf|p]; [|reflexivity]. cbn [obind].
    rewrite <- Hk, <- Hr, <- Hl, !Ak, !Ar, !Al. cbn [obind].
    rewrite E3, E5.
    match goal with |- context [Temperatures_is_converged ?a ?b ?c] =>
      destruct (Temperatures_is_converged a b c) end.
    - cbn [snd]. unfold same_run, same_but_heat_flow; cbn. auto 10.
    - match goal with
      | |- same_run (snd (let (_, _) := run_loop _ _ _ _ _ ?a in _))
                    (snd (let (_, _) := run_loop _ _ _ _ _ ?b in _)) =>
          specialize (IH a b);
          destruct (run_loop E U comps1 settings n a) as [k1 r1];
          destruct (run_loop E U comps2 settings n b) as [k2 r2]
      end.
      cbn [snd] in *. apply IH; cbn; auto.
  Qed.

  Lemma run_ignores_resistance E U comps1 comps2 (fl : Fluid F) inputs settings :
    same_but_resistance (co_ws comps1) (co_ws comps2) ->
    (forall s, exists R, ws_thermal_resistance (co_ws comps1) s = Ret R) ->
    (forall s, exists R, ws_thermal_resistance (co_ws comps2) s = Ret R) ->
    co_chx comps1 = co_chx comps2 -> co_regen comps1 = co_regen comps2 ->
    co_hhx comps1 = co_hhx comps2 ->
    constant_approach (co_chx comps1) -> constant_approach (co_regen comps1) ->
    constant_approach (co_hhx comps1) ->
    same_run (Engine_run E U comps1 fl inputs settings) (Engine_run E U comps2 fl inputs settings).
  Proof.
    intros Hw HR1 HR2 Hk Hr Hl Ak Ar Al.
    unfold Engine_run, Engine_run_counted, State_new_hint. rewrite <- Hk, <- Hr, <- Hl.
    destruct (ex_initial_approach (co_chx comps1)); [|reflexivity]. cbn [obind].
    destruct (ex_initial_approach (co_regen comps1)); [|reflexivity]. cbn [obind].
    destruct (ex_initial_approach (co_hhx comps1)); [|reflexivity]. cbn [obind].
    apply run_loop_ignores_resistance; auto.
  Qed.

  (** ** C45: electrical parasitics *)
  Lemma results_ignore_electrical c1 c2 (s : State F) v :
    agree_but_electrical c1 c2 ->
    RunResults_from (mkEngine c1 s v) = RunResults_from (mkEngine c2 s v).
  Proof.
    intros (Hf & Hv & HR & Hp & Hhk & Hhr & Hhl & Hpk & Hpr & Hpl).
    unfold RunResults_from, Performance_from, PressuresWithDrops_new, Powers_new, Heats_new, dV_dts.
    cbn [en_components en_state en_values].
    rewrite Hf, Hhk, Hhr, Hhl, Hv, HR.
    destruct (Hp (State_ws s)) as (p1 & p2 & -> & -> & [C1 C2] & [D1 D2]).
    destruct (Hpk (State_chx s)) as (k1 & k2 & -> & -> & [K1 K2]).
    destruct (Hpr (State_regen s)) as (r1 & r2 & -> & -> & [R1 R2]).
    destruct (Hpl (State_hhx s)) as (l1 & l2 & -> & -> & [L1 L2]).
    cbn [obind]. rewrite C2, D1, D2, K2, R1, L1, L2. reflexivity.
  Qed.

  (** ** C28 *)
  Lemma rhombic_ignores_D_d (c : RhConfig F) d :
    ws_from_config (WC_Rhombic (with_D_d c d)) = ws_from_config (WC_Rhombic c).
  Proof. reflexivity. Qed.
End PolyApi.
