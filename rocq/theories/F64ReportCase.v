(** * An engine with pressure drops, parasitics and conducting walls *)
From Coq Require Import ZArith NArith List Reals Bool Lra Lia.
From Flocq Require Import Core BinarySingleNaN.
From Verif Require Import Num ModelTypes ModelWs ModelHx ModelStateEq ModelEngine ModelApi B64 Fixture Spec SpecF64 SpecSeries
  SpecRound SpecBalance SpecReport PolySolve PolyLoop F64Base F64BalanceCase F64RangeCase F64FirstLaw.
Import ListNotations.
Local Open Scope R_scope.
Local Open Scope bool_scope.

Section Case.
  Local Existing Instance range_ops.
  Definition report_comps : Components b64 :=
    mkComponents
      (SinusoidalDrive_ws (SinusoidalDrive_from (mkSinCfg (n_lit 10 0) (n_lit 60 0)
         (n_lit 1 (-3)) (n_lit 1 (-5)) (n_lit 50 0) (n_lit 3 0)
         (n_lit 1 (-3)) (n_lit 1 (-5)) (n_lit 80 0) (n_lit 4 0) (n_lit 7 0))))
      (chx_FixedApproach (chx_FixedApproach_from (mkChxFACfg (n_lit 1 (-4)) (n_lit 20 0) (n_lit 50000 0) (n_lit 11 0))))
      (regen_FixedApproach (regen_FixedApproach_from (mkRegenFACfg (n_lit 1 (-4)) (n_lit 15 0) (n_lit 90000 0) (n_lit 6 0))))
      (hhx_FixedApproach (hhx_FixedApproach_from
         (mkHhxFACfg (n_lit 1 (-4)) (n_lit 20 0) (n_lit 70000 0) (n_lit 12 0) (n_lit 9 0)))).
  Definition report_state : outcome (State b64) :=
    State_new_hint report_comps (IdealGas_Fluid (IdealGas_new Helium)) (mkRunInputs (n_lit 10 6) (n_lit 300 0) (n_lit 800 0)).
  Definition report_points : list (Point b64) :=
    [mkPoint (n_lit 0 0) (mkCond (n_lit 925 4) (n_lit 310 0) (n_lit 760 0));
     mkPoint (n_lit 2 (-2)) (mkCond (n_lit 853 4) (n_lit 300 0) (n_lit 740 0));
     mkPoint (n_lit 4 (-2)) (mkCond (n_lit 984 4) (n_lit 320 0) (n_lit 770 0));
     mkPoint (n_lit 6 (-2)) (mkCond (n_lit 114 5) (n_lit 340 0) (n_lit 790 0));
     mkPoint (n_lit 8 (-2)) (mkCond (n_lit 110 5) (n_lit 330 0) (n_lit 780 0));
     mkPoint (n_lit 1 (-1)) (mkCond (n_lit 925 4) (n_lit 310 0) (n_lit 760 0))].
  Definition wall_check (x : b64) : bool := match x with B754_infinity _ => true | _ => is_finite_strict x end.
  Lemma wall_checked (x : b64) : wall_check x = true -> match x with B754_infinity _ => True | _ => value x <> 0 end.
  Proof. destruct x as [s|s| |s m e B]; intros H; try discriminate H; [exact I|]. exact (strict_nonzero _ H). Qed.
  Definition sample_check (c : Cycle b64) (st : State b64) (v : SeValues b64) : bool :=
    let i := cy_calculate_inputs c (sv_time v) (sv_conditions v) in
    let s := sv_solution v in
    let d T := is_finite_strict (fl_dens (s_fluid st) T (cd_P (sv_conditions v))) in
    all10b (all10b is_finite) (directed_matrix i (signs s)) && all10b is_finite (state_rhs i) &&
    forallb is_finite (solution_list s) && is_finite_strict (in_enth_norm i) &&
    d (te_chx (s_temp st)) && d (rt_avg (te_regen (s_temp st))) && d (te_hhx (s_temp st)).
  Definition report_check (comps : Components b64) (o : outcome (State b64)) (pts : list (Point b64)) : bool :=
    match o with
    | Ret st =>
        match Run_new comps st with
        | Ret ru =>
            match into_state_values checked_gauss (Run_Cycle ru) pts with
            | Ret vs =>
                forallb (sample_check (Run_Cycle ru) st) vs &&
                match ws_thermal_resistance (co_ws comps) (mkWsState (s_pres st)) with
                | Ret res => wall_check (tr_comp res) && wall_check (tr_exp res)
                | Panic _ => false
                end &&
                match RunResults_from (mkEngine comps st (Values_from vs)) with
                | Ret r =>
                    forallb is_finite [rrp_net (rr_power r); rrh_input (rr_heat_flow r); rrh_rejection (rr_heat_flow r)] &&
                    forallb is_finite (rrv_P_c (rr_values r) ++ rrv_P_e (rr_values r)) &&
                    n_lt n0 (rrp_net (rr_power r)) && n_lt (rrp_indicated (rr_power r)) (rrp_ideal_indicated (rr_power r))
                | Panic _ => false
                end
            | Panic _ => false
            end
        | Panic _ => false
        end
    | Panic _ => false
    end.
  Lemma report_checked comps o pts : report_check comps o pts = true -> exists st ru vs r,
    o = Ret st /\ Run_new comps st = Ret ru /\ into_state_values checked_gauss (Run_Cycle ru) pts = Ret vs /\
    let e := mkEngine comps st (Values_from vs) in let c := Run_Cycle ru in
    RunResults_from e = Ret r /\
    forallb (sample_check c st) vs = true /\ finite_figures r /\
    Forall finite (rrv_P_c (rr_values r) ++ rrv_P_e (rr_values r)) /\
    n_lt n0 (rrp_net (rr_power r)) = true /\ n_lt (rrp_indicated (rr_power r)) (rrp_ideal_indicated (rr_power r)) = true /\
    forall a, replies e a -> walled a.
  Proof.
    unfold report_check. destruct o as [st|]; [|discriminate].
    destruct (Run_new comps st) as [ru|] eqn:ER; [|discriminate].
    destruct (into_state_values checked_gauss (Run_Cycle ru) pts) as [vs|] eqn:EV; [|discriminate].
    destruct (ws_thermal_resistance (co_ws comps) (mkWsState (s_pres st))) as [res|] eqn:ET;
      [|rewrite andb_false_r; discriminate].
    destruct (RunResults_from (mkEngine comps st (Values_from vs))) as [r|] eqn:EF;
      [|rewrite andb_false_r; discriminate].
    rewrite !andb_true_iff. intros ((H1 & H2 & H3) & ((H4 & H5) & H6) & H7).
    exists st, ru, vs, r. split; [reflexivity|]. split; [exact ER|]. split; [exact EV|]. cbv zeta.
    split; [exact EF|]. split; [exact H1|]. split.
    { apply Forall_forall. rewrite forallb_forall in H4. exact H4. }
    split. { apply Forall_forall. rewrite forallb_forall in H5. exact H5. }
    split; [exact H6|]. split; [exact H7|].
    intros a (_ & _ & _ & Ha & _). cbn [en_components en_state] in Ha. rewrite ET in Ha.
    assert (E : res = rp_res a) by (injection Ha; auto). rewrite E in H2, H3.
    split; apply wall_checked; assumption.
  Qed.
  Lemma sample_checked comps st vals c (v : SeValues b64) : sample_check c st v = true ->
    orderly checked_gauss (bpow radix2 (-40)) c v /\
    (let e := mkEngine comps st vals in
     value (dens_chx e v) <> 0 /\ value (dens_regen e v) <> 0 /\ value (dens_hhx e v) <> 0).
  Proof.
    unfold sample_check. cbv zeta. rewrite !andb_true_iff. intros ((((((H1 & H2) & H3) & H4) & H5) & H6) & H7).
    split.
    - split; [apply checked_careful|]. split; [split|split].
      + apply all10b_all in H1. apply (all10_impl (fun r => all10b is_finite r = true)); [|exact H1].
        intros r. apply (all10b_all is_finite).
      + exact (all10b_all is_finite _ H2).
      + rewrite forallb_forall in H3. unfold finite_solution. apply Forall_forall. exact H3.
      + exact (strict_nonzero _ H4).
    - split; [|split]; apply strict_nonzero; assumption.
  Qed.
  Lemma points_solved c pts vs : into_state_values checked_gauss c pts = Ret vs ->
    Forall (fun v => upwind_solution checked_gauss (cy_calculate_inputs c (sv_time v) (sv_conditions v)) (sv_solution v)) vs.
  Proof.
    intros H. pose proof (into_state_values_from_spec checked_gauss c pts FlowDirection_default) as HV.
    unfold into_state_values in H. rewrite H in HV. clear H.
    induction HV as [|p v ps vs' (Ht & Hcd & HU) _ IH]; constructor.
    - rewrite Ht, Hcd. exact HU.
    - apply IH.
  Qed.
  Lemma report_holds comps o pts : report_check comps o pts = true -> exists e c vs a r,
    en_components e = comps /\ solved_values checked_gauss e c vs /\ replies e a /\ RunResults_from e = Ret r /\
    dense e a vs /\ walled a /\ Forall (orderly checked_gauss (bpow radix2 (-40)) c) vs /\ finite_figures r /\
    Forall finite (rrv_P_c (rr_values r) ++ rrv_P_e (rr_values r)) /\
    n_lt n0 (rrp_net (rr_power r)) = true /\ n_lt (rrp_indicated (rr_power r)) (rrp_ideal_indicated (rr_power r)) = true.
  Proof.
    intros H. destruct (report_checked comps o pts H) as (st & ru & vs & r & Ho & Hru & Hvs & Hr & Hc & Hf & HF & H1 & H2 & Hw).
    set (e := mkEngine comps st (Values_from vs)) in *.
    destruct (replied e r Hr) as (a & Ha).
    exists e, (Run_Cycle ru), vs, a, r. split; [reflexivity|].
    rewrite forallb_forall in Hc.
    split; [|split; [exact Ha|split; [exact Hr|split; [|split; [exact (Hw a Ha)|split; [|auto]]]]]].
    - split; [exact (Run_new_cycle _ _ _ Hru)|]. split; [exact (Values_from_series vs)|].
      exact (points_solved _ _ _ Hvs).
    - apply Forall_forall. intros v Hv.
      exact (proj2 (sample_checked comps st (Values_from vs) (Run_Cycle ru) v (Hc v Hv))).
    - apply Forall_forall. intros v Hv.
      exact (proj1 (sample_checked comps st (Values_from vs) (Run_Cycle ru) v (Hc v Hv))).
  Qed.
  Lemma report_check_true : report_check report_comps report_state report_points = true.
  Proof. vm_cast_no_check (eq_refl true). Qed.
  Theorem report_case : exists e c vs a r,
    en_components e = report_comps /\ solved_values checked_gauss e c vs /\ replies e a /\ RunResults_from e = Ret r /\
    dense e a vs /\ walled a /\ Forall (orderly checked_gauss (bpow radix2 (-40)) c) vs /\ finite_figures r /\
    Forall finite (rrv_P_c (rr_values r) ++ rrv_P_e (rr_values r)) /\
    n_lt n0 (rrp_net (rr_power r)) = true /\ n_lt (rrp_indicated (rr_power r)) (rrp_ideal_indicated (rr_power r)) = true.
  Proof. exact (report_holds report_comps report_state report_points report_check_true). Qed.
End Case.
