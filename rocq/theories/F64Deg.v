(** * Degenerate states in f64: adiabatic walls, no flow, vanishing norm *)
From Coq Require Import ZArith NArith List Reals Bool Lra Lia.
From Flocq Require Import Core BinarySingleNaN.
From Verif Require Import Num ModelTypes ModelWs ModelHx ModelStateEq ModelEngine ModelApi Spec PolySolve B64
  SpecF64 F64Base F64Conv F64More.
Import ListNotations.
Local Open Scope R_scope.
Local Open Scope bool_scope.

Section F64.
  Variables (lm : Libm) (nt : bool).
  Local Instance ops64 : NumOps b64 := b64_ops lm nt.

  (** ** The performance report with adiabatic walls *)
  Lemma sub_element64 (l : list b64) (x : b64) (r : list b64) :
    dv_sub l (dv_from_element (length l) x) = Ret r -> r = map (fun y => n_sub y x) l.
  Proof.
    unfold dv_sub, dv_from_element. revert r.
    induction l as [|y l IH]; intros r H; cbn [length repeat dv_zip] in H.
    - injection H as <-. reflexivity.
    - destruct (dv_zip n_sub l (repeat x (length l))) as [r'|] eqn:E; [|discriminate].
      injection H as <-. cbn [map]. f_equal. apply IH. reflexivity.
  Qed.

  Lemma wall_zero (f : b64) (time T : list b64) (Tw : b64) (s : bool) :
    finite f -> 0 < value f -> Forall (fun t => finite t /\ 0 <= value t) time ->
    Forall (fun t => finite t /\ 0 <= value t) T -> finite Tw -> 0 <= value Tw ->
    n_mul f (perf_integrate time (dv_div_scalar (map (fun y => n_sub y Tw) T) (B754_infinity s))) =
    (n0 : b64).
  Proof.
    intros Ff Pf Ht HT Fw Pw.
    assert (Z : Forall zero64 (dv_div_scalar (map (fun y => n_sub y Tw) T) (B754_infinity s))).
    { unfold dv_div_scalar. rewrite map_map. apply Forall_map.
      revert HT. apply Forall_impl. intros y [Fy Py]. apply div_inf_zero. apply minus_same_sign; assumption. }
    pose proof (zero_integral lm nt time _ Ht Z) as I.
    change (b64_ops lm nt) with ops64 in I. fold ops64 in I.
    match goal with |- n_mul f ?t = _ => assert (I' : t = (B754_zero false : b64)) by exact I; rewrite I' end.
    destruct f as [sf|sf| |sf m e H]; try discriminate Ff.
    - unfold value in Pf. cbn in Pf. lra.
    - destruct sf; [|reflexivity]. exfalso.
      assert (0 > B2R (B754_finite true m e H : b64)) by (apply F2R_lt_0; reflexivity).
      unfold value in Pf. lra.
  Qed.

  Lemma adiabatic_report (pw : Powers b64) (e : Engine b64) (h : Heats b64) (f : b64) (sc se : bool)
      (hhx_par regen_par : ParasiticPower b64) (ws_par : Parasitics b64) :
    let c := en_components e in let s := en_state e in let v := en_values e in
    Heats_new pw e = Ret h ->
    ws_frequency (co_ws c) (State_ws s) = Ret f -> finite f -> 0 < value f ->
    ws_thermal_resistance (co_ws c) (State_ws s) = Ret (mkTR (B754_infinity sc) (B754_infinity se)) ->
    ex_parasitics (co_hhx c) (State_hhx s) = Ret hhx_par ->
    ex_parasitics (co_regen c) (State_regen s) = Ret regen_par ->
    ws_parasitics (co_ws c) (State_ws s) = Ret ws_par ->
    Forall (fun t => finite t /\ 0 <= value t)
      (te_chx (s_temp s) :: te_hhx (s_temp s) :: vs_time v ++ vs_T_c v ++ vs_T_e v) ->
    let external := n_add (n_add (pp_thermal hhx_par) (pp_thermal regen_par)) (pp_thermal (par_exp ws_par)) in
    ht_input h = n_add (n_sub (n_mul f (integrate (vs_time v) (vs_Q_dot_l v))) n0) external /\
    ht_rejected h =
      n_add (n_add (n_add (n_add n0 (n_mul f (integrate (vs_time v) (vs_Q_dot_k v))))
                          (n_sub (pw_indicated_zero_dP pw) (pw_indicated pw)))
                   (n_add (pp_mechanical (par_comp ws_par)) (pp_mechanical (par_exp ws_par))))
            external.
  Proof.
    cbv zeta. intros H Ef Ff Pf Er Eh Eg Ew G.
    inversion G as [|? ? [Fk Pk] G1]; subst. inversion G1 as [|? ? [Fh Ph] G2]; subst.
    apply Forall_app in G2 as [Gt G3]. apply Forall_app in G3 as [Gc Ge].
    unfold Heats_new in H. rewrite Ef, Er, Eh, Eg, Ew in H. cbn [obind] in H.
    destruct (dv_sub (vs_T_e (en_values e)) _) as [de|] eqn:Ee; [|discriminate]. cbn [obind] in H.
    destruct (dv_sub (vs_T_c (en_values e)) _) as [dc|] eqn:Ec; [|discriminate]. cbn [obind] in H.
    apply (f_equal (fun o => match o with Ret x => x | _ => h end)) in H. subst h.
    apply sub_element64 in Ee. apply sub_element64 in Ec. subst de dc.
    cbn [ht_input ht_rejected tr_comp tr_exp].
    split; (rewrite wall_zero by assumption); reflexivity.
  Qed.

  (** ** No mass flow through a fixed-conductance exchanger *)
  Lemma mult_zero (x : b64) (s : bool) : finite x -> 0 < value x ->
    n_mul x (B754_zero s : b64) = (B754_zero s : b64).
  Proof.
    intros F P. destruct x as [sx|sx| |sx m e H]; try discriminate F.
    - unfold value in P. cbn in P. lra.
    - destruct sx; [|destruct s; reflexivity]. exfalso.
      assert (0 > B2R (B754_finite true m e H : b64)) by (apply F2R_lt_0; reflexivity).
      unfold value in P. lra.
  Qed.
  Lemma div_zero (x : b64) (s : bool) : finite x -> 0 < value x ->
    n_div x (B754_zero s : b64) = (B754_infinity s : b64).
  Proof.
    intros F P. destruct x as [sx|sx| |sx m e H]; try discriminate F.
    - unfold value in P. cbn in P. lra.
    - destruct sx; [|destruct s; reflexivity]. exfalso.
      assert (0 > B2R (B754_finite true m e H : b64)) by (apply F2R_lt_0; reflexivity).
      unfold value in P. lra.
  Qed.

  (** what the effectiveness formula makes of an infinite NTU *)
  Lemma one_minus_exp_pos : lm_exp lm (B754_infinity true) = B754_zero false ->
    n_sub (n_div n1 (n_sub n1 (n_exp (n_opp (B754_infinity false : b64))))) n1 = (B754_zero false : b64).
  Proof.
    intros E.
    change (n_exp (n_opp (B754_infinity false : b64))) with (lm_exp lm (B754_infinity true)). rewrite E.
    vm_compute. reflexivity.
  Qed.
  Lemma one_minus_exp_neg : lm_exp lm (B754_infinity false) = B754_infinity false ->
    B2SF (n_sub (n_div n1 (n_sub n1 (n_exp (n_opp (B754_infinity true : b64))))) n1) = B2SF (n_opp n1 : b64).
  Proof.
    intros E.
    change (n_exp (n_opp (B754_infinity true : b64))) with (lm_exp lm (B754_infinity false)). rewrite E.
    vm_compute. reflexivity.
  Qed.
  Lemma div_zero_nonfinite (x : b64) (s : bool) : is_finite (n_div x (B754_zero s : b64)) = false.
  Proof. destruct x as [sx|sx| |sx m e H]; reflexivity. Qed.
  Lemma nonfinite_zero_nan (x : b64) : is_finite x = false -> is_nan (n_mul x (B754_zero false : b64)) = true.
  Proof. destruct x as [sx|sx| |sx m e H]; intros F; try discriminate F; reflexivity. Qed.
  Lemma nonfinite_times (x y : b64) : is_finite x = false -> is_finite (n_mul x y) = false.
  Proof.
    destruct x as [sx|sx| |sx m e H]; intros F; try discriminate F;
      destruct y as [sy|sy| |sy my ey Hy]; reflexivity.
  Qed.

  Lemma chx_no_flow (f : FixedConductance b64) (x : HeatExchanger b64) (T : b64) (s : bool) :
    hx_m_dot x = B754_zero s -> finite (hx_cp x) -> 0 < value (hx_cp x) ->
    finite (fc_UA f) -> 0 < value (fc_UA f) ->
    ~ finite (chx_fc_approach f (mkChxState x T)) /\
    (s = false -> lm_exp lm (B754_infinity true) = B754_zero false ->
     not_a_number (chx_fc_approach f (mkChxState x T))).
  Proof.
    intros M Fc Pc Fu Pu. unfold chx_fc_approach. cbn [chs_hxr]. rewrite M.
    rewrite (mult_zero (hx_cp x) s Fc Pc). rewrite (div_zero (fc_UA f) s Fu Pu).
    pose proof (div_zero_nonfinite (hx_Q_dot x) s) as N. split.
    - unfold finite. rewrite nonfinite_times by exact N. discriminate.
    - intros -> E. rewrite (one_minus_exp_pos E). apply nonfinite_zero_nan, N.
  Qed.
  Lemma hhx_no_flow (f : FixedConductance b64) (x : HeatExchanger b64) (T : b64) (s : bool) :
    hx_m_dot x = B754_zero s -> finite (hx_cp x) -> 0 < value (hx_cp x) ->
    finite (fc_UA f) -> 0 < value (fc_UA f) ->
    ~ finite (hhx_fc_approach f (mkHhxState x T)) /\
    (s = false -> lm_exp lm (B754_infinity true) = B754_zero false ->
     not_a_number (hhx_fc_approach f (mkHhxState x T))).
  Proof. exact (chx_no_flow f x T s). Qed.

  Lemma inf_over_inf (s : bool) :
    n_div (n_div (B754_infinity s : b64) n2) (n_add n1 (n_div (B754_infinity s : b64) n2)) = (B754_nan : b64).
  Proof. destruct s; vm_compute; reflexivity. Qed.
  Lemma one_minus_nan (y : b64) : n_mul (n_sub n1 (B754_nan : b64)) y = (B754_nan : b64).
  Proof.
    assert (E : n_sub n1 (B754_nan : b64) = (B754_nan : b64)) by (vm_compute; reflexivity).
    rewrite E. reflexivity.
  Qed.
  Lemma regen_no_flow (f : FixedConductance b64) (x : HeatExchanger b64) (Tk Th : b64) (s : bool) :
    hx_m_dot x = B754_zero s -> finite (hx_cp x) -> 0 < value (hx_cp x) ->
    finite (fc_UA f) -> 0 < value (fc_UA f) ->
    not_a_number (regen_fc_approach f (mkRegenState x Tk Th)).
  Proof.
    intros M Fc Pc Fu Pu. unfold regen_fc_approach. cbn [res_hxr res_temp_hhx res_temp_chx]. rewrite M.
    rewrite (mult_zero (hx_cp x) s Fc Pc). rewrite (div_zero (fc_UA f) s Fu Pu).
    rewrite inf_over_inf, one_minus_nan. reflexivity.
  Qed.

  (** an update that sees a non-finite temperature goes on with it *)
  Lemma plus_nonfinite_r (x y : b64) : ~ finite y -> ~ finite (n_add x y).
  Proof.
    unfold finite. destruct y as [sy|sy| |sy my ey Hy]; intros N; try (elim N; reflexivity);
      destruct x as [[|]|[|]| |sx mx ex Hx]; try destruct sy; discriminate.
  Qed.
  Lemma minus_nonfinite_r (x y : b64) : ~ finite y -> ~ finite (n_sub x y).
  Proof.
    unfold finite. destruct y as [sy|sy| |sy my ey Hy]; intros N; try (elim N; reflexivity);
      destruct x as [[|]|[|]| |sx mx ex Hx]; try destruct sy; discriminate.
  Qed.
  Lemma plus_nan_r (x y : b64) : not_a_number y -> not_a_number (n_add x y).
  Proof.
    unfold not_a_number. destruct y as [sy|sy| |sy my ey Hy]; intros N; try discriminate N;
      destruct x as [[|]|[|]| |sx mx ex Hx]; reflexivity.
  Qed.
  Lemma minus_nan_r (x y : b64) : not_a_number y -> not_a_number (n_sub x y).
  Proof.
    unfold not_a_number. destruct y as [sy|sy| |sy my ey Hy]; intros N; try discriminate N;
      destruct x as [[|]|[|]| |sx mx ex Hx]; reflexivity.
  Qed.
  Lemma minus_nan_l (x y : b64) : not_a_number x -> not_a_number (n_sub x y).
  Proof.
    unfold not_a_number. destruct x as [sy|sy| |sy my ey Hy]; intros N; try discriminate N;
      destruct y as [[|]|[|]| |sx mx ex Hx]; reflexivity.
  Qed.
  Lemma nan_nonfinite (x : b64) : not_a_number x -> ~ finite x.
  Proof. destruct x as [sy|sy| |sy my ey Hy]; intros N; try discriminate N; discriminate. Qed.

  Lemma converged_new_finite (tol : ConvergenceTolerance b64) (T T' : Temperatures b64) :
    Temperatures_is_converged T T' tol = true -> forall x, In x (temperatures T') -> finite x.
  Proof.
    unfold Temperatures_is_converged, RegenTemp_is_converged. rewrite !andb_true_iff.
    intros [[A B] [[C D] E]].
    apply (converged_regular lm nt) in A, B, C, D, E.
    intros x [<-|[<-|[<-|[<-|[<-|[]]]]]]; tauto.
  Qed.

  Lemma update_unfold (self : State b64) (comps : Components b64) (v : Values b64)
      (tol : ConvergenceTolerance b64) (r : result (State b64) (State b64))
      (p : Pressure b64) (m : MassFlows b64) :
    State_update self comps v tol = Ret r ->
    Pressure_from_values v = Ret p -> MassFlows_from_values v = Ret m ->
    exists q a_chx a_regen a_hhx T',
      let s := mkState (s_fluid self) p (s_temp self) m q (s_regen_imbalance self) in
      ex_approach (co_chx comps) (State_chx s) = Ret a_chx /\
      ex_approach (co_regen comps) (State_regen s) = Ret a_regen /\
      ex_approach (co_hhx comps) (State_hhx s) = Ret a_hhx /\
      T' = Temperatures_from_approach (te_sink (s_temp self)) (te_source (s_temp self))
             (mkApproach a_chx a_regen a_hhx) (s_regen_imbalance self) /\
      ((exists x, In x (temperatures T') /\ ~ finite x) -> exists s', r = Ok s' /\ s_temp s' = T').
  Proof.
    intros H Ep Em. unfold State_update in H. rewrite Ep, Em in H. cbn [obind] in H.
    destruct (ws_thermal_resistance (co_ws comps) (State_ws self)) as [res|]; [|discriminate]. cbn [obind] in H.
    destruct (HeatFlows_from_values v _ _ res) as [q|]; [|discriminate]. cbn [obind] in H.
    exists q.
    match type of H with obind ?o _ = _ => destruct o as [ak|] eqn:E1; [|discriminate] end. cbn [obind] in H.
    match type of H with obind ?o _ = _ => destruct o as [ar|] eqn:E2; [|discriminate] end. cbn [obind] in H.
    match type of H with obind ?o _ = _ => destruct o as [al|] eqn:E3; [|discriminate] end. cbn [obind] in H.
    exists ak, ar, al. eexists. cbv zeta.
    split; [exact E1|]. split; [exact E2|]. split; [exact E3|]. split; [reflexivity|].
    intros (x & Hx & Nx).
    match type of H with (if ?c then _ else _) = _ => destruct c eqn:C end.
    - exfalso. apply Nx. exact (converged_new_finite tol _ _ C x Hx).
    - apply (f_equal (fun o => match o with Ret x => x | _ => r end)) in H. subst r.
      eexists. split; reflexivity.
  Qed.

  Lemma update_no_flow_chx (self : State b64) (comps : Components b64) (v : Values b64)
      (tol : ConvergenceTolerance b64) (r : result (State b64) (State b64))
      (p : Pressure b64) (m : MassFlows b64) (f : FixedConductance b64) (s : bool) :
    co_chx comps = chx_FixedConductance f ->
    State_update self comps v tol = Ret r ->
    Pressure_from_values v = Ret p -> MassFlows_from_values v = Ret m -> mf_chx m = B754_zero s ->
    let cp := fl_cp (s_fluid self) (te_chx (s_temp self)) (pr_avg p) in
    finite cp -> 0 < value cp -> finite (fc_UA f) -> 0 < value (fc_UA f) ->
    exists s', r = Ok s' /\ ~ finite (te_chx (s_temp s')) /\
      (s = false -> lm_exp lm (B754_infinity true) = B754_zero false -> not_a_number (te_chx (s_temp s'))).
  Proof.
    intros Ec H Ep Em Z cp Fc Pc Fu Pu.
    destruct (update_unfold self comps v tol r p m H Ep Em) as (q & ak & ar & al & T' & A & _ & _ & ET & K).
    rewrite Ec in A. cbn [chx_FixedConductance ex_approach] in A.
    apply (f_equal (fun o => match o with Ret x => x | _ => ak end)) in A. subst ak.
    destruct (chx_no_flow f (chs_hxr (State_chx (mkState (s_fluid self) p (s_temp self) m q (s_regen_imbalance self))))
                (te_sink (s_temp self)) s) as [N1 N2]; try assumption.
    destruct K as (s' & -> & E').
    - exists (te_chx T'). split; [left; reflexivity|]. rewrite ET.
      apply (plus_nonfinite_r (te_sink (s_temp self))). exact N1.
    - exists s'. split; [reflexivity|]. rewrite E', ET. split.
      + apply (plus_nonfinite_r (te_sink (s_temp self))). exact N1.
      + intros S E. apply (plus_nan_r (te_sink (s_temp self))). exact (N2 S E).
  Qed.

  Lemma update_no_flow_hhx (self : State b64) (comps : Components b64) (v : Values b64)
      (tol : ConvergenceTolerance b64) (r : result (State b64) (State b64))
      (p : Pressure b64) (m : MassFlows b64) (f : FixedConductance b64) (s : bool) :
    co_hhx comps = hhx_FixedConductance f ->
    State_update self comps v tol = Ret r ->
    Pressure_from_values v = Ret p -> MassFlows_from_values v = Ret m -> mf_hhx m = B754_zero s ->
    let cp := fl_cp (s_fluid self) (te_hhx (s_temp self)) (pr_avg p) in
    finite cp -> 0 < value cp -> finite (fc_UA f) -> 0 < value (fc_UA f) ->
    exists s', r = Ok s' /\ ~ finite (te_hhx (s_temp s')) /\
      (s = false -> lm_exp lm (B754_infinity true) = B754_zero false -> not_a_number (te_hhx (s_temp s'))).
  Proof.
    intros Ec H Ep Em Z cp Fc Pc Fu Pu.
    destruct (update_unfold self comps v tol r p m H Ep Em) as (q & ak & ar & al & T' & _ & _ & A & ET & K).
    rewrite Ec in A. cbn [hhx_FixedConductance ex_approach] in A.
    apply (f_equal (fun o => match o with Ret x => x | _ => al end)) in A. subst al.
    destruct (hhx_no_flow f (hhs_hxr (State_hhx (mkState (s_fluid self) p (s_temp self) m q (s_regen_imbalance self))))
                (te_source (s_temp self)) s) as [N1 N2]; try assumption.
    destruct K as (s' & -> & E').
    - exists (te_hhx T'). split; [right; left; reflexivity|]. rewrite ET.
      apply (minus_nonfinite_r (te_source (s_temp self))). exact N1.
    - exists s'. split; [reflexivity|]. rewrite E', ET. split.
      + apply (minus_nonfinite_r (te_source (s_temp self))). exact N1.
      + intros S E. apply (minus_nan_r (te_source (s_temp self))). exact (N2 S E).
  Qed.

  Lemma regen_temp_nan (imb Tk Th a : b64) : not_a_number a -> not_a_number (rt_cold (regen_temp imb Tk Th a)).
  Proof.
    intros N. unfold regen_temp. cbn [rt_cold]. apply plus_nan_r.
    destruct (n_le n0 imb); [exact N|apply minus_nan_l, N].
  Qed.

  Lemma update_no_flow_regen (self : State b64) (comps : Components b64) (v : Values b64)
      (tol : ConvergenceTolerance b64) (r : result (State b64) (State b64))
      (p : Pressure b64) (m : MassFlows b64) (f : FixedConductance b64) (s : bool) :
    co_regen comps = regen_FixedConductance f ->
    State_update self comps v tol = Ret r ->
    Pressure_from_values v = Ret p -> MassFlows_from_values v = Ret m -> mf_regen m = B754_zero s ->
    let cp := fl_cp (s_fluid self) (rt_avg (te_regen (s_temp self))) (pr_avg p) in
    finite cp -> 0 < value cp -> finite (fc_UA f) -> 0 < value (fc_UA f) ->
    exists s', r = Ok s' /\ not_a_number (rt_cold (te_regen (s_temp s'))).
  Proof.
    intros Ec H Ep Em Z cp Fc Pc Fu Pu.
    destruct (update_unfold self comps v tol r p m H Ep Em) as (q & ak & ar & al & T' & _ & A & _ & ET & K).
    rewrite Ec in A. cbn [regen_FixedConductance ex_approach] in A.
    apply (f_equal (fun o => match o with Ret x => x | _ => ar end)) in A. subst ar.
    pose proof (regen_no_flow f (res_hxr (State_regen (mkState (s_fluid self) p (s_temp self) m q (s_regen_imbalance self))))
                (te_chx (s_temp self)) (te_hhx (s_temp self)) s Z Fc Pc Fu Pu) as N.
    assert (N' : not_a_number (rt_cold (te_regen T'))) by (rewrite ET; apply regen_temp_nan; exact N).
    destruct K as (s' & -> & E').
    - exists (rt_cold (te_regen T')). split; [right; right; left; reflexivity|]. apply nan_nonfinite, N'.
    - exists s'. split; [reflexivity|]. rewrite E'. exact N'.
  Qed.

  (** ** The requested step *)
  Lemma step_infinite (c : Cycle b64) (ic : Conditions b64) (tol : OdeTolerance b64) :
    finite (cy_period c) -> 0 < value (cy_period c) ->
    oa_dx (ode_args c ic 0 tol) = B754_infinity false.
  Proof. intros F P. exact (div_zero (cy_period c) false F P). Qed.

  (** ** Flow directions of special values *)
  Lemma direction_f64 (x : b64) :
    Direction_from_value x = (if Bleb (B754_zero false) x then Positive else Negative).
  Proof. reflexivity. Qed.
  Lemma direction_cases (x : b64) :
    match x with
    | B754_zero _ => Direction_from_value x = Positive
    | B754_infinity s => Direction_from_value x = if s then Negative else Positive
    | B754_nan => Direction_from_value x = Negative
    | B754_finite s _ _ _ => Direction_from_value x = if s then Negative else Positive
    end.
  Proof. destruct x as [s|[|]| |[|] m e H]; rewrite direction_f64; reflexivity. Qed.

  Lemma nan_accepted (D : Decomp b64) (i : Inputs b64) (hint : FlowDirection) :
    (forall A b, exists x, D A b = Some x /\
       not_a_number (vget x I0) /\ not_a_number (vget x I1) /\
       not_a_number (vget x I2) /\ not_a_number (vget x I3)) ->
    exists s, solve D i hint = Ok s /\ not_a_number (so_m_dot_ck s) /\ not_a_number (so_m_dot_kr s) /\
              not_a_number (so_m_dot_rl s) /\ not_a_number (so_m_dot_le s).
  Proof.
    intros H.
    assert (K : forall dir, exists s, System_solve D (System_new i) dir = Some s /\
       not_a_number (so_m_dot_ck s) /\ not_a_number (so_m_dot_kr s) /\
       not_a_number (so_m_dot_rl s) /\ not_a_number (so_m_dot_le s) /\
       FlowDirection_from_solution s = mkFD Negative Negative Negative Negative).
    { intros dir. unfold System_solve.
      destruct (H (create_matrix (sys_stencil (System_new i)) dir) (sys_b (System_new i))) as (x & E & N0 & N1 & N2 & N3).
      rewrite E. exists (Solution_of_vector x). split; [reflexivity|].
      cbn [Solution_of_vector so_m_dot_ck so_m_dot_kr so_m_dot_rl so_m_dot_le]. do 4 (split; [assumption|]).
      assert (Q : forall y : b64, not_a_number y -> Direction_from_value y = Negative).
      { intros y Ny. destruct y as [s|s| |s m e Hy]; try discriminate Ny. reflexivity. }
      unfold FlowDirection_from_solution, Solution_of_vector.
      cbn [so_m_dot_ck so_m_dot_kr so_m_dot_rl so_m_dot_le].
      rewrite !Q by assumption. reflexivity. }
    unfold solve, solve_traced, ALLOWED_FLOW_UPDATES. cbn [solve_loop].
    destruct (K hint) as (s & E & N0 & N1 & N2 & N3 & Hd). rewrite E, Hd.
    destruct (FlowDirection_eqb hint (mkFD Negative Negative Negative Negative)) eqn:Q.
    - exists s. cbn [snd]. tauto.
    - destruct (K (mkFD Negative Negative Negative Negative)) as (s' & E' & M0 & M1 & M2 & M3 & Hd').
      rewrite E', Hd'. cbn [FlowDirection_eqb snd]. exists s'.
      assert (RR : FlowDirection_eqb (mkFD Negative Negative Negative Negative)
                    (mkFD Negative Negative Negative Negative) = true) by reflexivity.
      rewrite RR. cbn [snd]. tauto.
  Qed.
End F64.
