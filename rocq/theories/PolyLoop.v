(** * Proofs about the two loops, any number type *)
From Coq Require Import ZArith NArith List Lia.
From Verif Require Import Num ModelTypes ModelWs ModelHx ModelStateEq ModelEngine ModelApi
  Spec SpecLoop PolySolve.
Import ListNotations.

Lemma steps_trans {A} (R : A -> A -> Prop) n a b : steps R n a b ->
  forall m c, steps R m b c -> steps R (n + m) a c.
Proof. induction 1 as [a|n a b c H1 H2 IH]; intros m d Hd; cbn; [exact Hd|]. econstructor; eauto. Qed.

Lemma first_unwrap_Ret {A} (l : list A) a : first_unwrap l = Ret a -> exists l', l = a :: l'.
Proof. destruct l; cbn; intros H; [discriminate|]. injection H as <-. eauto. Qed.

Lemma last_unwrap_Ret {A} (l : list A) a : last_unwrap l = Ret a <-> exists l', l = l' ++ [a].
Proof.
  split.
  - revert a. induction l as [|x l IH]; intros a; [discriminate|].
    destruct l as [|y l].
    + intros H; injection H as <-. exists []. reflexivity.
    + intros H. change (last_unwrap (y :: l) = Ret a) in H.
      destruct (IH a H) as [l' ->]. exists (x :: l'). reflexivity.
  - intros [l' ->]. induction l' as [|x l' IH]; [reflexivity|].
    destruct l' as [|y l']; [reflexivity|]. exact IH.
Qed.

Lemma last_unwrap_cases {A} (l : list A) :
  (l = [] /\ last_unwrap l = Panic PEmpty) \/ exists l' a, l = l' ++ [a] /\ last_unwrap l = Ret a.
Proof.
  destruct l as [|x l] using rev_ind; [left; auto|]. right. exists l, x. split; [reflexivity|].
  apply last_unwrap_Ret. eauto.
Qed.

Section PolyLoop.
  Context {F : Type} {ops : NumOps F}.

  (** ** Inner loop *)

  Lemma integration_is_converged_spec (pts : list (Point F)) tol :
    match integration_is_converged pts tol with
    | Panic r => pts = [] /\ r = PEmpty
    | Ret true => cyclic tol pts
    | Ret false => pts <> [] /\ ~ cyclic tol pts
    end.
  Proof.
    unfold integration_is_converged. destruct pts as [|p pts]; [cbn; auto|].
    cbn [first_unwrap obind].
    destruct (last_unwrap_cases (p :: pts)) as [[H _]|(pre & l & Hl & Hu)]; [discriminate|].
    rewrite Hu. cbn [obind].
    destruct (is_converged tol (cd_T_c (pt_conditions p)) (cd_T_c (pt_conditions l)) &&
              is_converged tol (cd_T_e (pt_conditions p)) (cd_T_e (pt_conditions l)))%bool eqn:Hc.
    - apply Bool.andb_true_iff in Hc as [H1 H2]. apply close_iff in H1, H2.
      exists p, l, pre, pts. auto.
    - split; [discriminate|]. intros (f & l' & pre' & post & E1 & E2 & C1 & C2).
      injection E1 as <- <-. rewrite Hl in E2. apply app_inj_tail in E2 as [_ <-].
      apply close_iff in C1, C2. rewrite C1, C2 in Hc. discriminate.
  Qed.

  Lemma inner_search_shift integ tv (P0 : F) tol pn n ic0 ic1 k r :
    inner_round integ P0 tol ic0 ic1 ->
    inner_search integ tv P0 tol pn n ic1 k r ->
    inner_search integ tv P0 tol pn (S n) ic0 (S k) r.
  Proof.
    intros H1 H2. destruct H2.
    - apply inner_exhausted with ic. econstructor; eauto.
    - change (S (j + 1)) with (S j + 1). eapply inner_round_error; [| |eassumption]; [lia|].
      econstructor; eauto.
    - change (S (j + 1)) with (S j + 1). eapply inner_round_panic; [| |eassumption]; [lia|].
      econstructor; eauto.
    - change (S (j + 1)) with (S j + 1). eapply inner_round_empty; [| |eassumption]; [lia|].
      econstructor; eauto.
    - change (S (j + 2)) with (S j + 2). eapply inner_final_error; [| |eassumption..]; [lia|].
      econstructor; eauto.
    - change (S (j + 2)) with (S j + 2). eapply inner_final_panic; [| |eassumption..]; [lia|].
      econstructor; eauto.
    - change (S (j + 2)) with (S j + 2). eapply inner_values_panic; [| |eassumption..]; [lia|].
      econstructor; eauto.
    - change (S (j + 2)) with (S j + 2). eapply inner_found; [| |eassumption..]; [lia|].
      econstructor; eauto.
  Qed.

  Lemma find_steady_state_loop_spec E U (c : Cycle F) inputs n : forall ic k r,
    find_steady_state_loop E U c inputs n ic = (k, r) ->
    inner_search (fun ic m => try_from E U c ic m (ssi_ode_tol inputs)) (into_state_values U c)
      (ssi_pres_zero inputs) (ssi_conv_tol inputs) (ssi_num_points inputs) n ic k r.
  Proof.
    induction n as [|n IH]; intros ic k r H; cbn [find_steady_state_loop] in H.
    - injection H as <- <-. apply inner_exhausted with ic. constructor.
    - destruct (try_from E U c ic 2 (ssi_ode_tol inputs)) as [[pts|e]|p] eqn:Ht.
      + pose proof (integration_is_converged_spec pts (ssi_conv_tol inputs)) as Hc.
        destruct (integration_is_converged pts (ssi_conv_tol inputs)) as [[|]|p].
        * injection H as <- <-. change 2 with (0 + 2).
          destruct (try_from E U c ic (ssi_num_points inputs) (ssi_ode_tol inputs))
            as [[pts'|e]|p] eqn:Ht'; cbn [obind].
          -- destruct (into_state_values U c pts') as [vs|p] eqn:Hv; cbn [obind].
             ++ eapply inner_found; [lia|constructor|exact Ht|exact Hc|exact Ht'|exact Hv].
             ++ eapply inner_values_panic; [lia|constructor|exact Ht|exact Hc|exact Ht'|exact Hv].
          -- eapply inner_final_error; [lia|constructor|exact Ht|exact Hc|exact Ht'].
          -- eapply inner_final_panic; [lia|constructor|exact Ht|exact Hc|exact Ht'].
        * destruct Hc as [Hne Hnc]. unfold final_conditions in H.
          destruct (last_unwrap_cases pts) as [[H0 _]|(pre & l & Hl & Hu)]; [contradiction|].
          rewrite Hu in H. cbn [obind] in H.
          match type of H with context [find_steady_state_loop _ _ _ _ n ?x] => set (ic' := x) in H end.
          destruct (find_steady_state_loop E U c inputs n ic') as [k' r'] eqn:Hr.
          injection H as <- <-. apply inner_search_shift with ic'; [|apply IH; exact Hr].
          exists pts, pre, l. repeat split; auto.
        * injection H as <- <-. destruct Hc as [-> ->]. change 1 with (0 + 1).
          eapply inner_round_empty; [lia|constructor|exact Ht].
      + injection H as <- <-. change 1 with (0 + 1).
        eapply inner_round_error; [lia|constructor|exact Ht].
      + injection H as <- <-. change 1 with (0 + 1).
        eapply inner_round_panic; [lia|constructor|exact Ht].
  Qed.

  Lemma inner_search_count integ tv (P0 : F) tol pn n ic0 k r :
    inner_search integ tv P0 tol pn n ic0 k r -> (k <= n + 1)%nat.
  Proof. destruct 1; lia. Qed.

  (** ** Averages *)

  Lemma n_sum_trapz (t : list F) : forall y acc,
    fold_left n_add
      (map (fun '((x0, x1), (y0, y1)) => n_mul (n_mul (n_add y1 y0) (n_sub x1 x0)) nhalf)
           (combine (windows2 t) (windows2 y))) acc = trapz_from acc t y.
  Proof.
    induction t as [|t0 t IH]; intros y acc; [reflexivity|].
    destruct t as [|t1 t]; [destruct y as [|y0 [|y1 y]]; reflexivity|].
    destruct y as [|y0 [|y1 y]]; [reflexivity..|].
    exact (IH (y1 :: y) _).
  Qed.

  Lemma integrate_trapz (t y : list F) : integrate t y = trapz t y.
  Proof. apply n_sum_trapz. Qed.

  Lemma time_average_intro (t : list F) tf y :
    last_unwrap t = Ret tf -> time_average t y (n_div (integrate t y) tf).
  Proof.
    intros H. apply last_unwrap_Ret in H as [t' ->]. exists t', tf. split; [reflexivity|].
    now rewrite integrate_trapz.
  Qed.

  Lemma mean_magnitudes_eq (l : list F) : forall r,
    map (fun '(l, r) => n_mul nhalf (n_abs (n_add l r))) (combine l r) = mean_magnitudes l r.
  Proof. induction l as [|a l IH]; intros [|b r]; cbn; [reflexivity..|]. now rewrite IH. Qed.

  Lemma m_dot_avg_spec (v : Values F) l r a : m_dot_avg v l r = Ret a ->
    time_average (vs_time v) (mean_magnitudes l r) a.
  Proof.
    unfold m_dot_avg, final_time. destruct (last_unwrap (vs_time v)) as [tf|p] eqn:Ht; [|discriminate].
    cbn [obind]. intros H; injection H as <-. rewrite mean_magnitudes_eq.
    now apply time_average_intro.
  Qed.

  Lemma MassFlows_from_values_spec (v : Values F) m :
    MassFlows_from_values v = Ret m -> mass_flow_averages v m.
  Proof.
    unfold MassFlows_from_values, m_dot_chx, m_dot_regen, m_dot_hhx.
    destruct (m_dot_avg v (vs_m_dot_ck v) (vs_m_dot_kr v)) as [a|] eqn:Ha; [|discriminate].
    destruct (m_dot_avg v (vs_m_dot_kr v) (vs_m_dot_rl v)) as [b|] eqn:Hb; [|discriminate].
    destruct (m_dot_avg v (vs_m_dot_rl v) (vs_m_dot_le v)) as [d|] eqn:Hd; [|discriminate].
    cbn. intros H; injection H as <-. repeat split; now apply m_dot_avg_spec.
  Qed.

  Lemma wall_average_intro R (v : Values F) tf q :
    last_unwrap (vs_time v) = Ret tf ->
    wall_average R (vs_time v) q (if n_is_inf R then n0 else n_div (integrate (vs_time v) q) tf).
  Proof.
    intros H. split; intros HR; rewrite HR; [reflexivity|]. now apply time_average_intro.
  Qed.

  Lemma HeatFlows_from_values_spec (v : Values F) T_chx T_hhx R q :
    HeatFlows_from_values v T_chx T_hhx R = Ret q -> heat_flow_averages v T_chx T_hhx R q.
  Proof.
    unfold HeatFlows_from_values, final_time.
    destruct (last_unwrap (vs_time v)) as [tf|p] eqn:Ht; [|discriminate].
    cbn [obind]. intros H; injection H as <-.
    do 4 eexists. cbn [hf_chx hf_regen hf_hhx].
    split; [exact (wall_average_intro _ v tf _ Ht)|].
    split; [exact (wall_average_intro _ v tf _ Ht)|].
    split; [exact (time_average_intro _ tf _ Ht)|].
    split; [exact (time_average_intro _ tf _ Ht)|].
    split; [exact (time_average_intro _ tf _ Ht)|].
    split; reflexivity.
  Qed.

  Lemma fold_pick_In (f : F -> F -> bool) (g : bool -> F -> F -> F)
      (Hg : forall b x y, g b x y = x \/ g b x y = y) (l : list F) : forall a,
    In (fold_left (fun x y => g (f x y) x y) l a) (a :: l).
  Proof.
    induction l as [|b l IH]; intros a; cbn [fold_left]; [left; reflexivity|].
    destruct (IH (g (f a b) a b)) as [H|H].
    - rewrite <- H. destruct (Hg (f a b) a b) as [->| ->]; cbn; auto.
    - right; right; exact H.
  Qed.

  Lemma max_by_In (l : list F) a : max_by l = Ret a -> In a l.
  Proof.
    destruct l as [|b l]; [discriminate|]. intros H; injection H as <-.
    apply (fold_pick_In n_total_le (fun b x y => if b then y else x)). intros []; auto.
  Qed.
  Lemma min_by_In (l : list F) a : min_by l = Ret a -> In a l.
  Proof.
    destruct l as [|b l]; [discriminate|]. intros H; injection H as <-.
    apply (fold_pick_In n_total_le (fun b x y => if b then x else y)). intros []; auto.
  Qed.

  Lemma Pressure_from_values_spec (v : Values F) p : Pressure_from_values v = Ret p ->
    time_average (vs_time v) (vs_P v) (pr_avg p) /\
    (exists P', vs_P v = pr_t_zero p :: P') /\
    In (pr_max p) (vs_P v) /\ In (pr_min p) (vs_P v).
  Proof.
    unfold Pressure_from_values, final_time.
    destruct (last_unwrap (vs_time v)) as [tf|] eqn:Ht; [|discriminate].
    destruct (first_unwrap (vs_P v)) as [t0|] eqn:H0; [|discriminate].
    destruct (max_by (vs_P v)) as [mx|] eqn:Hmx; [|discriminate].
    destruct (min_by (vs_P v)) as [mn|] eqn:Hmn; [|discriminate].
    cbn. intros H; injection H as <-. cbn.
    split; [now apply time_average_intro|].
    split; [now apply first_unwrap_Ret|].
    split; [now apply max_by_In|now apply min_by_In].
  Qed.

  (** ** Outer loop *)

  Lemma temperatures_follow_intro sink source (a : Approach F) imb :
    temperatures_follow sink source (ap_chx a) (ap_regen a) (ap_hhx a) imb
      (Temperatures_from_approach sink source a imb).
  Proof.
    unfold temperatures_follow, Temperatures_from_approach, regen_temp. cbn.
    repeat split; reflexivity.
  Qed.

  Lemma temperatures_close_iff tol (T T' : Temperatures F) :
    Temperatures_is_converged T T' tol = true <-> temperatures_close tol T T'.
  Proof.
    unfold Temperatures_is_converged, RegenTemp_is_converged, temperatures_close.
    rewrite !Bool.andb_true_iff, !close_iff. tauto.
  Qed.

  Lemma State_eta (s : State F) :
    {| s_fluid := s_fluid s; s_temp := s_temp s; s_pres := s_pres s;
       s_mass_flow := s_mass_flow s; s_heat_flow := s_heat_flow s;
       s_regen_imbalance := s_regen_imbalance s |} = s.
  Proof. destruct s; reflexivity. Qed.

  Lemma State_update_spec (s : State F) comps v tol r :
    State_update s comps v tol = Ret r ->
    match r with
    | Err s' => s' = s /\ outer_converged comps tol s v
    | Ok s' =>
        averages comps s v (s_pres s') (s_mass_flow s') (s_heat_flow s') /\
        recomputed comps (s_fluid s) (s_pres s) (s_temp s) (s_regen_imbalance s) v
          (pr_avg (s_pres s')) (s_mass_flow s') (s_heat_flow s') (s_temp s') /\
        ~ temperatures_close tol (s_temp s) (s_temp s') /\
        s_fluid s' = s_fluid s /\ s_regen_imbalance s' = s_regen_imbalance s
    end.
  Proof.
    unfold State_update.
    destruct (Pressure_from_values v) as [p|] eqn:Hp; [|discriminate].
    destruct (MassFlows_from_values v) as [m|] eqn:Hm; [|discriminate].
    destruct (ws_thermal_resistance (co_ws comps) (State_ws s)) as [R|] eqn:HR; [|discriminate].
    cbn [obind].
    destruct (HeatFlows_from_values v (te_chx (s_temp s)) (te_hhx (s_temp s)) R) as [q|] eqn:Hq;
      [|discriminate].
    cbn [obind].
    set (s1 := {| s_fluid := s_fluid s; s_pres := p; s_temp := s_temp s; s_mass_flow := m;
                  s_heat_flow := q; s_regen_imbalance := s_regen_imbalance s |}).
    destruct (ex_approach (co_chx comps) (State_chx s1)) as [a_k|] eqn:Hk; [|discriminate].
    destruct (ex_approach (co_regen comps) (State_regen s1)) as [a_r|] eqn:Hr; [|discriminate].
    destruct (ex_approach (co_hhx comps) (State_hhx s1)) as [a_l|] eqn:Hl; [|discriminate].
    cbn [obind].
    set (a := {| ap_chx := a_k; ap_regen := a_r; ap_hhx := a_l |}).
    set (T' := Temperatures_from_approach (te_sink (s_temp s)) (te_source (s_temp s)) a
                 (s_regen_imbalance s)).
    apply Pressure_from_values_spec in Hp as (Hp1 & Hp2 & Hp3 & Hp4).
    apply MassFlows_from_values_spec in Hm.
    apply HeatFlows_from_values_spec in Hq.
    assert (Hrec : recomputed comps (s_fluid s) (s_pres s) (s_temp s) (s_regen_imbalance s) v
                     (pr_avg p) m q T').
    { exists R, a_k, a_r, a_l. split; [exact Hp1|]. split; [exact Hm|]. split; [exact HR|].
      split; [exact Hq|]. split; [exact Hk|]. split; [exact Hr|]. split; [exact Hl|].
      apply (temperatures_follow_intro _ _ a). }
    destruct (Temperatures_is_converged (s_temp s) T' tol) eqn:HT; intros H; injection H as <-.
    - cbn [s_fluid]. subst s1. cbn [s_fluid]. rewrite State_eta. split; [reflexivity|].
      exists (pr_avg p), m, q, T'. split; [exact Hrec|]. now apply temperatures_close_iff.
    - cbn. split.
      { split; [exact Hp1|]. split; [exact Hp2|]. split; [exact Hp3|]. split; [exact Hp4|].
        split; [exact Hm|]. exists R. split; [exact HR|exact Hq]. }
      split; [exact Hrec|]. split; [|split; reflexivity].
      intros HC. apply temperatures_close_iff in HC. congruence.
  Qed.

  Lemma Run_new_cycle comps (s : State F) r : Run_new comps s = Ret r ->
    is_cycle_of comps (s_fluid s) (s_pres s) (s_temp s) (Run_Cycle r).
  Proof.
    unfold Run_new.
    destruct (ex_volume (co_chx comps)) as [V_k|] eqn:Hk; [|discriminate].
    destruct (ex_volume (co_regen comps)) as [V_r|] eqn:Hr; [|discriminate].
    destruct (ex_volume (co_hhx comps)) as [V_l|] eqn:Hl; [|discriminate].
    destruct (ws_frequency (co_ws comps) (State_ws s)) as [f|] eqn:Hf; [|discriminate].
    destruct (ws_volumes (co_ws comps) (State_ws s)) as [vols|] eqn:Hv; [|discriminate].
    destruct (ws_parasitics (co_ws comps) (State_ws s)) as [par|] eqn:Hp; [|discriminate].
    cbn [obind]. intros H; injection H as <-.
    exists vols, f, par, V_k, V_r, V_l.
    split; [exact Hv|]. split; [exact Hf|]. split; [exact Hp|].
    split; [exact Hk|]. split; [exact Hr|]. split; [exact Hl|].
    split; [reflexivity|]. split; [reflexivity|].
    intros t cond. unfold Run_Cycle, Run_calculate_inputs. cbn.
    destruct (vols t) as [vc ve]. reflexivity.
  Qed.

  Lemma Values_from_series (vs : list (SeValues F)) : series_of vs (Values_from vs).
  Proof.
    unfold series_of, Values_from; cbn.
    assert (H : forall (A B : Type) (f : A -> B) (l : list A),
               Forall2 (fun x y => y = f x) l (map f l)).
    { intros A B f l. induction l; cbn; constructor; auto. }
    repeat split; apply H.
  Qed.

  Variable E : Env F.
  Variable U : Decomp F.

  (** What a run from state [s0] with at most [n] outer iterations may do *)
  Definition run_spec (comps : Components F) (settings : RunSettings F) (n : nat) (s0 : State F)
      (k : nat) (r : outcome (result (Engine F) RunError)) : Prop :=
    match r with
    | Ret (Err OuterLoop) => exists s, outer_rounds E U comps settings n s0 k s
    | Ret (Err InnerLoop) =>
        exists j k1 s k2 e, (j < n)%nat /\ outer_rounds E U comps settings j s0 k1 s /\
          steady_search E U comps settings s k2 (Ret (Err e)) /\ k = (k1 + k2)%nat
    | Ret (Ok eng) =>
        exists j k1 s k2 vs, (j < n)%nat /\ outer_rounds E U comps settings j s0 k1 s /\
          steady_search E U comps settings s k2 (Ret (Ok vs)) /\ k = (k1 + k2)%nat /\
          series_of vs (en_values eng) /\
          outer_converged comps (lt_outer (rs_loop_tol settings)) s (en_values eng) /\
          en_state eng = s /\ en_components eng = comps
    | Panic p =>
        exists j k1 s, (j < n)%nat /\ outer_rounds E U comps settings j s0 k1 s /\
          (k <= k1 + S (N.to_nat (mi_inner (rs_max_iters settings))))%nat
    end.

  Lemma run_spec_shift comps settings n s0 k v s1 k' r :
    outer_round E U comps settings s0 k v s1 ->
    run_spec comps settings n s1 k' r -> run_spec comps settings (S n) s0 (k + k') r.
  Proof.
    intros H1. unfold run_spec. destruct r as [[eng|[|]]|p].
    - intros (j & k1 & s & k2 & vs & Hj & HR & Hs & -> & Hrest).
      exists (S j), (k + k1)%nat, s, k2, vs. split; [lia|]. split; [econstructor; eauto|].
      split; [exact Hs|]. split; [lia|exact Hrest].
    - intros (j & k1 & s & k2 & e & Hj & HR & Hs & ->).
      exists (S j), (k + k1)%nat, s, k2, e. split; [lia|]. split; [econstructor; eauto|].
      split; [exact Hs|lia].
    - intros (s & HR). exists s. econstructor; eauto.
    - intros (j & k1 & s & Hj & HR & Hk).
      exists (S j), (k + k1)%nat, s. split; [lia|]. split; [econstructor; eauto|lia].
  Qed.

  Lemma run_loop_spec comps settings n : forall s k r,
    run_loop E U comps settings n s = (k, r) -> run_spec comps settings n s k r.
  Proof.
    induction n as [|n IH]; intros s k r H; cbn [run_loop] in H.
    - injection H as <- <-. exists s. constructor.
    - destruct (Run_new comps s) as [run|p] eqn:HR.
      2:{ injection H as <- <-. exists 0%nat, 0%nat, s. split; [lia|]. split; [constructor|lia]. }
      apply Run_new_cycle in HR.
      match type of H with context [find_steady_state_counted ?E ?U ?c ?i] =>
        destruct (find_steady_state_counted E U c i) as [k1 res] eqn:Hf end.
      assert (Hs : steady_search E U comps settings s k1 res).
      { exists (Run_Cycle run). split; [exact HR|].
        unfold find_steady_state_counted in Hf.
        apply find_steady_state_loop_spec in Hf. exact Hf. }
      destruct res as [[vs|e]|p].
      + destruct (State_update s comps (Values_from vs) (lt_outer (rs_loop_tol settings)))
          as [[s'|s']|p] eqn:Hu.
        * apply State_update_spec in Hu.
          destruct (run_loop E U comps settings n s') as [k2 r2] eqn:Hr.
          injection H as <- <-. apply run_spec_shift with (Values_from vs) s'; [|now apply IH].
          exists vs. split; [exact Hs|]. split; [apply Values_from_series|]. exact Hu.
        * injection H as <- <-. apply State_update_spec in Hu as [-> Hu].
          exists 0%nat, 0%nat, s, k1, vs. cbn. split; [lia|]. split; [constructor|].
          split; [exact Hs|]. split; [reflexivity|]. split; [apply Values_from_series|]. auto.
        * injection H as <- <-. exists 0%nat, 0%nat, s. split; [lia|]. split; [constructor|].
          destruct Hs as (c & _ & Hs). apply inner_search_count in Hs. lia.
      + injection H as <- <-. exists 0%nat, 0%nat, s, k1, e. split; [lia|].
        split; [constructor|]. split; [exact Hs|reflexivity].
      + injection H as <- <-. exists 0%nat, 0%nat, s. split; [lia|]. split; [constructor|].
        destruct Hs as (c & _ & Hs). apply inner_search_count in Hs. lia.
  Qed.

  Lemma State_new_hint_spec comps fl inputs (s : State F) :
    State_new_hint comps fl inputs = Ret s -> initial_state comps fl inputs s.
  Proof.
    unfold State_new_hint.
    destruct (ex_initial_approach (co_chx comps)) as [a_k|] eqn:Hk; [|discriminate].
    destruct (ex_initial_approach (co_regen comps)) as [a_r|] eqn:Hr; [|discriminate].
    destruct (ex_initial_approach (co_hhx comps)) as [a_l|] eqn:Hl; [|discriminate].
    cbn [obind]. intros H; injection H as <-.
    exists a_k, a_r, a_l.
    split; [exact Hk|]. split; [exact Hr|]. split; [exact Hl|].
    split; [|repeat split; reflexivity].
    exact (temperatures_follow_intro (ri_temp_sink inputs) (ri_temp_source inputs)
             {| ap_chx := a_k; ap_regen := a_r; ap_hhx := a_l |} n0).
  Qed.

  Lemma Engine_run_counted_spec comps fl inputs settings k r :
    Engine_run_counted E U comps fl inputs settings = (k, r) ->
    (exists s0, initial_state comps fl inputs s0 /\
       run_spec comps settings (N.to_nat (mi_outer (rs_max_iters settings))) s0 k r) \/
    (exists p, r = Panic p /\ k = 0%nat /\
       (ex_initial_approach (co_chx comps) = Panic p \/
        ex_initial_approach (co_regen comps) = Panic p \/
        ex_initial_approach (co_hhx comps) = Panic p)).
  Proof.
    unfold Engine_run_counted. destruct (State_new_hint comps fl inputs) as [s0|p] eqn:Hs.
    - intros H. left. exists s0. split; [now apply State_new_hint_spec|].
      now apply run_loop_spec.
    - intros H; injection H as <- <-. right. exists p. split; [reflexivity|].
      split; [reflexivity|]. unfold State_new_hint in Hs.
      destruct (ex_initial_approach (co_chx comps)); cbn in Hs; [|injection Hs as <-; auto].
      destruct (ex_initial_approach (co_regen comps)); cbn in Hs; [|injection Hs as <-; auto].
      destruct (ex_initial_approach (co_hhx comps)); cbn in Hs; [|injection Hs as <-; auto].
      discriminate.
  Qed.
End PolyLoop.
