(** * The performance report in f64: accuracy and first law *)
From Coq Require Import ZArith NArith List Reals Bool Lra Lia.
From Flocq Require Import Core BinarySingleNaN.
From Verif Require Import Num ModelTypes ModelWs ModelHx ModelStateEq ModelEngine ModelApi RNum B64 Spec SpecR SpecF64
  SpecSeries SpecRound SpecBalance SpecReport SpecRange F64Base F64Err F64Range F64Balance PolyReport PolyRun F64Report.
Import ListNotations.
Local Open Scope R_scope.

Section Any.
  Context {F : Type} {ops : NumOps F}.
  Lemma solved_by_run (E : Env F) (D : Decomp F) comps fl inputs settings (e : Engine F) :
    Engine_run E D comps fl inputs settings = Ret (Ok e) -> exists c vs, solved_values D e c vs.
  Proof.
    intros H. apply run_steady in H as (c & ic & pts2 & n & pts & vs & Hc & _ & _ & _ & _ & _ & HV & HS).
    exists c, vs. split; [exact Hc|]. split; [exact HS|].
    clear - HV. induction HV as [|p v pts vs (Ht & Hcd & HU) _ IH]; constructor; [|exact IH].
    rewrite Ht, Hcd. exact HU.
  Qed.
  Lemma replied (e : Engine F) r : RunResults_from e = Ret r -> exists a, replies e a.
  Proof.
    unfold RunResults_from, Performance_from.
    destruct (ws_frequency (co_ws (en_components e)) (State_ws (en_state e))) as [f|] eqn:Hf; [|discriminate]. cbn [obind].
    destruct (PressuresWithDrops_new e) as [p|] eqn:Hp; [|discriminate]. cbn [obind].
    destruct (Powers_new p e) as [pw|] eqn:Hpw; [|discriminate]. cbn [obind].
    destruct (Heats_new pw e) as [h|] eqn:Hh; [|discriminate]. intros _.
    unfold PressuresWithDrops_new in Hp.
    destruct (ex_hydraulic_resistance (co_chx (en_components e)) (State_chx (en_state e))) as [Rk|] eqn:E1; [|discriminate].
    cbn [obind] in Hp. destruct (calculate_hx_pressure_drop _ _ _ Rk); [|discriminate]. cbn [obind] in Hp.
    destruct (ex_hydraulic_resistance (co_hhx (en_components e)) (State_hhx (en_state e))) as [Rl|] eqn:E2; [|discriminate].
    cbn [obind] in Hp. destruct (calculate_hx_pressure_drop _ _ _ Rl); [|discriminate]. cbn [obind] in Hp.
    destruct (ex_hydraulic_resistance (co_regen (en_components e)) (State_regen (en_state e))) as [Rr|] eqn:E3; [|discriminate].
    clear Hp.
    unfold Powers_new, dV_dts in Hpw. rewrite Hf in Hpw. cbn [obind] in Hpw.
    destruct (ws_volumes (co_ws (en_components e)) (State_ws (en_state e))) as [vols|] eqn:E4; [|discriminate].
    cbn [obind] in Hpw. destruct (component_mul _ _); [|discriminate]. cbn [obind] in Hpw.
    destruct (component_mul _ _); [|discriminate]. cbn [obind] in Hpw.
    destruct (dv_add _ _); [|discriminate]. cbn [obind] in Hpw.
    destruct (dv_add _ _); [|discriminate]. cbn [obind] in Hpw.
    destruct (component_mul _ _); [|discriminate]. cbn [obind] in Hpw.
    destruct (ws_parasitics (co_ws (en_components e)) (State_ws (en_state e))) as [par|] eqn:E5; [|discriminate].
    cbn [obind] in Hpw.
    destruct (ex_parasitics (co_chx (en_components e)) (State_chx (en_state e))) as [pk|] eqn:E6; [|discriminate].
    cbn [obind] in Hpw.
    destruct (ex_parasitics (co_hhx (en_components e)) (State_hhx (en_state e))) as [pl|] eqn:E7; [|discriminate].
    clear Hpw.
    unfold Heats_new in Hh. rewrite Hf, E7 in Hh. cbn [obind] in Hh.
    destruct (ex_parasitics (co_regen (en_components e)) (State_regen (en_state e))) as [pr|] eqn:E8; [|discriminate].
    cbn [obind] in Hh. rewrite E5 in Hh. cbn [obind] in Hh.
    destruct (ws_thermal_resistance (co_ws (en_components e)) (State_ws (en_state e))) as [res|] eqn:E9; [|discriminate].
    exists (mkReplies f vols par res Rk Rr Rl pk pr pl). unfold replies. cbn. repeat split; assumption.
  Qed.
  Lemma always_reports (e : Engine F) a vs : series_of vs (en_values e) -> replies e a -> exists r, RunResults_from e = Ret r.
  Proof. intros Hs Ha. destruct (reported e a vs Hs Ha) as (r & H & _). exists r. exact H. Qed.
End Any.

Section Flt.
  Context (lm : Libm) (nt : bool).
  #[local] Instance fops : NumOps b64 := b64_ops lm nt.

  Lemma of_tracks x r m k t : tracks x r m k t -> figure k x r m t.
  Proof. intros (H & _). exact H. Qed.

  Section Report.
    Context (e : Engine b64) (a : Replies b64) (vs : list (SeValues b64)) (r : RunResults b64).
    Hypothesis Hs : series_of vs (en_values e).
    Hypothesis Ha : replies e a.
    Hypothesis Hr : RunResults_from e = Ret r.
    Hypothesis HD : dense e a vs.

    Lemma parts : rrv_P_c (rr_values r) = map (Pc_num e a) vs /\ rrv_P_e (rr_values r) = map (Pe_num e a) vs /\
      rrp_indicated (rr_power r) = indicated_num e a vs /\ rrp_ideal_indicated (rr_power r) = ideal_ind_num a vs /\
      rrp_shaft (rr_power r) = shaft_num e a vs /\ rrp_net (rr_power r) = net_num e a vs /\
      rrh_input (rr_heat_flow r) = input_num e a vs /\ rrh_rejection (rr_heat_flow r) = rejected_num e a vs /\
      rr_shaft_torque r = n_div (shaft_num e a vs) (n_mul (n_mul n2 n_pi) (rp_freq a)) /\
      rre_mechanical (rr_efficiency r) = n_div (net_num e a vs) (input_num e a vs).
    Proof.
      destruct (reported e a vs Hs Ha) as (r' & Hr' & H). rewrite Hr in Hr'. injection Hr' as <-. exact H.
    Qed.
    Lemma forall2_of_map {A B} (P : A -> B -> Prop) (g : A -> B) l : (forall v, In v l -> P v (g v)) -> Forall2 P l (map g l).
    Proof.
      induction l as [|v l IH]; intros H; constructor; [apply H; left; reflexivity|].
      apply IH. intros w Hw. apply H. right. exact Hw.
    Qed.
    Lemma pressures_accurate :
      Forall2 (fun v p => finite p -> figure 8 p (pres_at v + drop_at e a v / 2) (pres_size e a v) (pres_slack e a v))
        vs (rrv_P_c (rr_values r)) /\
      Forall2 (fun v p => finite p -> figure 8 p (pres_at v - drop_at e a v / 2) (pres_size e a v) (pres_slack e a v))
        vs (rrv_P_e (rr_values r)).
    Proof.
      destruct parts as (-> & -> & _). split; apply forall2_of_map; intros v Hv F; apply of_tracks.
      - exact (Pc_tracks lm nt e a vs HD v Hv F).
      - exact (Pe_tracks lm nt e a vs HD v Hv F).
    Qed.
    Lemma finite_chain : finite (rrp_net (rr_power r)) -> finite (rrh_rejection (rr_heat_flow r)) ->
      finite (indicated_num e a vs) /\ finite (ideal_ind_num a vs) /\ finite (shaft_num e a vs).
    Proof.
      destruct parts as (_ & _ & _ & _ & _ & -> & _ & -> & _). intros Fn Fr.
      destruct (minus_finite _ _ Fn) as (F1 & _). destruct (minus_finite _ _ F1) as (Fs & _).
      destruct (minus_finite _ _ Fs) as (F2 & _). destruct (minus_finite _ _ F2) as (Fi & _).
      destruct (plus_finite _ _ Fr) as (G1 & _). destruct (plus_finite _ _ G1) as (G2 & _).
      destruct (plus_finite _ _ G2) as (_ & G3 & _). destruct (minus_finite _ _ G3) as (Fz & _).
      split; [exact Fi|]. split; [exact Fz|exact Fs].
    Qed.
    Lemma powers_right : finite_figures r -> powers_accurate e a vs (rr_power r).
    Proof.
      intros F. inversion F as [|x l Fn F' E]. subst. inversion F' as [|x l Fi F'' E]. subst. inversion F'' as [|x l Fr F3 E]. subst.
      destruct (finite_chain Fn Fr) as (Gi & Gz & Gs). unfold powers_accurate. cbv zeta.
      destruct parts as (_ & _ & -> & -> & -> & E & _). rewrite E in *.
      split; [exact (of_tracks _ _ _ _ _ (indicated_tracks lm nt e a vs HD Gi))|].
      split; [exact (of_tracks _ _ _ _ _ (ideal_ind_tracks lm nt e a vs HD Gz))|].
      split; [exact (of_tracks _ _ _ _ _ (shaft_tracks lm nt e a vs HD Gs))|].
      exact (of_tracks _ _ _ _ _ (net_tracks lm nt e a vs HD Fn)).
    Qed.
    Lemma heats_right : walled a -> finite_figures r -> heats_accurate e a vs (rr_heat_flow r).
    Proof.
      intros Hw F. inversion F as [|x l Fn F' E]. subst. inversion F' as [|x l Fi F'' E]. subst. inversion F'' as [|x l Fr F3 E]. subst.
      unfold heats_accurate. cbv zeta. destruct parts as (_ & _ & _ & _ & _ & _ & E1 & E2 & _). rewrite E1, E2 in *.
      split; [exact (of_tracks _ _ _ _ _ (input_tracks lm nt e a vs HD Hw Fi))|].
      exact (of_tracks _ _ _ _ _ (rejected_tracks lm nt e a vs HD Hw Fr)).
    Qed.
    Lemma two_pi : value (n_mul n2 n_pi) = 2 * value b64_pi.
    Proof.
      assert (E : B2SF (Bmult mode_NE (b64_lit 2 0) b64_pi) = SpecFloat.S754_finite false 7074237752028440 (-50))
        by (vm_compute; reflexivity).
      assert (E' : B2SF b64_pi = SpecFloat.S754_finite false 7074237752028440 (-51)) by (vm_compute; reflexivity).
      change (B2R (Bmult mode_NE (b64_lit 2 0) b64_pi) = 2 * B2R b64_pi).
      rewrite <- !SF2R_B2SF, E, E'. unfold SF2R, F2R. cbn [cond_Zopp Fnum Fexp].
      change (-50)%Z with (1 + -51)%Z. rewrite bpow_plus. change (bpow radix2 1) with 2. ring.
    Qed.
    Lemma ratios_right : ratios_accurate a r.
    Proof.
      unfold ratios_accurate. cbv zeta. destruct parts as (_ & _ & _ & _ & -> & -> & -> & _ & -> & ->).
      assert (Q : forall x y : b64, finite (n_div x y) -> value y <> 0 ->
        figure 1 (n_div x y) (value x / value y) (Rabs (value x / value y)) 1).
      { intros x y F Hy. apply of_tracks. eapply tracks_eq; [apply tracks_div; [exact F|exact Hy|intros _; apply tracks_exact]|..].
        - reflexivity.
        - unfold Rdiv. rewrite Rabs_mult, Rabs_inv. reflexivity.
        - unfold Rdiv. ring. }
      split; [apply Q|]. exists (n_mul (n_mul n2 n_pi) (rp_freq a)). split; [apply Q|]. split.
      { intros F B. apply (upto_mul 3 1000 (n_mul n2 n_pi) (rp_freq a)); [apply upto_checked; vm_cast_no_check (eq_refl true)| |].
        - split; assumption.
        - vm_compute. discriminate. }
      intros F. apply of_tracks. rewrite <- two_pi. eapply tracks_eq.
      - apply tracks_mul; [exact F|intros _; apply tracks_exact].
      - reflexivity.
      - rewrite Rabs_mult. reflexivity.
      - ring.
    Qed.

    (** ** The first law *)
    Lemma donor_is m cold hot h : donor_R m cold hot h -> h = enthalpy_from m cold hot.
    Proof. intros (H1 & H2). unfold enthalpy_from. destruct (Rle_dec 0 m) as [H|H]; [exact (H1 H)|]. apply H2. lra. Qed.
    Lemma sample_balance D eps c v : 0 <= eps ->
      is_cycle_of (en_components e) (s_fluid (en_state e)) (s_pres (en_state e)) (s_temp (en_state e)) c ->
      upwind_solution D (cy_calculate_inputs c (sv_time v) (sv_conditions v)) (sv_solution v) -> orderly D eps c v ->
      Rabs (energy_at c v + Q_r_at v + (value (pp_thermal (par_comp (rp_par a))) + value (pp_thermal (par_exp (rp_par a))))
            - (Q_l_at v - Q_k_at v - ideal_at a v)) <= energy_tolerance eps c v.
    Proof.
      intros He (vols & freq & par & V_k & V_r & V_l & Hvo & _ & Hpa & _ & _ & _ & _ & _ & Hin) Hu (Hc & HF & HS & HN).
      destruct Ha as (_ & Hvo' & Hpa' & _). cbv zeta in *.
      rewrite Hvo in Hvo'. injection Hvo' as Hvo'. rewrite Hpa in Hpa'. injection Hpa' as Hpa'. subst vols par.
      pose proof (total_balances _ _ _ (upwind_balances lm nt D eps _ _ Hc He Hu HF HS HN)) as (_ & h1 & h2 & h3 & h4 & D1 & D2 & D3 & D4 & T).
      apply donor_is in D1, D2, D3, D4. subst h1 h2 h3 h4. unfold vanishes in T. unfold energy_tolerance. cbv zeta.
      eapply Rle_trans; [|exact T]. right. f_equal. unfold energy_at.
      specialize (Hin (sv_time v) (sv_conditions v)). rewrite Hin.
      cbn [in_comp in_exp in_pres gas_in_space wi_Q_dot wi_dV_dt input_values ws_values solution_values
        so_Q_dot_k so_Q_dot_r so_Q_dot_l].
      unfold Q_r_at, Q_l_at, Q_k_at, ideal_at, pres_at, dVc_at, dVe_at. ring.
    Qed.
    Lemma report_closes D eps c : 0 <= eps -> solved_values D e c vs -> Forall (orderly D eps c) vs -> walled a ->
      finite_figures r -> closes eps e a c vs r.
    Proof.
      intros He (Hc & _ & HV) HO Hw HF.
      destruct (powers_right HF) as (_ & _ & Fs & _). destruct (heats_right Hw HF) as (Fi & Fr).
      unfold closes. cbv zeta. unfold figure in *.
      set (I := value (rrh_input (rr_heat_flow r))) in *. set (J := value (rrh_rejection (rr_heat_flow r))) in *.
      set (W := value (rrp_shaft (rr_power r))) in *. set (f := rp_freq a) in *. set (n := panels vs) in *.
      set (Qp := value (pp_thermal (par_comp (rp_par a))) + value (pp_thermal (par_exp (rp_par a)))).
      set (we := per_cycle f vs (wall_exp e a)). set (wc := per_cycle f vs (wall_comp e a)).
      set (G := per_cycle f vs (fun v => energy_at c v + Q_r_at v + Qp)).
      set (tol := size_cycle f vs (energy_tolerance eps c)).
      assert (B : Rabs (per_cycle f vs Q_l_at - per_cycle f vs Q_k_at - ideal_exact a vs - G) <= tol).
      { unfold G, tol, ideal_exact, per_cycle, size_cycle. fold f.
        rewrite <- !Rmult_minus_distr_l, Rabs_mult. apply Rmult_le_compat_l; [apply Rabs_pos|].
        rewrite !trap_diff. eapply Rle_trans; [apply trap_mag|]. apply mag_le. intros v Hv.
        rewrite Forall_forall in HV, HO.
        pose proof (sample_balance D eps c v He Hc (HV v Hv) (HO v Hv)) as S. fold Qp in S.
        rewrite Rabs_minus_sym. exact S. }
      assert (X : input_exact e a vs - rejected_exact e a vs - shaft_exact e a vs =
                  per_cycle f vs Q_l_at - per_cycle f vs Q_k_at - ideal_exact a vs - we - wc).
      { unfold input_exact, rejected_exact, shaft_exact. fold f we wc. ring. }
      assert (P : forall k m, (k <= n + 19)%nat -> 0 <= m -> growth k * m <= growth (n + 19) * m).
      { intros k m Hk Hm. apply Rmult_le_compat_r; [exact Hm|]. apply growth_le. exact Hk. }
      assert (Z : forall g, 0 <= size_cycle f vs g).
      { intros g. unfold size_cycle. apply Rmult_le_pos; [apply Rabs_pos|apply magnitude_nonneg]. }
      assert (S1 : 0 <= input_size e a vs).
      { unfold input_size. fold f. pose proof (Z (fun v => Rabs (Q_l_at v))). pose proof (Z (fun v => Rabs (wall_exp e a v))).
        unfold loss_size. pose proof (Rabs_pos (loss_l a)). pose proof (Rabs_pos (loss_r a)). pose proof (Rabs_pos (loss_e a)). lra. }
      assert (S2 : 0 <= shaft_size e a vs).
      { unfold shaft_size, indicated_size, friction_size. fold f. pose proof (Z (work_size e a)).
        pose proof (Rabs_pos (friction_c a)). pose proof (Rabs_pos (friction_e a)). lra. }
      pose proof (P (n + 9)%nat _ ltac:(lia) S1) as P1. pose proof (P (n + 17)%nat _ ltac:(lia) S2) as P2.
      replace (I - J - W - (G - we - wc)) with
        ((I - input_exact e a vs) - (J - rejected_exact e a vs) - (W - shaft_exact e a vs)
         + (per_cycle f vs Q_l_at - per_cycle f vs Q_k_at - ideal_exact a vs - G)) by lra.
      eapply Rle_trans; [apply Rabs_triang|]. 
      assert (T3 : forall x y z, Rabs (x - y - z) <= Rabs x + Rabs y + Rabs z).
      { intros x y z. unfold Rminus. eapply Rle_trans; [apply Rabs_triang|]. rewrite Rabs_Ropp.
        apply Rplus_le_compat_r. eapply Rle_trans; [apply Rabs_triang|]. rewrite Rabs_Ropp. lra. }
      pose proof (T3 (I - input_exact e a vs) (J - rejected_exact e a vs) (W - shaft_exact e a vs)). lra.
    Qed.
  End Report.
End Flt.
