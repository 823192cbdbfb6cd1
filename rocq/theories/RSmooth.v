(** * Flows and heats as functions of the state of the gas *)
From Coq Require Import ZArith NArith List Reals Lra Lia.
From Verif Require Import Num ModelTypes ModelWs ModelHx ModelStateEq ModelEngine RNum Spec SpecR SpecGas
  SpecKin SpecTraj SpecLaws SpecUnique Fixture PolySolve RSolve RGauss RFluid RKin RMass RLaws RClose RPairs
  RPicard RLocal RExist.
Local Open Scope R_scope.

Section TameMore.
  Variable y0 : C7 -> R.
  Notation tame := (tame y0).
  Lemma tame_near f g dl : 0 < dl -> tame f -> (forall y, inside y0 dl y -> g y = f y) -> tame g.
  Proof.
    intros D0 (K & d & K0 & D & H) E. exists K, (Rmin d dl). split; [exact K0|]. split; [apply Rmin_pos; assumption|].
    intros y z Hy Hz.
    rewrite (E y), (E z) by (eapply inside_le; [apply Rmin_r|eassumption]).
    apply H; (eapply inside_le; [apply Rmin_l|eassumption]).
  Qed.
  Lemma tame_abs f : tame f -> tame (fun y => Rabs (f y)).
  Proof.
    intros (K & d & K0 & D & H). exists K, d. split; [exact K0|]. split; [exact D|]. intros y z Hy Hz.
    destruct (H y z Hy Hz) as (A & B). rewrite Rabs_Rabsolu. split; [exact A|].
    eapply Rle_trans; [apply Rabs_triang_inv2|exact B].
  Qed.
  Lemma tame_scale k f : tame f -> tame (fun y => k * f y).
  Proof. intros H. exact (tame_mult y0 _ _ (tame_const y0 k) H). Qed.
  (** the enthalpy carried by a flow, from either side *)
  Definition carried (m h h' : R) : R := h * ((m + Rabs m) * / 2) + h' * ((m - Rabs m) * / 2).
  Lemma carried_donor m cold hot h : donor_R m cold hot h -> h * m = carried m cold hot.
  Proof.
    intros (A & B). unfold carried. destruct (Rle_lt_dec 0 m) as [C|C].
    - rewrite (A C), (Rabs_pos_eq m C). field.
    - rewrite (B C), (Rabs_left m C). field.
  Qed.
  Lemma tame_carried m h h' : tame m -> tame h -> tame h' -> tame (fun y => carried (m y) (h y) (h' y)).
  Proof.
    intros Hm Hh Hh'. apply tame_plus; apply tame_mult; try assumption;
      (apply (tame_mult y0 _ (fun _ => / 2)); [|apply tame_const]).
    - exact (tame_plus y0 _ _ Hm (tame_abs _ Hm)).
    - exact (tame_minus y0 _ _ Hm (tame_abs _ Hm)).
  Qed.
End TameMore.

Section Solution.
  Variable g : IdealGas R.
  Let Rg := ig_gas_constant g.
  Hypothesis HR : 0 < Rg.
  Variable r : Run R.
  Hypothesis Hf : ru_fluid r = IdealGas_Fluid g.
  Variable y0 : C7 -> R.
  Hypothesis HTc : 0 < y0 yC.
  Hypothesis HTe : 0 < y0 yE.
  Hypothesis Hph : physical (inp7 r y0).
  Notation tame := (tame y0).
  Notation s7 := (sol7 r).

  (** state of the gas at a fixed temperature *)
  Lemma dens_fixed T : tame (fun y => ig_dens g T (y yP)).
  Proof. exact (tame_mult y0 _ _ (tame_coord y0 yP) (tame_const y0 (/ (Rg * T)))). Qed.
  Lemma enth_fixed T : tame (fun y => ig_enth g T (y yP)).
  Proof. apply (tame_ext y0 (fun _ => ig_enth g T 0)); [apply tame_const|]. intros y. rewrite !enth_eq. reflexivity. Qed.
  Lemma inte_fixed T : tame (fun y => ig_inte g T (y yP)).
  Proof.
    apply (tame_minus y0 _ _ (enth_fixed T)). apply tame_const.
  Qed.
  Lemma dd_dP_fixed T : tame (fun y => ig_dd_dP_T g T (y yP)).
  Proof. apply (tame_const y0 (1 / (Rg * T))). Qed.

  (** what the solution satisfies nearby *)
  Lemma nearby : exists dl, 0 < dl /\ forall y, inside y0 dl y -> conserves (inp7 r y) (s7 y).
  Proof.
    destruct (physical7 g HR r Hf y0 HTc HTe Hph) as (dl & D0 & H). exists dl. split; [exact D0|]. intros y Hy.
    destruct (H y Hy) as (Hp & _).
    exact (proj1 (energy_conserved gauss (inp7 r y) _ _ gauss_sound (proj1 Hp) (sol7_solves r y Hp))).
  Qed.

  Lemma solution_tame :
    tame (fun y => so_m_dot_ck (s7 y)) /\ tame (fun y => so_m_dot_kr (s7 y)) /\ tame (fun y => so_m_dot_rl (s7 y)) /\
    tame (fun y => so_m_dot_le (s7 y)) /\ tame (fun y => so_Q_dot_k (s7 y)) /\ tame (fun y => so_Q_dot_r (s7 y)) /\
    tame (fun y => so_Q_dot_l (s7 y)) /\ tame (fun y => so_dTc_dt (s7 y)) /\ tame (fun y => so_dTe_dt (s7 y)) /\
    tame (fun y => so_dP_dt (s7 y)).
  Proof.
    destruct nearby as (dl & D0 & H).
    destruct (flows_tame g HR r Hf y0 HTc HTe Hph) as (Tck & Tp & Tle).
    pose proof (rates_tame g HR r Hf y0 HTc HTe Hph uC) as TC. pose proof (rates_tame g HR r Hf y0 HTc HTe Hph uE) as TE.
    cbn [rate7] in TC, TE.
    set (Tk := te_chx (ru_temp r)). set (Tr := rt_avg (te_regen (ru_temp r))). set (Tl := te_hhx (ru_temp r)).
    set (Tc := rt_cold (te_regen (ru_temp r))). set (Th := rt_hot (te_regen (ru_temp r))).
    assert (M1 : tame (fun y => mass_rate_hx (in_chx (inp7 r y)) (so_dP_dt (s7 y)))).
    { apply (tame_ext y0 (fun y => ru_vol_chx r * ig_dd_dP_T g Tk (y yP) * so_dP_dt (s7 y))).
      - apply tame_mult; [exact (tame_scale y0 _ _ (dd_dP_fixed Tk))|exact Tp].
      - intros y. unfold mass_rate_hx, inp7, Run_calculate_inputs, frozen, chx_inputs. cbn [ru_ws_vol_fn in_chx hi_vol hi_dd_dP_T ru_fluid].
        rewrite Hf. reflexivity. }
    assert (M2 : tame (fun y => mass_rate_regen (in_regen (inp7 r y)) (so_dP_dt (s7 y)))).
    { apply (tame_ext y0 (fun y => ru_vol_regen r * ig_dd_dP_T g Tr (y yP) * so_dP_dt (s7 y))).
      - apply tame_mult; [exact (tame_scale y0 _ _ (dd_dP_fixed Tr))|exact Tp].
      - intros y. unfold mass_rate_regen, inp7, Run_calculate_inputs, frozen, regen_inputs. cbn [ru_ws_vol_fn in_regen gi_vol gi_dd_dP_T ru_fluid].
        rewrite Hf. reflexivity. }
    assert (M3 : tame (fun y => mass_rate_hx (in_hhx (inp7 r y)) (so_dP_dt (s7 y)))).
    { apply (tame_ext y0 (fun y => ru_vol_hhx r * ig_dd_dP_T g Tl (y yP) * so_dP_dt (s7 y))).
      - apply tame_mult; [exact (tame_scale y0 _ _ (dd_dP_fixed Tl))|exact Tp].
      - intros y. unfold mass_rate_hx, inp7, Run_calculate_inputs, frozen, hhx_inputs. cbn [ru_ws_vol_fn in_hhx hi_vol hi_dd_dP_T ru_fluid].
        rewrite Hf. reflexivity. }
    assert (EN : forall V T (md : (C7 -> R) -> R), tame md -> tame (fun y => V * ig_dens g T (y yP) * (0 * so_dP_dt (s7 y))
        + ig_inte g T (y yP) * md y)).
    { intros V T md Hm. apply tame_plus.
      - apply tame_mult; [exact (tame_scale y0 _ _ (dens_fixed T))|exact (tame_scale y0 _ _ Tp)].
      - exact (tame_mult y0 _ _ (inte_fixed T) Hm). }
    assert (E1 : tame (fun y => energy_rate_hx (in_chx (inp7 r y)) (so_dP_dt (s7 y)))).
    { apply (tame_ext y0 _ _ (EN (ru_vol_chx r) Tk _ M1)).
      intros y. unfold energy_rate_hx, inp7, Run_calculate_inputs, frozen, chx_inputs. cbn [ru_ws_vol_fn in_chx hi_vol hi_dens hi_inte hi_du_dP_T ru_fluid].
      rewrite Hf. reflexivity. }
    assert (E2 : tame (fun y => energy_rate_regen (in_regen (inp7 r y)) (so_dP_dt (s7 y)))).
    { apply (tame_ext y0 _ _ (EN (ru_vol_regen r) Tr _ M2)).
      intros y. unfold energy_rate_regen, inp7, Run_calculate_inputs, frozen, regen_inputs. cbn [ru_ws_vol_fn in_regen gi_vol gi_dens gi_inte gi_du_dP_T ru_fluid].
      rewrite Hf. reflexivity. }
    assert (E3 : tame (fun y => energy_rate_hx (in_hhx (inp7 r y)) (so_dP_dt (s7 y)))).
    { apply (tame_ext y0 _ _ (EN (ru_vol_hhx r) Tl _ M3)).
      intros y. unfold energy_rate_hx, inp7, Run_calculate_inputs, frozen, hhx_inputs. cbn [ru_ws_vol_fn in_hhx hi_vol hi_dens hi_inte hi_du_dP_T ru_fluid].
      rewrite Hf. reflexivity. }
    assert (Hk : tame (fun y => hi_enth (in_chx (inp7 r y)))).
    { apply (tame_ext y0 _ _ (enth_fixed Tk)). intros y. unfold inp7, Run_calculate_inputs, frozen, chx_inputs. cbn [ru_ws_vol_fn in_chx hi_enth ru_fluid].
      rewrite Hf. reflexivity. }
    assert (Hl : tame (fun y => hi_enth (in_hhx (inp7 r y)))).
    { apply (tame_ext y0 _ _ (enth_fixed Tl)). intros y. unfold inp7, Run_calculate_inputs, frozen, hhx_inputs. cbn [ru_ws_vol_fn in_hhx hi_enth ru_fluid].
      rewrite Hf. reflexivity. }
    assert (Hrc : tame (fun y => gi_enth_cold (in_regen (inp7 r y)))).
    { apply (tame_ext y0 _ _ (enth_fixed Tc)). intros y. unfold inp7, Run_calculate_inputs, frozen, regen_inputs. cbn [ru_ws_vol_fn in_regen gi_enth_cold ru_fluid].
      rewrite Hf. reflexivity. }
    assert (Hrh : tame (fun y => gi_enth_hot (in_regen (inp7 r y)))).
    { apply (tame_ext y0 _ _ (enth_fixed Th)). intros y. unfold inp7, Run_calculate_inputs, frozen, regen_inputs. cbn [ru_ws_vol_fn in_regen gi_enth_hot ru_fluid].
      rewrite Hf. reflexivity. }
    assert (Hc : tame (fun y => wi_enth (in_comp (inp7 r y)))).
    { apply (tame_ext y0 _ _ (enth_tame g y0 yC)). intros y. rewrite (i7_comp g r Hf). reflexivity. }
    assert (He : tame (fun y => wi_enth (in_exp (inp7 r y)))).
    { apply (tame_ext y0 _ _ (enth_tame g y0 yE)). intros y. rewrite (i7_exp g r Hf). reflexivity. }
    assert (Tkr : tame (fun y => so_m_dot_kr (s7 y))).
    { apply (tame_near y0 (fun y => so_m_dot_ck (s7 y) - mass_rate_hx (in_chx (inp7 r y)) (so_dP_dt (s7 y))) _ dl D0).
      - exact (tame_minus y0 _ _ Tck M1).
      - intros y Hy. destruct (H y Hy) as ((_ & E & _) & _). lra. }
    assert (Trl : tame (fun y => so_m_dot_rl (s7 y))).
    { apply (tame_near y0 (fun y => so_m_dot_kr (s7 y) - mass_rate_regen (in_regen (inp7 r y)) (so_dP_dt (s7 y))) _ dl D0).
      - exact (tame_minus y0 _ _ Tkr M2).
      - intros y Hy. destruct (H y Hy) as ((_ & _ & E & _) & _). lra. }
    pose proof (tame_carried y0 _ _ _ Tck Hc Hk) as C1. pose proof (tame_carried y0 _ _ _ Tkr Hk Hrc) as C2.
    pose proof (tame_carried y0 _ _ _ Trl Hrh Hl) as C3. pose proof (tame_carried y0 _ _ _ Tle Hl He) as C4.
    cbv beta in C1, C2, C3, C4.
    split; [exact Tck|]. split; [exact Tkr|]. split; [exact Trl|]. split; [exact Tle|].
    split; [|split; [|split; [|split; [exact TC|split; [exact TE|exact Tp]]]]].
    - apply (tame_near y0 _ _ dl D0 (tame_minus y0 _ _ (tame_minus y0 _ _ C1 C2) E1)).
      intros y Hy. destruct (H y Hy) as (_ & h1 & h2 & h3 & h4 & A1 & A2 & A3 & A4 & (_ & E & _)).
      apply carried_donor in A1, A2. rewrite <- A1, <- A2. lra.
    - apply (tame_near y0 _ _ dl D0 (tame_minus y0 _ _ (tame_minus y0 _ _ C2 C3) E2)).
      intros y Hy. destruct (H y Hy) as (_ & h1 & h2 & h3 & h4 & A1 & A2 & A3 & A4 & (_ & _ & E & _)).
      apply carried_donor in A2, A3. rewrite <- A2, <- A3. lra.
    - apply (tame_near y0 _ _ dl D0 (tame_plus y0 _ _ (tame_minus y0 _ _ E3 C3) C4)).
      intros y Hy. destruct (H y Hy) as (_ & h1 & h2 & h3 & h4 & A1 & A2 & A3 & A4 & (_ & _ & _ & E & _)).
      apply carried_donor in A3, A4. rewrite <- A3, <- A4. lra.
  Qed.
End Solution.
