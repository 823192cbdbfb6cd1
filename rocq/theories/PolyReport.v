(** * The performance report in terms of the values of an engine *)
From Coq Require Import ZArith NArith List.
From Verif Require Import Num ModelTypes ModelWs ModelHx ModelStateEq ModelEngine ModelApi Spec SpecReport.
Import ListNotations.
Local Open Scope num_scope.

Section Report.
  Context {F : Type} {ops : NumOps F}.
  Lemma zip_map {A} (h : F -> F -> F) (f g : A -> F) (l : list A) :
    dv_zip h (map f l) (map g l) = Ret (map (fun v => h (f v) (g v)) l).
  Proof. induction l as [|v l IH]; [reflexivity|]. cbn [map dv_zip]. rewrite IH. reflexivity. Qed.
  Lemma element_map {A} (x : F) (f : A -> F) (l : list A) : dv_from_element (length (map f l)) x = map (fun _ => x) l.
  Proof. unfold dv_from_element. rewrite map_length. induction l as [|v l IH]; [reflexivity|]. cbn. now rewrite IH. Qed.
  Lemma forall2_map {A B} (g : A -> B) l l' : Forall2 (fun x y => y = g x) l l' -> l' = map g l.
  Proof. induction 1 as [|x y l l' -> _ IH]; [reflexivity|]. cbn. now rewrite IH. Qed.

  Context (e : Engine F) (a : Replies F) (vs : list (SeValues F)).
  Definition drop_num (res m m' rho : F) : F := (m + m') * nhalf / rho * res.
  Definition dens_num (T : F) (v : SeValues F) : F := fl_dens (s_fluid (en_state e)) T (cd_P (sv_conditions v)).
  Definition total_num (v : SeValues F) : F :=
    let s := sv_solution v in let T := s_temp (en_state e) in
    drop_num (rp_R_chx a) (so_m_dot_ck s) (so_m_dot_kr s) (dens_num (te_chx T) v)
    + drop_num (rp_R_hhx a) (so_m_dot_rl s) (so_m_dot_le s) (dens_num (te_hhx T) v)
    + drop_num (rp_R_regen a) (so_m_dot_kr s) (so_m_dot_rl s) (dens_num (rt_avg (te_regen T)) v).
  Definition Pc_num (v : SeValues F) : F := cd_P (sv_conditions v) + total_num v * nhalf.
  Definition Pe_num (v : SeValues F) : F := cd_P (sv_conditions v) - total_num v * nhalf.
  Definition dVc_num (v : SeValues F) : F := v_deriv (fst (rp_vols a (sv_time v))).
  Definition dVe_num (v : SeValues F) : F := v_deriv (snd (rp_vols a (sv_time v))).
  Definition work_num (v : SeValues F) : F := Pc_num v * dVc_num v + Pe_num v * dVe_num v.
  Definition ideal_num (v : SeValues F) : F := cd_P (sv_conditions v) * (dVc_num v + dVe_num v).
  Definition wall_num (T Tw res : F) : F := (T - Tw) / res.
  Definition wall_c_num (v : SeValues F) : F :=
    wall_num (cd_T_c (sv_conditions v)) (te_chx (s_temp (en_state e))) (tr_comp (rp_res a)).
  Definition wall_e_num (v : SeValues F) : F :=
    wall_num (cd_T_e (sv_conditions v)) (te_hhx (s_temp (en_state e))) (tr_exp (rp_res a)).
  Definition cycle_num (g : SeValues F -> F) : F := rp_freq a * integrate (map (@sv_time F) vs) (map g vs).
  Definition indicated_num : F := cycle_num work_num.
  Definition ideal_ind_num : F := cycle_num ideal_num.
  Definition fric_c_num : F := pp_mechanical (par_comp (rp_par a)).
  Definition fric_e_num : F := pp_mechanical (par_exp (rp_par a)).
  Definition shaft_num : F := indicated_num - fric_c_num - fric_e_num.
  Definition net_num : F := shaft_num - pp_mechanical (rp_chx a) - pp_mechanical (rp_hhx a).
  Definition losses_num : F := pp_thermal (rp_hhx a) + pp_thermal (rp_regen a) + pp_thermal (par_exp (rp_par a)).
  Definition input_num : F :=
    cycle_num (fun v => so_Q_dot_l (sv_solution v)) - cycle_num wall_e_num + losses_num.
  Definition rejected_num : F :=
    cycle_num wall_c_num + cycle_num (fun v => so_Q_dot_k (sv_solution v)) + (ideal_ind_num - indicated_num)
    + (fric_c_num + fric_e_num) + losses_num.

  Lemma reported : series_of vs (en_values e) -> replies e a ->
    exists r, RunResults_from e = Ret r /\
      rrv_P_c (rr_values r) = map Pc_num vs /\ rrv_P_e (rr_values r) = map Pe_num vs /\
      rrp_indicated (rr_power r) = indicated_num /\ rrp_ideal_indicated (rr_power r) = ideal_ind_num /\
      rrp_shaft (rr_power r) = shaft_num /\ rrp_net (rr_power r) = net_num /\
      rrh_input (rr_heat_flow r) = input_num /\ rrh_rejection (rr_heat_flow r) = rejected_num /\
      rr_shaft_torque r = shaft_num / (n2 * n_pi * rp_freq a) /\
      rre_mechanical (rr_efficiency r) = net_num / input_num.
  Proof.
    intros (E1 & E2 & E3 & E4 & E5 & E6 & E7 & E8 & E9 & _ & E11).
    apply forall2_map in E1, E2, E3, E4, E5, E6, E7, E8, E9, E11.
    intros (Hf & Hv & Hp & Hr & Rk & Rr & Rl & Pk & Pr & Pl). cbv zeta in *.
    unfold RunResults_from, Performance_from, PressuresWithDrops_new, Powers_new, Heats_new, dV_dts,
      calculate_hx_pressure_drop, State_ws, State_chx, State_regen, State_hhx.
    unfold hx_state in *.
    rewrite Hf, Hv, Hp, Hr, E1, E2, E3, E4, E5, E6, E7, E8, E9, E11.
    rewrite Rk, Rr, Rl, Pk, Pr, Pl. cbn [obind].
    unfold dv_add, dv_sub, component_mul, component_div, dv_scale, dv_div_scalar.
    rewrite !element_map.
    repeat (rewrite ?map_map, ?zip_map; cbn [obind pwd_P_c pwd_P_e pw_indicated pw_indicated_zero_dP pw_shaft pw_net]).
    eexists. split; [reflexivity|]. repeat split.
  Qed.
End Report.
