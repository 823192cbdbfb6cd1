(** * The performance report over the reals *)
From Coq Require Import ZArith NArith List Reals Lra Lia.
From Verif Require Import Num ModelTypes ModelWs ModelHx ModelStateEq ModelEngine ModelApi RNum
  Spec SpecR SpecLoop SpecApi PolySolve PolyRun PolyMore RSolve SpecSeries RSeries SpecPerf.
Import ListNotations.
Local Open Scope R_scope.

Lemma as_samples (l : list R) : l = map (smp l) (seq 0 (length l)).
Proof.
  unfold smp. induction l as [|a l IH]; [reflexivity|].
  cbn [length seq map nth]. f_equal. rewrite <- seq_shift, map_map. exact IH.
Qed.
Lemma map_as_samples (h : R -> R) (l : list R) : map h l = map (fun k => h (smp l k)) (seq 0 (length l)).
Proof. rewrite <- (map_map (smp l) h), <- as_samples. reflexivity. Qed.
Lemma smp_map (g : nat -> R) n k : (k < n)%nat -> smp (map g (seq 0 n)) k = g k.
Proof.
  intros H. unfold smp. rewrite nth_indep with (d' := g 0%nat) by (rewrite map_length, seq_length; exact H).
  rewrite map_nth, seq_nth by exact H. reflexivity.
Qed.
Lemma smp_map_list (h : R -> R) l k : (k < length l)%nat -> smp (map h l) k = h (smp l k).
Proof.
  intros H. unfold smp. rewrite nth_indep with (d' := h 0) by (rewrite map_length; exact H). apply map_nth.
Qed.

Lemma dv_zip_samples (f : R -> R -> R) a : forall b r, dv_zip f a b = Ret r ->
  length b = length a /\ r = map (fun k => f (smp a k) (smp b k)) (seq 0 (length a)).
Proof.
  induction a as [|x a IH]; intros [|y b] r H; try discriminate H.
  - injection H as <-. split; reflexivity.
  - cbn [dv_zip] in H. destruct (dv_zip f a b) as [r'|] eqn:E; [|discriminate]. injection H as <-.
    destruct (IH b r' E) as [HL ->]. split; [cbn; congruence|].
    cbn [length seq map]. unfold smp at 1 2. cbn [nth]. f_equal. rewrite <- seq_shift, map_map. reflexivity.
Qed.

Lemma map_seq_ext (g h : nat -> R) n : (forall k, (k < n)%nat -> g k = h k) ->
  map g (seq 0 n) = map h (seq 0 n).
Proof. intros H. apply map_ext_in. intros k Hk. apply in_seq in Hk. apply H. lia. Qed.

Lemma drop_samples (m0 m1 d : list R) res r :
  calculate_hx_pressure_drop m0 m1 d res = Ret r ->
  length m1 = length m0 /\ length d = length m0 /\
  r = map (fun k => res * ((smp m0 k + smp m1 k) / 2 / smp d k)) (seq 0 (length m0)).
Proof.
  unfold calculate_hx_pressure_drop, dv_add, component_div.
  destruct (dv_zip n_add m0 m1) as [a|] eqn:E1; [|discriminate]. cbn [obind].
  destruct (dv_zip n_div (dv_scale nhalf a) d) as [b|] eqn:E2; [|discriminate]. cbn [obind].
  intros H. injection H as <-.
  apply dv_zip_samples in E1 as [L1 ->]. apply dv_zip_samples in E2 as [L2 ->].
  unfold dv_scale in *. rewrite !map_length, seq_length in L2. rewrite map_length, map_length, seq_length.
  split; [exact L1|]. split; [exact L2|]. rewrite map_map. apply map_seq_ext. intros k Hk.
  rewrite smp_map_list by (rewrite map_length, seq_length; exact Hk).
  rewrite smp_map by exact Hk.
  rewrite R_nhalf. cbn [n_mul n_div n_add R_ops]. unfold Rdiv. ring.
Qed.

Lemma pwd_samples (e : Engine R) (a : Answers) p : answers e a -> PressuresWithDrops_new e = Ret p ->
  let n := length (vs_P (en_values e)) in
  pwd_P_c p = map (fun k => smp (vs_P (en_values e)) k + / 2 * total_drop e a k) (seq 0 n) /\
  pwd_P_e p = map (fun k => smp (vs_P (en_values e)) k - / 2 * total_drop e a k) (seq 0 n) /\
  length (vs_m_dot_ck (en_values e)) = n /\ length (vs_m_dot_kr (en_values e)) = n /\
  length (vs_m_dot_rl (en_values e)) = n /\ length (vs_m_dot_le (en_values e)) = n.
Proof.
  intros (_ & _ & _ & _ & Hk & Hr & Hl & _). cbn zeta in *. unfold PressuresWithDrops_new.
  change (ex_hydraulic_resistance (co_chx (en_components e)) (State_chx (en_state e)) = Ret (an_R_chx a)) in Hk.
  change (ex_hydraulic_resistance (co_regen (en_components e)) (State_regen (en_state e)) = Ret (an_R_regen a)) in Hr.
  change (ex_hydraulic_resistance (co_hhx (en_components e)) (State_hhx (en_state e)) = Ret (an_R_hhx a)) in Hl.
  rewrite Hk, Hr, Hl. cbn [obind].
  match goal with |- context [calculate_hx_pressure_drop ?x ?y ?d (an_R_chx a)] =>
    destruct (calculate_hx_pressure_drop x y d (an_R_chx a)) as [dk|] eqn:Ek; [|discriminate] end. cbn [obind].
  match goal with |- context [calculate_hx_pressure_drop ?x ?y ?d (an_R_hhx a)] =>
    destruct (calculate_hx_pressure_drop x y d (an_R_hhx a)) as [dl|] eqn:El; [|discriminate] end. cbn [obind].
  match goal with |- context [calculate_hx_pressure_drop ?x ?y ?d (an_R_regen a)] =>
    destruct (calculate_hx_pressure_drop x y d (an_R_regen a)) as [dr|] eqn:Er; [|discriminate] end. cbn [obind].
  apply drop_samples in Ek as (Lk1 & Lk2 & ->), El as (Ll1 & Ll2 & ->), Er as (Lr1 & Lr2 & ->).
  rewrite map_length in Lk2, Ll2, Lr2. rewrite <- Lk2, <- Ll2, <- Lr2.
  set (P := vs_P (en_values e)) in *. set (n := length P) in *. unfold dv_add, dv_sub.
  match goal with |- context [dv_zip n_add ?x ?y] =>
    destruct (dv_zip n_add x y) as [s1|] eqn:E1; [|discriminate] end. cbn [obind].
  apply dv_zip_samples in E1 as [_ ->]. rewrite map_length, seq_length.
  match goal with |- context [dv_zip n_add ?x ?y] =>
    destruct (dv_zip n_add x y) as [s2|] eqn:E2; [|discriminate] end. cbn [obind].
  apply dv_zip_samples in E2 as [_ ->]. rewrite map_length, seq_length.
  match goal with |- context [dv_zip n_add ?x ?y] =>
    destruct (dv_zip n_add x y) as [s3|] eqn:E3; [|discriminate] end. cbn [obind].
  apply dv_zip_samples in E3 as [_ ->].
  match goal with |- context [dv_zip n_sub ?x ?y] =>
    destruct (dv_zip n_sub x y) as [s4|] eqn:E4; [|discriminate] end. cbn [obind].
  apply dv_zip_samples in E4 as [_ ->].
  intros H. injection H as <-. cbn [pwd_P_c pwd_P_e].
  fold n.
  assert (HT : forall k, (k < n)%nat ->
    smp (dv_scale nhalf (map (fun k0 : nat => n_add
       (smp (map (fun k1 : nat => n_add
          (smp (map (fun k2 : nat => an_R_chx a * ((smp (vs_m_dot_ck (en_values e)) k2 + smp (vs_m_dot_kr (en_values e)) k2) / 2
             / smp (map (fun pres : R => fl_dens (s_fluid (en_state e)) (te_chx (s_temp (en_state e))) pres) P) k2)) (seq 0 n)) k1)
          (smp (map (fun k2 : nat => an_R_hhx a * ((smp (vs_m_dot_rl (en_values e)) k2 + smp (vs_m_dot_le (en_values e)) k2) / 2
             / smp (map (fun pres : R => fl_dens (s_fluid (en_state e)) (te_hhx (s_temp (en_state e))) pres) P) k2)) (seq 0 n)) k1)) (seq 0 n)) k0)
       (smp (map (fun k1 : nat => an_R_regen a * ((smp (vs_m_dot_kr (en_values e)) k1 + smp (vs_m_dot_rl (en_values e)) k1) / 2
             / smp (map (fun pres : R => fl_dens (s_fluid (en_state e)) (rt_avg (te_regen (s_temp (en_state e)))) pres) P) k1)) (seq 0 n)) k0)) (seq 0 n))) k
    = / 2 * total_drop e a k).
  { intros k Hkn. unfold dv_scale. rewrite smp_map_list by (rewrite map_length, seq_length; exact Hkn).
    rewrite !smp_map by exact Hkn. rewrite !smp_map_list by exact Hkn.
    rewrite R_nhalf. unfold total_drop. cbn zeta. fold P. cbn [n_add n_mul R_ops]. ring. }
  split; [apply map_seq_ext; intros k Hkn; rewrite HT by exact Hkn; reflexivity|].
  split; [apply map_seq_ext; intros k Hkn; rewrite HT by exact Hkn; reflexivity|].
  repeat split; congruence.
Qed.

(** ** C35 *)
Lemma results_parts (e : Engine R) r : RunResults_from e = Ret r ->
  exists p pw h f, ws_frequency (co_ws (en_components e)) (State_ws (en_state e)) = Ret f /\
    PressuresWithDrops_new e = Ret p /\ Powers_new p e = Ret pw /\
    Heats_new pw e = Ret h /\
    rrv_P_c (rr_values r) = pwd_P_c p /\ rrv_P_e (rr_values r) = pwd_P_e p /\
    rr_power r = mkRrPower (pw_indicated_zero_dP pw) (pw_indicated pw) (pw_shaft pw) (pw_net pw) /\
    rrh_input (rr_heat_flow r) = ht_input h /\ rrh_rejection (rr_heat_flow r) = ht_rejected h /\
    rr_shaft_torque r = pw_shaft pw / (2 * PI * f) /\
    rre_mechanical (rr_efficiency r) = pw_net pw / ht_input h.
Proof.
  unfold RunResults_from, Performance_from.
  destruct (ws_frequency (co_ws (en_components e)) (State_ws (en_state e))) as [f|]; [|discriminate]. cbn [obind].
  destruct (PressuresWithDrops_new e) as [p|]; [|discriminate]. cbn [obind].
  destruct (Powers_new p e) as [pw|] eqn:Epw; [|discriminate]. cbn [obind].
  destruct (Heats_new pw e) as [h|] eqn:Eh; [|discriminate]. cbn [obind].
  intros H. injection H as <-. exists p, pw, h, f. repeat split; assumption.
Qed.

Lemma answered_results (e : Engine R) r : RunResults_from e = Ret r -> exists a, answers e a.
Proof.
  intros H. destruct (results_parts e r H) as (p & pw & h & f & Hf & Hp & Hpw & Hh & _). clear H.
  unfold PressuresWithDrops_new in Hp.
  destruct (ex_hydraulic_resistance (co_chx (en_components e)) (State_chx (en_state e))) as [Rk|] eqn:E1; [|discriminate].
  cbn [obind] in Hp. destruct (calculate_hx_pressure_drop _ _ _ Rk); [|discriminate]. cbn [obind] in Hp.
  destruct (ex_hydraulic_resistance (co_hhx (en_components e)) (State_hhx (en_state e))) as [Rl|] eqn:E2; [|discriminate].
  cbn [obind] in Hp. destruct (calculate_hx_pressure_drop _ _ _ Rl); [|discriminate]. cbn [obind] in Hp.
  destruct (ex_hydraulic_resistance (co_regen (en_components e)) (State_regen (en_state e))) as [Rr|] eqn:E3; [|discriminate].
  clear Hp.
  unfold Powers_new, dV_dts in Hpw. rewrite Hf in Hpw. cbn [obind] in Hpw.
  destruct (ws_volumes (co_ws (en_components e)) (State_ws (en_state e))) as [vols|] eqn:E4; [|discriminate].
  cbn [obind] in Hpw. destruct (component_mul _ _); [|discriminate]. cbn [obind] in Hpw.
  destruct (component_mul _ _); [|discriminate]. cbn [obind] in Hpw.
  destruct (dv_add _ _); [|discriminate]. cbn [obind] in Hpw.
  destruct (dv_add _ _); [|discriminate]. cbn [obind] in Hpw.
  destruct (component_mul _ _); [|discriminate]. cbn [obind] in Hpw.
  destruct (ws_parasitics (co_ws (en_components e)) (State_ws (en_state e))) as [par|] eqn:E5; [|discriminate].
  cbn [obind] in Hpw.
  destruct (ex_parasitics (co_chx (en_components e)) (State_chx (en_state e))) as [pk|] eqn:E6; [|discriminate].
  cbn [obind] in Hpw.
  destruct (ex_parasitics (co_hhx (en_components e)) (State_hhx (en_state e))) as [pl|] eqn:E7; [|discriminate].
  clear Hpw.
  unfold Heats_new in Hh. rewrite Hf, E7 in Hh. cbn [obind] in Hh.
  destruct (ex_parasitics (co_regen (en_components e)) (State_regen (en_state e))) as [pr|] eqn:E8; [|discriminate].
  cbn [obind] in Hh. rewrite E5 in Hh. cbn [obind] in Hh.
  destruct (ws_thermal_resistance (co_ws (en_components e)) (State_ws (en_state e))) as [res|] eqn:E9; [|discriminate].
  exists (mkAnswers f vols par res Rk Rr Rl pk pr pl). unfold answers. cbn. repeat split; assumption.
Qed.

Lemma pressures_split (e : Engine R) a r : answers e a -> RunResults_from e = Ret r ->
  let P := vs_P (en_values e) in
  length (rrv_P_c (rr_values r)) = length P /\ length (rrv_P_e (rr_values r)) = length P /\
  forall k, (k < length P)%nat ->
    (smp (rrv_P_c (rr_values r)) k + smp (rrv_P_e (rr_values r)) k) / 2 = smp P k /\
    smp (rrv_P_c (rr_values r)) k - smp (rrv_P_e (rr_values r)) k = total_drop e a k.
Proof.
  intros Ha H. cbn zeta. destruct (results_parts e r H) as (p & pw & h & f & Hf & Hp & _ & _ & -> & -> & _).
  destruct (pwd_samples e a p Ha Hp) as (-> & -> & _).
  rewrite !map_length, seq_length. repeat split; rewrite !smp_map by assumption; field.
Qed.

Lemma pressures_equal (e : Engine R) a r : answers e a -> RunResults_from e = Ret r ->
  an_R_chx a = 0 -> an_R_regen a = 0 -> an_R_hhx a = 0 ->
  rrv_P_c (rr_values r) = vs_P (en_values e) /\ rrv_P_e (rr_values r) = vs_P (en_values e) /\
  rrp_indicated (rr_power r) = rrp_ideal_indicated (rr_power r).
Proof.
  intros Ha H Z1 Z2 Z3. destruct (results_parts e r H) as (p & pw & h & f & Hf & Hp & Hpw & _ & -> & -> & -> & _).
  destruct (pwd_samples e a p Ha Hp) as (E1 & E2 & _). cbn zeta in *.
  assert (Z : forall k, total_drop e a k = 0) by (intros k; unfold total_drop; rewrite Z1, Z2, Z3; ring).
  assert (EP : forall g, (forall k, g k = smp (vs_P (en_values e)) k) ->
    map g (seq 0 (length (vs_P (en_values e)))) = vs_P (en_values e)).
  { intros g Hg. rewrite (map_ext _ _ Hg). symmetry. apply as_samples. }
  rewrite EP in E1 by (intros k; rewrite Z; ring). rewrite EP in E2 by (intros k; rewrite Z; ring).
  split; [exact E1|]. split; [exact E2|]. cbn [rrp_indicated rrp_ideal_indicated].
  unfold Powers_new, dV_dts in Hpw. rewrite Hf, E1, E2 in Hpw. cbn [obind] in Hpw.
  destruct (ws_volumes (co_ws (en_components e)) (State_ws (en_state e))) as [vols|]; [|discriminate].
  cbn [obind] in Hpw. unfold component_mul, dv_add in Hpw.
  destruct (dv_zip n_mul _ _) as [wc|] eqn:Ewc in Hpw; [|discriminate]. cbn [obind] in Hpw.
  destruct (dv_zip n_mul _ _) as [we|] eqn:Ewe in Hpw; [|discriminate]. cbn [obind] in Hpw.
  destruct (dv_zip n_add _ _) as [w|] eqn:Ew in Hpw; [|discriminate]. cbn [obind] in Hpw.
  destruct (dv_zip n_add _ _) as [dd|] eqn:Ed in Hpw; [|discriminate]. cbn [obind] in Hpw.
  destruct (dv_zip n_mul _ _) as [w0|] eqn:Ew0 in Hpw; [|discriminate]. cbn [obind] in Hpw.
  destruct (ws_parasitics _ _); [|discriminate]. cbn [obind] in Hpw.
  destruct (ex_parasitics _ _); [|discriminate]. cbn [obind] in Hpw.
  destruct (ex_parasitics _ _); [|discriminate]. cbn [obind] in Hpw.
  injection Hpw as <-. cbn [pw_indicated pw_indicated_zero_dP]. do 2 f_equal.
  apply dv_zip_samples in Ewc as [L1 ->], Ewe as [L2 ->], Ew as [L3 ->], Ed as [L4 ->], Ew0 as [L5 ->].
  rewrite map_length, seq_length. apply map_seq_ext. intros k Hk.
  rewrite !smp_map by congruence. cbn [n_add n_mul R_ops]. ring.
Qed.

(** ** C36 *)
Lemma power_chain (e : Engine R) a r : answers e a -> RunResults_from e = Ret r ->
  let v := en_values e in let n := length (vs_P v) in
  let w := rr_power r in
  rrp_indicated w = per_second (an_freq a) (vs_time v) n
    (work_rate a (vs_time v) (rrv_P_c (rr_values r)) (rrv_P_e (rr_values r))) /\
  rrp_ideal_indicated w = per_second (an_freq a) (vs_time v) n (work_rate a (vs_time v) (vs_P v) (vs_P v)) /\
  rrp_indicated w - rrp_shaft w = space_friction a /\
  rrp_shaft w - rrp_net w = pp_mechanical (an_chx a) + pp_mechanical (an_hhx a) /\
  (an_freq a <> 0 -> rr_shaft_torque r * (2 * PI * an_freq a) = rrp_shaft w) /\
  (rrh_input (rr_heat_flow r) <> 0 ->
   rre_mechanical (rr_efficiency r) * rrh_input (rr_heat_flow r) = rrp_net w).
Proof.
  intros Ha H. cbn zeta.
  destruct (results_parts e r H) as (p & pw & h & f & Hf & Hp & Hpw & _ & -> & -> & -> & -> & _ & -> & ->).
  destruct (pwd_samples e a p Ha Hp) as (E1 & E2 & _). cbn zeta in *.
  pose proof Ha as (Hf' & Hv & Hpar & _ & _ & _ & _ & Hk & _ & Hl). cbn zeta in *.
  change (ws_frequency (co_ws (en_components e)) (State_ws (en_state e)) = Ret (an_freq a)) in Hf'.
  change (ws_volumes (co_ws (en_components e)) (State_ws (en_state e)) = Ret (an_vols a)) in Hv.
  change (ws_parasitics (co_ws (en_components e)) (State_ws (en_state e)) = Ret (an_par a)) in Hpar.
  change (ex_parasitics (co_chx (en_components e)) (State_chx (en_state e)) = Ret (an_chx a)) in Hk.
  change (ex_parasitics (co_hhx (en_components e)) (State_hhx (en_state e)) = Ret (an_hhx a)) in Hl.
  rewrite Hf' in Hf. injection Hf as <-.
  set (n := length (vs_P (en_values e))) in *.
  assert (LC : length (pwd_P_c p) = n) by (rewrite E1, map_length, seq_length; reflexivity).
  assert (LE : length (pwd_P_e p) = n) by (rewrite E2, map_length, seq_length; reflexivity).
  unfold Powers_new, dV_dts in Hpw. rewrite Hf', Hv in Hpw. cbn [obind] in Hpw.
  unfold component_mul, dv_add in Hpw.
  destruct (dv_zip n_mul _ _) as [wc|] eqn:Ewc in Hpw; [|discriminate]. cbn [obind] in Hpw.
  destruct (dv_zip n_mul _ _) as [we|] eqn:Ewe in Hpw; [|discriminate]. cbn [obind] in Hpw.
  destruct (dv_zip n_add _ _) as [ww|] eqn:Ew in Hpw; [|discriminate]. cbn [obind] in Hpw.
  destruct (dv_zip n_add _ _) as [dd|] eqn:Ed in Hpw; [|discriminate]. cbn [obind] in Hpw.
  destruct (dv_zip n_mul _ _) as [w0|] eqn:Ew0 in Hpw; [|discriminate]. cbn [obind] in Hpw.
  rewrite Hpar, Hk, Hl in Hpw. cbn [obind] in Hpw.
  injection Hpw as <-.
  cbn [pw_indicated pw_indicated_zero_dP pw_shaft pw_net rrp_indicated rrp_ideal_indicated rrp_shaft rrp_net].
  apply dv_zip_samples in Ewc as [L1 ->], Ewe as [L2 ->], Ew as [L3 ->], Ed as [L4 ->], Ew0 as [L5 ->].
  rewrite !map_length in L1, L2. rewrite LC in L1. rewrite LE in L2.
  assert (DC : forall k, (k < n)%nat ->
    smp (map (fun v : Volume R * Volume R => v_deriv (fst v)) (map (an_vols a) (vs_time (en_values e)))) k
    = v_deriv (fst (an_vols a (smp (vs_time (en_values e)) k)))).
  { intros k Hkn. rewrite map_map. apply (smp_map_list (fun t => v_deriv (fst (an_vols a t)))). congruence. }
  assert (DE : forall k, (k < n)%nat ->
    smp (map (fun v : Volume R * Volume R => v_deriv (snd v)) (map (an_vols a) (vs_time (en_values e)))) k
    = v_deriv (snd (an_vols a (smp (vs_time (en_values e)) k)))).
  { intros k Hkn. rewrite map_map. apply (smp_map_list (fun t => v_deriv (snd (an_vols a t)))). congruence. }
  split; [|split; [|split; [|split; [|split]]]].
  - unfold per_second. cbn [n_mul R_ops]. f_equal.
    change (perf_integrate (vs_time (en_values e))) with (integrate (vs_time (en_values e))).
    rewrite integrate_trapezoid. do 2 f_equal. rewrite map_length, seq_length, LC, LE. apply map_seq_ext.
    intros k Hkn. rewrite !smp_map by exact Hkn. rewrite DC, DE by exact Hkn. reflexivity.
  - unfold per_second. cbn [n_mul R_ops]. f_equal.
    change (perf_integrate (vs_time (en_values e))) with (integrate (vs_time (en_values e))).
    rewrite integrate_trapezoid. do 2 f_equal. fold n. apply map_seq_ext.
    intros k Hkn. rewrite !map_length, L1. rewrite !smp_map by exact Hkn. rewrite DC, DE by exact Hkn.
    unfold work_rate. cbn zeta. cbn [n_add n_mul R_ops]. ring.
  - unfold space_friction. cbn [n_sub R_ops]. ring.
  - cbn [n_sub R_ops]. ring.
  - intros Hnf. field. split; [exact Hnf|]. pose proof PI_RGT_0. lra.
  - intros Hin. field. exact Hin.
Qed.

(** ** C22 *)
Lemma sub_element (l : list R) x r : dv_sub l (dv_from_element (length l) x) = Ret r ->
  r = map (fun y => y - x) l.
Proof.
  unfold dv_sub, dv_from_element. revert r. induction l as [|y l IH]; intros r H; cbn [length repeat dv_zip] in H.
  - injection H as <-. reflexivity.
  - destruct (dv_zip n_sub l (repeat x (length l))) as [r'|]; [|discriminate]. injection H as <-.
    cbn [map]. rewrite (IH r' eq_refl). reflexivity.
Qed.
Lemma heat_report (e : Engine R) a r : answers e a -> RunResults_from e = Ret r ->
  let v := en_values e in let f := an_freq a in
  rrh_input (rr_heat_flow r) =
    per_second f (vs_time v) (length (vs_T_e v)) (wall_in e a)
    + per_second f (vs_time v) (length (vs_Q_dot_l v)) (smp (vs_Q_dot_l v)) + external_losses a /\
  rrh_rejection (rr_heat_flow r) =
    per_second f (vs_time v) (length (vs_T_c v)) (wall_out e a)
    + per_second f (vs_time v) (length (vs_Q_dot_k v)) (smp (vs_Q_dot_k v))
    + (rrp_ideal_indicated (rr_power r) - rrp_indicated (rr_power r))
    + space_friction a + external_losses a.
Proof.
  intros Ha H. cbn zeta.
  destruct (results_parts e r H) as (p & pw & h & f & Hf & _ & _ & Hh & _ & _ & -> & -> & -> & _).
  pose proof Ha as (Hf' & _ & Hpar & Hres & _ & _ & _ & _ & Hr & Hl). cbn zeta in *.
  change (ws_frequency (co_ws (en_components e)) (State_ws (en_state e)) = Ret (an_freq a)) in Hf'.
  change (ws_parasitics (co_ws (en_components e)) (State_ws (en_state e)) = Ret (an_par a)) in Hpar.
  change (ws_thermal_resistance (co_ws (en_components e)) (State_ws (en_state e)) = Ret (an_res a)) in Hres.
  change (ex_parasitics (co_regen (en_components e)) (State_regen (en_state e)) = Ret (an_regen a)) in Hr.
  change (ex_parasitics (co_hhx (en_components e)) (State_hhx (en_state e)) = Ret (an_hhx a)) in Hl.
  unfold Heats_new in Hh. rewrite Hf', Hl, Hr, Hpar, Hres in Hh. cbn [obind] in Hh.
  destruct (dv_sub (vs_T_e (en_values e)) _) as [de|] eqn:Ee; [|discriminate]. cbn [obind] in Hh.
  destruct (dv_sub (vs_T_c (en_values e)) _) as [dc|] eqn:Ec; [|discriminate]. cbn [obind] in Hh.
  apply sub_element in Ee, Ec. subst de dc.
  injection Hh as <-. cbn [ht_input ht_rejected rrp_ideal_indicated rrp_indicated].
  change (perf_integrate (vs_time (en_values e))) with (integrate (vs_time (en_values e))).
  rewrite !integrate_trapezoid. unfold per_second. rewrite <- !as_samples.
  assert (EI : trapezoid (combine (vs_time (en_values e)) (map (wall_in e a) (seq 0 (length (vs_T_e (en_values e))))))
    = - trapezoid (combine (vs_time (en_values e))
         (dv_div_scalar (map (fun y => y - te_hhx (s_temp (en_state e))) (vs_T_e (en_values e))) (tr_exp (an_res a))))).
  { unfold dv_div_scalar. rewrite map_map.
    rewrite (map_as_samples (fun x => n_div (x - te_hhx (s_temp (en_state e))) (tr_exp (an_res a)))).
    replace (- trapezoid _) with (0 - trapezoid (combine (vs_time (en_values e)) (map
      (fun k => (smp (vs_T_e (en_values e)) k - te_hhx (s_temp (en_state e))) / tr_exp (an_res a))
      (seq 0 (length (vs_T_e (en_values e))))))) by (cbn [n_div R_ops]; ring).
    rewrite <- (trapezoid_zero (seq 0 (length (vs_T_e (en_values e)))) (vs_time (en_values e))).
    rewrite <- trapezoid_minus. apply trapezoid_ext. intros k _. unfold wall_in, Rdiv. ring. }
  assert (EO : trapezoid (combine (vs_time (en_values e)) (map (wall_out e a) (seq 0 (length (vs_T_c (en_values e))))))
    = trapezoid (combine (vs_time (en_values e))
         (dv_div_scalar (map (fun y => y - te_chx (s_temp (en_state e))) (vs_T_c (en_values e))) (tr_comp (an_res a))))).
  { unfold dv_div_scalar. rewrite map_map.
    rewrite (map_as_samples (fun x => n_div (x - te_chx (s_temp (en_state e))) (tr_comp (an_res a)))). reflexivity. }
  rewrite EI, EO. unfold external_losses, space_friction. cbn [n_add n_sub n_mul R_ops].
  split; ring.
Qed.

Lemma per_second_average f time y t : f * t = 1 ->
  per_second f time (length y) (smp y) = average time y t.
Proof.
  intros H. unfold per_second, average. rewrite <- as_samples.
  assert (Ht : t <> 0) by (intros ->; lra). replace f with (/ t); [unfold Rdiv; ring|].
  apply Rmult_eq_reg_r with t; [|exact Ht]. rewrite H. field. exact Ht.
Qed.
(** the report and the state use the same wall terms *)
Lemma heat_agreement (e : Engine R) a r h t : answers e a -> RunResults_from e = Ret r ->
  HeatFlows_from_values (en_values e) (te_chx (s_temp (en_state e))) (te_hhx (s_temp (en_state e)))
    (an_res a) = Ret h ->
  last_unwrap (vs_time (en_values e)) = Ret t -> an_freq a * t = 1 ->
  rrh_input (rr_heat_flow r) = hf_hhx h + external_losses a /\
  rrh_rejection (rr_heat_flow r) =
    hf_chx h + (rrp_ideal_indicated (rr_power r) - rrp_indicated (rr_power r))
    + space_friction a + external_losses a.
Proof.
  intros Ha Hr Hh Ht Hf. destruct (heat_report e a r Ha Hr) as [-> ->].
  destruct (heat_flows _ _ _ _ _ Hh) as (t' & Ht' & -> & _ & ->). rewrite Ht in Ht'. injection Ht' as <-.
  rewrite !(per_second_average _ _ _ t Hf).
  assert (E1 : per_second (an_freq a) (vs_time (en_values e)) (length (vs_T_e (en_values e))) (wall_in e a)
    = average (vs_time (en_values e)) (map (fun T => (te_hhx (s_temp (en_state e)) - T) / tr_exp (an_res a)) (vs_T_e (en_values e))) t).
  { rewrite <- (per_second_average (an_freq a)) by exact Hf. unfold per_second. rewrite <- as_samples.
    rewrite map_as_samples. reflexivity. }
  assert (E2 : per_second (an_freq a) (vs_time (en_values e)) (length (vs_T_c (en_values e))) (wall_out e a)
    = average (vs_time (en_values e)) (map (fun T => (T - te_chx (s_temp (en_state e))) / tr_comp (an_res a)) (vs_T_c (en_values e))) t).
  { rewrite <- (per_second_average (an_freq a)) by exact Hf. unfold per_second. rewrite <- as_samples.
    rewrite map_as_samples. reflexivity. }
  rewrite E1, E2. split; reflexivity.
Qed.

(** ** C37 *)
Lemma Forall2_map {A B} (g : A -> B) l l' : Forall2 (fun x y => y = g x) l l' -> l' = map g l.
Proof. induction 1 as [|x y l l' -> _ IH]; [reflexivity|]. cbn. now rewrite IH. Qed.
Lemma map_two {A} (G : R -> R -> R) (t p : A -> R) (l : list A) :
  map (fun k => G (smp (map t l) k) (smp (map p l) k)) (seq 0 (length l)) = map (fun v => G (t v) (p v)) l.
Proof.
  unfold smp. induction l as [|a l IH]; [reflexivity|].
  cbn [length seq map nth]. f_equal. rewrite <- seq_shift, map_map. exact IH.
Qed.
Lemma trapezoid_map {A} (t g : A -> R) (l : list A) :
  trapezoid (combine (map t l) (map g l)) = trapezoid (map (fun v => (t v, g v)) l).
Proof. f_equal. induction l as [|a l IH]; [reflexivity|]. cbn. now rewrite IH. Qed.

Lemma first_law (D : Decomp R) (e : Engine R) c vs a r :
  sound D -> solved_engine D e c vs -> answers e a -> RunResults_from e = Ret r ->
  fl_enth (s_fluid (en_state e)) (te_sink (s_temp (en_state e))) (pr_avg (s_pres (en_state e)))
    + fl_enth (s_fluid (en_state e)) (te_source (s_temp (en_state e))) (pr_avg (s_pres (en_state e))) <> 0 ->
  let T := s_temp (en_state e) in
  let Q_par := pp_thermal (par_comp (an_par a)) + pp_thermal (par_exp (an_par a)) in
  rrh_input (rr_heat_flow r) - rrh_rejection (rr_heat_flow r) - rrp_shaft (rr_power r) =
    per_second_of (an_freq a) vs (fun v => energy_rate c v + so_Q_dot_r (sv_solution v) + Q_par)
    + per_second_of (an_freq a) vs (fun v => (te_hhx T - cd_T_e (sv_conditions v)) / tr_exp (an_res a))
    - per_second_of (an_freq a) vs (fun v => (cd_T_c (sv_conditions v) - te_chx T) / tr_comp (an_res a)).
Proof.
  intros HD (Hc & Hs & HV) Ha Hr Hn. cbn zeta in *.
  destruct (heat_report e a r Ha Hr) as [-> ->].
  destruct (power_chain e a r Ha Hr) as (_ & HI & HF & _). cbn zeta in *. rewrite HI.
  replace (rrp_shaft (rr_power r)) with (rrp_indicated (rr_power r) - space_friction a) by lra. clear HF.
  destruct Hs as (E1 & E2 & E3 & E4 & _ & _ & _ & _ & E9 & _ & E11).
  apply Forall2_map in E1, E2, E3, E4, E9, E11.
  set (W := per_second (an_freq a) (vs_time (en_values e)) (length (vs_P (en_values e)))
               (work_rate a (vs_time (en_values e)) (vs_P (en_values e)) (vs_P (en_values e)))).
  assert (EW : W = per_second_of (an_freq a) vs (fun v => cd_P (sv_conditions v) *
      (v_deriv (fst (an_vols a (sv_time v))) + v_deriv (snd (an_vols a (sv_time v)))))).
  { unfold W, per_second, per_second_of. f_equal. rewrite <- trapezoid_map, E1. do 2 f_equal.
    unfold work_rate. rewrite E2, map_length.
    rewrite (map_two (fun t p => p * v_deriv (fst (an_vols a t)) + p * v_deriv (snd (an_vols a t)))).
    apply map_ext. intros v. ring. }
  assert (EI : per_second (an_freq a) (vs_time (en_values e)) (length (vs_T_e (en_values e))) (wall_in e a)
    = per_second_of (an_freq a) vs (fun v => (te_hhx (s_temp (en_state e)) - cd_T_e (sv_conditions v)) / tr_exp (an_res a))).
  { unfold per_second, per_second_of. f_equal. rewrite <- trapezoid_map, E1. do 2 f_equal.
    transitivity (map (fun x => (te_hhx (s_temp (en_state e)) - x) / tr_exp (an_res a)) (vs_T_e (en_values e))).
    - rewrite map_as_samples. reflexivity.
    - rewrite E4, map_map. reflexivity. }
  assert (EO : per_second (an_freq a) (vs_time (en_values e)) (length (vs_T_c (en_values e))) (wall_out e a)
    = per_second_of (an_freq a) vs (fun v => (cd_T_c (sv_conditions v) - te_chx (s_temp (en_state e))) / tr_comp (an_res a))).
  { unfold per_second, per_second_of. f_equal. rewrite <- trapezoid_map, E1. do 2 f_equal.
    transitivity (map (fun x => (x - te_chx (s_temp (en_state e))) / tr_comp (an_res a)) (vs_T_c (en_values e))).
    - rewrite map_as_samples. reflexivity.
    - rewrite E3, map_map. reflexivity. }
  assert (EL : per_second (an_freq a) (vs_time (en_values e)) (length (vs_Q_dot_l (en_values e))) (smp (vs_Q_dot_l (en_values e)))
    = per_second_of (an_freq a) vs (fun v => so_Q_dot_l (sv_solution v))).
  { unfold per_second, per_second_of. f_equal. rewrite <- as_samples, E1, E11. apply trapezoid_map. }
  assert (EK : per_second (an_freq a) (vs_time (en_values e)) (length (vs_Q_dot_k (en_values e))) (smp (vs_Q_dot_k (en_values e)))
    = per_second_of (an_freq a) vs (fun v => so_Q_dot_k (sv_solution v))).
  { unfold per_second, per_second_of. f_equal. rewrite <- as_samples, E1, E9. apply trapezoid_map. }
  rewrite EW, EI, EO, EL, EK.
  assert (EQ : per_second_of (an_freq a) vs (fun v => energy_rate c v + so_Q_dot_r (sv_solution v)
        + (pp_thermal (par_comp (an_par a)) + pp_thermal (par_exp (an_par a))))
    = per_second_of (an_freq a) vs (fun v => so_Q_dot_l (sv_solution v) - so_Q_dot_k (sv_solution v)
        - cd_P (sv_conditions v) * (v_deriv (fst (an_vols a (sv_time v))) + v_deriv (snd (an_vols a (sv_time v)))))).
  { unfold per_second_of. f_equal. f_equal. apply map_ext_in. intros v Hv. f_equal.
    rewrite Forall_forall in HV. specialize (HV v Hv). apply solve_accepts in HV.
    destruct Hc as (vols & freq & par & V_k & V_r & V_l & Hvo & _ & Hpa & _ & _ & _ & _ & _ & Hin).
    destruct Ha as (_ & Hvo' & Hpa' & _). cbn zeta in *.
    rewrite Hvo in Hvo'. injection Hvo' as Hvo'. rewrite Hpa in Hpa'. injection Hpa' as Hpa'. subst vols par.
    unfold energy_rate. specialize (Hin (sv_time v) (sv_conditions v)). rewrite Hin in *.
    apply energy_conserved in HV as [_ ->]; [|exact HD|].
    - cbn [in_comp in_exp in_pres gas_in_space wi_Q_dot wi_dV_dt]. ring.
    - cbn [in_enth_norm]. rewrite R_nhalf. cbn [n_mul n_add R_ops]. intros Z. apply Hn. lra. }
  rewrite EQ.
  assert (EM : per_second_of (an_freq a) vs (fun v => so_Q_dot_l (sv_solution v) - so_Q_dot_k (sv_solution v)
        - cd_P (sv_conditions v) * (v_deriv (fst (an_vols a (sv_time v))) + v_deriv (snd (an_vols a (sv_time v)))))
    = per_second_of (an_freq a) vs (fun v => so_Q_dot_l (sv_solution v))
      - per_second_of (an_freq a) vs (fun v => so_Q_dot_k (sv_solution v))
      - per_second_of (an_freq a) vs (fun v => cd_P (sv_conditions v) * (v_deriv (fst (an_vols a (sv_time v))) + v_deriv (snd (an_vols a (sv_time v)))))).
  { unfold per_second_of. rewrite <- !trapezoid_map.
    rewrite (trapezoid_minus (fun v => so_Q_dot_l (sv_solution v) - so_Q_dot_k (sv_solution v))
      (fun v => cd_P (sv_conditions v) * (v_deriv (fst (an_vols a (sv_time v))) + v_deriv (snd (an_vols a (sv_time v)))))).
    rewrite (trapezoid_minus (fun v => so_Q_dot_l (sv_solution v)) (fun v => so_Q_dot_k (sv_solution v))). ring. }
  rewrite EM. ring.
Qed.

Lemma first_law_adiabatic (D : Decomp R) (e : Engine R) c vs a r :
  sound D -> solved_engine D e c vs -> answers e a -> RunResults_from e = Ret r ->
  fl_enth (s_fluid (en_state e)) (te_sink (s_temp (en_state e))) (pr_avg (s_pres (en_state e)))
    + fl_enth (s_fluid (en_state e)) (te_source (s_temp (en_state e))) (pr_avg (s_pres (en_state e))) <> 0 ->
  pp_thermal (par_comp (an_par a)) = 0 -> pp_thermal (par_exp (an_par a)) = 0 ->
  (forall v, In v vs -> (te_hhx (s_temp (en_state e)) - cd_T_e (sv_conditions v)) / tr_exp (an_res a) = 0 /\
                        (cd_T_c (sv_conditions v) - te_chx (s_temp (en_state e))) / tr_comp (an_res a) = 0) ->
  rrh_input (rr_heat_flow r) - rrh_rejection (rr_heat_flow r) - rrp_shaft (rr_power r) =
    per_second_of (an_freq a) vs (energy_rate c)
    + per_second_of (an_freq a) vs (fun v => so_Q_dot_r (sv_solution v)).
Proof.
  intros HD He Ha Hr Hn Z1 Z2 ZW. rewrite (first_law D e c vs a r HD He Ha Hr Hn), Z1, Z2.
  unfold per_second_of. rewrite <- !trapezoid_map.
  rewrite (trapezoid_ext (fun v => (te_hhx (s_temp (en_state e)) - cd_T_e (sv_conditions v)) / tr_exp (an_res a)) (fun _ => 0))
    by (intros v Hv; apply (ZW v Hv)).
  rewrite (trapezoid_ext (fun v => (cd_T_c (sv_conditions v) - te_chx (s_temp (en_state e))) / tr_comp (an_res a)) (fun _ => 0))
    by (intros v Hv; apply (ZW v Hv)).
  rewrite trapezoid_zero.
  rewrite (trapezoid_ext _ (fun v => energy_rate c v + so_Q_dot_r (sv_solution v))) by (intros; ring).
  rewrite (trapezoid_plus (energy_rate c)). ring.
Qed.

Lemma run_solved E (D : Decomp R) comps fl inputs settings (e : Engine R) :
  Engine_run E D comps fl inputs settings = Ret (Ok e) -> exists c vs, solved_engine D e c vs.
Proof.
  intros H. apply run_steady in H as (c & ic & pts2 & n & pts & vs & Hc & _ & _ & _ & _ & _ & HV & HS).
  exists c, vs. split; [exact Hc|]. split; [exact HS|].
  clear - HV. induction HV as [|p v pts vs (Ht & Hcd & HU) _ IH]; constructor; [|exact IH].
  rewrite Ht, Hcd. exact HU.
Qed.
