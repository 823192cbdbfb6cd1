(** * Gas properties in exact arithmetic *)
From Coq Require Import ZArith NArith List Reals Lra Lia.
From Verif Require Import Num ModelTypes ModelWs ModelHx ModelStateEq ModelEngine RNum Spec SpecR SpecGas
  PolySolve RSolve.
Local Open Scope R_scope.

(** ** Derivatives *)
Lemma deriv_eq f x l l' : derivable_pt_lim f x l -> l = l' -> derivable_pt_lim f x l'.
Proof. intros H <-. exact H. Qed.
Lemma deriv_ext f g x l : (forall y, f y = g y) -> derivable_pt_lim f x l -> derivable_pt_lim g x l.
Proof.
  intros E H eps He. destruct (H eps He) as [d Hd]. exists d. intros h H0 H1.
  rewrite <- !E. exact (Hd h H0 H1).
Qed.
Lemma deriv_local f g x l e : 0 < e -> (forall y, Rabs (y - x) < e -> f y = g y) ->
  derivable_pt_lim f x l -> derivable_pt_lim g x l.
Proof.
  intros He E H eps Heps. destruct (H eps Heps) as [d Hd].
  assert (Hm : 0 < Rmin d e) by (apply Rmin_pos; [apply d|exact He]).
  exists (mkposreal _ Hm). intros h H0 H1. cbn in H1.
  pose proof (Rmin_l d e). pose proof (Rmin_r d e).
  rewrite <- (E (x + h)), <- (E x).
  - apply Hd; [exact H0|lra].
  - unfold Rminus. rewrite Rplus_opp_r, Rabs_R0. exact He.
  - replace (x + h - x) with h by ring. lra.
Qed.
Lemma deriv_const a x : derivable_pt_lim (fun _ => a) x 0.
Proof. exact (derivable_pt_lim_const a x). Qed.
Lemma deriv_id x : derivable_pt_lim (fun y => y) x 1.
Proof. exact (derivable_pt_lim_id x). Qed.
Lemma deriv_plus f g x a b : derivable_pt_lim f x a -> derivable_pt_lim g x b ->
  derivable_pt_lim (fun y => f y + g y) x (a + b).
Proof. exact (derivable_pt_lim_plus f g x a b). Qed.
Lemma deriv_minus f g x a b : derivable_pt_lim f x a -> derivable_pt_lim g x b ->
  derivable_pt_lim (fun y => f y - g y) x (a - b).
Proof. exact (derivable_pt_lim_minus f g x a b). Qed.
Lemma deriv_mult f g x a b : derivable_pt_lim f x a -> derivable_pt_lim g x b ->
  derivable_pt_lim (fun y => f y * g y) x (a * g x + f x * b).
Proof. exact (derivable_pt_lim_mult f g x a b). Qed.
Lemma deriv_opp f x a : derivable_pt_lim f x a -> derivable_pt_lim (fun y => - f y) x (- a).
Proof. exact (derivable_pt_lim_opp f x a). Qed.
Lemma deriv_div f g x a b : derivable_pt_lim f x a -> derivable_pt_lim g x b -> g x <> 0 ->
  derivable_pt_lim (fun y => f y / g y) x ((a * g x - b * f x) / (g x * g x)).
Proof.
  intros Hf Hg Hn. pose proof (derivable_pt_lim_div f g x a b Hf Hg Hn) as H.
  unfold Rsqr in H. exact H.
Qed.
Lemma deriv_comp f g x a b : derivable_pt_lim f x a -> derivable_pt_lim g (f x) b ->
  derivable_pt_lim (fun y => g (f y)) x (b * a).
Proof. exact (derivable_pt_lim_comp f g x a b). Qed.
Lemma deriv_cos f x a : derivable_pt_lim f x a -> derivable_pt_lim (fun y => cos (f y)) x (- sin (f x) * a).
Proof. intros H. exact (deriv_comp f cos x a _ H (derivable_pt_lim_cos (f x))). Qed.
Lemma deriv_sin f x a : derivable_pt_lim f x a -> derivable_pt_lim (fun y => sin (f y)) x (cos (f x) * a).
Proof. intros H. exact (deriv_comp f sin x a _ H (derivable_pt_lim_sin (f x))). Qed.
Lemma deriv_sqrt f x a : derivable_pt_lim f x a -> 0 < f x ->
  derivable_pt_lim (fun y => sqrt (f y)) x (/ (2 * sqrt (f x)) * a).
Proof. intros H P. exact (deriv_comp f sqrt x a _ H (derivable_pt_lim_sqrt (f x) P)). Qed.

(** builds a derivative by following the expression *)
Ltac deriv :=
  lazymatch goal with
  | |- derivable_pt_lim (fun _ => ?a) _ _ => apply deriv_const
  | |- derivable_pt_lim (fun y => y) _ _ => apply deriv_id
  | |- derivable_pt_lim (Rmult ?a) ?x ?l => change (derivable_pt_lim (fun y => a * y) x l); deriv
  | |- derivable_pt_lim (Rplus ?a) ?x ?l => change (derivable_pt_lim (fun y => a + y) x l); deriv
  | |- derivable_pt_lim (Rminus ?a) ?x ?l => change (derivable_pt_lim (fun y => a - y) x l); deriv
  | |- derivable_pt_lim Ropp ?x ?l => change (derivable_pt_lim (fun y => - y) x l); deriv
  | |- derivable_pt_lim cos ?x ?l => change (derivable_pt_lim (fun y => cos y) x l); deriv
  | |- derivable_pt_lim sin ?x ?l => change (derivable_pt_lim (fun y => sin y) x l); deriv
  | |- derivable_pt_lim (fun y => _ + _) _ _ => eapply deriv_plus; deriv
  | |- derivable_pt_lim (fun y => _ - _) _ _ => eapply deriv_minus; deriv
  | |- derivable_pt_lim (fun y => _ * _) _ _ => eapply deriv_mult; deriv
  | |- derivable_pt_lim (fun y => - _) _ _ => eapply deriv_opp; deriv
  | |- derivable_pt_lim (fun y => _ / _) _ _ => eapply deriv_div; [deriv|deriv|cbv beta]
  | |- derivable_pt_lim (fun y => cos _) _ _ => eapply deriv_cos; deriv
  | |- derivable_pt_lim (fun y => sin _) _ _ => eapply deriv_sin; deriv
  | |- derivable_pt_lim (fun y => sqrt _) _ _ => eapply deriv_sqrt; [deriv|cbv beta]
  | |- _ => idtac
  end.

(** decimal numbers as fractions *)
Ltac decimals := unfold Q2R; cbn [QArith_base.Qnum QArith_base.Qden].

(** ** The functions over the reals *)
Section Gas.
  Variable g : IdealGas R.
  Let Rg := ig_gas_constant g.

  Lemma dens_eq T P : ig_dens g T P = P / (Rg * T).
  Proof. reflexivity. Qed.
  Lemma dd_dP_T_eq T P : ig_dd_dP_T g T P = 1 / (Rg * T).
  Proof. reflexivity. Qed.
  Lemma dd_dT_P_eq T P : ig_dd_dT_P g T P = - P / (Rg * (T * T)).
  Proof. reflexivity. Qed.
  Lemma inte_eq T P : ig_inte g T P = ig_enth g T P - Rg * (T - ig_ref_temp g).
  Proof. reflexivity. Qed.
  Lemma enth_eq T P : ig_enth g T P = (T - ig_ref_temp g) * poly (ig_enth_coefs g) T.
  Proof. unfold ig_enth, poly, arr6_map. cbn. ring. Qed.

  Hypothesis HR : 0 < Rg.

  Lemma dens_law T P : 0 < T -> P = ig_dens g T P * Rg * T.
  Proof. intros HT. rewrite dens_eq. field. lra. Qed.
  Lemma dd_dP_T_deriv T P : 0 < T -> has_deriv (fun p => ig_dens g T p) P (ig_dd_dP_T g T P).
  Proof.
    intros HT. unfold has_deriv. rewrite dd_dP_T_eq.
    assert (Rg * T <> 0) by (apply Rgt_not_eq, Rmult_lt_0_compat; assumption).
    eapply deriv_eq; [apply (deriv_ext (fun p => p / (Rg * T))); [reflexivity|deriv; assumption]|].
    cbv beta. field. lra.
  Qed.
  Lemma dd_dT_P_deriv T P : 0 < T -> has_deriv (fun t => ig_dens g t P) T (ig_dd_dT_P g T P).
  Proof.
    intros HT. unfold has_deriv. rewrite dd_dT_P_eq.
    assert (Rg * T <> 0) by (apply Rgt_not_eq, Rmult_lt_0_compat; assumption).
    eapply deriv_eq; [apply (deriv_ext (fun t => P / (Rg * t))); [reflexivity|deriv; assumption]|].
    cbv beta. field. lra.
  Qed.
  Lemma du_dP_T_deriv T P : has_deriv (fun p => ig_inte g T p) P (ig_du_dP_T g T P).
  Proof. exact (deriv_const (ig_inte g T P) P). Qed.

  Lemma h_minus_u T P : 0 < T -> P <> 0 ->
    ig_enth g T P = ig_inte g T P + P / ig_dens g T P - Rg * ig_ref_temp g.
  Proof. intros HT HP. rewrite inte_eq, dens_eq. field. repeat split; try exact HP; lra. Qed.
End Gas.

Definition he : IdealGas R := IdealGas_helium.
Definition h2 : IdealGas R := IdealGas_hydrogen.
Lemma he_R : ig_gas_constant he = 2077.23.
Proof. reflexivity. Qed.
Lemma he_ref : ig_ref_temp he = 250.
Proof. reflexivity. Qed.
Lemma h2_R : ig_gas_constant h2 = 4124.2.
Proof. reflexivity. Qed.
Lemma h2_ref : ig_ref_temp h2 = 250.
Proof. reflexivity. Qed.
Lemma gas_R_pos name : 0 < ig_gas_constant (IdealGas_new name : IdealGas R).
Proof.
  destruct name; [change (0 < ig_gas_constant he); rewrite he_R|change (0 < ig_gas_constant h2); rewrite h2_R]; lra.
Qed.
Lemma gas_ref name : ig_ref_temp (IdealGas_new name : IdealGas R) = 250.
Proof. destruct name; reflexivity. Qed.

Lemma he_cp T P : ig_cp he T P = 5193.17.
Proof.
  unfold ig_cp, poly, he, IdealGas_helium, IdealGas_new. cbn -[R_lit IZR].
  unfold R_lit. cbn [Z.pow_pos Pos.iter]. cbn -[IZR]. lra.
Qed.
Lemma he_enth T P : ig_enth he T P = 5193.17 * (T - 250).
Proof.
  rewrite enth_eq, he_ref. unfold poly, he, IdealGas_helium, IdealGas_new. cbn -[R_lit IZR].
  unfold R_lit. cbn -[IZR]. decimals. field.
Qed.
Lemma he_inte T P : ig_inte he T P = (5193.17 - 2077.23) * (T - 250).
Proof. rewrite inte_eq, he_enth, he_R, he_ref. ring. Qed.
Lemma he_du_dT T P : ig_du_dT_P he T P = 5193.17 - 2077.23.
Proof.
  unfold ig_du_dT_P. rewrite he_cp, he_R. reflexivity.
Qed.

(** C30, helium *)
Lemma he_cp_deriv T P : has_deriv (fun t => ig_enth he t P) T (ig_cp he T P).
Proof.
  rewrite he_cp. unfold has_deriv.
  eapply deriv_eq; [apply (deriv_ext (fun t => 5193.17 * (t - 250))); [intros; symmetry; apply he_enth|deriv]|].
  cbv beta. ring.
Qed.
Lemma he_du_deriv T P : has_deriv (fun t => ig_inte he t P) T (ig_du_dT_P he T P).
Proof.
  rewrite he_du_dT. unfold has_deriv.
  eapply deriv_eq; [apply (deriv_ext (fun t => (5193.17 - 2077.23) * (t - 250)));
    [intros; symmetry; apply he_inte|deriv]|].
  cbv beta. ring.
Qed.

(** hydrogen *)
Definition h2_c (n : nat) : R :=
  match n with
  | 0%nat => 12471.4839 | 1%nat => 13.3194432 | 2%nat => -0.0347782806 | 3%nat => 0.0000431784838
  | 4%nat => -0.0000000242883335 | _ => 0.00000000000514289838
  end.
Lemma poly_eq (a : arr6 R) x : poly a x =
  a6_0 a + a6_1 a * x + a6_2 a * x^2 + a6_3 a * x^3 + a6_4 a * x^4 + a6_5 a * x^5.
Proof. unfold poly. cbn [n_add n_mul R_ops]. ring. Qed.
Lemma h2_coefs : ig_cp_coefs h2 = A6 (h2_c 0) (h2_c 1) (h2_c 2) (h2_c 3) (h2_c 4) (h2_c 5).
Proof. reflexivity. Qed.
Lemma h2_enth_coefs : ig_enth_coefs h2 =
  A6 (h2_c 0) (h2_c 1 / 2) (h2_c 2 / 3) (h2_c 3 / 4) (h2_c 4 / 5) (h2_c 5 / 6).
Proof. reflexivity. Qed.
Lemma h2_cp T P : ig_cp h2 T P =
  h2_c 0 + h2_c 1 * T + h2_c 2 * T^2 + h2_c 3 * T^3 + h2_c 4 * T^4 + h2_c 5 * T^5.
Proof. unfold ig_cp. rewrite poly_eq, h2_coefs. reflexivity. Qed.
Lemma h2_enth T P : ig_enth h2 T P = (T - 250) *
  (h2_c 0 + h2_c 1 / 2 * T + h2_c 2 / 3 * T^2 + h2_c 3 / 4 * T^3 + h2_c 4 / 5 * T^4 + h2_c 5 / 6 * T^5).
Proof. rewrite enth_eq, h2_ref, poly_eq, h2_enth_coefs. reflexivity. Qed.

(** the true derivative of the reported enthalpy of hydrogen *)
Lemma h2_enth_deriv T P : has_deriv (fun t => ig_enth h2 t P) T
  (ig_cp h2 T P -
   (h2_c 1 / 2 * 250 + h2_c 2 / 3 * (2 * 250) * T + h2_c 3 / 4 * (3 * 250) * T^2
    + h2_c 4 / 5 * (4 * 250) * T^3 + h2_c 5 / 6 * (5 * 250) * T^4)).
Proof.
  unfold has_deriv. rewrite h2_cp.
  eapply deriv_eq; [apply (deriv_ext (fun t => (t - 250) *
    (h2_c 0 + h2_c 1 / 2 * t + h2_c 2 / 3 * (t*t) + h2_c 3 / 4 * (t*t*t) + h2_c 4 / 5 * (t*t*t*t)
     + h2_c 5 / 6 * (t*t*t*t*t)))); [intros; rewrite h2_enth; ring|deriv]|].
  cbv beta. field.
Qed.
Lemma h2_gap : h2_c 1 / 2 * 250 + h2_c 2 / 3 * (2 * 250) * 300 + h2_c 3 / 4 * (3 * 250) * 300^2
    + h2_c 4 / 5 * (4 * 250) * 300^3 + h2_c 5 / 6 * (5 * 250) * 300^4 <> 0.
Proof. unfold h2_c. decimals. lra. Qed.
Lemma h2_cp_refuted P : ~ has_deriv (fun t => ig_enth h2 t P) 300 (ig_cp h2 300 P).
Proof.
  intros H. pose proof (uniqueness_limite _ _ _ _ H (h2_enth_deriv 300 P)) as E.
  apply h2_gap. lra.
Qed.
Lemma h2_inte_deriv T P : has_deriv (fun t => ig_inte h2 t P) T
  (ig_du_dT_P h2 T P -
   (h2_c 1 / 2 * 250 + h2_c 2 / 3 * (2 * 250) * T + h2_c 3 / 4 * (3 * 250) * T^2
    + h2_c 4 / 5 * (4 * 250) * T^3 + h2_c 5 / 6 * (5 * 250) * T^4)).
Proof.
  eapply deriv_eq.
  - apply (deriv_ext (fun t => ig_enth h2 t P - ig_gas_constant h2 * (t - ig_ref_temp h2))); [reflexivity|].
    eapply deriv_minus; [apply h2_enth_deriv|]. deriv.
  - cbv beta. unfold ig_du_dT_P. cbn [n_sub R_ops]. ring.
Qed.
Lemma h2_du_refuted P : ~ has_deriv (fun t => ig_inte h2 t P) 300 (ig_du_dT_P h2 300 P).
Proof.
  intros H. pose proof (uniqueness_limite _ _ _ _ H (h2_inte_deriv 300 P)) as E.
  apply h2_gap. lra.
Qed.

(** C31 *)
Lemma h_u_refuted name T P : 0 < T -> P <> 0 ->
  ig_enth (IdealGas_new name) T P <>
  ig_inte (IdealGas_new name) T P + P / ig_dens (IdealGas_new name) T P.
Proof.
  intros HT HP. rewrite (h_minus_u _ (gas_R_pos name) T P HT HP), gas_ref.
  pose proof (gas_R_pos name). lra.
Qed.

(** ** C43: the normalising enthalpy *)
Lemma norm_eq comps s r : s_fluid s = IdealGas_Fluid he -> Run_new comps s = Ret r ->
  ru_enth_norm r = 5193.17 * ((te_sink (s_temp s) + te_source (s_temp s)) / 2 - 250).
Proof.
  intros Hf H. unfold Run_new in H. rewrite Hf in H. cbn [IdealGas_Fluid fl_enth] in H.
  rewrite !he_enth, R_nhalf in H.
  destruct (ex_volume (co_chx comps)); [|discriminate].
  destruct (ex_volume (co_regen comps)); [|discriminate].
  destruct (ex_volume (co_hhx comps)); [|discriminate]. cbn [obind] in H.
  destruct (ws_frequency (co_ws comps) (State_ws s)); [|discriminate]. cbn [obind] in H.
  destruct (ws_volumes (co_ws comps) (State_ws s)); [|discriminate]. cbn [obind] in H.
  destruct (ws_parasitics (co_ws comps) (State_ws s)); [|discriminate]. cbn [obind] in H.
  injection H as <-. cbn [ru_enth_norm n_mul n_add R_ops]. field.
Qed.

(** ** Helium engines have physical inputs *)
Lemma helium_space r vol T P h :
  ru_fluid r = IdealGas_Fluid he -> 0 < P -> warm T -> warm h -> 0 < v_value vol ->
  physical_space (comp_inputs r vol T P) (ig_enth he h P) /\
  physical_space (exp_inputs r vol T P) (ig_enth he h P).
Proof.
  intros Hf HP HT Hh HV. unfold warm, R_he, T_ref, cp_he in HT, Hh.
  assert (HT0 : 0 < T) by lra.
  assert (H1 : 0 < P / (2077.23 * T)) by (apply Rdiv_lt_0_compat; lra).
  assert (HX : physical_space (comp_inputs r vol T P) (ig_enth he h P)).
  { unfold physical_space, comp_inputs. cbn [wi_vol wi_dens wi_du_dT_P wi_dd_dT_P wi_du_dP_T wi_dd_dP_T wi_enth wi_inte].
    rewrite Hf. cbn [IdealGas_Fluid fl_dens fl_inte fl_enth fl_dd_dP_T fl_dd_dT_P fl_du_dP_T fl_du_dT_P].
    rewrite dens_eq, dd_dT_P_eq, dd_dP_T_eq, he_du_dT, !he_enth, he_inte, he_R.
    change (ig_du_dP_T he T P) with 0.
    assert (HQ : - P / (2077.23 * (T * T)) = - (P / (2077.23 * T)) * / T) by (field; lra).
    assert (Hinv : 0 < / T) by (apply Rinv_0_lt_compat; exact HT0).
    set (q := P / (2077.23 * T)) in *. rewrite HQ.
    repeat split; try assumption; try lra.
    - rewrite Rmult_0_r. apply Rmult_lt_0_compat; [|lra].
      apply Rdiv_lt_0_compat; lra.
    - apply (Rplus_lt_reg_l (q * / T * (5193.17 * (T - 250) - (5193.17 - 2077.23) * (T - 250)))).
      replace (q * / T * (5193.17 * (T - 250) - (5193.17 - 2077.23) * (T - 250)) +
        - q * / T * (5193.17 * (T - 250) - (5193.17 - 2077.23) * (T - 250))) with 0 by ring.
      replace (q * / T * (5193.17 * (T - 250) - (5193.17 - 2077.23) * (T - 250)) + q * (5193.17 - 2077.23))
        with (q * / T * (5193.17 * T - 2077.23 * 250)) by (field; lra).
      apply Rmult_lt_0_compat; [apply Rmult_lt_0_compat; assumption|lra].
    - apply (Rplus_lt_reg_l (q * / T * (5193.17 * (h - 250) - (5193.17 - 2077.23) * (T - 250)))).
      replace (q * / T * (5193.17 * (h - 250) - (5193.17 - 2077.23) * (T - 250)) +
        - q * / T * (5193.17 * (h - 250) - (5193.17 - 2077.23) * (T - 250))) with 0 by ring.
      replace (q * / T * (5193.17 * (h - 250) - (5193.17 - 2077.23) * (T - 250)) + q * (5193.17 - 2077.23))
        with (q * / T * (5193.17 * h - 2077.23 * 250)) by (field; lra).
      apply Rmult_lt_0_compat; [apply Rmult_lt_0_compat; assumption|lra]. }
  split; exact HX.
Qed.

Lemma helium_dd_dP T P : 0 < T -> 0 <= ig_dd_dP_T he T P.
Proof.
  intros HT. rewrite dd_dP_T_eq, he_R. left. apply Rdiv_lt_0_compat; lra.
Qed.

Lemma helium_physical r t c : ru_fluid r = IdealGas_Fluid he -> ru_enth_norm r <> 0 ->
  helium_conditions r t c -> physical (Run_calculate_inputs r t c).
Proof.
  intros Hf Hn (HP & HTc & HTe & HTk & HTl & HTr & HVc & HVe & Vk & Vr & Vl).
  unfold Run_calculate_inputs.
  destruct (ru_ws_vol_fn r t) as [vc ve]. cbn [fst snd] in HVc, HVe.
  unfold physical. cbn [in_enth_norm in_comp in_exp in_chx in_hhx in_regen].
  split; [exact Hn|].
  assert (Ek : hi_enth (chx_inputs r (cd_P c)) = ig_enth he (te_chx (ru_temp r)) (cd_P c))
    by (unfold chx_inputs; rewrite Hf; reflexivity).
  assert (El : hi_enth (hhx_inputs r (cd_P c)) = ig_enth he (te_hhx (ru_temp r)) (cd_P c))
    by (unfold hhx_inputs; rewrite Hf; reflexivity).
  rewrite Ek, El.
  split; [exact (proj1 (helium_space r vc _ _ _ Hf HP HTc HTk HVc))|].
  split; [exact (proj2 (helium_space r ve _ _ _ Hf HP HTe HTl HVe))|].
  unfold warm, R_he, T_ref, cp_he in *.
  unfold chx_inputs, hhx_inputs, regen_inputs.
  cbn [hi_vol hi_dd_dP_T gi_vol gi_dd_dP_T]. rewrite Hf. cbn [IdealGas_Fluid fl_dd_dP_T].
  repeat split; try assumption; apply helium_dd_dP; lra.
Qed.

Lemma helium_solves D comps s r t c hint : sound D -> complete D ->
  s_fluid s = IdealGas_Fluid he -> Run_new comps s = Ret r ->
  te_sink (s_temp s) + te_source (s_temp s) <> 500 ->
  helium_conditions r t c ->
  exists sol, solve D (Run_calculate_inputs r t c) hint = Ok sol /\
    conserves (Run_calculate_inputs r t c) sol /\
    forall D' hint' sol', sound D' -> solve D' (Run_calculate_inputs r t c) hint' = Ok sol' -> sol' = sol.
Proof.
  intros HS HC Hf Hr Hsum Hcond.
  assert (Hn : ru_enth_norm r <> 0).
  { rewrite (norm_eq comps s r Hf Hr). intros E. apply Hsum.
    apply Rmult_integral in E. destruct E as [E|E]; lra. }
  assert (Hfr : ru_fluid r = IdealGas_Fluid he).
  { rewrite <- Hf. unfold Run_new in Hr.
    destruct (ex_volume (co_chx comps)); [|discriminate].
    destruct (ex_volume (co_regen comps)); [|discriminate].
    destruct (ex_volume (co_hhx comps)); [|discriminate]. cbn [obind] in Hr.
    destruct (ws_frequency (co_ws comps) (State_ws s)); [|discriminate]. cbn [obind] in Hr.
    destruct (ws_volumes (co_ws comps) (State_ws s)); [|discriminate]. cbn [obind] in Hr.
    destruct (ws_parasitics (co_ws comps) (State_ws s)); [|discriminate]. cbn [obind] in Hr.
    injection Hr as <-. reflexivity. }
  pose proof (helium_physical r t c Hfr Hn Hcond) as HP.
  destruct (solve_succeeds _ HP D hint HS HC) as [sol Hsol].
  exists sol. split; [exact Hsol|].
  split; [apply (energy_conserved D _ hint sol HS (norm_nonzero _ HP) Hsol)|].
  intros D' hint' sol' HS' H'. exact (solve_unique _ HP D' D hint' hint sol' sol HS' HS H' Hsol).
Qed.
