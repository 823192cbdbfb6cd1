(** * Similar engines *)
From Coq Require Import ZArith NArith List Reals Lra Lia FunctionalExtensionality.
From Verif Require Import Num ModelTypes ModelWs ModelHx ModelStateEq ModelEngine ModelApi RNum Spec SpecR SpecGas
  SpecKin SpecTraj SpecLaws SpecUnique SpecSteady SpecSeries SpecReport SpecSimilar PolySolve PolyReport RSolve RGauss RFluid RKin RMass RSeries RLaws.
Import ListNotations.
Local Open Scope R_scope.

(** ** Size *)
Lemma larger_physical k i : 0 < k -> physical i -> physical (larger k i).
Proof.
  intros Hk (Hn & (A1 & A2) & (B1 & B2) & C1 & C2 & C3 & C4 & C5 & C6). split; [exact Hn|].
  split; [split; [apply Rmult_lt_0_compat; assumption|exact A2]|].
  split; [split; [apply Rmult_lt_0_compat; assumption|exact B2]|].
  cbn. repeat split; try assumption; apply Rmult_le_pos; lra.
Qed.
Lemma larger_conserves k i s : 0 <= k -> conserves i s -> conserves (larger k i) (scaled k 1 1 s).
Proof.
  intros Hk [HM (a & b & c & d & Ha & Hb & Hc & Hd & HE)]. apply conserves_weak.
  - unfold larger, larger_space, larger_hx, larger_regen. open_balances. destruct HM as (M1 & M2 & M3 & M4 & M5).
    apply (times k) in M1, M2, M3, M4, M5. repeat split; lra.
  - exists a, b, c, d. do 4 (split; [apply donor_scaled; assumption|]).
    unfold larger, larger_space, larger_hx, larger_regen. open_balances. destruct HE as (E1 & E2 & E3 & E4 & E5).
    apply (times k) in E1, E2, E3, E4, E5. repeat split; lra.
Qed.
Lemma solve_larger D i hint hint' s k : sound D -> complete D -> physical i -> 0 < k ->
  solve D i hint = Ok s -> solve D (larger k i) hint' = Ok (scaled k 1 1 s).
Proof.
  intros HS HC HP Hk H. apply (solve_transfer D i _ hint hint' s _ HS HC HP (larger_physical k i Hk HP) H).
  apply larger_conserves. lra.
Qed.
Lemma sin_larger k d t : sin_volumes (larger_sin k d) t =
  (larger_volume k (fst (sin_volumes d t)), larger_volume k (snd (sin_volumes d t))).
Proof.
  pose proof (sin_comp_value (larger_sin k d) t) as H1. pose proof (sin_comp_deriv (larger_sin k d) t) as H2.
  pose proof (sin_exp_value (larger_sin k d) t) as H3. pose proof (sin_exp_deriv (larger_sin k d) t) as H4.
  unfold larger_volume. rewrite sin_comp_value, sin_comp_deriv, sin_exp_value, sin_exp_deriv.
  destruct (sin_volumes (larger_sin k d) t) as [[a b] [c e]].
  cbn [fst snd v_value v_deriv larger_sin larger_sin_geometry sg_clearance_volume sg_swept_volume sd_frequency sd_phase_angle sd_comp_geometry sd_exp_geometry] in *.
  rewrite H1, H2, H3, H4. f_equal; f_equal; field.
Qed.
Lemma sqrt_longer k x : 0 < k -> sqrt (k * k * x) = k * sqrt x.
Proof.
  intros Hk. destruct (Rle_or_lt 0 x) as [Hx|Hx].
  - rewrite sqrt_mult by (try apply Rle_0_sqr; try nra). rewrite sqrt_square by lra. reflexivity.
  - rewrite !sqrt_neg_0; [ring|lra|]. assert (0 < k * k) by nra. nra.
Qed.
Lemma rh_longer k d t : 0 < k -> rh_volumes (longer_rh k d) t =
  (larger_volume (k ^ 3) (fst (rh_volumes d t)), larger_volume (k ^ 3) (snd (rh_volumes d t))).
Proof.
  intros Hk. unfold rh_volumes, larger_volume, powi2.
  cbn [fst snd v_value v_deriv longer_rh rd_frequency rd_geometry rd_V_clearance_c rd_V_clearance_e
    rg_eccentricity rg_r_crank rg_D_p rg_D_d rg_L_conn].
  cbn [n_mul n_sub n_add n_div n_opp n_sqrt n_sin n_cos R_ops].
  set (e := rg_eccentricity (rd_geometry d)). set (r := rg_r_crank (rd_geometry d)). set (L := rg_L_conn (rd_geometry d)).
  set (th := n2 * n_pi * rd_frequency d * t).
  replace (k * L * (k * L) - (k * e + k * r * cos th) * (k * e + k * r * cos th)) with (k * k * (L * L - (e + r * cos th) * (e + r * cos th))) by ring.
  replace (k * L * (k * L) - (k * e - k * r) * (k * e - k * r)) with (k * k * (L * L - (e - r) * (e - r))) by ring.
  replace ((k * L - k * r) * (k * L - k * r) - k * e * (k * e)) with (k * k * ((L - r) * (L - r) - e * e)) by ring.
  rewrite !sqrt_longer by exact Hk. unfold Rdiv. rewrite !Rinv_mult.
  generalize (sqrt (L * L - (e + r * cos th) * (e + r * cos th))) (sqrt (L * L - (e - r) * (e - r))) (sqrt ((L - r) * (L - r) - e * e)).
  intros b b1 b2. generalize (/ b) (/ rg_D_p (rd_geometry d)) (/ (n2 : R)) (/ (n_pi : R)).
  intros ib iD i2 ip. assert (H4 : (n_lit 4 0 : R) <> 0) by (cbn -[IZR]; lra). generalize dependent (n_lit 4 0 : R). intros q H4.
  f_equal; f_equal; try ring; field; repeat split; try assumption; lra.
Qed.

(** ** All three at once *)
Section Similar.
  Context (p w v : R) (Hp : 0 < p) (Hw : 0 < w) (Hv : 0 < v).
  Context (g : IdealGas R) (r : Run R) (Hf : ru_fluid r = IdealGas_Fluid g).
  (** the similar run asks for the same system as the charged, larger, faster one *)
  Let big : Run R :=
    let q := faster_run w r in
    mkRun (ru_enth_norm q) (ru_fluid q) (ru_period q) (ru_pres q) (ru_temp q)
      (v * ru_vol_chx q) (v * ru_vol_hhx q) (v * ru_vol_regen q)
      (mkPar (faster_loss v (par_comp (ru_ws_parasitics q))) (faster_loss v (par_exp (ru_ws_parasitics q))))
      (fun t => (larger_volume v (fst (ru_ws_vol_fn q t)), larger_volume v (snd (ru_ws_vol_fn q t)))).
  Lemma big_inputs t c : Run_calculate_inputs big t c = larger v (Run_calculate_inputs (faster_run w r) t c).
  Proof. unfold Run_calculate_inputs. cbn [big ru_ws_vol_fn]. destruct (ru_ws_vol_fn (faster_run w r) t) as [vc ve]. reflexivity. Qed.
  Lemma similar_inputs t c :
    Run_calculate_inputs (similar_run p w v r) t c = Run_calculate_inputs (charged_run p big) t c.
  Proof.
    unfold Run_calculate_inputs. cbn [similar_run charged_run big faster_run ru_ws_vol_fn]. unfold similar_volumes.
    destruct (ru_ws_vol_fn r (w * t)) as [vc ve]. cbn [fst snd]. unfold comp_inputs, exp_inputs. f_equal.
    - cbn. f_equal; unfold similar_power; ring.
    - cbn. f_equal; unfold similar_power; ring.
  Qed.
  Lemma scaled_scaled a b c a' b' c' s : scaled a b c (scaled a' b' c' s) = scaled (a * a') (b * b') (c * c') s.
  Proof. unfold scaled. cbn. f_equal; ring. Qed.
  Lemma similar_physical t c : physical (Run_calculate_inputs r (w * t) c) ->
    physical (Run_calculate_inputs (similar_run p w v r) t (charged p c)).
  Proof.
    intros HP. rewrite similar_inputs, (run_charge g big Hf p t c).
    apply charge_physical; [exact Hp|exact (run_no_du_dP g big Hf t c)|].
    rewrite big_inputs. apply larger_physical; [exact Hv|]. rewrite faster_inputs. apply faster_physical. exact HP.
  Qed.
  Lemma similar_solves D t c hint hint' s : sound D -> complete D -> physical (Run_calculate_inputs r (w * t) c) ->
    solve D (Run_calculate_inputs r (w * t) c) hint = Ok s ->
    solve D (Run_calculate_inputs (similar_run p w v r) t (charged p c)) hint' = Ok (similar_solution p w v s).
  Proof.
    intros HS HC HP H. rewrite similar_inputs.
    assert (HF : physical (Run_calculate_inputs (faster_run w r) t c)) by (rewrite faster_inputs; apply faster_physical; exact HP).
    pose proof (run_faster D r t c hint hint s w HS HC HP (Rlt_le _ _ Hw) H) as H1.
    pose proof (solve_larger D _ hint hint _ v HS HC HF Hv H1) as H2. rewrite <- big_inputs in H2.
    assert (HB : physical (Run_calculate_inputs big t c)) by (rewrite big_inputs; apply larger_physical; assumption).
    pose proof (run_charged g big Hf D p t c hint hint' _ HS HC HB Hp H2) as H3. rewrite H3. f_equal.
    rewrite !scaled_scaled. unfold similar_solution. f_equal; ring.
  Qed.
  Lemma deriv_at_speed (f : R -> R) k t l : has_deriv f (w * t) l -> has_deriv (fun u => k * f (w * u)) t (k * (w * l)).
  Proof.
    intros H. unfold has_deriv in *.
    apply (derivable_pt_lim_scal (fun u => f (w * u)) k t).
    replace (w * l) with (l * w) by ring.
    apply (derivable_pt_lim_comp (fun u => w * u) f t w l); [|exact H].
    pose proof (derivable_pt_lim_scal id w t 1 (derivable_pt_lim_id t)) as K. rewrite Rmult_1_r in K. exact K.
  Qed.
  Lemma continuous_at_speed (f : R -> R) k t : continuity_pt f (w * t) -> continuity_pt (fun u => k * f (w * u)) t.
  Proof.
    intros H. apply (continuity_pt_scal (fun u => f (w * u)) k t).
    apply (continuity_pt_comp (fun u => w * u) f t); [|exact H].
    apply (continuity_pt_scal id w t). apply derivable_continuous_pt, derivable_pt_id.
  Qed.
  Lemma similar_physical_trajectory D c t : sound D -> complete D -> physical_trajectory D r c (w * t) ->
    physical_trajectory D (similar_run p w v r) (similar_trajectory p w c) t.
  Proof.
    intros HS HC ((HT & (V1 & V2) & hint & s & H & F1 & F2 & F3) & HP & C1 & C2). split; [|split].
    - split; [exact HT|]. split.
      + split; cbn [similar_run ru_ws_vol_fn similar_volumes similar_volume fst snd v_value v_deriv].
        * replace (w * v * v_deriv (fst (ru_ws_vol_fn r (w * t)))) with (v * (w * v_deriv (fst (ru_ws_vol_fn r (w * t))))) by ring.
          exact (deriv_at_speed (fun u => v_value (fst (ru_ws_vol_fn r u))) v t _ V1).
        * replace (w * v * v_deriv (snd (ru_ws_vol_fn r (w * t)))) with (v * (w * v_deriv (snd (ru_ws_vol_fn r (w * t))))) by ring.
          exact (deriv_at_speed (fun u => v_value (snd (ru_ws_vol_fn r u))) v t _ V2).
      + exists hint, (similar_solution p w v s). split; [exact (similar_solves D t (c (w * t)) hint hint s HS HC HP H)|].
        split; [|split]; cbn [similar_trajectory charged cd_P cd_T_c cd_T_e similar_solution scaled so_dP_dt so_dTc_dt so_dTe_dt].
        * rewrite Rmult_assoc. exact (deriv_at_speed (fun u => cd_P (c u)) p t _ F1).
        * pose proof (deriv_at_speed (fun u => cd_T_c (c u)) 1 t _ F2) as K. rewrite Rmult_1_l in K.
          intros e He. destruct (K e He) as (d & Hd). exists d. intros h Hh Hh'. specialize (Hd h Hh Hh'). rewrite !Rmult_1_l in Hd. exact Hd.
        * pose proof (deriv_at_speed (fun u => cd_T_e (c u)) 1 t _ F3) as K. rewrite Rmult_1_l in K.
          intros e He. destruct (K e He) as (d & Hd). exists d. intros h Hh Hh'. specialize (Hd h Hh Hh'). rewrite !Rmult_1_l in Hd. exact Hd.
    - exact (similar_physical t (c (w * t)) HP).
    - split; cbn [similar_run ru_ws_vol_fn similar_volumes similar_volume fst snd v_deriv].
      + exact (continuous_at_speed (fun u => v_deriv (fst (ru_ws_vol_fn r u))) (w * v) t C1).
      + exact (continuous_at_speed (fun u => v_deriv (snd (ru_ws_vol_fn r u))) (w * v) t C2).
  Qed.
  Lemma similar_steady D c : sound D -> complete D -> steady_cycle D r c ->
    steady_cycle D (similar_run p w v r) (similar_trajectory p w c).
  Proof.
    intros HS HC (HT & HR). split.
    - intros t Ht. apply similar_physical_trajectory; try assumption. apply HT. nra.
    - intros t Ht. unfold similar_trajectory. cbn [similar_run ru_period].
      replace (w * (t + ru_period r / w)) with (w * t + ru_period r) by (field; lra). rewrite HR by nra. reflexivity.
  Qed.
End Similar.

(** ** Engines *)
Lemma similar_new p w v name comps comps' s s' r : s_fluid s = IdealGas_Fluid (IdealGas_new name) ->
  similar_state p s s' -> similar_components p w v comps comps' s s' -> Run_new comps s = Ret r ->
  Run_new comps' s' = Ret (similar_run p w v r).
Proof.
  intros Hf (S1 & S2 & S3) ((W1 & W2 & W3) & X1 & X2 & X3) H. unfold Run_new, State_ws in *.
  destruct (ex_volume (co_chx comps)) as [a|] eqn:E1; [|discriminate H]. rewrite (X1 a eq_refl). cbn [obind] in *.
  destruct (ex_volume (co_regen comps)) as [b|] eqn:E2; [|discriminate H]. rewrite (X2 b eq_refl). cbn [obind] in *.
  destruct (ex_volume (co_hhx comps)) as [c|] eqn:E3; [|discriminate H]. rewrite (X3 c eq_refl). cbn [obind] in *.
  destruct (ws_frequency (co_ws comps) (mkWsState (s_pres s))) as [f|] eqn:E4; [|discriminate H]. rewrite (W1 f eq_refl). cbn [obind] in *.
  destruct (ws_volumes (co_ws comps) (mkWsState (s_pres s))) as [g|] eqn:E5; [|discriminate H].
  destruct (W2 g eq_refl) as (g' & -> & ->). cbn [obind] in *.
  destruct (ws_parasitics (co_ws comps) (mkWsState (s_pres s))) as [x|] eqn:E6; [|discriminate H]. rewrite (W3 x eq_refl). cbn [obind] in *.
  injection H as <-. unfold similar_run. cbn [ru_enth_norm ru_fluid ru_period ru_pres ru_temp ru_vol_chx ru_vol_hhx ru_vol_regen ru_ws_parasitics ru_ws_vol_fn].
  rewrite S1, S2, S3, Hf. f_equal. f_equal. cbn [n_div R_ops]. unfold Rdiv. rewrite R_n1, Rinv_mult. ring.
Qed.
(** what the two drives look like *)
Lemma sin_similar w v d t : sin_volumes (larger_sin v (faster_sin w d)) t = similar_volumes w v (sin_volumes d) t.
Proof.
  rewrite sin_larger, sin_faster. unfold similar_volumes, similar_volume, larger_volume, faster_volume. cbn [fst snd v_value v_deriv].
  f_equal; f_equal; ring.
Qed.
Lemma rh_similar w k d t : 0 < k -> rh_volumes (longer_rh k (faster_rh w d)) t = similar_volumes w (k ^ 3) (rh_volumes d) t.
Proof.
  intros Hk. rewrite rh_longer, rh_faster by exact Hk. unfold similar_volumes, similar_volume, larger_volume, faster_volume. cbn [fst snd v_value v_deriv].
  f_equal; f_equal; ring.
Qed.

(** engines with fixed approach temperatures *)
Lemma replies_unique (e : Engine R) a b : replies e a -> replies e b ->
  rp_freq a = rp_freq b /\ rp_vols a = rp_vols b /\ rp_par a = rp_par b /\ rp_res a = rp_res b /\ rp_R_chx a = rp_R_chx b /\
  rp_R_regen a = rp_R_regen b /\ rp_R_hhx a = rp_R_hhx b /\ rp_chx a = rp_chx b /\ rp_regen a = rp_regen b /\ rp_hhx a = rp_hhx b.
Proof.
  intros (A1 & A2 & A3 & A4 & A5 & A6 & A7 & A8 & A9 & A10) (B1 & B2 & B3 & B4 & B5 & B6 & B7 & B8 & B9 & B10).
  repeat split; congruence.
Qed.
Definition sin_replies (d : SinusoidalDrive R) (a b c : FixedApproach R) : Replies R :=
  mkReplies (sd_frequency d) (sin_volumes d) (sd_parasitics d) (sd_thermal_resistance d)
    (fa_R_hyd a) (fa_R_hyd b) (fa_R_hyd c) (fa_parasitics a) (fa_parasitics b) (fa_parasitics c).
Definition rh_replies (d : RhombicDrive R) (a b c : FixedApproach R) : Replies R :=
  mkReplies (rd_frequency d) (rh_volumes d) (rd_parasitics d) (mkTR (rd_R_comp d) (rd_R_exp d))
    (fa_R_hyd a) (fa_R_hyd b) (fa_R_hyd c) (fa_parasitics a) (fa_parasitics b) (fa_parasitics c).
Lemma replies_eq (a b : Replies R) :
  rp_freq a = rp_freq b /\ rp_vols a = rp_vols b /\ rp_par a = rp_par b /\ rp_res a = rp_res b /\ rp_R_chx a = rp_R_chx b /\
  rp_R_regen a = rp_R_regen b /\ rp_R_hhx a = rp_R_hhx b /\ rp_chx a = rp_chx b /\ rp_regen a = rp_regen b /\ rp_hhx a = rp_hhx b -> a = b.
Proof. destruct a, b. cbn. intros (-> & -> & -> & -> & -> & -> & -> & -> & -> & ->). reflexivity. Qed.
Section Fixed.
  Context (p w v : R).
  Lemma sin_similar_drive d : sin_volumes (similar_sin p w v d) = similar_volumes w v (sin_volumes d).
  Proof. apply functional_extensionality. intros t. rewrite <- sin_similar. reflexivity. Qed.
  Lemma rh_similar_drive k d : 0 < k -> v = k ^ 3 -> rh_volumes (similar_rh p w v k d) = similar_volumes w v (rh_volumes d).
  Proof. intros Hk Hv. apply functional_extensionality. intros t. rewrite Hv, <- (rh_similar w k d t Hk). reflexivity. Qed.
  Lemma fixed_components ws ws' a b c s s' : in_proportion p w v ws ws' ->
    similar_components p w v (fixed_engine ws a b c)
      (fixed_engine ws' (similar_exchanger p w v a) (similar_exchanger p w v b) (similar_exchanger p w v c)) s s'.
  Proof.
    intros H. split.
    - destruct H as [(d & -> & ->)|(d & k & Hk & Hv & -> & ->)].
      + split; [intros f E; injection E as <-; reflexivity|]. split; [|intros x E; injection E as <-; reflexivity].
        intros vol E. injection E as <-. eexists. split; [reflexivity|]. apply sin_similar_drive.
      + split; [intros f E; injection E as <-; reflexivity|]. split; [|intros x E; injection E as <-; reflexivity].
        intros vol E. injection E as <-. eexists. split; [reflexivity|]. apply rh_similar_drive; assumption.
    - repeat split; intros x E; injection E as <-; reflexivity.
  Qed.
  Lemma fixed_replies (e e' : Engine R) ws ws' a b c x : in_proportion p w v ws ws' -> en_components e = fixed_engine ws a b c ->
    en_components e' = fixed_engine ws' (similar_exchanger p w v a) (similar_exchanger p w v b) (similar_exchanger p w v c) ->
    replies e x -> replies e' (similar_replies p w v x).
  Proof.
    intros H Hc Hc' Hx. destruct H as [(d & E & E')|(d & k & Hk & Hv & E & E')]; subst ws ws'.
    - assert (HX : replies e (sin_replies d a b c)) by (unfold replies; rewrite Hc; repeat split).
      rewrite (replies_eq x (sin_replies d a b c)) by (exact (replies_unique e _ _ Hx HX)).
      unfold replies. rewrite Hc'. cbn -[sin_volumes similar_volumes]. rewrite <- sin_similar_drive. repeat split.
    - assert (HX : replies e (rh_replies d a b c)) by (unfold replies; rewrite Hc; repeat split).
      rewrite (replies_eq x (rh_replies d a b c)) by (exact (replies_unique e _ _ Hx HX)).
      unfold replies. rewrite Hc'. cbn -[rh_volumes similar_volumes]. rewrite <- (rh_similar_drive k d Hk Hv). repeat split.
  Qed.
End Fixed.

(** ** Reports *)
Lemma trapezoid_similar (a b : R) : forall l, trapezoid (map (fun q => (a * fst q, b * snd q)) l) = a * b * trapezoid l.
Proof.
  induction l as [|[x0 y0] l IH]; [cbn; ring|]. destruct l as [|[x1 y1] l]; [cbn; ring|].
  cbn [map trapezoid fst snd] in *. rewrite IH. field.
Qed.
Lemma combine_map {A B C D} (f : A -> B) (h : A -> C) (k : B * C -> D) l :
  map k (combine (map f l) (map h l)) = map (fun x => k (f x, h x)) l.
Proof. induction l as [|x l IH]; [reflexivity|]. cbn. now rewrite IH. Qed.
Lemma combine_maps {A B C} (f : A -> B) (h : A -> C) l : combine (map f l) (map h l) = map (fun x => (f x, h x)) l.
Proof. induction l as [|x l IH]; [reflexivity|]. cbn. now rewrite IH. Qed.
Section Report.
  Context (p w v : R) (Hp : 0 < p) (Hw : 0 < w) (Hv : 0 < v).
  Notation sim := (similar_sample p w v).
  Lemma cycle_similar (a : Replies R) vs (g g' : SeValues R -> R) : (forall x, g' (sim x) = p * w * v * g x) ->
    cycle_num (similar_replies p w v a) (map sim vs) g' = p * w * v * cycle_num a vs g.
  Proof.
    intros H. unfold cycle_num. rewrite !integrate_trapezoid, !map_map. cbn [similar_replies rp_freq n_mul R_ops].
    rewrite !combine_maps.
    rewrite (map_ext (fun x => (sv_time (sim x), g' (sim x))) (fun x => (/ w * fst (sv_time x, g x), p * w * v * snd (sv_time x, g x)))).
    2:{ intros x. rewrite H. cbn [similar_sample sv_time fst snd]. f_equal. unfold Rdiv. ring. }
    rewrite <- (map_map (fun x => (sv_time x, g x)) (fun q => (/ w * fst q, p * w * v * snd q))), trapezoid_similar. field. lra.
  Qed.
  Context (name : GasName) (e e' : Engine R) (a : Replies R) (vs : list (SeValues R)).
  Hypothesis Hf : s_fluid (en_state e) = IdealGas_Fluid (IdealGas_new name).
  Hypothesis Hf' : s_fluid (en_state e') = IdealGas_Fluid (IdealGas_new name).
  Hypothesis HT : s_temp (en_state e') = s_temp (en_state e).
  Lemma drop_similar res m m' T x : drop_num (p / (w * v) * res) (p * w * v * m) (p * w * v * m') (dens_num e' T (sim x)) =
    p * drop_num res m m' (dens_num e T x).
  Proof.
    unfold drop_num, dens_num. rewrite Hf, Hf'. cbn [similar_sample sv_conditions charged cd_P IdealGas_Fluid fl_dens].
    rewrite ig_dens_scale. cbn [n_mul n_add n_div R_ops]. unfold Rdiv. rewrite !Rinv_mult.
    generalize (/ ig_dens (IdealGas_new name) T (cd_P (sv_conditions x))). intros q. field. repeat split; lra.
  Qed.
  Lemma total_similar x : total_num e' (similar_replies p w v a) (sim x) = p * total_num e a x.
  Proof.
    unfold total_num. rewrite HT. cbn [similar_replies rp_R_chx rp_R_regen rp_R_hhx].
    change (sv_solution (sim x)) with (similar_solution p w v (sv_solution x)). unfold similar_solution.
    cbn [scaled so_m_dot_ck so_m_dot_kr so_m_dot_rl so_m_dot_le]. rewrite !drop_similar. cbn [n_add R_ops]. ring.
  Qed.
  Lemma angle_similar x : w * sv_time (sim x) = sv_time x.
  Proof. cbn [similar_sample sv_time]. field. lra. Qed.
  Lemma work_similar x : work_num e' (similar_replies p w v a) (sim x) = p * w * v * work_num e a x.
  Proof.
    unfold work_num, Pc_num, Pe_num, dVc_num, dVe_num. rewrite total_similar.
    cbn [similar_replies rp_vols]. unfold similar_volumes. rewrite angle_similar.
    cbn [similar_sample similar_volume sv_conditions charged cd_P fst snd v_deriv n_add n_sub n_mul R_ops]. ring.
  Qed.
  Lemma ideal_similar x : ideal_num (similar_replies p w v a) (sim x) = p * w * v * ideal_num a x.
  Proof.
    unfold ideal_num, dVc_num, dVe_num. cbn [similar_replies rp_vols]. unfold similar_volumes. rewrite angle_similar.
    cbn [similar_sample similar_volume sv_conditions charged cd_P fst snd v_deriv n_add n_sub n_mul R_ops]. ring.
  Qed.
  Lemma wall_c_similar x : wall_c_num e' (similar_replies p w v a) (sim x) = p * w * v * wall_c_num e a x.
  Proof.
    unfold wall_c_num, wall_num. rewrite HT. cbn [similar_replies rp_res tr_comp similar_sample sv_conditions charged cd_T_c n_sub n_div R_ops].
    unfold Rdiv. rewrite !Rinv_mult, !Rinv_inv. ring.
  Qed.
  Lemma wall_e_similar x : wall_e_num e' (similar_replies p w v a) (sim x) = p * w * v * wall_e_num e a x.
  Proof.
    unfold wall_e_num, wall_num. rewrite HT. cbn [similar_replies rp_res tr_exp similar_sample sv_conditions charged cd_T_e n_sub n_div R_ops].
    unfold Rdiv. rewrite !Rinv_mult, !Rinv_inv. ring.
  Qed.
  Lemma report_similar : series_of vs (en_values e) -> replies e a ->
    series_of (map sim vs) (en_values e') -> replies e' (similar_replies p w v a) ->
    exists rep rep', RunResults_from e = Ret rep /\ RunResults_from e' = Ret rep' /\ similar_report p w v rep rep'.
  Proof.
    intros H1 H2 H3 H4.
    destruct (reported e a vs H1 H2) as (rep & E & _ & _ & A1 & A2 & A3 & A4 & A5 & A6 & A7 & A8).
    destruct (reported e' _ (map sim vs) H3 H4) as (rep' & E' & _ & _ & B1 & B2 & B3 & B4 & B5 & B6 & B7 & B8).
    assert (I1 : indicated_num e' (similar_replies p w v a) (map sim vs) = p * w * v * indicated_num e a vs)
      by (apply cycle_similar; exact work_similar).
    assert (I2 : ideal_ind_num (similar_replies p w v a) (map sim vs) = p * w * v * ideal_ind_num a vs)
      by (apply cycle_similar; exact ideal_similar).
    assert (I3 : shaft_num e' (similar_replies p w v a) (map sim vs) = p * w * v * shaft_num e a vs).
    { unfold shaft_num. rewrite I1. unfold fric_c_num, fric_e_num.
      cbn [similar_replies rp_par similar_losses similar_loss par_comp par_exp pp_mechanical n_sub R_ops]. unfold similar_power. ring. }
    assert (I4 : net_num e' (similar_replies p w v a) (map sim vs) = p * w * v * net_num e a vs).
    { unfold net_num. rewrite I3. cbn [similar_replies rp_chx rp_hhx similar_loss pp_mechanical n_sub R_ops]. unfold similar_power. ring. }
    assert (L : losses_num (similar_replies p w v a) = p * w * v * losses_num a).
    { unfold losses_num. cbn [similar_replies rp_hhx rp_regen rp_par similar_losses similar_loss par_exp pp_thermal n_add R_ops]. unfold similar_power. ring. }
    assert (I5 : input_num e' (similar_replies p w v a) (map sim vs) = p * w * v * input_num e a vs).
    { unfold input_num. rewrite L.
      rewrite (cycle_similar a vs (fun x => so_Q_dot_l (sv_solution x)) (fun x => so_Q_dot_l (sv_solution x))) by (intros; reflexivity).
      rewrite (cycle_similar a vs (wall_e_num e a) _ wall_e_similar). cbn [n_sub n_add R_ops]. ring. }
    assert (I6 : rejected_num e' (similar_replies p w v a) (map sim vs) = p * w * v * rejected_num e a vs).
    { unfold rejected_num. rewrite L, I1, I2.
      rewrite (cycle_similar a vs (fun x => so_Q_dot_k (sv_solution x)) (fun x => so_Q_dot_k (sv_solution x))) by (intros; reflexivity).
      rewrite (cycle_similar a vs (wall_c_num e a) _ wall_c_similar). unfold fric_c_num, fric_e_num.
      cbn [similar_replies rp_par similar_losses similar_loss par_comp par_exp pp_mechanical n_sub n_add R_ops]. unfold similar_power. ring. }
    exists rep, rep'. split; [exact E|]. split; [exact E'|]. unfold similar_report, similar_power.
    rewrite A1, A2, A3, A4, A5, A6, A7, A8, B1, B2, B3, B4, B5, B6, B7, B8, I1, I2, I3, I4, I5, I6.
    do 6 (split; [reflexivity|]). cbn [similar_replies rp_freq n_div n_mul R_ops]. unfold Rdiv. rewrite !Rinv_mult. split.
    - generalize (/ rp_freq a) (/ (n2 : R)) (/ (n_pi : R)). intros x y z. field. lra.
    - generalize (/ input_num e a vs). intros x. field. repeat split; lra.
  Qed.
End Report.
