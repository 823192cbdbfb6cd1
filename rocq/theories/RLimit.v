(** * The solution of the state equations is a continuous function of their inputs *)
From Coq Require Import ZArith NArith List Reals Lra Lia.
From Verif Require Import Num ModelTypes ModelWs ModelHx ModelStateEq ModelEngine RNum Spec SpecR SpecGas
  SpecKin SpecTraj SpecLaws PolySolve Fixture RSolve RGauss RFluid RKin RLaws.
Local Open Scope R_scope.

(** ** Limits of sequences *)
Lemma lim_const a : Un_cv (fun _ => a) a.
Proof. intros e He. exists 0%nat. intros n _. unfold R_dist. rewrite Rminus_diag_eq, Rabs_R0; [exact He|reflexivity]. Qed.
Lemma lim_plus f g a b : Un_cv f a -> Un_cv g b -> Un_cv (fun n => f n + g n) (a + b).
Proof. apply CV_plus. Qed.
Lemma lim_minus f g a b : Un_cv f a -> Un_cv g b -> Un_cv (fun n => f n - g n) (a - b).
Proof. apply CV_minus. Qed.
Lemma lim_mult f g a b : Un_cv f a -> Un_cv g b -> Un_cv (fun n => f n * g n) (a * b).
Proof. apply CV_mult. Qed.
Lemma lim_opp f a : Un_cv f a -> Un_cv (fun n => - f n) (- a).
Proof. apply CV_opp. Qed.
Lemma lim_inv f a : Un_cv f a -> a <> 0 -> Un_cv (fun n => / f n) (/ a).
Proof.
  intros H Ha. apply (continuity_seq Rinv f a); [|exact H].
  apply (continuity_pt_inv id a); [apply derivable_continuous_pt, derivable_pt_id|exact Ha].
Qed.
Lemma lim_div f g a b : Un_cv f a -> Un_cv g b -> b <> 0 -> Un_cv (fun n => f n / g n) (a / b).
Proof. intros. apply lim_mult; [assumption|apply lim_inv; assumption]. Qed.
Lemma lim_ext f g a : (forall n, f n = g n) -> Un_cv f a -> Un_cv g a.
Proof. intros E H e He. destruct (H e He) as [N HN]. exists N. intros n Hn. rewrite <- E. auto. Qed.

Ltac splits := repeat match goal with |- _ /\ _ => split end.
Ltac lim := repeat (first
  [ assumption | apply lim_const | apply lim_plus | apply lim_minus | apply lim_mult | apply lim_opp ]).

(** ** The explicit solution for fixed directions *)
Section Limit.
  Variable j : nat -> Inputs R.
  Variable i : Inputs R.
  Hypothesis HL : inputs_limit j i.
  Hypothesis HP : physical i.

  Lemma lim_direction d f g a b : Un_cv f a -> Un_cv g b ->
    Un_cv (fun n => by_direction d (f n) (g n)) (by_direction d a b).
  Proof.
    intros Hf Hg. destruct d; cbn [by_direction]; try assumption.
    cbn [n_mul n_add R_ops]. lim.
  Qed.
  Lemma lim_pivot (w : nat -> WorkingSpaceIn R) l h a : space_limit w l -> Un_cv h a ->
    Un_cv (fun n => pivot (w n) (h n)) (pivot l a).
  Proof. intros (? & ? & ? & ? & ? & ? & ? & ? & ? & ?) ?. unfold pivot. lim. Qed.
  Lemma lim_stiff (w : nat -> WorkingSpaceIn R) l : space_limit w l ->
    Un_cv (fun n => stiff (w n)) (stiff l).
  Proof. intros (? & ? & ? & ? & ? & ? & ? & ? & ? & ?). unfold stiff. lim. Qed.
  Lemma lim_drive (w : nat -> WorkingSpaceIn R) l p a : space_limit w l -> Un_cv p a ->
    Un_cv (fun n => drive (p n) (w n)) (drive a l).
  Proof. intros (? & ? & ? & ? & ? & ? & ? & ? & ? & ?) ?. unfold drive. lim. Qed.
  Lemma lim_dT (w : nat -> WorkingSpaceIn R) l P h m p aP ah am ap hh : physical_space l hh ->
    space_limit w l -> Un_cv P aP -> Un_cv h ah -> Un_cv m am -> Un_cv p ap ->
    Un_cv (fun n => dT_of (P n) (w n) (h n) (m n) (p n)) (dT_of aP l ah am ap).
  Proof.
    intros (V & D & U & _) (? & ? & ? & ? & ? & ? & ? & ? & ? & ?) ? ? ? ?. unfold dT_of.
    apply lim_div; [lim|lim|].
    apply Rgt_not_eq. apply Rmult_lt_0_compat; [apply Rmult_lt_0_compat|]; assumption.
  Qed.
  Lemma lim_energy_hx (x : nat -> HeatExchangerIn R) l p a : hx_limit x l -> Un_cv p a ->
    Un_cv (fun n => energy_rate_hx (x n) (p n)) (energy_rate_hx l a).
  Proof. intros (? & ? & ? & ? & ? & ?) ?. unfold energy_rate_hx, mass_rate_hx. lim. Qed.
  Lemma lim_energy_regen (x : nat -> RegeneratorIn R) l p a : regen_limit x l -> Un_cv p a ->
    Un_cv (fun n => energy_rate_regen (x n) (p n)) (energy_rate_regen l a).
  Proof. intros (? & ? & ? & ? & ? & ? & ?) ?. unfold energy_rate_regen, mass_rate_regen. lim. Qed.

  Lemma lim_P : Un_cv (fun n => in_pres (j n)) (in_pres i). Proof. apply HL. Qed.
  Lemma lim_comp : space_limit (fun n => in_comp (j n)) (in_comp i). Proof. apply HL. Qed.
  Lemma lim_chx : hx_limit (fun n => in_chx (j n)) (in_chx i). Proof. apply HL. Qed.
  Lemma lim_regen : regen_limit (fun n => in_regen (j n)) (in_regen i). Proof. apply HL. Qed.
  Lemma lim_hhx : hx_limit (fun n => in_hhx (j n)) (in_hhx i). Proof. apply HL. Qed.
  Lemma lim_exp : space_limit (fun n => in_exp (j n)) (in_exp i). Proof. apply HL. Qed.

  Lemma lim_hck d : Un_cv (fun n => h_ck (j n) d) (h_ck i d).
  Proof. apply lim_direction; [apply lim_comp|apply lim_chx]. Qed.
  Lemma lim_hkr d : Un_cv (fun n => h_kr (j n) d) (h_kr i d).
  Proof. apply lim_direction; [apply lim_chx|apply lim_regen]. Qed.
  Lemma lim_hrl d : Un_cv (fun n => h_rl (j n) d) (h_rl i d).
  Proof. apply lim_direction; [apply lim_regen|apply lim_hhx]. Qed.
  Lemma lim_hle d : Un_cv (fun n => h_le (j n) d) (h_le i d).
  Proof. apply lim_direction; [apply lim_hhx|apply lim_exp]. Qed.
  Lemma lim_Gc d : Un_cv (fun n => Gc (j n) d) (Gc i d).
  Proof. exact (lim_pivot _ _ _ _ lim_comp (lim_hck d)). Qed.
  Lemma lim_Ge d : Un_cv (fun n => Ge (j n) d) (Ge i d).
  Proof. exact (lim_pivot _ _ _ _ lim_exp (lim_hle d)). Qed.

  Let K (x : Inputs R) : R :=
    hi_vol (in_chx x) * hi_dd_dP_T (in_chx x) + gi_vol (in_regen x) * gi_dd_dP_T (in_regen x)
    + hi_vol (in_hhx x) * hi_dd_dP_T (in_hhx x).
  Lemma lim_Kk : Un_cv (fun n => hi_vol (in_chx (j n)) * hi_dd_dP_T (in_chx (j n)))
                       (hi_vol (in_chx i) * hi_dd_dP_T (in_chx i)).
  Proof. destruct lim_chx as (? & ? & ? & ? & ? & ?). lim. Qed.
  Lemma lim_Kr : Un_cv (fun n => gi_vol (in_regen (j n)) * gi_dd_dP_T (in_regen (j n)))
                       (gi_vol (in_regen i) * gi_dd_dP_T (in_regen i)).
  Proof. destruct lim_regen as (? & ? & ? & ? & ? & ? & ?). lim. Qed.
  Lemma lim_Kl : Un_cv (fun n => hi_vol (in_hhx (j n)) * hi_dd_dP_T (in_hhx (j n)))
                       (hi_vol (in_hhx i) * hi_dd_dP_T (in_hhx i)).
  Proof. destruct lim_hhx as (? & ? & ? & ? & ? & ?). lim. Qed.

  Lemma lim_root d : Un_cv (fun n => root (j n) d) (root i d).
  Proof.
    pose proof (lim_Gc d). pose proof (lim_Ge d). pose proof (lim_stiff _ _ lim_comp).
    pose proof (lim_stiff _ _ lim_exp). pose proof (lim_drive _ _ _ _ lim_comp lim_P).
    pose proof (lim_drive _ _ _ _ lim_exp lim_P). pose proof lim_Kk. pose proof lim_Kr. pose proof lim_Kl.
    assert (Gc i d <> 0) by (apply Rgt_not_eq, (Gc_pos i HP)).
    assert (Ge i d <> 0) by (apply Rgt_not_eq, (Ge_pos i HP)).
    unfold root. apply lim_div.
    - apply lim_plus; apply lim_div; assumption.
    - apply lim_plus; [apply lim_plus; apply lim_div; assumption|]. lim.
    - apply Rgt_not_eq, (slope_pos i HP).
  Qed.

  Lemma lim_explicit d : solution_limit (fun n => named (explicit (j n) d)) (named (explicit i d)).
  Proof.
    pose proof (lim_Gc d). pose proof (lim_stiff _ _ lim_comp).
    pose proof (lim_drive _ _ _ _ lim_comp lim_P). pose proof lim_Kk. pose proof lim_Kr. pose proof lim_Kl.
    pose proof (lim_root d).
    assert (Gc i d <> 0) by (apply Rgt_not_eq, (Gc_pos i HP)).
    assert (M1 : Un_cv (fun n => (drive (in_pres (j n)) (in_comp (j n)) - stiff (in_comp (j n)) * root (j n) d) / Gc (j n) d)
      ((drive (in_pres i) (in_comp i) - stiff (in_comp i) * root i d) / Gc i d)).
    { apply lim_div; [lim|assumption|assumption]. }
    pose proof (lim_hck d). pose proof (lim_hkr d). pose proof (lim_hrl d). pose proof (lim_hle d).
    pose proof HP as (_ & PC & PE & _).
    unfold solution_limit, explicit, named. cbn zeta.
    cbn [so_m_dot_ck so_m_dot_kr so_m_dot_rl so_m_dot_le so_Q_dot_k so_Q_dot_r so_Q_dot_l
      so_dTc_dt so_dTe_dt so_dP_dt v0 v1 v2 v3 v4 v5 v6 v7 v8 v9].
    repeat split.
    - exact M1.
    - lim.
    - lim.
    - lim.
    - apply lim_minus; [lim|]. apply lim_energy_hx; [exact lim_chx|assumption].
    - apply lim_minus; [lim|]. apply lim_energy_regen; [exact lim_regen|assumption].
    - apply lim_plus; [apply lim_minus; [|lim]|lim]. apply lim_energy_hx; [exact lim_hhx|assumption].
    - apply (lim_dT _ _ _ _ _ _ _ _ _ _ _ PC lim_comp lim_P); lim.
    - apply (lim_dT _ _ _ _ _ _ _ _ _ _ _ PE lim_exp lim_P); lim.
    - assumption.
  Qed.

  (** ** Directions of the members of the sequence *)
  Variable s : nat -> Solution R.
  Variable l : Solution R.
  Hypothesis Hs : forall n, conserves (j n) (s n).
  Hypothesis Hj : forall n, physical (j n).
  Hypothesis Hl : conserves i l.

  Lemma member n : s n = named (explicit (j n) (signs (s n))).
  Proof.
    pose proof (conserves_system (j n) (s n) (norm_nonzero _ (Hj n)) (Hs n)) as H.
    apply (system_eliminated _ (Hj n)), (eliminated_explicit _ (Hj n)) in H.
    rewrite <- H. symmetry. apply named_vector_of.
  Qed.

  (** the sign of a flow agrees with the direction, or the flow is zero *)
  Definition agrees (d : Direction) (m : R) : Prop :=
    match d with Positive => 0 <= m | Negative => m <= 0 | Unknown => False end.
  Lemma agrees_dec d m : agrees d m \/ ~ agrees d m.
  Proof.
    destruct d; cbn; [destruct (Rle_or_lt 0 m); [left|right]; lra
                     |destruct (Rle_or_lt m 0); [left|right]; lra|right; tauto].
  Qed.
  Lemma agrees_donor d m cold hot : agrees d m -> donor_weak m cold hot (by_direction d cold hot).
  Proof. destruct d; cbn; intros H; split; intros; try reflexivity; try lra; contradiction. Qed.

  Lemma limit_agrees d :
    let e := named (explicit i d) in
    agrees (fd_ck d) (so_m_dot_ck e) -> agrees (fd_kr d) (so_m_dot_kr e) ->
    agrees (fd_rl d) (so_m_dot_rl e) -> agrees (fd_le d) (so_m_dot_le e) -> l = e.
  Proof.
    intros e A1 A2 A3 A4.
    assert (HC : conserves i e).
    { pose proof (explicit_eliminated i HP d) as H.
      apply (system_eliminated i HP), (system_iff i d _ (norm_nonzero i HP)) in H as [HM HE].
      apply conserves_weak; [exact HM|].
      exists (h_ck i d), (h_kr i d), (h_rl i d), (h_le i d).
      do 4 (split; [apply agrees_donor; assumption|]). exact HE. }
    apply (solve_iff_conserves gauss i FlowDirection_default _ gauss_sound gauss_complete HP) in HC.
    pose proof (proj2 (solve_iff_conserves gauss i FlowDirection_default l gauss_sound gauss_complete HP) Hl).
    congruence.
  Qed.

  (** a flow whose limit disagrees with the direction eventually disagrees *)
  Lemma eventually_not m a d : Un_cv m a -> ~ agrees d a -> exists N, forall n, (N <= n)%nat -> ~ d = sign_of (m n).
  Proof.
    intros H Ha. destruct d; cbn in Ha.
    - destruct (H (- a)) as [N HN]; [lra|]. exists N. intros n Hn E.
      symmetry in E. apply sign_of_pos in E. specialize (HN n Hn). unfold R_dist in HN.
      apply Rabs_def2 in HN. lra.
    - destruct (H a) as [N HN]; [lra|]. exists N. intros n Hn E.
      symmetry in E. apply sign_of_neg in E. specialize (HN n Hn). unfold R_dist in HN.
      apply Rabs_def2 in HN. lra.
    - exists 0%nat. intros n _ E. destruct (sign_of_cases (m n)) as [[F _]|[F _]]; rewrite F in E; discriminate.
  Qed.

  Variable get : Solution R -> R.
  Hypothesis Hget : forall d, Un_cv (fun n => get (named (explicit (j n) d))) (get (named (explicit i d))).

  (** for each direction: eventually close to the limit, where the direction occurs *)
  Lemma close_where d e : 0 < e -> exists N, forall n, (N <= n)%nat -> signs (s n) = d ->
    R_dist (get (s n)) (get l) < e.
  Proof.
    intros He. pose proof (lim_explicit d) as (L1 & L2 & L3 & L4 & _).
    assert (Dis : forall (m : Solution R -> R) (dir : FlowDirection -> Direction),
      (forall x, dir (signs x) = sign_of (m x)) ->
      Un_cv (fun n => m (named (explicit (j n) d))) (m (named (explicit i d))) ->
      ~ agrees (dir d) (m (named (explicit i d))) ->
      exists N, forall n, (N <= n)%nat -> signs (s n) = d -> R_dist (get (s n)) (get l) < e).
    { intros m dir Hd Hm Na. destruct (eventually_not _ _ _ Hm Na) as [N HN].
      exists N. intros n Hn E. exfalso. apply (HN n Hn).
      rewrite <- E at 1. rewrite Hd. pose proof (member n) as M. rewrite E in M. rewrite M at 1. reflexivity. }
    destruct (agrees_dec (fd_ck d) (so_m_dot_ck (named (explicit i d)))) as [A1|A1];
      [|exact (Dis so_m_dot_ck fd_ck (fun _ => eq_refl) L1 A1)].
    destruct (agrees_dec (fd_kr d) (so_m_dot_kr (named (explicit i d)))) as [A2|A2];
      [|exact (Dis so_m_dot_kr fd_kr (fun _ => eq_refl) L2 A2)].
    destruct (agrees_dec (fd_rl d) (so_m_dot_rl (named (explicit i d)))) as [A3|A3];
      [|exact (Dis so_m_dot_rl fd_rl (fun _ => eq_refl) L3 A3)].
    destruct (agrees_dec (fd_le d) (so_m_dot_le (named (explicit i d)))) as [A4|A4];
      [|exact (Dis so_m_dot_le fd_le (fun _ => eq_refl) L4 A4)].
    rewrite (limit_agrees d A1 A2 A3 A4).
    destruct (Hget d e He) as [N HN]. exists N. intros n Hn E.
    rewrite (member n), E. apply HN. exact Hn.
  Qed.

  Lemma all_directions (Q : FlowDirection -> nat -> Prop) :
    (forall d, exists N, forall n, (N <= n)%nat -> Q d n) ->
    exists N, forall n, (N <= n)%nat -> forall d, Q d n.
  Proof.
    intros H.
    assert (S1 : forall (P : Direction -> nat -> Prop),
      (forall d, exists N, forall n, (N <= n)%nat -> P d n) ->
      exists N, forall n, (N <= n)%nat -> forall d, P d n).
    { intros P HP'. destruct (HP' Positive) as [N1 H1]. destruct (HP' Negative) as [N2 H2].
      destruct (HP' Unknown) as [N3 H3]. exists (N1 + N2 + N3)%nat. intros n Hn [| |];
      [apply H1|apply H2|apply H3]; lia. }
    destruct (S1 (fun a n => forall b c d, Q (mkFD a b c d) n)) as [N HN].
    { intros a. apply (S1 (fun b n => forall c d, Q (mkFD a b c d) n)). intros b.
      apply (S1 (fun c n => forall d, Q (mkFD a b c d) n)). intros c.
      apply (S1 (fun d n => Q (mkFD a b c d) n)). intros d. apply H. }
    exists N. intros n Hn [a b c d]. apply HN. exact Hn.
  Qed.

  Lemma component_limit : Un_cv (fun n => get (s n)) (get l).
  Proof.
    intros e He. destruct (all_directions (fun d n => signs (s n) = d -> R_dist (get (s n)) (get l) < e))
      as [N HN].
    - intros d. exact (close_where d e He).
    - exists N. intros n Hn. exact (HN n Hn (signs (s n)) eq_refl).
  Qed.
End Limit.

Lemma solve_continuous (D D' : Decomp R) (j : nat -> Inputs R) (i : Inputs R) hints hint s l :
  sound D -> sound D' -> inputs_limit j i -> physical i -> (forall n, physical (j n)) ->
  (forall n, solve D (j n) (hints n) = Ok (s n)) -> solve D' i hint = Ok l ->
  solution_limit s l.
Proof.
  intros HD HD' HL HP Hj Hs Hl.
  assert (Hs' : forall n, conserves (j n) (s n)).
  { intros n. apply (energy_conserved D _ _ _ HD (norm_nonzero _ (Hj n)) (Hs n)). }
  assert (Hl' : conserves i l) by apply (energy_conserved D' _ _ _ HD' (norm_nonzero _ HP) Hl).
  repeat split.
  - apply (component_limit j i HL HP s l Hs' Hj Hl' so_m_dot_ck). intros d. apply (lim_explicit j i HL HP d).
  - apply (component_limit j i HL HP s l Hs' Hj Hl' so_m_dot_kr). intros d. apply (lim_explicit j i HL HP d).
  - apply (component_limit j i HL HP s l Hs' Hj Hl' so_m_dot_rl). intros d. apply (lim_explicit j i HL HP d).
  - apply (component_limit j i HL HP s l Hs' Hj Hl' so_m_dot_le). intros d. apply (lim_explicit j i HL HP d).
  - apply (component_limit j i HL HP s l Hs' Hj Hl' so_Q_dot_k). intros d. apply (lim_explicit j i HL HP d).
  - apply (component_limit j i HL HP s l Hs' Hj Hl' so_Q_dot_r). intros d. apply (lim_explicit j i HL HP d).
  - apply (component_limit j i HL HP s l Hs' Hj Hl' so_Q_dot_l). intros d. apply (lim_explicit j i HL HP d).
  - apply (component_limit j i HL HP s l Hs' Hj Hl' so_dTc_dt). intros d. apply (lim_explicit j i HL HP d).
  - apply (component_limit j i HL HP s l Hs' Hj Hl' so_dTe_dt). intros d. apply (lim_explicit j i HL HP d).
  - apply (component_limit j i HL HP s l Hs' Hj Hl' so_dP_dt). intros d. apply (lim_explicit j i HL HP d).
Qed.

(** ** Runs with an ideal gas *)
Section RunLimit.
  Variable g : IdealGas R.
  Hypothesis HR : 0 < ig_gas_constant g.
  Variable r : Run R.
  Hypothesis Hf : ru_fluid r = IdealGas_Fluid g.

  Lemma lim_poly a f x : Un_cv f x -> Un_cv (fun n => poly a (f n)) (poly a x).
  Proof. intros H. unfold poly. cbn [n_add n_mul R_ops]. lim. Qed.
  Lemma lim_gas T P t p : Un_cv T t -> Un_cv P p -> 0 < t ->
    Un_cv (fun n => ig_dens g (T n) (P n)) (ig_dens g t p) /\
    Un_cv (fun n => ig_inte g (T n) (P n)) (ig_inte g t p) /\
    Un_cv (fun n => ig_enth g (T n) (P n)) (ig_enth g t p) /\
    Un_cv (fun n => ig_dd_dP_T g (T n) (P n)) (ig_dd_dP_T g t p) /\
    Un_cv (fun n => ig_dd_dT_P g (T n) (P n)) (ig_dd_dT_P g t p) /\
    Un_cv (fun n => ig_du_dP_T g (T n) (P n)) (ig_du_dP_T g t p) /\
    Un_cv (fun n => ig_du_dT_P g (T n) (P n)) (ig_du_dT_P g t p).
  Proof.
    intros HT HP Ht.
    assert (N1 : ig_gas_constant g * t <> 0) by (apply Rgt_not_eq, Rmult_lt_0_compat; assumption).
    assert (N2 : ig_gas_constant g * (t * t) <> 0)
      by (apply Rgt_not_eq, Rmult_lt_0_compat; [assumption|apply Rmult_lt_0_compat; assumption]).
    assert (HE : Un_cv (fun n => ig_enth g (T n) (P n)) (ig_enth g t p)).
    { rewrite enth_eq. apply (lim_ext (fun n => (T n - ig_ref_temp g) * poly (ig_enth_coefs g) (T n))).
      - intros n. symmetry. apply enth_eq.
      - apply lim_mult; [lim|apply lim_poly; exact HT]. }
    splits; try exact HE.
    - apply lim_div; [lim|lim|exact N1].
    - apply lim_minus; [exact HE|lim].
    - apply lim_div; [lim|lim|exact N1].
    - apply lim_div; [lim|lim|exact N2].
    - exact (lim_const 0).
    - apply lim_minus; [apply lim_poly; exact HT|lim].
  Qed.

  Lemma run_inputs_limit t c tl cl : positive_temps r cl -> conditions_limit c cl -> volumes_limit r t tl ->
    inputs_limit (fun n => Run_calculate_inputs r (t n) (c n)) (Run_calculate_inputs r tl cl).
  Proof.
    intros (T1 & T2 & T3 & T4 & T5) (LP & LC & LE) (V1 & V2 & V3 & V4).
    unfold inputs_limit.
    assert (EQ : forall u x, Run_calculate_inputs r u x =
      mkInputs (cd_P x) (ru_enth_norm r) (comp_inputs r (fst (ru_ws_vol_fn r u)) (cd_T_c x) (cd_P x))
        (chx_inputs r (cd_P x)) (regen_inputs r (cd_P x)) (hhx_inputs r (cd_P x))
        (exp_inputs r (snd (ru_ws_vol_fn r u)) (cd_T_e x) (cd_P x))).
    { intros u x. unfold Run_calculate_inputs. destruct (ru_ws_vol_fn r u). reflexivity. }
    assert (KT : forall x : R, Un_cv (fun _ => x) x) by apply lim_const.
    pose proof (lim_gas (fun n => cd_T_c (c n)) (fun n => cd_P (c n)) _ _ LC LP T1) as (A1 & A2 & A3 & A4 & A5 & A6 & A7).
    pose proof (lim_gas (fun n => cd_T_e (c n)) (fun n => cd_P (c n)) _ _ LE LP T2) as (B1 & B2 & B3 & B4 & B5 & B6 & B7).
    pose proof (lim_gas (fun _ => te_chx (ru_temp r)) (fun n => cd_P (c n)) _ _ (KT _) LP T3) as (C1 & C2 & C3 & C4 & C5 & C6 & C7).
    pose proof (lim_gas (fun _ => te_hhx (ru_temp r)) (fun n => cd_P (c n)) _ _ (KT _) LP T4) as (D1 & D2 & D3 & D4 & D5 & D6 & D7).
    pose proof (lim_gas (fun _ => rt_avg (te_regen (ru_temp r))) (fun n => cd_P (c n)) _ _ (KT _) LP T5) as (E1 & E2 & E3 & E4 & E5 & E6 & E7).
    assert (X : forall T, Un_cv (fun n => ig_enth g T (cd_P (c n))) (ig_enth g T (cd_P cl))).
    { intros T. exact (KT (ig_enth g T (cd_P cl))). }
    pose proof (X (rt_cold (te_regen (ru_temp r)))). pose proof (X (rt_hot (te_regen (ru_temp r)))).
    rewrite EQ.
    unfold space_limit, hx_limit, regen_limit; splits;
      (eapply lim_ext; [intros n; rewrite EQ; reflexivity|]);
      cbn [in_pres in_comp in_chx in_regen in_hhx in_exp comp_inputs exp_inputs chx_inputs hhx_inputs regen_inputs
        wi_vol wi_dens wi_inte wi_enth wi_dd_dP_T wi_dd_dT_P wi_du_dP_T wi_du_dT_P wi_dV_dt wi_Q_dot
        hi_vol hi_dens hi_inte hi_enth hi_dd_dP_T hi_du_dP_T
        gi_vol gi_dens gi_inte gi_enth_cold gi_enth_hot gi_dd_dP_T gi_du_dP_T];
      rewrite ?Hf; cbn [IdealGas_Fluid fl_dens fl_inte fl_enth fl_dd_dP_T fl_dd_dT_P fl_du_dP_T fl_du_dT_P];
      first [assumption|apply lim_const].
  Qed.

  Lemma run_continuous D D' t c tl cl hints hint s l : sound D -> sound D' ->
    positive_temps r cl -> conditions_limit c cl -> volumes_limit r t tl ->
    physical (Run_calculate_inputs r tl cl) ->
    (forall n, physical (Run_calculate_inputs r (t n) (c n))) ->
    (forall n, solve D (Run_calculate_inputs r (t n) (c n)) (hints n) = Ok (s n)) ->
    solve D' (Run_calculate_inputs r tl cl) hint = Ok l -> solution_limit s l.
  Proof.
    intros HD HD' HT HC HV HP HPn Hs Hl.
    exact (solve_continuous D D' _ _ hints hint s l HD HD' (run_inputs_limit t c tl cl HT HC HV) HP HPn Hs Hl).
  Qed.
End RunLimit.

(** ** Volumes of the drives *)
Lemma lim_cos f a : Un_cv f a -> Un_cv (fun n => cos (f n)) (cos a).
Proof. apply (continuity_seq cos f a), continuity_cos. Qed.
Lemma lim_sin f a : Un_cv f a -> Un_cv (fun n => sin (f n)) (sin a).
Proof. apply (continuity_seq sin f a), continuity_sin. Qed.
Lemma lim_sqrt f a : Un_cv f a -> 0 <= a -> Un_cv (fun n => sqrt (f n)) (sqrt a).
Proof. intros H Ha. apply (continuity_seq sqrt f a); [apply continuity_pt_sqrt; exact Ha|exact H]. Qed.

Lemma sin_volumes_limit d r t l : ru_ws_vol_fn r = sin_volumes d -> Un_cv t l -> volumes_limit r t l.
Proof.
  intros E H. unfold volumes_limit. rewrite E.
  rewrite sin_comp_value, sin_comp_deriv, sin_exp_value, sin_exp_deriv.
  splits; (eapply lim_ext; [intros n; symmetry;
      first [apply sin_comp_value|apply sin_comp_deriv|apply sin_exp_value|apply sin_exp_deriv]|]);
    repeat first [assumption|apply lim_const|apply lim_plus|apply lim_mult|apply lim_cos|apply lim_sin].
Qed.
Lemma rh_volumes_limit d r t l : turns d -> ru_ws_vol_fn r = rh_volumes d -> rg_D_p (rd_geometry d) <> 0 ->
  Un_cv t l -> volumes_limit r t l.
Proof.
  intros HT E HD H. unfold volumes_limit. rewrite E.
  set (x u := 2 * PI * rd_frequency d * u).
  assert (Hx : Un_cv (fun n => x (t n)) (x l)) by (unfold x; lim).
  assert (Hb : Un_cv (fun n => sqrt (rg_L_conn (rd_geometry d) * rg_L_conn (rd_geometry d) -
    (rg_eccentricity (rd_geometry d) + rg_r_crank (rd_geometry d) * cos (x (t n))) *
    (rg_eccentricity (rd_geometry d) + rg_r_crank (rd_geometry d) * cos (x (t n)))))
    (sqrt (rg_L_conn (rd_geometry d) * rg_L_conn (rd_geometry d) -
    (rg_eccentricity (rd_geometry d) + rg_r_crank (rd_geometry d) * cos (x l)) *
    (rg_eccentricity (rd_geometry d) + rg_r_crank (rd_geometry d) * cos (x l))))).
  { apply lim_sqrt; [|left; apply (under_pos d HT)].
    repeat first [assumption|apply lim_const|apply lim_minus|apply lim_plus|apply lim_mult|apply lim_cos]. }
  assert (Nb := b_pos d HT (x l)).
  assert (NA : 2 * (PI * (rg_D_p (rd_geometry d) * rg_D_p (rd_geometry d)) / 4) <> 0).
  { pose proof PI_RGT_0. intros E0. apply HD.
    assert (E' : PI * (rg_D_p (rd_geometry d) * rg_D_p (rd_geometry d)) = 0) by lra.
    apply Rmult_integral in E' as [E'|E']; [lra|]. apply Rmult_integral in E' as [E'|E']; exact E'. }
  rewrite rh_comp_value, rh_comp_deriv, rh_exp_value, rh_exp_deriv.
  splits; (eapply lim_ext; [intros n; symmetry;
      first [apply rh_comp_value|apply rh_comp_deriv|apply rh_exp_value|apply rh_exp_deriv]|]);
    change (2 * PI * rd_frequency d * l) with (x l);
    repeat first [assumption|apply lim_const|exact Hb|apply lim_div|apply lim_minus|apply lim_plus|apply lim_opp|apply lim_mult|apply lim_cos|apply lim_sin
      |apply Rgt_not_eq; exact Nb].
Qed.
