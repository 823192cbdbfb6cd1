(** * State equations in exact arithmetic *)
From Coq Require Import ZArith NArith List Reals Lra Lia.
From Verif Require Import Num ModelTypes ModelWs ModelHx ModelStateEq ModelEngine ModelApi RNum
  Spec SpecR PolySolve.
Import ListNotations.
Local Open Scope R_scope.

(** the interface enthalpies for flow directions [d] *)
Definition h_ck i d : R := by_direction (fd_ck d) (wi_enth (in_comp i)) (hi_enth (in_chx i)).
Definition h_kr i d : R := by_direction (fd_kr d) (hi_enth (in_chx i)) (gi_enth_cold (in_regen i)).
Definition h_rl i d : R := by_direction (fd_rl d) (gi_enth_hot (in_regen i)) (hi_enth (in_hhx i)).
Definition h_le i d : R := by_direction (fd_le d) (hi_enth (in_hhx i)) (wi_enth (in_exp i)).

Lemma by_direction_div d (a b hn : R) : by_direction d (a / hn) (b / hn) = by_direction d a b / hn.
Proof. destruct d; cbn; unfold Rdiv; ring. Qed.

Ltac unfold_rates :=
  unfold energy_rate_space, energy_rate_hx, energy_rate_regen, mass_rate_space, mass_rate_hx,
    mass_rate_regen in *.

Lemma V10_eq_inv {A} (a b : vec10 A) : a = b ->
  v0 a = v0 b /\ v1 a = v1 b /\ v2 a = v2 b /\ v3 a = v3 b /\ v4 a = v4 b /\
  v5 a = v5 b /\ v6 a = v6 b /\ v7 a = v7 b /\ v8 a = v8 b /\ v9 a = v9 b.
Proof. intros ->. repeat split. Qed.

(** rows of the system, mass equations: no normalisation involved *)
Lemma system_mass i d x : solves_system i d x -> mass_balances i (named x).
Proof.
  unfold solves_system. intros H. apply V10_eq_inv in H.
  destruct H as (H0 & _ & H2 & _ & H4 & _ & H6 & _ & H8 & _).
  unfold mat_vec, dot, state_matrix, state_rhs in *. cbn in *.
  unfold mass_balances. unfold_rates. cbn.
  repeat split; lra.
Qed.

Lemma scale_eq (hn a b : R) : hn <> 0 -> (a / hn = b / hn <-> a = b).
Proof.
  intros H. split; [|intros ->; reflexivity].
  intros E. apply (Rmult_eq_reg_r (/ hn)); [exact E|apply Rinv_neq_0_compat; exact H].
Qed.

Lemma system_iff i d x : in_enth_norm i <> 0 ->
  solves_system i d x <->
  mass_balances i (named x) /\
  energy_balances i (h_ck i d) (h_kr i d) (h_rl i d) (h_le i d) (named x).
Proof.
  intros Hn. unfold solves_system, mass_balances, energy_balances. cbn zeta.
  change n_div with Rdiv. rewrite !by_direction_div.
  fold (h_ck i d) (h_kr i d) (h_rl i d) (h_le i d).
  generalize (h_ck i d) (h_kr i d) (h_rl i d) (h_le i d). intros hck hkr hrl hle.
  destruct x as [x0 x1 x2 x3 x4 x5 x6 x7 x8 x9].
  unfold mat_vec, dot, state_matrix, state_rhs. cbn. unfold_rates.
  set (hn := in_enth_norm i) in *.
  split.
  - intros H. apply V10_eq_inv in H. cbn in H.
    destruct H as (H0 & H1 & H2 & H3 & H4 & H5 & H6 & H7 & H8 & H9).
    split; [repeat split; lra|].
    assert (K : forall a b : R, a / hn = b / hn -> a = b) by (intros a b; apply scale_eq; exact Hn).
    assert (Z : 0 = 0 / hn) by (unfold Rdiv; ring).
    repeat split.
    + assert (E := K
        (hck * x0 + wi_vol (in_comp i) * (wi_dens (in_comp i) * wi_du_dT_P (in_comp i) + wi_inte (in_comp i) * wi_dd_dT_P (in_comp i)) * x7
         + wi_vol (in_comp i) * (wi_dens (in_comp i) * wi_du_dP_T (in_comp i) + wi_inte (in_comp i) * wi_dd_dP_T (in_comp i)) * x9)
        (- (in_pres i + wi_dens (in_comp i) * wi_inte (in_comp i)) * wi_dV_dt (in_comp i) - wi_Q_dot (in_comp i))).
      specialize (E ltac:(rewrite <- H1; field; exact Hn)). lra.
    + assert (E := K
        (- hck * x0 + hkr * x1 + x4 + hi_vol (in_chx i) * (hi_dens (in_chx i) * hi_du_dP_T (in_chx i) + hi_inte (in_chx i) * hi_dd_dP_T (in_chx i)) * x9) 0).
      specialize (E ltac:(rewrite <- Z, <- H3; field; exact Hn)). lra.
    + assert (E := K
        (- hkr * x1 + hrl * x2 + x5 + gi_vol (in_regen i) * (gi_dens (in_regen i) * gi_du_dP_T (in_regen i) + gi_inte (in_regen i) * gi_dd_dP_T (in_regen i)) * x9) 0).
      specialize (E ltac:(rewrite <- Z, <- H5; field; exact Hn)). lra.
    + assert (E := K
        (- hrl * x2 + hle * x3 - x6 + hi_vol (in_hhx i) * (hi_dens (in_hhx i) * hi_du_dP_T (in_hhx i) + hi_inte (in_hhx i) * hi_dd_dP_T (in_hhx i)) * x9) 0).
      specialize (E ltac:(rewrite <- Z, <- H7; field; exact Hn)). lra.
    + assert (E := K
        (- hle * x3 + wi_vol (in_exp i) * (wi_dens (in_exp i) * wi_du_dT_P (in_exp i) + wi_inte (in_exp i) * wi_dd_dT_P (in_exp i)) * x8
         + wi_vol (in_exp i) * (wi_dens (in_exp i) * wi_du_dP_T (in_exp i) + wi_inte (in_exp i) * wi_dd_dP_T (in_exp i)) * x9)
        (- (in_pres i + wi_dens (in_exp i) * wi_inte (in_exp i)) * wi_dV_dt (in_exp i) - wi_Q_dot (in_exp i))).
      specialize (E ltac:(rewrite <- H9; field; exact Hn)). lra.
  - intros ((M1 & M2 & M3 & M4 & M5) & E1 & E2 & E3 & E4 & E5).
    assert (K : forall a b : R, a = b / hn -> b / hn = a) by (intros; subst; reflexivity).
    f_equal; try lra.
    + apply (Rmult_eq_reg_r hn); [|exact Hn]. field_simplify; [|exact Hn|exact Hn]. lra.
    + apply (Rmult_eq_reg_r hn); [|exact Hn]. field_simplify; [|exact Hn]. lra.
    + apply (Rmult_eq_reg_r hn); [|exact Hn]. field_simplify; [|exact Hn]. lra.
    + apply (Rmult_eq_reg_r hn); [|exact Hn]. field_simplify; [|exact Hn]. lra.
    + apply (Rmult_eq_reg_r hn); [|exact Hn]. field_simplify; [|exact Hn|exact Hn]. lra.
Qed.

Lemma solves_for_system D i d s : sound D -> solves_for D i d s ->
  exists x, solves_system i d x /\ s = named x.
Proof. intros HD (x & Hx & ->). exists x. split; [|reflexivity]. exact (HD _ _ _ Hx). Qed.

Lemma sign_of_pos (m : R) : sign_of m = Positive <-> 0 <= m.
Proof.
  unfold sign_of. change (@n0 R R_ops) with 0. rewrite <- R_le_iff.
  destruct (n_le 0 m); split; congruence.
Qed.
Lemma sign_of_neg (m : R) : sign_of m = Negative <-> m < 0.
Proof.
  unfold sign_of. change (@n0 R R_ops) with 0.
  destruct (n_le 0 m) eqn:E.
  - apply R_le_iff in E. split; [discriminate|lra].
  - assert (~ 0 <= m) by (rewrite <- R_le_iff; congruence). split; [lra|reflexivity].
Qed.
Lemma sign_of_cases (m : R) : (sign_of m = Positive /\ 0 <= m) \/ (sign_of m = Negative /\ m < 0).
Proof.
  destruct (Rle_or_lt 0 m) as [H|H]; [left|right]; split; auto.
  - now apply sign_of_pos.
  - now apply sign_of_neg.
Qed.
Lemma donor_by_direction (m a b : R) : donor_R m a b (by_direction (sign_of m) a b).
Proof.
  destruct (sign_of_cases m) as [[-> H]|[-> H]]; split; intros; try reflexivity; lra.
Qed.
Lemma donor_R_inv (m a b h : R) : donor_R m a b h -> h = by_direction (sign_of m) a b.
Proof. intros [H1 H2]. destruct (sign_of_cases m) as [[-> H]|[-> H]]; cbn; auto. Qed.

(** ** C10, C11, C12 *)
Lemma solve_system D i hint s : sound D -> solve D i hint = Ok s ->
  exists x, solves_system i (signs s) x /\ s = named x.
Proof.
  intros HD H. apply solve_upwind, solves_for_upwind in H. exact (solves_for_system D i _ s HD H).
Qed.

Lemma mass_conserved D i hint s : sound D -> solve D i hint = Ok s ->
  mass_balances i s /\ total_mass_rate i s = 0.
Proof.
  intros HD H. destruct (solve_system D i hint s HD H) as (x & Hx & ->).
  apply system_mass in Hx. split; [exact Hx|].
  destruct Hx as (H1 & H2 & H3 & H4 & H5). unfold total_mass_rate. lra.
Qed.

Lemma energy_conserved D i hint s : sound D -> in_enth_norm i <> 0 -> solve D i hint = Ok s ->
  conserves i s /\
  total_energy_rate i s =
    so_Q_dot_l s - so_Q_dot_k s - so_Q_dot_r s - wi_Q_dot (in_comp i) - wi_Q_dot (in_exp i)
    - in_pres i * (wi_dV_dt (in_comp i) + wi_dV_dt (in_exp i)).
Proof.
  intros HD Hn H. destruct (solve_system D i hint s HD H) as (x & Hx & Es).
  apply (system_iff i _ x Hn) in Hx. rewrite <- Es in Hx. destruct Hx as [HM HE].
  split.
  - split; [exact HM|].
    exists (h_ck i (signs s)), (h_kr i (signs s)), (h_rl i (signs s)), (h_le i (signs s)).
    repeat (split; [apply donor_by_direction|]). exact HE.
  - destruct HE as (E1 & E2 & E3 & E4 & E5). unfold total_energy_rate. lra.
Qed.

Lemma norm_is_scaling i d hn x : in_enth_norm i <> 0 -> hn <> 0 ->
  solves_system (with_norm i hn) d x <-> solves_system i d x.
Proof.
  intros H1 H2. rewrite (system_iff i d x H1).
  rewrite (system_iff (with_norm i hn) d x) by exact H2. reflexivity.
Qed.

(** ** Elimination: a scalar equation for dP/dt *)

Definition pivot (w : WorkingSpaceIn R) (h : R) : R :=
  wi_dens w * wi_du_dT_P w - wi_dd_dT_P w * (h - wi_inte w).
Definition stiff (w : WorkingSpaceIn R) : R :=
  wi_vol w * wi_dens w * (wi_dd_dP_T w * wi_du_dT_P w - wi_dd_dT_P w * wi_du_dP_T w).
Definition drive (P : R) (w : WorkingSpaceIn R) : R :=
  - (wi_dens w * wi_dens w * wi_du_dT_P w * wi_dV_dt w)
  + wi_dd_dT_P w * (P * wi_dV_dt w + wi_Q_dot w).

(** mass outflow [m] at enthalpy [h] of a working space *)
Definition space_eqs (P : R) (w : WorkingSpaceIn R) (h m dT dP : R) : Prop :=
  mass_rate_space w dT dP = - m /\
  energy_rate_space w dT dP = - (h * m) - P * wi_dV_dt w - wi_Q_dot w.

Definition dT_of (P : R) (w : WorkingSpaceIn R) (h m dP : R) : R :=
  (- P * wi_dV_dt w - wi_Q_dot w - (h - wi_inte w) * m - wi_vol w * wi_dens w * wi_du_dP_T w * dP)
  / (wi_vol w * wi_dens w * wi_du_dT_P w).

Lemma space_iff P w h m dT dP :
  0 < wi_vol w -> 0 < wi_dens w -> 0 < wi_du_dT_P w ->
  space_eqs P w h m dT dP <->
  pivot w h * m + stiff w * dP = drive P w /\ dT = dT_of P w h m dP.
Proof.
  intros HV Hd Hu. unfold space_eqs, pivot, stiff, drive, dT_of. unfold_rates.
  set (V := wi_vol w) in *. set (r := wi_dens w) in *. set (uT := wi_du_dT_P w) in *.
  set (rT := wi_dd_dT_P w). set (rP := wi_dd_dP_T w). set (uP := wi_du_dP_T w).
  set (u := wi_inte w). set (V' := wi_dV_dt w). set (Q := wi_Q_dot w).
  assert (HX : V * r * uT <> 0).
  { apply Rgt_not_eq. apply Rmult_lt_0_compat; [apply Rmult_lt_0_compat|]; assumption. }
  split.
  - intros [HM HE]. rewrite HM in HE.
    assert (E : V * r * uT * dT = - P * V' - Q - (h - u) * m - V * r * uP * dP) by lra.
    split.
    + assert (E1 : r * uT * (V * (rT * dT + rP * dP) + r * V') = r * uT * - m) by (f_equal; exact HM).
      assert (E2 : rT * (V * r * uT * dT) = rT * (- P * V' - Q - (h - u) * m - V * r * uP * dP))
        by (f_equal; exact E).
      lra.
    + apply (Rmult_eq_reg_l (V * r * uT)); [|exact HX]. rewrite E. field. repeat split; lra.
  - intros [HG ->].
    assert (E : V * r * uT * ((- P * V' - Q - (h - u) * m - V * r * uP * dP) / (V * r * uT)) =
                - P * V' - Q - (h - u) * m - V * r * uP * dP) by (field; repeat split; lra).
    set (dT := (- P * V' - Q - (h - u) * m - V * r * uP * dP) / (V * r * uT)) in *.
    assert (HM : V * (rT * dT + rP * dP) + r * V' = - m).
    { apply (Rmult_eq_reg_l (r * uT)).
      - assert (E2 : rT * (V * r * uT * dT) = rT * (- P * V' - Q - (h - u) * m - V * r * uP * dP))
          by (f_equal; exact E).
        lra.
      - apply Rgt_not_eq, Rmult_lt_0_compat; assumption. }
    split; [exact HM|]. rewrite HM. lra.
Qed.

Section Physical.
  Variable i : Inputs R.
  Hypothesis HP : physical i.

  Let Kk := hi_vol (in_chx i) * hi_dd_dP_T (in_chx i).
  Let Kr := gi_vol (in_regen i) * gi_dd_dP_T (in_regen i).
  Let Kl := hi_vol (in_hhx i) * hi_dd_dP_T (in_hhx i).
  Let Bc := stiff (in_comp i).
  Let Be := stiff (in_exp i).
  Let Cc := drive (in_pres i) (in_comp i).
  Let Ce := drive (in_pres i) (in_exp i).
  Definition Gc (d : FlowDirection) : R := pivot (in_comp i) (h_ck i d).
  Definition Ge (d : FlowDirection) : R := pivot (in_exp i) (h_le i d).

  Lemma norm_nonzero : in_enth_norm i <> 0. Proof. apply HP. Qed.

  Lemma K_nonneg : 0 <= Kk /\ 0 <= Kr /\ 0 <= Kl.
  Proof.
    destruct HP as (_ & _ & _ & H1 & H2 & H3 & H4 & H5 & H6).
    repeat split; apply Rmult_le_pos; assumption.
  Qed.
  Lemma stiff_pos w h : physical_space w h -> 0 < stiff w.
  Proof.
    intros (H1 & H2 & H3 & H4 & _). unfold stiff.
    apply Rmult_lt_0_compat; [apply Rmult_lt_0_compat; assumption|lra].
  Qed.
  Lemma Bc_pos : 0 < Bc.
  Proof. destruct HP as (_ & H & _). exact (stiff_pos _ _ H). Qed.
  Lemma Be_pos : 0 < Be.
  Proof. destruct HP as (_ & _ & H & _). exact (stiff_pos _ _ H). Qed.
  Lemma pivot_pos w h d : physical_space w h ->
    0 < pivot w (by_direction d (wi_enth w) h) /\ 0 < pivot w (by_direction d h (wi_enth w)).
  Proof.
    intros (_ & _ & _ & _ & H5 & H6). unfold pivot.
    destruct d; cbn [by_direction].
    - split; lra.
    - split; lra.
    - rewrite R_nhalf. cbn [n_mul n_add R_ops]. split; lra.
  Qed.
  Lemma Gc_pos d : 0 < Gc d.
  Proof. destruct HP as (_ & H & _). apply (pivot_pos _ _ (fd_ck d) H). Qed.
  Lemma Ge_pos d : 0 < Ge d.
  Proof. destruct HP as (_ & _ & H & _). apply (pivot_pos _ _ (fd_le d) H). Qed.

  (** what a solution for directions [d] satisfies *)
  Definition eliminated (d : FlowDirection) (s : Solution R) : Prop :=
    let p := so_dP_dt s in
    Gc d * so_m_dot_ck s = Cc - Bc * p /\
    Ge d * so_m_dot_le s = Be * p - Ce /\
    so_m_dot_kr s = so_m_dot_ck s - Kk * p /\
    so_m_dot_rl s = so_m_dot_kr s - Kr * p /\
    so_m_dot_le s = so_m_dot_rl s - Kl * p /\
    so_dTc_dt s = dT_of (in_pres i) (in_comp i) (h_ck i d) (so_m_dot_ck s) p /\
    so_dTe_dt s = dT_of (in_pres i) (in_exp i) (h_le i d) (- so_m_dot_le s) p /\
    so_Q_dot_k s = h_ck i d * so_m_dot_ck s - h_kr i d * so_m_dot_kr s
                   - energy_rate_hx (in_chx i) p /\
    so_Q_dot_r s = h_kr i d * so_m_dot_kr s - h_rl i d * so_m_dot_rl s
                   - energy_rate_regen (in_regen i) p /\
    so_Q_dot_l s = energy_rate_hx (in_hhx i) p
                   - h_rl i d * so_m_dot_rl s + h_le i d * so_m_dot_le s.

  Lemma system_eliminated d x : solves_system i d x <-> eliminated d (named x).
  Proof.
    rewrite (system_iff i d x norm_nonzero). unfold eliminated. cbn zeta.
    set (s := named x). clearbody s.
    pose proof HP as (_ & (V1 & V2 & V3 & _) & (W1 & W2 & W3 & _) & _).
    pose proof (space_iff (in_pres i) (in_comp i) (h_ck i d) (so_m_dot_ck s) (so_dTc_dt s) (so_dP_dt s)
                  V1 V2 V3) as HC.
    pose proof (space_iff (in_pres i) (in_exp i) (h_le i d) (- so_m_dot_le s) (so_dTe_dt s) (so_dP_dt s)
                  W1 W2 W3) as HX.
    unfold space_eqs in HC, HX. fold Bc Cc in HC. fold Be Ce in HX. fold (Gc d) in HC. fold (Ge d) in HX.
    unfold mass_balances, energy_balances. cbn zeta.
    unfold mass_rate_hx, mass_rate_regen. fold Kk Kr Kl.
    split.
    - intros ((M1 & M2 & M3 & M4 & M5) & E1 & E2 & E3 & E4 & E5).
      destruct (proj1 HC) as [C1 C2]; [split; assumption|].
      destruct (proj1 HX) as [X1 X2]; [split; lra|].
      repeat split; try assumption; lra.
    - intros (C1 & X1 & M2 & M3 & M4 & C2 & X2 & Q1 & Q2 & Q3).
      destruct (proj2 HC) as [C3 C4]; [split; [lra|assumption]|].
      destruct (proj2 HX) as [X3 X4]; [split; [lra|assumption]|].
      repeat split; try assumption; lra.
  Qed.

  (** the scalar equation *)
  Definition phi (d : FlowDirection) (p : R) : R :=
    (Be * p - Ce) / Ge d - (Cc - Bc * p) / Gc d + (Kk + Kr + Kl) * p.
  Definition root (d : FlowDirection) : R :=
    (Ce / Ge d + Cc / Gc d) / (Be / Ge d + Bc / Gc d + (Kk + Kr + Kl)).
  Lemma slope_pos d : 0 < Be / Ge d + Bc / Gc d + (Kk + Kr + Kl).
  Proof.
    pose proof Bc_pos. pose proof Be_pos. pose proof (Gc_pos d). pose proof (Ge_pos d).
    pose proof K_nonneg as (? & ? & ?).
    assert (0 < Be / Ge d) by (apply Rdiv_lt_0_compat; assumption).
    assert (0 < Bc / Gc d) by (apply Rdiv_lt_0_compat; assumption).
    lra.
  Qed.
  Lemma phi_root d p : phi d p = (Be / Ge d + Bc / Gc d + (Kk + Kr + Kl)) * (p - root d).
  Proof.
    unfold root, phi. pose proof (slope_pos d) as Hs. pose proof (Gc_pos d). pose proof (Ge_pos d).
    rewrite Rmult_minus_distr_l.
    set (S := Be / Ge d + Bc / Gc d + (Kk + Kr + Kl)) in *.
    replace (S * ((Ce / Ge d + Cc / Gc d) / S)) with (Ce / Ge d + Cc / Gc d)
      by (unfold Rdiv; field; repeat split; lra).
    unfold S.
    field. split; lra.
  Qed.

  Lemma eliminated_root d s : eliminated d s -> so_dP_dt s = root d.
  Proof.
    intros (C1 & X1 & M2 & M3 & M4 & _).
    pose proof (Gc_pos d). pose proof (Ge_pos d). pose proof (slope_pos d).
    assert (Hp : phi d (so_dP_dt s) = 0).
    { unfold phi. rewrite <- C1, <- X1.
      replace (Ge d * so_m_dot_le s / Ge d) with (so_m_dot_le s) by (field; lra).
      replace (Gc d * so_m_dot_ck s / Gc d) with (so_m_dot_ck s) by (field; lra). lra. }
    rewrite phi_root in Hp. apply Rmult_integral in Hp. lra.
  Qed.

  Lemma mc_eq d s : eliminated d s -> so_m_dot_ck s = (Cc - Bc * so_dP_dt s) / Gc d.
  Proof.
    intros (C1 & _). pose proof (Gc_pos d). rewrite <- C1. field. lra.
  Qed.
  Lemma me_eq d s : eliminated d s -> so_m_dot_le s = (Be * so_dP_dt s - Ce) / Ge d.
  Proof.
    intros (_ & X1 & _). pose proof (Ge_pos d). rewrite <- X1. field. lra.
  Qed.

  (** the explicit solution for directions [d] *)
  Definition explicit (d : FlowDirection) : Vector R :=
    let p := root d in
    let mck := (Cc - Bc * p) / Gc d in
    let mkr := mck - Kk * p in
    let mrl := mkr - Kr * p in
    let mle := mrl - Kl * p in
    V10 mck mkr mrl mle
      (h_ck i d * mck - h_kr i d * mkr - energy_rate_hx (in_chx i) p)
      (h_kr i d * mkr - h_rl i d * mrl - energy_rate_regen (in_regen i) p)
      (energy_rate_hx (in_hhx i) p - h_rl i d * mrl + h_le i d * mle)
      (dT_of (in_pres i) (in_comp i) (h_ck i d) mck p)
      (dT_of (in_pres i) (in_exp i) (h_le i d) (- mle) p) p.

  Lemma explicit_eliminated d : eliminated d (named (explicit d)).
  Proof.
    unfold eliminated, explicit. cbn. pose proof (Gc_pos d). pose proof (Ge_pos d).
    assert (Hp : phi d (root d) = 0) by (rewrite phi_root; ring).
    unfold phi in Hp.
    assert (E : Ge d * ((Cc - Bc * root d) / Gc d - Kk * root d - Kr * root d - Kl * root d)
                = Be * root d - Ce).
    { replace ((Cc - Bc * root d) / Gc d - Kk * root d - Kr * root d - Kl * root d)
        with ((Be * root d - Ce) / Ge d) by lra.
      field. lra. }
    repeat split; try reflexivity; try exact E. field. lra.
  Qed.

  Lemma vec10_ext {A} (x y : vec10 A) :
    v0 x = v0 y -> v1 x = v1 y -> v2 x = v2 y -> v3 x = v3 y -> v4 x = v4 y -> v5 x = v5 y ->
    v6 x = v6 y -> v7 x = v7 y -> v8 x = v8 y -> v9 x = v9 y -> x = y.
  Proof. destruct x, y; cbn; intros; subst; reflexivity. Qed.

  Lemma eliminated_explicit d x : eliminated d (named x) -> x = explicit d.
  Proof.
    intros H. pose proof (eliminated_root d _ H) as Hr. pose proof (mc_eq d _ H) as Hc.
    rewrite Hr in Hc.
    destruct H as (_ & _ & M2 & M3 & M4 & T1 & T2 & Q1 & Q2 & Q3).
    rewrite Hr in *. rewrite Hc in *. cbn in *.
    apply vec10_ext; cbn; try assumption; congruence.
  Qed.

  (** C13 *)
  Lemma unique_solution d : exists! x, solves_system i d x.
  Proof.
    exists (explicit d). split.
    - apply system_eliminated, explicit_eliminated.
    - intros x Hx. apply system_eliminated, eliminated_explicit in Hx. congruence.
  Qed.

  (** what a sound and complete decomposition does *)
  Lemma decomp_solves D d : sound D -> complete D ->
    exists s, solves_for D i d s /\ eliminated d s.
  Proof.
    intros HS HC. pose proof (unique_solution d) as HU.
    pose proof (HC _ _ HU) as Hne.
    match type of Hne with D ?A ?b <> None => destruct (D A b) as [x|] eqn:E end; [|congruence].
    exists (named x). split.
    - exists x. split; [exact E|reflexivity].
    - apply system_eliminated. exact (HS _ _ _ E).
  Qed.

  (** ** The flow-direction search *)

  (** the directions at the ends determine the solution's pressure derivative *)
  Lemma root_ends d d' : fd_ck d = fd_ck d' -> fd_le d = fd_le d' ->
    root d = root d' /\ Gc d = Gc d' /\ Ge d = Ge d'.
  Proof.
    intros H1 H2.
    assert (E1 : Gc d = Gc d') by (unfold Gc, h_ck; rewrite H1; reflexivity).
    assert (E2 : Ge d = Ge d') by (unfold Ge, h_le; rewrite H2; reflexivity).
    unfold root. rewrite E1, E2. auto.
  Qed.
  Lemma signs_ends d d' s s' : eliminated d s -> eliminated d' s' ->
    fd_ck d = fd_ck d' -> fd_le d = fd_le d' -> signs s = signs s'.
  Proof.
    intros H H' E1 E2. destruct (root_ends d d' E1 E2) as (Er & Ec & Ee).
    pose proof (eliminated_root _ _ H) as R1. pose proof (eliminated_root _ _ H') as R2.
    pose proof (mc_eq _ _ H) as C1. pose proof (mc_eq _ _ H') as C2.
    rewrite R1 in C1. rewrite R2, <- Er, <- Ec in C2.
    destruct H as (_ & _ & M2 & M3 & M4 & _). destruct H' as (_ & _ & N2 & N3 & N4 & _).
    rewrite R1 in M2, M3, M4. rewrite R2, <- Er in N2, N3, N4.
    unfold signs. rewrite M4, N4, M3, N3, M2, N2, C1, C2. reflexivity.
  Qed.

  (** same sign at both ends: the same in between *)
  Lemma signs_middle d s : eliminated d s -> fd_ck (signs s) = fd_le (signs s) ->
    signs s = mkFD (fd_ck (signs s)) (fd_ck (signs s)) (fd_ck (signs s)) (fd_ck (signs s)).
  Proof.
    intros (_ & _ & M2 & M3 & M4 & _) E. pose proof K_nonneg as (H1 & H2 & H3).
    set (p := so_dP_dt s) in *.
    assert (HR : (0 <= p /\ 0 <= Kk * p /\ 0 <= Kr * p /\ 0 <= Kl * p) \/
                 (p < 0 /\ Kk * p <= 0 /\ Kr * p <= 0 /\ Kl * p <= 0)).
    { destruct (Rle_or_lt 0 p) as [Hp|Hp]; [left|right]; split; try exact Hp.
      - repeat split; apply Rmult_le_pos; assumption.
      - assert (Q : forall K, 0 <= K -> K * p <= 0).
        { intros K HK. rewrite <- (Rmult_0_r K). apply Rmult_le_compat_l; lra. }
        auto. }
    unfold signs in *; cbn [fd_ck fd_le] in E |- *.
    destruct (sign_of_cases (so_m_dot_ck s)) as [[S1 G1]|[S1 G1]]; rewrite S1 in *;
    destruct (sign_of_cases (so_m_dot_le s)) as [[S4 G4]|[S4 G4]]; rewrite S4 in *; try discriminate.
    - assert (S2 : sign_of (so_m_dot_kr s) = Positive) by (apply sign_of_pos; lra).
      assert (S3 : sign_of (so_m_dot_rl s) = Positive) by (apply sign_of_pos; lra).
      rewrite S2, S3. reflexivity.
    - assert (S2 : sign_of (so_m_dot_kr s) = Negative) by (apply sign_of_neg; lra).
      assert (S3 : sign_of (so_m_dot_rl s) = Negative) by (apply sign_of_neg; lra).
      rewrite S2, S3. reflexivity.
  Qed.

  (** signs at the ends in terms of the position of dP/dt *)
  Lemma sign_ck_iff d s : eliminated d s ->
    (fd_ck (signs s) = Positive <-> Bc * so_dP_dt s <= Cc) /\
    (fd_ck (signs s) = Negative <-> Cc < Bc * so_dP_dt s).
  Proof.
    intros (C1 & _). pose proof (Gc_pos d) as HG. cbn [signs fd_ck].
    rewrite sign_of_pos, sign_of_neg. split; split; intros H.
    - assert (0 <= Gc d * so_m_dot_ck s) by (apply Rmult_le_pos; lra). lra.
    - apply (Rmult_le_reg_l (Gc d)); lra.
    - assert (Gc d * so_m_dot_ck s < 0) by (rewrite <- (Rmult_0_r (Gc d)); apply Rmult_lt_compat_l; lra). lra.
    - apply (Rmult_lt_reg_l (Gc d)); lra.
  Qed.
  Lemma sign_le_iff d s : eliminated d s ->
    (fd_le (signs s) = Positive <-> Ce <= Be * so_dP_dt s) /\
    (fd_le (signs s) = Negative <-> Be * so_dP_dt s < Ce).
  Proof.
    intros (_ & C1 & _). pose proof (Ge_pos d) as HG. cbn [signs fd_le].
    rewrite sign_of_pos, sign_of_neg. split; split; intros H.
    - assert (0 <= Ge d * so_m_dot_le s) by (apply Rmult_le_pos; lra). lra.
    - apply (Rmult_le_reg_l (Ge d)); lra.
    - assert (Ge d * so_m_dot_le s < 0) by (rewrite <- (Rmult_0_r (Ge d)); apply Rmult_lt_compat_l; lra). lra.
    - apply (Rmult_lt_reg_l (Ge d)); lra.
  Qed.

  (** the sign at one end depends only on the direction assumed at the other *)
  Lemma le_sign d d' s s' : eliminated d s -> eliminated d' s' -> fd_ck d = fd_ck d' ->
    fd_le (signs s) = Positive -> fd_le (signs s') = Negative -> False.
  Proof.
    intros H H' E S S'.
    apply (proj1 (sign_le_iff d s H)) in S. apply (proj2 (sign_le_iff d' s' H')) in S'.
    pose proof (mc_eq d s H) as C. pose proof (mc_eq d' s' H') as C'.
    pose proof (me_eq d s H) as L. pose proof (me_eq d' s' H') as L'.
    assert (EG : Gc d' = Gc d) by (unfold Gc, h_ck; rewrite E; reflexivity). rewrite EG in C'.
    pose proof (Gc_pos d) as HG. pose proof (Ge_pos d) as HGe. pose proof (Ge_pos d') as HGe'.
    pose proof Bc_pos as HB. pose proof Be_pos as HBe. pose proof K_nonneg as (K1 & K2 & K3).
    destruct H as (_ & _ & M2 & M3 & M4 & _). destruct H' as (_ & _ & N2 & N3 & N4 & _).
    set (p := so_dP_dt s) in *. set (p' := so_dP_dt s') in *.
    assert (Hp : p' < p) by (apply (Rmult_lt_reg_l Be); lra).
    assert (Q : forall K, 0 <= K -> K * p' <= K * p) by (intros; apply Rmult_le_compat_l; lra).
    pose proof (Q _ K1). pose proof (Q _ K2). pose proof (Q _ K3).
    assert (so_m_dot_ck s <= so_m_dot_ck s').
    { rewrite C, C'. unfold Rdiv. apply Rmult_le_compat_r.
      - left. apply Rinv_0_lt_compat, HG.
      - assert (Bc * p' <= Bc * p) by (apply Q; lra). lra. }
    assert (0 <= so_m_dot_le s).
    { rewrite L. apply Rmult_le_pos; [lra|]. left. apply Rinv_0_lt_compat, HGe. }
    assert (so_m_dot_le s' < 0).
    { rewrite L'. replace ((Be * p' - Ce) / Ge d') with (- ((Ce - Be * p') / Ge d')) by (field; lra).
      assert (0 < (Ce - Be * p') / Ge d') by (apply Rdiv_lt_0_compat; lra). lra. }
    lra.
  Qed.
  Lemma ck_sign d d' s s' : eliminated d s -> eliminated d' s' -> fd_le d = fd_le d' ->
    fd_ck (signs s) = Positive -> fd_ck (signs s') = Negative -> False.
  Proof.
    intros H H' E S S'.
    apply (proj1 (sign_ck_iff d s H)) in S. apply (proj2 (sign_ck_iff d' s' H')) in S'.
    pose proof (mc_eq d s H) as C. pose proof (mc_eq d' s' H') as C'.
    pose proof (me_eq d s H) as L. pose proof (me_eq d' s' H') as L'.
    assert (EG : Ge d' = Ge d) by (unfold Ge, h_le; rewrite E; reflexivity). rewrite EG in L'.
    pose proof (Ge_pos d) as HG. pose proof (Gc_pos d) as HGc. pose proof (Gc_pos d') as HGc'.
    pose proof Bc_pos as HB. pose proof Be_pos as HBe. pose proof K_nonneg as (K1 & K2 & K3).
    destruct H as (_ & _ & M2 & M3 & M4 & _). destruct H' as (_ & _ & N2 & N3 & N4 & _).
    set (p := so_dP_dt s) in *. set (p' := so_dP_dt s') in *.
    assert (Hp : p < p') by (apply (Rmult_lt_reg_l Bc); lra).
    assert (Q : forall K, 0 <= K -> K * p <= K * p') by (intros; apply Rmult_le_compat_l; lra).
    pose proof (Q _ K1). pose proof (Q _ K2). pose proof (Q _ K3).
    assert (so_m_dot_le s <= so_m_dot_le s').
    { rewrite L, L'. unfold Rdiv. apply Rmult_le_compat_r.
      - left. apply Rinv_0_lt_compat, HG.
      - assert (Be * p <= Be * p') by (apply Q; lra). lra. }
    assert (0 <= so_m_dot_ck s).
    { rewrite C. apply Rmult_le_pos; [lra|]. left. apply Rinv_0_lt_compat, HGc. }
    assert (so_m_dot_ck s' < 0).
    { rewrite C'. replace ((Cc - Bc * p') / Gc d') with (- ((Bc * p' - Cc) / Gc d')) by (field; lra).
      assert (0 < (Bc * p' - Cc) / Gc d') by (apply Rdiv_lt_0_compat; lra). lra. }
    lra.
  Qed.

  (** two solutions never have opposite signs at both ends *)
  Lemma opposite d d' s s' : eliminated d s -> eliminated d' s' ->
    fd_ck (signs s) = Positive -> fd_ck (signs s') = Negative ->
    fd_le (signs s) <> fd_le (signs s') -> False.
  Proof.
    intros H H' A A' N.
    pose proof (proj1 (sign_ck_iff d s H)) as [P1 _]. pose proof (proj2 (sign_ck_iff d' s' H')) as [P2 _].
    specialize (P1 A). specialize (P2 A').
    pose proof Bc_pos as HB. pose proof Be_pos as HBe. pose proof K_nonneg as (K1 & K2 & K3).
    assert (MO : forall x y, 0 < x -> x * so_dP_dt s <= x * y -> so_dP_dt s <= y)
      by (intros x y Hx Hy; apply (Rmult_le_reg_l x); assumption).
    destruct (sign_of_cases (so_m_dot_le s)) as [[S G]|[S G]];
    destruct (sign_of_cases (so_m_dot_le s')) as [[S' G']|[S' G']]; cbn [signs fd_le] in N.
    - rewrite S, S' in N. now apply N.
    - (* (+,+) and (-,-) *)
      pose proof (proj1 (proj1 (sign_le_iff d s H)) S) as Q1.
      pose proof (proj1 (proj2 (sign_le_iff d' s' H')) S') as Q2.
      assert (so_dP_dt s < so_dP_dt s') by (apply (Rmult_lt_reg_l Bc); lra).
      assert (so_dP_dt s' < so_dP_dt s) by (apply (Rmult_lt_reg_l Be); lra). lra.
    - (* (+,-) and (-,+) *)
      pose proof (proj1 (proj2 (sign_le_iff d s H)) S) as Q1.
      pose proof (proj1 (proj1 (sign_le_iff d' s' H')) S') as Q2.
      assert (so_dP_dt s < so_dP_dt s') by (apply (Rmult_lt_reg_l Bc); lra).
      destruct H as (_ & _ & M2 & M3 & M4 & _). destruct H' as (_ & _ & N2 & N3 & N4 & _).
      cbn [signs fd_ck] in A, A'. apply sign_of_pos in A. apply sign_of_neg in A'.
      assert (MK : forall K p p', 0 <= K -> p <= p' -> K * p <= K * p')
        by (intros; apply Rmult_le_compat_l; assumption).
      assert (0 < (Kk + Kr + Kl) * so_dP_dt s) by lra.
      assert ((Kk + Kr + Kl) * so_dP_dt s' < 0) by lra.
      assert ((Kk + Kr + Kl) * so_dP_dt s <= (Kk + Kr + Kl) * so_dP_dt s') by (apply MK; lra).
      lra.
    - rewrite S, S' in N. now apply N.
  Qed.

  Lemma definite (s : Solution R) :
    (fd_ck (signs s) = Positive \/ fd_ck (signs s) = Negative) /\
    (fd_le (signs s) = Positive \/ fd_le (signs s) = Negative).
  Proof.
    cbn [signs fd_ck fd_le].
    destruct (sign_of_cases (so_m_dot_ck s)) as [[-> _]|[-> _]];
    destruct (sign_of_cases (so_m_dot_le s)) as [[-> _]|[-> _]]; auto.
  Qed.

  Lemma opposite_ends d d' s s' : eliminated d s -> eliminated d' s' ->
    fd_ck (signs s) <> fd_ck (signs s') -> fd_le (signs s) <> fd_le (signs s') -> False.
  Proof.
    intros H H' N1 N2.
    destruct (definite s) as [[A|A] _]; destruct (definite s') as [[A'|A'] _];
      try (rewrite A, A' in N1; now apply N1).
    - exact (opposite d d' s s' H H' A A' N2).
    - apply (opposite d' d s' s H' H A' A). congruence.
  Qed.
  Lemma le_sign_eq d d' s s' : eliminated d s -> eliminated d' s' -> fd_ck d = fd_ck d' ->
    fd_le (signs s) = fd_le (signs s').
  Proof.
    intros H H' E.
    destruct (definite s) as [_ [A|A]]; destruct (definite s') as [_ [A'|A']]; try congruence; exfalso.
    - exact (le_sign d d' s s' H H' E A A').
    - exact (le_sign d' d s' s H' H (eq_sym E) A' A).
  Qed.
  Lemma ck_sign_eq d d' s s' : eliminated d s -> eliminated d' s' -> fd_le d = fd_le d' ->
    fd_ck (signs s) = fd_ck (signs s').
  Proof.
    intros H H' E.
    destruct (definite s) as [[A|A] _]; destruct (definite s') as [[A'|A'] _]; try congruence; exfalso.
    - exact (ck_sign d d' s s' H H' E A A').
    - exact (ck_sign d' d s' s H' H (eq_sym E) A' A).
  Qed.

  Lemma dir_dec (a b : Direction) : {a = b} + {a <> b}.
  Proof. decide equality. Qed.

  (** the directions are stable from the third update on *)
  Lemma search_settles d0 s0 s1 s2 s3 :
    eliminated d0 s0 -> eliminated (signs s0) s1 -> eliminated (signs s1) s2 ->
    eliminated (signs s2) s3 ->
    signs s1 = signs s2 \/ signs s2 = signs s3.
  Proof.
    intros H0 H1 H2 H3.
    destruct (dir_dec (fd_ck (signs s0)) (fd_ck (signs s1))) as [A1|A1];
    destruct (dir_dec (fd_le (signs s0)) (fd_le (signs s1))) as [A2|A2].
    - left. exact (signs_ends _ _ _ _ H1 H2 A1 A2).
    - pose proof (le_sign_eq _ _ _ _ H1 H2 A1) as B2.
      destruct (dir_dec (fd_ck (signs s1)) (fd_ck (signs s2))) as [B1|B1].
      + right. exact (signs_ends _ _ _ _ H2 H3 B1 B2).
      + exfalso. apply (opposite_ends _ _ _ _ H0 H2); congruence.
    - pose proof (ck_sign_eq _ _ _ _ H1 H2 A2) as B1.
      destruct (dir_dec (fd_le (signs s1)) (fd_le (signs s2))) as [B2|B2].
      + right. exact (signs_ends _ _ _ _ H2 H3 B1 B2).
      + exfalso. apply (opposite_ends _ _ _ _ H0 H2); congruence.
    - exfalso. exact (opposite_ends _ _ _ _ H0 H1 A1 A2).
  Qed.

  (** C14 *)
  Lemma eliminated_of D d s : sound D -> solves_for D i d s -> eliminated d s.
  Proof.
    intros HS H. destruct (solves_for_system D i d s HS H) as (x & Hx & ->).
    apply system_eliminated. exact Hx.
  Qed.

  Lemma search_succeeds D hint : sound D -> complete D -> ~ search_fails D i hint.
  Proof.
    intros HS HC (tr & pre & a & [tr' Ehd] & Etr & _ & Hch & Hend).
    assert (NF : forall d, ~ fails_for D i d).
    { intros d Hf. destruct (decomp_solves D d HS HC) as (s & Hs & _).
      exact (solves_not_fails D i d s Hs Hf). }
    destruct Hend as [Hf|[Hlen (s3 & Hs3 & Hn)]]; [exact (NF _ Hf)|].
    rewrite Ehd in *.
    destruct tr' as [|d1 [|d2 [|d3 [|? ?]]]]; try discriminate Hlen.
    assert (Ea : a = d3).
    { destruct pre as [|p0 [|p1 [|p2 [|p3 pre]]]]; try discriminate Etr.
      - injection Etr. congruence.
      - exfalso. apply (f_equal (@length _)) in Etr. rewrite app_length in Etr. cbn in Etr. lia. }
    subst a.
    destruct (Hch 0%nat hint d1 eq_refl eq_refl) as (s0 & Hs0 & E1 & _).
    destruct (Hch 1%nat d1 d2 eq_refl eq_refl) as (s1 & Hs1 & E2 & N2).
    destruct (Hch 2%nat d2 d3 eq_refl eq_refl) as (s2 & Hs2 & E3 & N3).
    apply (eliminated_of D) in Hs0, Hs1, Hs2, Hs3; try exact HS.
    subst d1 d2 d3.
    destruct (search_settles hint s0 s1 s2 s3 Hs0 Hs1 Hs2 Hs3) as [E|E]; congruence.
  Qed.

  Lemma solve_succeeds D hint : sound D -> complete D -> exists s, solve D i hint = Ok s.
  Proof.
    intros HS HC. destruct (solve D i hint) as [s|e] eqn:E; [eauto|].
    exfalso. exact (search_succeeds D hint HS HC (solve_search_fails D i hint e E)).
  Qed.

  (** C15 *)
  Lemma consistent_unique s s' : eliminated (signs s) s -> eliminated (signs s') s' -> signs s = signs s'.
  Proof.
    intros H H'.
    destruct (dir_dec (fd_ck (signs s)) (fd_ck (signs s'))) as [A1|A1].
    - exact (signs_ends _ _ _ _ H H' A1 (le_sign_eq _ _ _ _ H H' A1)).
    - destruct (dir_dec (fd_le (signs s)) (fd_le (signs s'))) as [A2|A2].
      + exact (signs_ends _ _ _ _ H H' (ck_sign_eq _ _ _ _ H H' A2) A2).
      + exfalso. exact (opposite_ends _ _ _ _ H H' A1 A2).
  Qed.

  Lemma upwind_unique D D' s s' : sound D -> sound D' ->
    upwind_solution D i s -> upwind_solution D' i s' -> s = s'.
  Proof.
    intros HD HD' H H'. apply solves_for_upwind in H, H'.
    pose proof (consistent_unique s s' (eliminated_of D _ s HD H) (eliminated_of D' _ s' HD' H')) as E.
    destruct (solves_for_system D i _ s HD H) as (x & Hx & ->).
    destruct (solves_for_system D' i _ s' HD' H') as (x' & Hx' & ->).
    rewrite <- E in Hx'.
    apply system_eliminated, eliminated_explicit in Hx, Hx'. congruence.
  Qed.

  Lemma solve_unique D D' hint hint' s s' : sound D -> sound D' ->
    solve D i hint = Ok s -> solve D' i hint' = Ok s' -> s = s'.
  Proof.
    intros HD HD' H H'. apply solve_upwind in H, H'. exact (upwind_unique D D' s s' HD HD' H H').
  Qed.
End Physical.

Lemma derivative_unique D D' (c : Cycle R) t y dy dy' : sound D -> sound D' ->
  physical (cy_calculate_inputs c t (mkCond (fst (fst y)) (snd (fst y)) (snd y))) ->
  derivative_at D c t y dy -> derivative_at D' c t y dy' -> dy = dy'.
Proof.
  intros HD HD' HP (s & H & ->) (s' & H' & ->).
  rewrite (upwind_unique _ HP D D' s s' HD HD' H H'). reflexivity.
Qed.

(** ** The solver computes the solution of the balances *)
Definition vector_of (s : Solution R) : Vector R :=
  V10 (so_m_dot_ck s) (so_m_dot_kr s) (so_m_dot_rl s) (so_m_dot_le s)
      (so_Q_dot_k s) (so_Q_dot_r s) (so_Q_dot_l s) (so_dTc_dt s) (so_dTe_dt s) (so_dP_dt s).
Lemma named_vector_of s : named (vector_of s) = s.
Proof. destruct s. reflexivity. Qed.

Lemma conserves_system i s : in_enth_norm i <> 0 -> conserves i s ->
  solves_system i (signs s) (vector_of s).
Proof.
  intros Hn (HM & hck & hkr & hrl & hle & D1 & D2 & D3 & D4 & HE).
  apply (system_iff i _ _ Hn). rewrite named_vector_of. split; [exact HM|].
  apply donor_R_inv in D1, D2, D3, D4. subst. exact HE.
Qed.

Lemma solve_iff_conserves D i hint s : sound D -> complete D -> physical i ->
  solve D i hint = Ok s <-> conserves i s.
Proof.
  intros HS HC HP. split.
  - intros H. apply (energy_conserved D i hint s HS (norm_nonzero i HP) H).
  - intros H. destruct (solve_succeeds i HP D hint HS HC) as [s' Hs']. rewrite Hs'. f_equal.
    apply (conserves_system i s (norm_nonzero i HP)) in H.
    destruct (solve_system D i hint s' HS Hs') as (x' & Hx' & E').
    assert (E : signs s' = signs s).
    { apply (consistent_unique i HP).
      - rewrite E' at 2. apply (system_eliminated i HP), Hx'.
      - rewrite <- (named_vector_of s) at 2. apply (system_eliminated i HP), H. }
    rewrite E in Hx'.
    apply (system_eliminated i HP), (eliminated_explicit i HP) in Hx'.
    apply (system_eliminated i HP), (eliminated_explicit i HP) in H.
    rewrite <- (named_vector_of s), E', Hx', H. reflexivity.
Qed.

(** ** The system of the code *)
Lemma code_system i d x : solves_code_system i d x <-> solves_system i d x.
Proof. unfold solves_code_system, solves_system. rewrite create_matrix_eq, sys_b_eq. reflexivity. Qed.
Lemma code_norm_is_scaling i d hn x : in_enth_norm i <> 0 -> hn <> 0 ->
  solves_code_system (with_norm i hn) d x <-> solves_code_system i d x.
Proof. intros H1 H2. rewrite !code_system. exact (norm_is_scaling i d hn x H1 H2). Qed.
Lemma code_unique_solution i d : physical i -> exists! x, solves_code_system i d x.
Proof.
  intros HP. destruct (unique_solution i HP d) as (x & H & U). exists x. split.
  - apply code_system. exact H.
  - intros y Hy. apply U. apply code_system. exact Hy.
Qed.
Lemma norm_physical i hn : hn <> 0 -> physical i -> physical (with_norm i hn).
Proof. intros H (_ & HP). split; [exact H | exact HP]. Qed.
Lemma norm_solve D i hint hn s : sound D -> complete D -> physical i -> hn <> 0 ->
  solve D (with_norm i hn) hint = Ok s <-> solve D i hint = Ok s.
Proof.
  intros HS HC HP Hn. rewrite (solve_iff_conserves D i hint s HS HC HP).
  rewrite (solve_iff_conserves D (with_norm i hn) hint s HS HC (norm_physical i hn Hn HP)). reflexivity.
Qed.
