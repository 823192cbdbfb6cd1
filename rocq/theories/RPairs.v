(** * Pairs of functions on an interval that are as close as a given distance *)
From Coq Require Import ZArith List Reals Lra Lia.
From Verif Require Import RClose.
Local Open Scope R_scope.

Definition cont_on (a b : R) (f : R -> R) : Prop := forall t, a <= t <= b -> continuity_pt f t.

Lemma deriv_cont f t l : derivable_pt_lim f t l -> continuity_pt f t.
Proof. intros H. apply derivable_continuous_pt. exists l. exact H. Qed.

Section Pairs.
  Variables (a b : R) (d : R -> R).
  Hypothesis Hab : a <= b.
  Hypothesis Hd : forall t, a <= t <= b -> 0 <= d t.

  (** both bounded, and their difference at most a multiple of [d] *)
  Definition near (f g : R -> R) : Prop := exists K, 0 <= K /\ forall t, a <= t <= b ->
    Rabs (f t) <= K /\ Rabs (g t) <= K /\ Rabs (f t - g t) <= K * d t.
  Definition good (f g : R -> R) : Prop := cont_on a b f /\ cont_on a b g /\ near f g.
  (** both above the same positive number *)
  Definition above (f g : R -> R) : Prop := exists m, 0 < m /\ forall t, a <= t <= b -> m <= f t /\ m <= g t.

  Lemma bounded f : cont_on a b f -> exists K, 0 <= K /\ forall t, a <= t <= b -> Rabs (f t) <= K.
  Proof.
    intros H. destruct (continuity_ab_maj f a b Hab H) as (x & Hx & _).
    destruct (continuity_ab_min f a b Hab H) as (y & Hy & _).
    exists (Rabs (f x) + Rabs (f y)). split; [pose proof (Rabs_pos (f x)); pose proof (Rabs_pos (f y)); lra|].
    intros t Ht. specialize (Hx t Ht). specialize (Hy t Ht).
    pose proof (Rabs_pos (f x)). pose proof (Rabs_pos (f y)).
    pose proof (Rle_abs (f x)). pose proof (Rle_abs (- f y)) as Q. rewrite Rabs_Ropp in Q.
    apply Rabs_le. lra.
  Qed.
  Lemma positive f g : good f g -> (forall t, a <= t <= b -> 0 < f t /\ 0 < g t) -> above f g.
  Proof.
    intros (Hf & Hg & _) H. destruct (continuity_ab_min f a b Hab Hf) as (x & Hx & Ix).
    destruct (continuity_ab_min g a b Hab Hg) as (y & Hy & Iy).
    exists (Rmin (f x) (g y)). split; [apply Rmin_pos; [apply (H x Ix)|apply (H y Iy)]|].
    intros t Ht. split; [eapply Rle_trans; [apply Rmin_l|apply Hx, Ht]|eapply Rle_trans; [apply Rmin_r|apply Hy, Ht]].
  Qed.

  Lemma near_same f : cont_on a b f -> near f f.
  Proof.
    intros H. destruct (bounded f H) as (K & H1 & H2). exists K. split; [exact H1|]. intros t Ht.
    specialize (H2 t Ht). split; [exact H2|]. split; [exact H2|].
    replace (f t - f t) with 0 by ring. rewrite Rabs_R0. apply Rmult_le_pos; [exact H1|apply Hd, Ht].
  Qed.
  Lemma good_same f : cont_on a b f -> good f f.
  Proof. intros H. split; [exact H|]. split; [exact H|apply near_same, H]. Qed.
  Lemma cont_const k : cont_on a b (fun _ => k).
  Proof. intros t Ht. apply continuity_pt_const. intros x y. reflexivity. Qed.
  Lemma good_const k : good (fun _ => k) (fun _ => k).
  Proof. apply good_same, cont_const. Qed.

  Lemma near_plus f g f' g' : near f g -> near f' g' -> near (fun t => f t + f' t) (fun t => g t + g' t).
  Proof.
    intros (K & K0 & HK) (M & M0 & HM). exists (K + M). split; [lra|]. intros t Ht.
    destruct (HK t Ht) as (A1 & A2 & A3), (HM t Ht) as (B1 & B2 & B3).
    split; [eapply Rle_trans; [apply Rabs_triang|lra]|]. split; [eapply Rle_trans; [apply Rabs_triang|lra]|].
    replace (f t + f' t - (g t + g' t)) with ((f t - g t) + (f' t - g' t)) by ring.
    eapply Rle_trans; [apply Rabs_triang|lra].
  Qed.
  Lemma near_opp f g : near f g -> near (fun t => - f t) (fun t => - g t).
  Proof.
    intros (K & K0 & HK). exists K. split; [lra|]. intros t Ht. destruct (HK t Ht) as (A1 & A2 & A3).
    rewrite !Rabs_Ropp. split; [exact A1|]. split; [exact A2|].
    replace (- f t - - g t) with (- (f t - g t)) by ring. rewrite Rabs_Ropp. exact A3.
  Qed.
  Lemma near_mult f g f' g' : near f g -> near f' g' -> near (fun t => f t * f' t) (fun t => g t * g' t).
  Proof.
    intros (K & K0 & HK) (M & M0 & HM). exists (K * M + M * K). split; [nra|]. intros t Ht.
    destruct (HK t Ht) as (A1 & A2 & A3), (HM t Ht) as (B1 & B2 & B3). pose proof (Hd t Ht) as Hdt.
    assert (0 <= K * M) by (apply Rmult_le_pos; lra).
    split; [rewrite Rabs_mult; eapply Rle_trans; [apply Rmult_le_compat; try apply Rabs_pos; eassumption|lra]|].
    split; [rewrite Rabs_mult; eapply Rle_trans; [apply Rmult_le_compat; try apply Rabs_pos; eassumption|lra]|].
    replace (f t * f' t - g t * g' t) with (f t * (f' t - g' t) + g' t * (f t - g t)) by ring.
    eapply Rle_trans; [apply Rabs_triang|]. rewrite !Rabs_mult.
    assert (Rabs (f t) * Rabs (f' t - g' t) <= K * (M * d t)) by (apply Rmult_le_compat; try apply Rabs_pos; assumption).
    assert (Rabs (g' t) * Rabs (f t - g t) <= M * (K * d t)) by (apply Rmult_le_compat; try apply Rabs_pos; assumption).
    lra.
  Qed.
  Lemma near_inv f g : near f g -> above f g -> near (fun t => / f t) (fun t => / g t).
  Proof.
    intros (K & K0 & HK) (m & m0 & Hm). assert (I0 : 0 < / m) by (apply Rinv_0_lt_compat; lra).
    exists (/ m + K * (/ m * / m)).
    assert (I1 : 0 < / m * / m) by (apply Rmult_lt_0_compat; lra).
    assert (I2 : 0 <= K * (/ m * / m)) by (apply Rmult_le_pos; lra).
    split; [lra|]. intros t Ht. destruct (HK t Ht) as (A1 & A2 & A3), (Hm t Ht) as (B1 & B2). pose proof (Hd t Ht) as Hdt.
    assert (F : forall x, m <= x -> 0 < / x <= / m).
    { intros x Hx. split; [apply Rinv_0_lt_compat; lra|apply Rinv_le_contravar; lra]. }
    pose proof (F _ B1) as F1. pose proof (F _ B2) as F2.
    split; [rewrite Rabs_pos_eq; lra|]. split; [rewrite Rabs_pos_eq; lra|].
    replace (/ f t - / g t) with (- (f t - g t) * (/ f t * / g t)) by (field; lra).
    rewrite Rabs_mult, Rabs_Ropp, Rabs_mult, (Rabs_pos_eq (/ f t)), (Rabs_pos_eq (/ g t)) by lra.
    apply Rle_trans with (K * d t * (/ m * / m)).
    { apply Rmult_le_compat; [apply Rabs_pos|apply Rmult_le_pos; lra|exact A3|apply Rmult_le_compat; lra]. }
    assert (0 <= / m * d t) by (apply Rmult_le_pos; lra). lra.
  Qed.

  Lemma good_plus f g f' g' : good f g -> good f' g' -> good (fun t => f t + f' t) (fun t => g t + g' t).
  Proof.
    intros (A & B & C) (A' & B' & C').
    split; [|split; [|apply near_plus; assumption]]; intros t Ht; apply continuity_pt_plus; auto.
  Qed.
  Lemma good_opp f g : good f g -> good (fun t => - f t) (fun t => - g t).
  Proof.
    intros (A & B & C). split; [|split; [|apply near_opp; assumption]]; intros t Ht; apply continuity_pt_opp; auto.
  Qed.
  Lemma good_minus f g f' g' : good f g -> good f' g' -> good (fun t => f t - f' t) (fun t => g t - g' t).
  Proof. intros H H'. exact (good_plus _ _ _ _ H (good_opp _ _ H')). Qed.
  Lemma good_mult f g f' g' : good f g -> good f' g' -> good (fun t => f t * f' t) (fun t => g t * g' t).
  Proof.
    intros (A & B & C) (A' & B' & C').
    split; [|split; [|apply near_mult; assumption]]; intros t Ht; apply continuity_pt_mult; auto.
  Qed.
  Lemma good_inv f g : good f g -> (forall t, a <= t <= b -> 0 < f t /\ 0 < g t) ->
    good (fun t => / f t) (fun t => / g t).
  Proof.
    intros H P. pose proof (positive f g H P) as HA. destruct H as (A & B & C).
    split; [|split; [|apply near_inv; assumption]]; intros t Ht; apply continuity_pt_inv; auto;
      apply Rgt_not_eq; apply (P t Ht).
  Qed.
  Lemma good_div f g f' g' : good f g -> good f' g' -> (forall t, a <= t <= b -> 0 < f' t /\ 0 < g' t) ->
    good (fun t => f t / f' t) (fun t => g t / g' t).
  Proof. intros H H' P. exact (good_mult _ _ _ _ H (good_inv _ _ H' P)). Qed.
  Lemma good_pow f g n : good f g -> good (fun t => f t ^ n) (fun t => g t ^ n).
  Proof. intros H. induction n as [|n IH]; [exact (good_const 1)|]. exact (good_mult _ _ _ _ H IH). Qed.
  Lemma good_ext f g f' g' : good f g -> (forall t, f' t = f t) -> (forall t, g' t = g t) -> good f' g'.
  Proof.
    intros (A & B & (K & K0 & HK)) Ef Eg. split; [|split].
    - intros t Ht. apply (continuity_pt_locally_ext f f' 1 t ltac:(lra)); [intros; auto|exact (A t Ht)].
    - intros t Ht. apply (continuity_pt_locally_ext g g' 1 t ltac:(lra)); [intros; auto|exact (B t Ht)].
    - exists K. split; [exact K0|]. intros t Ht. rewrite Ef, Eg. exact (HK t Ht).
  Qed.

  Lemma near_minus f g f' g' : near f g -> near f' g' -> near (fun t => f t - f' t) (fun t => g t - g' t).
  Proof. intros H H'. exact (near_plus _ _ _ _ H (near_opp _ _ H')). Qed.
  Lemma good_near f g : good f g -> near f g.
  Proof. intros (_ & _ & H). exact H. Qed.

  (** a number that serves as upper bound, and its inverse as lower bound *)
  Lemma near_big f g : near f g -> exists K, 1 <= K /\ forall M, K <= M -> forall t, a <= t <= b ->
    Rabs (f t) <= M /\ Rabs (g t) <= M /\ Rabs (f t - g t) <= M * d t.
  Proof.
    intros (K & K0 & H). exists (K + 1). split; [lra|]. intros M HM t Ht.
    destruct (H t Ht) as (A & B & C). split; [lra|]. split; [lra|].
    eapply Rle_trans; [exact C|]. apply Rmult_le_compat_r; [apply Hd, Ht|lra].
  Qed.
  Lemma good_big f g : good f g -> (forall t, a <= t <= b -> 0 < f t /\ 0 < g t) ->
    exists K, 1 <= K /\ forall M, K <= M -> forall t, a <= t <= b ->
      / M <= f t <= M /\ / M <= g t <= M /\ Rabs (f t - g t) <= M * d t.
  Proof.
    intros H P. destruct (positive f g H P) as (m & m0 & Hm).
    destruct (near_big f g (good_near f g H)) as (K & K1 & HK).
    assert (I0 : 0 < / m) by (apply Rinv_0_lt_compat; lra).
    exists (K + / m). split; [lra|]. intros M HM t Ht.
    destruct (HK M ltac:(lra) t Ht) as (A & B & C). destruct (Hm t Ht) as (D & E).
    assert (/ M <= m). { rewrite <- (Rinv_inv m) by lra. apply Rinv_le_contravar; lra. }
    pose proof (Rle_abs (f t)). pose proof (Rle_abs (g t)).
    split; [lra|]. split; [lra|exact C].
  Qed.

  (** the solutions of two systems along the interval *)
  Section Solutions.
    Variables (g1 g2 h1 h2 B B' K C C' : bool -> R -> R) (m p n : bool -> R -> R).
    Definition sys j t := mkSys (g1 j t) (g2 j t) (h1 j t) (h2 j t) (B j t) (B' j t) (K j t) (C j t) (C' j t).
    Definition pair (f : bool -> R -> R) : Prop := good (f true) (f false).
    Definition pos (f : bool -> R -> R) : Prop := forall t, a <= t <= b -> 0 < f true t /\ 0 < f false t.
    Hypothesis G1 : pair g1 /\ pos g1.
    Hypothesis G2 : pair g2 /\ pos g2.
    Hypothesis H1 : pair h1 /\ pos h1.
    Hypothesis H2 : pair h2 /\ pos h2.
    Hypothesis HB : pair B /\ pos B.
    Hypothesis HB' : pair B' /\ pos B'.
    Hypothesis HK : pair K.
    Hypothesis HK0 : forall t j, a <= t <= b -> 0 <= K j t.
    Hypothesis HC : pair C.
    Hypothesis HC' : pair C'.
    Hypothesis HS : forall t j, a <= t <= b -> solved (sys j t) (m j t) (p j t) (n j t).
    Lemma solutions_near : near (m true) (m false) /\ near (p true) (p false) /\ near (n true) (n false).
    Proof.
      destruct (good_big _ _ (proj1 G1) (proj2 G1)) as (k1 & I1 & F1).
      destruct (good_big _ _ (proj1 G2) (proj2 G2)) as (k2 & I2 & F2).
      destruct (good_big _ _ (proj1 H1) (proj2 H1)) as (k3 & I3 & F3).
      destruct (good_big _ _ (proj1 H2) (proj2 H2)) as (k4 & I4 & F4).
      destruct (good_big _ _ (proj1 HB) (proj2 HB)) as (k5 & I5 & F5).
      destruct (good_big _ _ (proj1 HB') (proj2 HB')) as (k6 & I6 & F6).
      destruct (near_big _ _ (good_near _ _ HK)) as (k7 & I7 & F7).
      destruct (near_big _ _ (good_near _ _ HC)) as (k8 & I8 & F8).
      destruct (near_big _ _ (good_near _ _ HC')) as (k9 & I9 & F9).
      set (M := k1 + k2 + k3 + k4 + k5 + k6 + k7 + k8 + k9).
      assert (HM : 1 <= M) by (unfold M; lra).
      assert (Hmu : 0 < / M) by (apply Rinv_0_lt_compat; lra).
      assert (W : forall t, a <= t <= b -> within (/ M) M (sys true t) /\ within (/ M) M (sys false t) /\
                    sys_close (M * d t) (sys true t) (sys false t)).
      { intros t Ht.
        specialize (F1 M ltac:(unfold M; lra) t Ht). specialize (F2 M ltac:(unfold M; lra) t Ht).
        specialize (F3 M ltac:(unfold M; lra) t Ht). specialize (F4 M ltac:(unfold M; lra) t Ht).
        specialize (F5 M ltac:(unfold M; lra) t Ht). specialize (F6 M ltac:(unfold M; lra) t Ht).
        specialize (F7 M ltac:(unfold M; lra) t Ht). specialize (F8 M ltac:(unfold M; lra) t Ht).
        specialize (F9 M ltac:(unfold M; lra) t Ht).
        pose proof (HK0 t true Ht) as P1. pose proof (HK0 t false Ht) as P2.
        pose proof (Rle_abs (K true t)). pose proof (Rle_abs (K false t)).
        unfold within, sys_close, sys. cbn [y_g1 y_g2 y_h1 y_h2 y_B y_B' y_K y_C y_C'].
        intuition lra. }
      destruct (solved_bounded (/ M) M Hmu) as (Z & Z0 & HZ).
      destruct (solved_close (/ M) M Hmu) as (L & L0 & HL).
      assert (LM : 0 <= L * M) by (apply Rmult_le_pos; lra).
      assert (N : forall t, a <= t <= b ->
        (Rabs (m true t) <= Z + L * M /\ Rabs (m false t) <= Z + L * M /\ Rabs (m true t - m false t) <= (Z + L * M) * d t) /\
        (Rabs (p true t) <= Z + L * M /\ Rabs (p false t) <= Z + L * M /\ Rabs (p true t - p false t) <= (Z + L * M) * d t) /\
        (Rabs (n true t) <= Z + L * M /\ Rabs (n false t) <= Z + L * M /\ Rabs (n true t - n false t) <= (Z + L * M) * d t)).
      { intros t Ht. destruct (W t Ht) as (W1 & W2 & W3). pose proof (Hd t Ht) as Hdt.
        destruct (HZ _ _ _ _ W1 (HS t true Ht)) as (Z1 & Z2 & Z3).
        destruct (HZ _ _ _ _ W2 (HS t false Ht)) as (Z4 & Z5 & Z6).
        destruct (HL _ _ _ _ _ _ _ _ _ W1 W2 W3 (HS t true Ht) (HS t false Ht)) as (L1 & L2 & L3).
        assert (0 <= Z * d t) by (apply Rmult_le_pos; lra).
        assert (0 <= L * M * d t) by (apply Rmult_le_pos; lra).
        intuition lra. }
      split; [|split]; exists (Z + L * M); (split; [lra|]); intros t Ht; apply (N t Ht).
    Qed.
  End Solutions.
End Pairs.
