(** * Functions of seven numbers that are Lipschitz near a point *)
From Coq Require Import ZArith List Reals Lra Lia.
From Verif Require Import RClose RPairs RPicard.
Local Open Scope R_scope.

(** pressure, temperatures, volumes and rates of the volumes *)
Inductive C7 := yP | yC | yE | vC | vE | wC | wE.
Definition dist7 (y z : C7 -> R) : R :=
  Rabs (y yP - z yP) + Rabs (y yC - z yC) + Rabs (y yE - z yE) + Rabs (y vC - z vC)
  + Rabs (y vE - z vE) + Rabs (y wC - z wC) + Rabs (y wE - z wE).
Lemma dist7_ge y z i : Rabs (y i - z i) <= dist7 y z.
Proof.
  unfold dist7. pose proof (Rabs_pos (y yP - z yP)). pose proof (Rabs_pos (y yC - z yC)).
  pose proof (Rabs_pos (y yE - z yE)). pose proof (Rabs_pos (y vC - z vC)). pose proof (Rabs_pos (y vE - z vE)).
  pose proof (Rabs_pos (y wC - z wC)). pose proof (Rabs_pos (y wE - z wE)). destruct i; lra.
Qed.
Lemma dist7_nonneg y z : 0 <= dist7 y z.
Proof. pose proof (dist7_ge y z yP). pose proof (Rabs_pos (y yP - z yP)). lra. Qed.
Lemma dist7_le y z e : (forall i, Rabs (y i - z i) <= e) -> dist7 y z <= 7 * e.
Proof.
  intros H. unfold dist7. pose proof (H yP). pose proof (H yC). pose proof (H yE). pose proof (H vC).
  pose proof (H vE). pose proof (H wC). pose proof (H wE). lra.
Qed.

Section Local.
  Variable y0 : C7 -> R.
  Definition inside (dl : R) (y : C7 -> R) : Prop := forall i, Rabs (y i - y0 i) <= dl.
  Definition tame (f : (C7 -> R) -> R) : Prop := exists K dl, 0 <= K /\ 0 < dl /\
    forall y z, inside dl y -> inside dl z -> Rabs (f y) <= K /\ Rabs (f y - f z) <= K * dist7 y z.
  Lemma center dl : 0 < dl -> inside dl y0.
  Proof. intros H i. replace (y0 i - y0 i) with 0 by ring. rewrite Rabs_R0. lra. Qed.
  Lemma inside_le d e y : d <= e -> inside d y -> inside e y.
  Proof. intros H Hy i. specialize (Hy i). lra. Qed.

  Lemma tame_const k : tame (fun _ => k).
  Proof.
    exists (Rabs k), 1. split; [apply Rabs_pos|]. split; [lra|]. intros y z _ _. split; [lra|].
    replace (k - k) with 0 by ring. rewrite Rabs_R0. apply Rmult_le_pos; [apply Rabs_pos|apply dist7_nonneg].
  Qed.
  Lemma tame_coord i : tame (fun y => y i).
  Proof.
    exists (Rabs (y0 i) + 1), 1. pose proof (Rabs_pos (y0 i)). split; [lra|]. split; [lra|]. intros y z Hy Hz. split.
    - replace (y i) with ((y i - y0 i) + y0 i) by ring. eapply Rle_trans; [apply Rabs_triang|]. specialize (Hy i). lra.
    - pose proof (dist7_ge y z i). pose proof (dist7_nonneg y z).
      assert (0 <= Rabs (y0 i) * dist7 y z) by (apply Rmult_le_pos; lra). lra.
  Qed.
  Lemma tame_ext f g : tame f -> (forall y, g y = f y) -> tame g.
  Proof. intros (K & dl & K0 & D0 & H) E. exists K, dl. split; [exact K0|]. split; [exact D0|]. intros y z. rewrite !E. apply H. Qed.
  Lemma tame_plus f g : tame f -> tame g -> tame (fun y => f y + g y).
  Proof.
    intros (K & d & K0 & D0 & HK) (M & e & M0 & E0 & HM). exists (K + M), (Rmin d e).
    split; [lra|]. split; [apply Rmin_pos; assumption|]. intros y z Hy Hz.
    destruct (HK y z) as (A1 & A2); try (eapply inside_le; [apply Rmin_l|eassumption]).
    destruct (HM y z) as (B1 & B2); try (eapply inside_le; [apply Rmin_r|eassumption]).
    split; [eapply Rle_trans; [apply Rabs_triang|lra]|].
    replace (f y + g y - (f z + g z)) with ((f y - f z) + (g y - g z)) by ring.
    eapply Rle_trans; [apply Rabs_triang|lra].
  Qed.
  Lemma tame_opp f : tame f -> tame (fun y => - f y).
  Proof.
    intros (K & d & K0 & D0 & HK). exists K, d. split; [exact K0|]. split; [exact D0|]. intros y z Hy Hz.
    destruct (HK y z Hy Hz) as (A1 & A2). rewrite Rabs_Ropp. split; [exact A1|].
    replace (- f y - - f z) with (- (f y - f z)) by ring. rewrite Rabs_Ropp. exact A2.
  Qed.
  Lemma tame_minus f g : tame f -> tame g -> tame (fun y => f y - g y).
  Proof. intros H H'. exact (tame_plus _ _ H (tame_opp _ H')). Qed.
  Lemma tame_mult f g : tame f -> tame g -> tame (fun y => f y * g y).
  Proof.
    intros (K & d & K0 & D0 & HK) (M & e & M0 & E0 & HM). exists (K * M + M * K), (Rmin d e).
    assert (0 <= K * M) by (apply Rmult_le_pos; lra).
    split; [lra|]. split; [apply Rmin_pos; assumption|]. intros y z Hy Hz.
    destruct (HK y z) as (A1 & A2); try (eapply inside_le; [apply Rmin_l|eassumption]).
    destruct (HM z y) as (B0 & _); try (eapply inside_le; [apply Rmin_r|eassumption]).
    destruct (HM y z) as (B1 & B2); try (eapply inside_le; [apply Rmin_r|eassumption]).
    pose proof (dist7_nonneg y z) as Hd. split.
    - rewrite Rabs_mult. eapply Rle_trans; [apply Rmult_le_compat; try apply Rabs_pos; eassumption|lra].
    - replace (f y * g y - f z * g z) with (f y * (g y - g z) + g z * (f y - f z)) by ring.
      eapply Rle_trans; [apply Rabs_triang|]. rewrite !Rabs_mult.
      assert (Rabs (f y) * Rabs (g y - g z) <= K * (M * dist7 y z)) by (apply Rmult_le_compat; try apply Rabs_pos; assumption).
      assert (Rabs (g z) * Rabs (f y - f z) <= M * (K * dist7 y z)) by (apply Rmult_le_compat; try apply Rabs_pos; assumption).
      lra.
  Qed.
  Lemma tame_pow f n : tame f -> tame (fun y => f y ^ n).
  Proof. intros H. induction n as [|n IH]; [exact (tame_const 1)|]. exact (tame_mult _ _ H IH). Qed.

  (** positive at the point, positive nearby *)
  Lemma tame_positive f : tame f -> 0 < f y0 -> exists m dl, 0 < m /\ 0 < dl /\ forall y, inside dl y -> m <= f y.
  Proof.
    intros (K & d & K0 & D0 & HK) H0.
    set (e := f y0 / 2 / (7 * K + 1)).
    assert (He : 0 < e) by (unfold e; apply Rdiv_lt_0_compat; lra).
    exists (f y0 / 2), (Rmin d e). split; [lra|]. split; [apply Rmin_pos; assumption|]. intros y Hy.
    destruct (HK y y0) as (_ & A).
    { eapply inside_le; [apply Rmin_l|exact Hy]. }
    { apply center, D0. }
    assert (D : dist7 y y0 <= 7 * e).
    { apply dist7_le. intros i. eapply Rle_trans; [apply Hy|apply Rmin_r]. }
    assert (B : K * dist7 y y0 <= f y0 / 2).
    { apply Rle_trans with (K * (7 * e)); [apply Rmult_le_compat_l; assumption|].
      apply Rle_trans with ((7 * K + 1) * e); [lra|]. unfold e. right. field. lra. }
    pose proof (Rle_abs (- (f y - f y0))) as Q. rewrite Rabs_Ropp in Q. lra.
  Qed.
  Lemma tame_inv f : tame f -> 0 < f y0 -> tame (fun y => / f y).
  Proof.
    intros H H0. destruct (tame_positive f H H0) as (m & e & m0 & E0 & Hm). destruct H as (K & d & K0 & D0 & HK).
    assert (I0 : 0 < / m) by (apply Rinv_0_lt_compat; lra).
    assert (I1 : 0 < / m * / m) by (apply Rmult_lt_0_compat; lra).
    assert (I2 : 0 <= K * (/ m * / m)) by (apply Rmult_le_pos; lra).
    exists (/ m + K * (/ m * / m)), (Rmin d e). split; [lra|]. split; [apply Rmin_pos; assumption|]. intros y z Hy Hz.
    destruct (HK y z) as (A1 & A2); try (eapply inside_le; [apply Rmin_l|eassumption]).
    pose proof (Hm y (inside_le _ _ _ (Rmin_r d e) Hy)) as B1. pose proof (Hm z (inside_le _ _ _ (Rmin_r d e) Hz)) as B2.
    assert (F : forall x, m <= x -> 0 < / x <= / m).
    { intros x Hx. split; [apply Rinv_0_lt_compat; lra|apply Rinv_le_contravar; lra]. }
    pose proof (F _ B1) as F1. pose proof (F _ B2) as F2. pose proof (dist7_nonneg y z) as Hd.
    split; [rewrite Rabs_pos_eq; lra|].
    replace (/ f y - / f z) with (- (f y - f z) * (/ f y * / f z)) by (field; lra).
    rewrite Rabs_mult, Rabs_Ropp, Rabs_mult, (Rabs_pos_eq (/ f y)), (Rabs_pos_eq (/ f z)) by lra.
    apply Rle_trans with (K * dist7 y z * (/ m * / m)).
    { apply Rmult_le_compat; [apply Rabs_pos|apply Rmult_le_pos; lra|exact A2|apply Rmult_le_compat; lra]. }
    assert (0 <= / m * dist7 y z) by (apply Rmult_le_pos; lra). lra.
  Qed.
  Lemma tame_div f g : tame f -> tame g -> 0 < g y0 -> tame (fun y => f y / g y).
  Proof. intros H H' H0. exact (tame_mult _ _ H (tame_inv _ H' H0)). Qed.

  (** bounds that serve for any smaller ball and any larger number *)
  Lemma tame_big f : tame f -> exists K dl, 1 <= K /\ 0 < dl /\ forall M e, K <= M -> e <= dl ->
    forall y z, inside e y -> inside e z -> Rabs (f y) <= M /\ Rabs (f y - f z) <= M * dist7 y z.
  Proof.
    intros (K & dl & K0 & D0 & H). exists (K + 1), dl. split; [lra|]. split; [exact D0|]. intros M e HM He y z Hy Hz.
    destruct (H y z (inside_le _ _ _ He Hy) (inside_le _ _ _ He Hz)) as (A & B). split; [lra|].
    eapply Rle_trans; [exact B|]. apply Rmult_le_compat_r; [apply dist7_nonneg|lra].
  Qed.
  Lemma positive_big f : tame f -> 0 < f y0 -> exists K dl, 1 <= K /\ 0 < dl /\ forall M e, K <= M -> e <= dl ->
    forall y z, inside e y -> inside e z -> / M <= f y <= M /\ Rabs (f y - f z) <= M * dist7 y z.
  Proof.
    intros H H0. destruct (tame_positive f H H0) as (m & d & m0 & D0 & Hm).
    destruct (tame_big f H) as (K & dl & K1 & L0 & HK).
    assert (I0 : 0 < / m) by (apply Rinv_0_lt_compat; lra).
    exists (K + / m), (Rmin d dl). split; [lra|]. split; [apply Rmin_pos; assumption|]. intros M e HM He y z Hy Hz.
    destruct (HK M e ltac:(lra) (Rle_trans _ _ _ He (Rmin_r d dl)) y z Hy Hz) as (A & B).
    pose proof (Hm y (inside_le _ _ _ (Rle_trans _ _ _ He (Rmin_l d dl)) Hy)) as C.
    assert (/ M <= m). { rewrite <- (Rinv_inv m) by lra. apply Rinv_le_contravar; lra. }
    pose proof (Rle_abs (f y)). split; [lra|exact B].
  Qed.
  (** positivity of finitely many functions, together *)
  Lemma eventually_and (A B : (C7 -> R) -> Prop) :
    (exists d, 0 < d /\ forall y, inside d y -> A y) -> (exists d, 0 < d /\ forall y, inside d y -> B y) ->
    exists d, 0 < d /\ forall y, inside d y -> A y /\ B y.
  Proof.
    intros (d & D0 & HA) (e & E0 & HB). exists (Rmin d e). split; [apply Rmin_pos; assumption|]. intros y Hy.
    split; [apply HA|apply HB]; (eapply inside_le; [|exact Hy]); [apply Rmin_l|apply Rmin_r].
  Qed.
  Lemma eventually_pos f : tame f -> 0 < f y0 -> exists d, 0 < d /\ forall y, inside d y -> 0 < f y.
  Proof.
    intros H H0. destruct (tame_positive f H H0) as (m & d & m0 & D0 & Hm). exists d. split; [exact D0|].
    intros y Hy. specialize (Hm y Hy). lra.
  Qed.

  (** solutions of a system with tame coefficients are tame *)
  Section Solutions.
    Variables (g1 g2 h1 h2 B B' C C' : (C7 -> R) -> R) (K : R) (m p n : (C7 -> R) -> R) (d0 : R).
    Hypothesis D0 : 0 < d0.
    Hypothesis G1 : tame g1 /\ 0 < g1 y0.
    Hypothesis G2 : tame g2 /\ 0 < g2 y0.
    Hypothesis H1 : tame h1 /\ 0 < h1 y0.
    Hypothesis H2 : tame h2 /\ 0 < h2 y0.
    Hypothesis HB : tame B /\ 0 < B y0.
    Hypothesis HB' : tame B' /\ 0 < B' y0.
    Hypothesis HK0 : 0 <= K.
    Hypothesis HC : tame C.
    Hypothesis HC' : tame C'.
    Definition sys7 y := mkSys (g1 y) (g2 y) (h1 y) (h2 y) (B y) (B' y) K (C y) (C' y).
    Hypothesis HS : forall y, inside d0 y -> solved (sys7 y) (m y) (p y) (n y).
    Lemma solutions_tame : tame m /\ tame p /\ tame n.
    Proof.
      destruct (positive_big _ (proj1 G1) (proj2 G1)) as (k1 & d1 & I1 & J1 & F1).
      destruct (positive_big _ (proj1 G2) (proj2 G2)) as (k2 & d2 & I2 & J2 & F2).
      destruct (positive_big _ (proj1 H1) (proj2 H1)) as (k3 & d3 & I3 & J3 & F3).
      destruct (positive_big _ (proj1 H2) (proj2 H2)) as (k4 & d4 & I4 & J4 & F4).
      destruct (positive_big _ (proj1 HB) (proj2 HB)) as (k5 & d5 & I5 & J5 & F5).
      destruct (positive_big _ (proj1 HB') (proj2 HB')) as (k6 & d6 & I6 & J6 & F6).
      destruct (tame_big _ HC) as (k8 & d8 & I8 & J8 & F8).
      destruct (tame_big _ HC') as (k9 & d9 & I9 & J9 & F9).
      set (M := k1 + k2 + k3 + k4 + k5 + k6 + K + k8 + k9).
      set (e := Rmin d0 (Rmin d1 (Rmin d2 (Rmin d3 (Rmin d4 (Rmin d5 (Rmin d6 (Rmin d8 d9)))))))).
      assert (He : 0 < e) by (unfold e; repeat apply Rmin_pos; assumption).
      assert (LE : e <= d0 /\ e <= d1 /\ e <= d2 /\ e <= d3 /\ e <= d4 /\ e <= d5 /\ e <= d6 /\ e <= d8 /\ e <= d9).
      { unfold e. repeat split;
          repeat first [apply Rle_refl | apply Rmin_l | eapply Rle_trans; [apply Rmin_r|]]. }
      destruct LE as (L0 & L1 & L2 & L3 & L4 & L5 & L6 & L8 & L9).
      assert (HM : 1 <= M) by (unfold M; lra).
      assert (Hmu : 0 < / M) by (apply Rinv_0_lt_compat; lra).
      assert (W : forall y z, inside e y -> inside e z -> within (/ M) M (sys7 y) /\
                    sys_close (M * dist7 y z) (sys7 y) (sys7 z)).
      { intros y z Hy Hz.
        specialize (F1 M e ltac:(unfold M; lra) L1 y z Hy Hz). specialize (F2 M e ltac:(unfold M; lra) L2 y z Hy Hz).
        specialize (F3 M e ltac:(unfold M; lra) L3 y z Hy Hz). specialize (F4 M e ltac:(unfold M; lra) L4 y z Hy Hz).
        specialize (F5 M e ltac:(unfold M; lra) L5 y z Hy Hz). specialize (F6 M e ltac:(unfold M; lra) L6 y z Hy Hz).
        specialize (F8 M e ltac:(unfold M; lra) L8 y z Hy Hz). specialize (F9 M e ltac:(unfold M; lra) L9 y z Hy Hz).
        unfold within, sys_close, sys7. cbn [y_g1 y_g2 y_h1 y_h2 y_B y_B' y_K y_C y_C'].
        assert (K <= M) by (unfold M; lra).
        assert (Rabs (K - K) <= M * dist7 y z).
        { replace (K - K) with 0 by ring. rewrite Rabs_R0. apply Rmult_le_pos; [lra|apply dist7_nonneg]. }
        intuition lra. }
      destruct (solved_bounded (/ M) M Hmu) as (Z & Z0 & HZ).
      destruct (solved_close (/ M) M Hmu) as (L & LL0 & HL).
      assert (LM : 0 <= L * M) by (apply Rmult_le_pos; lra).
      assert (N : forall y z, inside e y -> inside e z ->
        (Rabs (m y) <= Z + L * M /\ Rabs (m y - m z) <= (Z + L * M) * dist7 y z) /\
        (Rabs (p y) <= Z + L * M /\ Rabs (p y - p z) <= (Z + L * M) * dist7 y z) /\
        (Rabs (n y) <= Z + L * M /\ Rabs (n y - n z) <= (Z + L * M) * dist7 y z)).
      { intros y z Hy Hz. destruct (W y z Hy Hz) as (W1 & W3). destruct (W z y Hz Hy) as (W2 & _).
        pose proof (HS y (inside_le _ _ _ L0 Hy)) as S1. pose proof (HS z (inside_le _ _ _ L0 Hz)) as S2.
        pose proof (dist7_nonneg y z) as Hdt.
        destruct (HZ _ _ _ _ W1 S1) as (Z1 & Z2 & Z3).
        destruct (HL _ _ _ _ _ _ _ _ _ W1 W2 W3 S1 S2) as (Q1 & Q2 & Q3).
        assert (0 <= Z * dist7 y z) by (apply Rmult_le_pos; lra).
        assert (0 <= L * M * dist7 y z) by (apply Rmult_le_pos; lra).
        intuition lra. }
      split; [|split]; exists (Z + L * M), e; (split; [lra|]); (split; [exact He|]); intros y z Hy Hz; apply (N y z Hy Hz).
    Qed.
  End Solutions.

  (** clamping all seven numbers *)
  Definition clamp7 (dl : R) (y : C7 -> R) (i : C7) : R := clamp (y0 i - dl) (y0 i + dl) (y i).
  Lemma clamp7_inside dl y : 0 < dl -> inside dl (clamp7 dl y).
  Proof.
    intros H i. unfold clamp7. pose proof (clamp_in (y0 i - dl) (y0 i + dl) (y i) ltac:(lra)). apply Rabs_le. lra.
  Qed.
  Lemma clamp7_id dl y i : inside dl y -> clamp7 dl y i = y i.
  Proof.
    intros H. unfold clamp7. apply clamp_id. specialize (H i).
    pose proof (Rle_abs (y i - y0 i)). pose proof (Rle_abs (- (y i - y0 i))) as Q. rewrite Rabs_Ropp in Q. lra.
  Qed.
  Lemma clamp7_lip dl y z : dist7 (clamp7 dl y) (clamp7 dl z) <= dist7 y z.
  Proof.
    unfold dist7, clamp7. repeat apply Rplus_le_compat; apply clamp_lip.
  Qed.
End Local.
