(** * A Lipschitz map of a rectangle into itself has a fixed point *)
From Coq Require Import ZArith NArith List Bool Reals Lra Lia.
Local Open Scope R_scope.

(** ** Sperner's lemma on a grid *)
Inductive label := L0 | L1 | L2.
Definition edge (a b : label) : bool :=
  match a, b with L0, L1 => true | L1, L0 => true | _, _ => false end.
Definition corner (a b c : label) : bool := xorb (edge a b) (xorb (edge b c) (edge a c)).
Definition all_three (a b c : label) : Prop :=
  (a = L0 \/ b = L0 \/ c = L0) /\ (a = L1 \/ b = L1 \/ c = L1) /\ (a = L2 \/ b = L2 \/ c = L2).
Lemma corner_all a b c : corner a b c = true -> all_three a b c.
Proof. unfold all_three. destruct a, b, c; cbn; intros H; try discriminate; auto. Qed.

Fixpoint xsum (f : nat -> bool) (n : nat) : bool := match n with O => false | S k => xorb (xsum f k) (f k) end.
Lemma xsum_ext f g n : (forall i, (i < n)%nat -> f i = g i) -> xsum f n = xsum g n.
Proof. induction n as [|n IH]; intros H; [reflexivity|]. cbn. rewrite IH, H by (intros; try apply H; lia). reflexivity. Qed.
Lemma xsum_xor f g n : xsum (fun i => xorb (f i) (g i)) n = xorb (xsum f n) (xsum g n).
Proof.
  induction n as [|n IH]; [reflexivity|]. cbn. rewrite IH.
  destruct (xsum f n), (xsum g n), (f n), (g n); reflexivity.
Qed.
Lemma xsum_tele f n : xsum (fun i => xorb (f i) (f (S i))) n = xorb (f O) (f n).
Proof.
  induction n as [|n IH]; [cbn; rewrite xorb_nilpotent; reflexivity|]. cbn. rewrite IH.
  destruct (f O), (f n), (f (S n)); reflexivity.
Qed.
Lemma xsum_false n : xsum (fun _ => false) n = false.
Proof. induction n as [|n IH]; [reflexivity|]. cbn. rewrite IH. reflexivity. Qed.
Lemma xsum_swap f n m : xsum (fun i => xsum (f i) m) n = xsum (fun j => xsum (fun i => f i j) n) m.
Proof.
  induction n as [|n IH]; [cbn; rewrite xsum_false; reflexivity|]. cbn [xsum]. rewrite IH.
  symmetry. apply (xsum_xor (fun j => xsum (fun i => f i j) n) (f n) m).
Qed.
Lemma xsum_true f n : xsum f n = true -> exists i, (i < n)%nat /\ f i = true.
Proof.
  induction n as [|n IH]; cbn; [discriminate|]. intros H. destruct (f n) eqn:E.
  - exists n. split; [lia|exact E].
  - rewrite xorb_false_r in H. destruct (IH H) as (i & Hi & Ei). exists i. split; [lia|exact Ei].
Qed.

Section Grid.
  Variables (l : nat -> nat -> label) (n : nat).
  Hypothesis left : forall j, (j <= n)%nat -> l O j <> L1.
  Hypothesis right : forall j, (j <= n)%nat -> l n j = L1.
  Hypothesis bottom : forall i, (i <= n)%nat -> l i O <> L2.
  Hypothesis top : forall i, (i <= n)%nat -> l i n <> L0.
  Let h i j := edge (l i j) (l (S i) j).
  Let v i j := edge (l i j) (l i (S j)).
  Let lower i j := corner (l i j) (l (S i) j) (l (S i) (S j)).
  Let upper i j := corner (l i j) (l i (S j)) (l (S i) (S j)).
  Lemma cell i j : xorb (lower i j) (upper i j) = xorb (xorb (h i j) (h i (S j))) (xorb (v i j) (v (S i) j)).
  Proof. unfold lower, upper, corner, h, v. destruct (edge (l i j) (l (S i) (S j))),
    (edge (l i j) (l (S i) j)), (edge (l (S i) j) (l (S i) (S j))), (edge (l i j) (l i (S j))), (edge (l i (S j)) (l (S i) (S j))); reflexivity. Qed.
  Lemma cells : xsum (fun i => xsum (fun j => xorb (lower i j) (upper i j)) n) n =
    xorb (xorb (xsum (fun i => h i O) n) (xsum (fun i => h i n) n)) (xorb (xsum (fun j => v O j) n) (xsum (fun j => v n j) n)).
  Proof.
    rewrite (xsum_ext _ (fun i => xorb (xorb (h i O) (h i n)) (xsum (fun j => xorb (v i j) (v (S i) j)) n))).
    - rewrite xsum_xor. rewrite (xsum_xor (fun i => h i O)). f_equal. rewrite xsum_swap.
      rewrite (xsum_ext _ (fun j => xorb (v O j) (v n j))); [apply xsum_xor|].
      intros j _. exact (xsum_tele (fun i => v i j) n).
    - intros i _. rewrite (xsum_ext _ (fun j => xorb (xorb (h i j) (h i (S j))) (xorb (v i j) (v (S i) j)))) by (intros; apply cell).
      rewrite xsum_xor. f_equal. apply (xsum_tele (h i)).
  Qed.
  Definition is_one (a : label) : bool := match a with L1 => true | _ => false end.
  Lemma bottom_odd : xsum (fun i => h i O) n = true.
  Proof.
    rewrite (xsum_ext _ (fun i => xorb (is_one (l i O)) (is_one (l (S i) O)))).
    - rewrite (xsum_tele (fun i => is_one (l i O)) n). rewrite (right O) by lia.
      pose proof (left O ltac:(lia)). destruct (l O O); [reflexivity|congruence|reflexivity].
    - intros i Hi. unfold h. pose proof (bottom i ltac:(lia)). pose proof (bottom (S i) ltac:(lia)).
      destruct (l i O), (l (S i) O); try congruence; reflexivity.
  Qed.
  Lemma top_none : xsum (fun i => h i n) n = false.
  Proof.
    rewrite (xsum_ext _ (fun _ => false)); [apply xsum_false|]. intros i Hi. unfold h.
    pose proof (top i ltac:(lia)). pose proof (top (S i) ltac:(lia)). destruct (l i n), (l (S i) n); try congruence; reflexivity.
  Qed.
  Lemma left_none : xsum (fun j => v O j) n = false.
  Proof.
    rewrite (xsum_ext _ (fun _ => false)); [apply xsum_false|]. intros j Hj. unfold v.
    pose proof (left j ltac:(lia)). pose proof (left (S j) ltac:(lia)). destruct (l O j), (l O (S j)); try congruence; reflexivity.
  Qed.
  Lemma right_none : xsum (fun j => v n j) n = false.
  Proof.
    rewrite (xsum_ext _ (fun _ => false)); [apply xsum_false|]. intros j Hj. unfold v.
    rewrite !right by lia. reflexivity.
  Qed.
  Lemma sperner : exists i j, (i < n)%nat /\ (j < n)%nat /\
    (all_three (l i j) (l (S i) j) (l (S i) (S j)) \/ all_three (l i j) (l i (S j)) (l (S i) (S j))).
  Proof.
    pose proof cells as C. rewrite bottom_odd, top_none, left_none, right_none in C. cbn in C.
    destruct (xsum_true _ _ C) as (i & Hi & Ei). destruct (xsum_true _ _ Ei) as (j & Hj & Ej).
    exists i, j. split; [exact Hi|]. split; [exact Hj|].
    destruct (lower i j) eqn:E1; [left; apply corner_all, E1|]. right. apply corner_all.
    rewrite xorb_false_l in Ej. exact Ej.
  Qed.
End Grid.

(** ** Points that hardly move *)
Definition lipschitz (L : R) (f : R -> R -> R) : Prop :=
  forall x y x' y', Rabs (f x y - f x' y') <= L * (Rabs (x - x') + Rabs (y - y')).
Section Approx.
  Variables (d1 d2 : R -> R -> R) (a b c d L : R).
  Hypothesis Hab : a <= b.
  Hypothesis Hcd : c <= d.
  Hypothesis HL : 0 <= L.
  Hypothesis Lip1 : lipschitz L d1.
  Hypothesis Lip2 : lipschitz L d2.
  Hypothesis in_l : forall y, 0 <= d1 a y.
  Hypothesis in_r : forall y, d1 b y <= 0.
  Hypothesis in_b : forall x, 0 <= d2 x c.
  Hypothesis in_t : forall x, d2 x d <= 0.
  Variable n : nat.
  Hypothesis Hn : (0 < n)%nat.
  Let px i := a + (b - a) * (INR i / INR n).
  Let py j := c + (d - c) * (INR j / INR n).
  Let lab (i j : nat) : label :=
    if Nat.eqb i n then L1 else if Nat.eqb i O then
      (if Nat.eqb j n then L2 else if Rlt_dec (d2 (px i) (py j)) 0 then L2 else L0)
    else if Rlt_dec (d1 (px i) (py j)) 0 then L1
    else if Nat.eqb j n then L2 else if Rlt_dec (d2 (px i) (py j)) 0 then L2 else L0.
  Lemma n_pos : 0 < INR n.
  Proof. apply lt_0_INR, Hn. Qed.
  Lemma frac i : (i <= n)%nat -> 0 <= INR i / INR n <= 1.
  Proof.
    intros Hi. pose proof n_pos. apply le_INR in Hi. pose proof (pos_INR i). unfold Rdiv. split.
    - apply Rmult_le_pos; [lra|left; apply Rinv_0_lt_compat; lra].
    - apply (Rmult_le_reg_r (INR n)); [lra|]. rewrite Rmult_assoc, Rinv_l by lra. lra.
  Qed.
  Lemma px_in i : (i <= n)%nat -> a <= px i <= b.
  Proof.
    intros Hi. pose proof (frac i Hi). unfold px.
    assert (0 <= (b - a) * (INR i / INR n)) by (apply Rmult_le_pos; lra).
    assert (0 <= (b - a) * (1 - INR i / INR n)) by (apply Rmult_le_pos; lra). lra.
  Qed.
  Lemma py_in i : (i <= n)%nat -> c <= py i <= d.
  Proof.
    intros Hi. pose proof (frac i Hi). unfold py.
    assert (0 <= (d - c) * (INR i / INR n)) by (apply Rmult_le_pos; lra).
    assert (0 <= (d - c) * (1 - INR i / INR n)) by (apply Rmult_le_pos; lra). lra.
  Qed.
  Lemma px_0 : px O = a.
  Proof. unfold px, Rdiv. cbn. ring. Qed.
  Lemma px_n : px n = b.
  Proof. unfold px. pose proof n_pos. field. lra. Qed.
  Lemma py_0 : py O = c.
  Proof. unfold py, Rdiv. cbn. ring. Qed.
  Lemma py_n : py n = d.
  Proof. unfold py. pose proof n_pos. field. lra. Qed.
  Lemma lab_1 i j : lab i j = L1 -> d1 (px i) (py j) <= 0.
  Proof.
    unfold lab. destruct (Nat.eqb_spec i n) as [->|_]; [intros _; rewrite px_n; apply in_r|].
    destruct (Nat.eqb i O).
    - destruct (Nat.eqb j n); [discriminate|]. destruct (Rlt_dec (d2 (px i) (py j)) 0); discriminate.
    - destruct (Rlt_dec (d1 (px i) (py j)) 0); [lra|].
      destruct (Nat.eqb j n); [discriminate|]. destruct (Rlt_dec (d2 (px i) (py j)) 0); discriminate.
  Qed.
  Lemma lab_2 i j : lab i j = L2 -> 0 <= d1 (px i) (py j) /\ d2 (px i) (py j) <= 0.
  Proof.
    unfold lab. destruct (Nat.eqb_spec i n) as [->|_]; [discriminate|].
    destruct (Nat.eqb_spec i O) as [->|_].
    - destruct (Nat.eqb_spec j n) as [->|_]; [intros _; rewrite px_0, py_n; split; [apply in_l|apply in_t]|].
      destruct (Rlt_dec (d2 (px 0) (py j)) 0); [|discriminate]. intros _. split; [rewrite px_0; apply in_l|lra].
    - destruct (Rlt_dec (d1 (px i) (py j)) 0); [discriminate|].
      destruct (Nat.eqb_spec j n) as [->|_]; [intros _; split; [lra|rewrite py_n; apply in_t]|].
      destruct (Rlt_dec (d2 (px i) (py j)) 0); [|discriminate]. intros _. lra.
  Qed.
  Lemma lab_0 i j : lab i j = L0 -> 0 <= d1 (px i) (py j) /\ 0 <= d2 (px i) (py j).
  Proof.
    unfold lab. destruct (Nat.eqb_spec i n) as [->|_]; [discriminate|].
    destruct (Nat.eqb_spec i O) as [->|_].
    - destruct (Nat.eqb j n); [discriminate|]. destruct (Rlt_dec (d2 (px 0) (py j)) 0); [discriminate|].
      intros _. split; [rewrite px_0; apply in_l|lra].
    - destruct (Rlt_dec (d1 (px i) (py j)) 0); [discriminate|].
      destruct (Nat.eqb j n); [discriminate|]. destruct (Rlt_dec (d2 (px i) (py j)) 0); [discriminate|]. intros _. lra.
  Qed.
  Lemma lab_sides : (forall j, (j <= n)%nat -> lab O j <> L1) /\ (forall j, (j <= n)%nat -> lab n j = L1) /\
    (forall i, (i <= n)%nat -> lab i O <> L2) /\ (forall i, (i <= n)%nat -> lab i n <> L0).
  Proof.
    unfold lab. repeat split.
    - intros j _. destruct (Nat.eqb_spec O n); [lia|]. rewrite Nat.eqb_refl.
      destruct (Nat.eqb j n); [discriminate|]. destruct (Rlt_dec (d2 (px 0) (py j)) 0); discriminate.
    - intros j _. rewrite Nat.eqb_refl. reflexivity.
    - intros i _. destruct (Nat.eqb i n); [discriminate|].
      destruct (Nat.eqb_spec O n); [lia|]. rewrite py_0. pose proof (in_b (px i)).
      destruct (Rlt_dec (d2 (px i) c) 0) as [N|_]; [lra|]. destruct (Nat.eqb i O); [discriminate|].
      destruct (Rlt_dec (d1 (px i) c) 0); discriminate.
    - intros i _. destruct (Nat.eqb i n); [discriminate|]. rewrite Nat.eqb_refl.
      destruct (Nat.eqb i O); [discriminate|]. destruct (Rlt_dec (d1 (px i) (py n)) 0); discriminate.
  Qed.
  Let step := (b - a) / INR n + (d - c) / INR n.
  Lemma near i j i' j' k m : (k = i \/ k = S i) -> (m = j \/ m = S j) -> (i' = i \/ i' = S i) -> (j' = j \/ j' = S j) ->
    Rabs (px k - px i') + Rabs (py m - py j') <= step.
  Proof.
    pose proof n_pos as P.
    assert (X1 : px (S i) - px i = (b - a) / INR n) by (unfold px; rewrite S_INR; field; lra).
    assert (X2 : py (S j) - py j = (d - c) / INR n) by (unfold py; rewrite S_INR; field; lra).
    assert (0 <= (b - a) / INR n) by (apply Rmult_le_pos; [lra|left; apply Rinv_0_lt_compat, P]).
    assert (0 <= (d - c) / INR n) by (apply Rmult_le_pos; [lra|left; apply Rinv_0_lt_compat, P]).
    intros A B C E. unfold step.
    assert (Rabs (px k - px i') <= (b - a) / INR n) by (apply Rabs_le; destruct A as [E1|E1]; destruct C as [E2|E2]; rewrite E1, E2; lra).
    assert (Rabs (py m - py j') <= (d - c) / INR n) by (apply Rabs_le; destruct B as [E1|E1]; destruct E as [E2|E2]; rewrite E1, E2; lra).
    lra.
  Qed.
  Lemma close_values f i j k1 m1 k2 m2 : lipschitz L f ->
    (k1 = i \/ k1 = S i) -> (m1 = j \/ m1 = S j) -> (k2 = i \/ k2 = S i) -> (m2 = j \/ m2 = S j) ->
    f (px k1) (py m1) <= f (px k2) (py m2) + L * step.
  Proof.
    intros Lf A B C E. pose proof (Lf (px k1) (py m1) (px k2) (py m2)) as H. pose proof (near i j k2 m2 k1 m1 A B C E) as N.
    apply (Rmult_le_compat_l L) in N; [|exact HL]. pose proof (Rle_abs (f (px k1) (py m1) - f (px k2) (py m2))). lra.
  Qed.
  Lemma hardly : exists x y, (a <= x <= b /\ c <= y <= d) /\ 0 <= d1 x y <= L * step /\ 0 <= d2 x y <= L * step.
  Proof.
    destruct lab_sides as (S1 & S2 & S3 & S4).
    destruct (sperner lab n S1 S2 S3 S4) as (i & j & Hi & Hj & H).
    assert (G : exists k0 m0 k1 m1 k2 m2,
      ((k0 = i \/ k0 = S i) /\ (m0 = j \/ m0 = S j)) /\ ((k1 = i \/ k1 = S i) /\ (m1 = j \/ m1 = S j)) /\
      ((k2 = i \/ k2 = S i) /\ (m2 = j \/ m2 = S j)) /\ lab k0 m0 = L0 /\ lab k1 m1 = L1 /\ lab k2 m2 = L2).
    { assert (Q : forall q, (lab i j = q \/ lab (S i) j = q \/ lab (S i) (S j) = q) \/
        (lab i j = q \/ lab i (S j) = q \/ lab (S i) (S j) = q) ->
        exists k m, ((k = i \/ k = S i) /\ (m = j \/ m = S j)) /\ lab k m = q).
      { intros q [[E|[E|E]]|[E|[E|E]]]; do 2 eexists; (split; [|exact E]); auto. }
      destruct (Q L0) as (k0 & m0 & A0 & E0); [destruct H as [(H & _)|(H & _)]; [left|right]; exact H|].
      destruct (Q L1) as (k1 & m1 & A1 & E1); [destruct H as [(_ & H & _)|(_ & H & _)]; [left|right]; exact H|].
      destruct (Q L2) as (k2 & m2 & A2 & E2); [destruct H as [(_ & _ & H)|(_ & _ & H)]; [left|right]; exact H|].
      exists k0, m0, k1, m1, k2, m2. auto 10. }
    destruct G as (k0 & m0 & k1 & m1 & k2 & m2 & (A0 & B0) & (A1 & B1) & (A2 & B2) & E0 & E1 & E2).
    apply lab_0 in E0. apply lab_1 in E1. apply lab_2 in E2.
    exists (px k0), (py m0). split; [|split].
    - split; [apply px_in|apply py_in]; lia.
    - pose proof (close_values d1 i j k0 m0 k1 m1 Lip1 A0 B0 A1 B1). lra.
    - pose proof (close_values d2 i j k0 m0 k2 m2 Lip2 A0 B0 A2 B2). lra.
  Qed.
End Approx.

(** ** A fixed point *)
Lemma lipschitz_sum L f g : lipschitz L f -> lipschitz L g -> lipschitz (2 * L) (fun x y => Rabs (f x y) + Rabs (g x y)).
Proof.
  intros Hf Hg x y x' y'. pose proof (Hf x y x' y') as F. pose proof (Hg x y x' y') as G.
  pose proof (Rabs_triang_inv2 (f x y) (f x' y')) as F2. pose proof (Rabs_triang_inv2 (g x y) (g x' y')) as G2.
  replace (Rabs (f x y) + Rabs (g x y) - (Rabs (f x' y') + Rabs (g x' y')))
    with ((Rabs (f x y) - Rabs (f x' y')) + (Rabs (g x y) - Rabs (g x' y'))) by ring.
  pose proof (Rabs_triang (Rabs (f x y) - Rabs (f x' y')) (Rabs (g x y) - Rabs (g x' y'))). lra.
Qed.
Lemma lip_cont (f : R -> R) L x : 0 <= L -> (forall u v, Rabs (f u - f v) <= L * Rabs (u - v)) -> continuity_pt f x.
Proof.
  intros HL H e He. exists (e / (L + 1)). split; [apply Rdiv_lt_0_compat; lra|].
  intros u (_ & Hu). unfold dist in *. cbn in *. unfold R_dist in *.
  apply Rle_lt_trans with (1 := H u x). apply Rle_lt_trans with (L * (e / (L + 1))).
  - apply Rmult_le_compat_l; lra.
  - assert (E : e = (L + 1) * (e / (L + 1))) by (field; lra). rewrite E at 2.
    assert (0 < e / (L + 1)) by (apply Rdiv_lt_0_compat; lra). lra.
Qed.
Lemma lip_min g a b c d L : a <= b -> c <= d -> 0 <= L -> lipschitz L g ->
  exists x y, (a <= x <= b /\ c <= y <= d) /\ forall x' y', a <= x' <= b -> c <= y' <= d -> g x y <= g x' y'.
Proof.
  intros Hab Hcd HL Lg.
  assert (ROW : forall x, exists y, (c <= y <= d) /\ forall y', c <= y' <= d -> g x y <= g x y').
  { intros x. destruct (continuity_ab_min (g x) c d Hcd) as (y & H1 & H2).
    - intros y _. apply (lip_cont (g x) L); [exact HL|]. intros u v. pose proof (Lg x u x v) as Q.
      rewrite (Rminus_diag_eq x x eq_refl), Rabs_R0, Rplus_0_l in Q. exact Q.
    - exists y. split; [exact H2|exact H1]. }
  assert (MIN : forall x, {m | (exists y, c <= y <= d /\ m = g x y) /\ forall y', c <= y' <= d -> m <= g x y'}).
  { intros x. destruct (completeness (fun m => forall y', c <= y' <= d -> m <= g x y')) as [m (U & V)].
    - destruct (ROW x) as (y & H1 & _). exists (g x y). intros m Hm. apply Hm, H1.
    - destruct (ROW x) as (y & _ & H2). exists (g x y). exact H2.
    - exists m. destruct (ROW x) as (y & H1 & H2).
      assert (E : m = g x y).
      { apply Rle_antisym; [apply V; intros m' Hm'; apply Hm', H1|apply U; exact H2]. }
      split; [exists y; auto|]. intros y' Hy'. rewrite E. apply H2, Hy'. }
  set (m x := proj1_sig (MIN x)).
  assert (ML : forall u v, m u <= m v + L * Rabs (u - v)).
  { intros u v. unfold m. destruct (MIN u) as (mu & H2). destruct (MIN v) as (mv & Hv). cbn [proj1_sig].
    destruct H2 as (_ & H2). destruct Hv as ((y & Hy & ->) & _).
    apply Rle_trans with (1 := H2 y Hy). pose proof (Lg u y v y) as Q.
    rewrite (Rminus_diag_eq y y eq_refl), Rabs_R0, Rplus_0_r in Q. pose proof (Rle_abs (g u y - g v y)). lra. }
  destruct (continuity_ab_min m a b Hab) as (x & H1 & H2).
  { intros x _. apply (lip_cont m L); [exact HL|]. intros u v. apply Rabs_le. pose proof (ML u v). pose proof (ML v u) as Q.
    rewrite Rabs_minus_sym in Q. lra. }
  assert (MX : exists y, c <= y <= d /\ m x = g x y).
  { unfold m. destruct (MIN x) as (mx & HX). exact (proj1 HX). }
  destruct MX as (y & Hy & E). exists x, y. split; [split; assumption|].
  intros x' y' Hx' Hy'. rewrite <- E. apply Rle_trans with (1 := H1 x' Hx'). unfold m. destruct (MIN x') as (mx & Q). cbn [proj1_sig].
  apply (proj2 Q), Hy'.
Qed.
Definition clamp (a b x : R) : R := Rmax a (Rmin b x).
Lemma clamp_in a b x : a <= b -> a <= clamp a b x <= b.
Proof. intros H. unfold clamp. split; [apply Rmax_l|]. apply Rmax_lub; [exact H|apply Rmin_l]. Qed.
Lemma clamp_id a b x : a <= x <= b -> clamp a b x = x.
Proof. intros H. unfold clamp. rewrite Rmin_right, Rmax_right by lra. reflexivity. Qed.
Lemma clamp_lip a b x y : Rabs (clamp a b x - clamp a b y) <= Rabs (x - y).
Proof.
  unfold clamp, Rmax, Rmin. apply Rabs_le. pose proof (Rle_abs (x - y)). pose proof (Rle_abs (y - x)) as Q.
  rewrite Rabs_minus_sym in Q. pose proof (Rabs_pos (x - y)).
  destruct (Rle_dec b x); destruct (Rle_dec b y);
    repeat match goal with |- context [Rle_dec ?u ?v] => destruct (Rle_dec u v) end; lra.
Qed.
Theorem fixed_point (f1 f2 : R -> R -> R) (a b c d L : R) : a <= b -> c <= d -> 0 <= L ->
  (forall x y, a <= x <= b -> c <= y <= d -> a <= f1 x y <= b /\ c <= f2 x y <= d) ->
  (forall x y x' y', a <= x <= b -> c <= y <= d -> a <= x' <= b -> c <= y' <= d ->
     Rabs (f1 x y - f1 x' y') <= L * (Rabs (x - x') + Rabs (y - y')) /\
     Rabs (f2 x y - f2 x' y') <= L * (Rabs (x - x') + Rabs (y - y'))) ->
  exists x y, (a <= x <= b /\ c <= y <= d) /\ f1 x y = x /\ f2 x y = y.
Proof.
  intros Hab Hcd HL HI HF.
  set (kx := clamp a b). set (ky := clamp c d).
  set (d1 x y := f1 (kx x) (ky y) - kx x). set (d2 x y := f2 (kx x) (ky y) - ky y).
  assert (KX : forall x, a <= kx x <= b) by (intros; apply clamp_in, Hab).
  assert (KY : forall y, c <= ky y <= d) by (intros; apply clamp_in, Hcd).
  assert (LX : forall x y, Rabs (kx x - kx y) <= Rabs (x - y)) by (intros; apply clamp_lip).
  assert (LY : forall x y, Rabs (ky x - ky y) <= Rabs (x - y)) by (intros; apply clamp_lip).
  assert (Lip : lipschitz (L + 1) d1 /\ lipschitz (L + 1) d2).
  { split; intros x y x' y'; destruct (HF (kx x) (ky y) (kx x') (ky y') (KX x) (KY y) (KX x') (KY y')) as (F1 & F2);
      pose proof (LX x x') as A1; pose proof (LY y y') as A2; pose proof (Rabs_pos (x - x')); pose proof (Rabs_pos (y - y'));
      assert (M : L * (Rabs (kx x - kx x') + Rabs (ky y - ky y')) <= L * (Rabs (x - x') + Rabs (y - y')))
        by (apply Rmult_le_compat_l; lra).
    - unfold d1. replace (f1 (kx x) (ky y) - kx x - (f1 (kx x') (ky y') - kx x'))
        with ((f1 (kx x) (ky y) - f1 (kx x') (ky y')) + - (kx x - kx x')) by ring.
      pose proof (Rabs_triang (f1 (kx x) (ky y) - f1 (kx x') (ky y')) (- (kx x - kx x'))) as T. rewrite Rabs_Ropp in T. lra.
    - unfold d2. replace (f2 (kx x) (ky y) - ky y - (f2 (kx x') (ky y') - ky y'))
        with ((f2 (kx x) (ky y) - f2 (kx x') (ky y')) + - (ky y - ky y')) by ring.
      pose proof (Rabs_triang (f2 (kx x) (ky y) - f2 (kx x') (ky y')) (- (ky y - ky y'))) as T. rewrite Rabs_Ropp in T. lra. }
  destruct Lip as (Lip1 & Lip2).
  assert (HL1 : 0 <= L + 1) by lra.
  assert (Kxa : kx a = a) by (apply clamp_id; lra). assert (Kxb : kx b = b) by (apply clamp_id; lra).
  assert (Kyc : ky c = c) by (apply clamp_id; lra). assert (Kyd : ky d = d) by (apply clamp_id; lra).
  assert (I1 : forall y, 0 <= d1 a y) by (intros y; unfold d1; rewrite Kxa; pose proof (HI a (ky y) ltac:(lra) (KY y)); lra).
  assert (I2 : forall y, d1 b y <= 0) by (intros y; unfold d1; rewrite Kxb; pose proof (HI b (ky y) ltac:(lra) (KY y)); lra).
  assert (I3 : forall x, 0 <= d2 x c) by (intros x; unfold d2; rewrite Kyc; pose proof (HI (kx x) c (KX x) ltac:(lra)); lra).
  assert (I4 : forall x, d2 x d <= 0) by (intros x; unfold d2; rewrite Kyd; pose proof (HI (kx x) d (KX x) ltac:(lra)); lra).
  destruct (lip_min (fun x y => Rabs (d1 x y) + Rabs (d2 x y)) a b c d (2 * (L + 1)) Hab Hcd ltac:(lra)
    (lipschitz_sum _ _ _ Lip1 Lip2)) as (x & y & (Hx & Hy) & Hmin).
  set (g := Rabs (d1 x y) + Rabs (d2 x y)) in *.
  assert (G0 : g <= 0).
  { destruct (Rle_lt_dec g 0) as [G|G]; [exact G|]. exfalso.
    set (w := (b - a) + (d - c)). set (B := 2 * ((L + 1) * w) + 1).
    assert (W : 0 <= (L + 1) * w) by (apply Rmult_le_pos; unfold w; lra).
    destruct (archimed_cor1 (g / B)) as (n & Hn & Hn0); [apply Rdiv_lt_0_compat; unfold B; lra|].
    destruct (hardly d1 d2 a b c d (L + 1) Hab Hcd HL1 Lip1 Lip2 I1 I2 I3 I4 n Hn0) as (x' & y' & (Hx' & Hy') & A1 & A2).
    assert (P : 0 < INR n) by (apply lt_0_INR, Hn0).
    assert (E : (L + 1) * ((b - a) / INR n + (d - c) / INR n) = (L + 1) * w * / INR n) by (unfold w; field; lra).
    rewrite E in A1, A2. specialize (Hmin x' y' Hx' Hy'). cbv beta in Hmin.
    rewrite (Rabs_pos_eq (d1 x' y')), (Rabs_pos_eq (d2 x' y')) in Hmin by lra.
    assert (Q : B * / INR n < g).
    { apply (Rmult_lt_compat_l B) in Hn; [|unfold B; lra]. replace (B * (g / B)) with g in Hn by (field; unfold B; lra). exact Hn. }
    assert (0 < / INR n) by (apply Rinv_0_lt_compat, P). unfold B in Q. lra. }
  pose proof (Rabs_pos (d1 x y)). pose proof (Rabs_pos (d2 x y)).
  assert (Z1 : d1 x y = 0) by (destruct (Req_dec (d1 x y) 0) as [Z|Z]; [exact Z|pose proof (Rabs_pos_lt _ Z); unfold g in G0; lra]).
  assert (Z2 : d2 x y = 0) by (destruct (Req_dec (d2 x y) 0) as [Z|Z]; [exact Z|pose proof (Rabs_pos_lt _ Z); unfold g in G0; lra]).
  unfold d1 in Z1. unfold d2 in Z2. unfold kx, ky in Z1, Z2. rewrite (clamp_id a b x Hx), (clamp_id c d y Hy) in Z1, Z2.
  exists x, y. split; [split; assumption|]. split; lra.
Qed.
