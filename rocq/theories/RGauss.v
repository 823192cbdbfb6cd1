(** * Gaussian elimination ([Fixture.gauss]) is a correct decomposition in exact arithmetic *)
From Coq Require Import ZArith NArith List Reals Lra Lia Permutation.
From Verif Require Import Num ModelTypes ModelWs ModelHx ModelStateEq RNum SpecR Fixture.
Import ListNotations.
Local Open Scope R_scope.

(** right-hand side (last entry of the row) minus the left-hand side at [xs] *)
Fixpoint resid (row xs : list R) : R :=
  match row, xs with
  | [b], [] => b
  | a :: row', x :: xs' => resid row' xs' - a * x
  | _, _ => 0
  end.
Lemma resid_cons a row x xs : resid (a :: row) (x :: xs) = resid row xs - a * x.
Proof. destruct row; reflexivity. Qed.
(** left-hand side only *)
Fixpoint lin (row xs : list R) : R :=
  match row, xs with
  | a :: row', x :: xs' => lin row' xs' + a * x
  | _, _ => 0
  end.

Lemma abs_test (a : R) : n_lt n0 (n_abs a) = true <-> a <> 0.
Proof.
  rewrite R_n0, R_lt_iff. cbn. split.
  - intros H E. subst. rewrite Rabs_R0 in H. lra.
  - apply Rabs_pos_lt.
Qed.
Lemma abs_test_false (a : R) : n_lt n0 (n_abs a) = false <-> a = 0.
Proof.
  split; intros H.
  - destruct (Req_dec a 0) as [|N]; [assumption|]. apply abs_test in N. congruence.
  - destruct (n_lt n0 (n_abs a)) eqn:E; [|reflexivity]. apply abs_test in E. contradiction.
Qed.

Lemma back_resid (row : list R) : forall xs, back row xs = resid row xs.
Proof.
  induction row as [|a row IH]; intros xs; [reflexivity|].
  destruct xs as [|x xs]; cbn [back resid].
  - destruct row; [reflexivity|apply R_n0].
  - destruct (n_lt n0 (n_abs a)) eqn:E.
    + destruct row; cbn [n_sub n_mul R_ops]; rewrite IH; reflexivity.
    + apply abs_test_false in E. subst a. destruct row; rewrite IH; ring.
Qed.

Lemma resid_sub f : forall (r p xs : list R), length r = S (length xs) -> length p = S (length xs) ->
  resid (sub_scaled f r p) xs = resid r xs - f * resid p xs.
Proof.
  induction r as [|x r IH]; intros p xs Hr Hp; [discriminate|].
  destruct p as [|y p]; [discriminate|].
  destruct xs as [|z xs].
  - destruct r; [|discriminate]. destruct p; [|discriminate]. reflexivity.
  - cbn in Hr, Hp. injection Hr as Hr. injection Hp as Hp. cbn [sub_scaled].
    rewrite !resid_cons, (IH p xs Hr Hp). cbn [n_sub n_mul R_ops]. ring.
Qed.
Lemma lin_sub f : forall (r p xs : list R), length r = length p -> (length xs <= length r)%nat ->
  lin (sub_scaled f r p) xs = lin r xs - f * lin p xs.
Proof.
  induction r as [|x r IH]; intros p xs Hr Hp.
  - destruct p; [|discriminate]. cbn. ring.
  - destruct p as [|y p]; [discriminate|]. destruct xs as [|z xs]; [cbn; ring|].
    cbn [sub_scaled lin n_sub n_mul R_ops]. cbn in Hr, Hp. rewrite IH by lia. ring.
Qed.
Lemma sub_scaled_length f : forall (r p : list R), length r = length p ->
  length (sub_scaled f r p) = length r.
Proof.
  induction r as [|x r IH]; intros [|y p] H; try discriminate; [reflexivity|].
  cbn. f_equal. apply IH. now injection H.
Qed.

Lemma pick_spec : forall (rows : list (list R)) best p rest, pick best rows = (p, rest) ->
  Permutation (best :: rows) (p :: rest) /\
  forall r, In r (best :: rows) -> Rabs (head0 r) <= Rabs (head0 p).
Proof.
  induction rows as [|r rows IH]; intros best p rest H; cbn [pick] in H.
  - injection H as <- <-. split; [reflexivity|]. intros r [<-|[]]. lra.
  - destruct (n_lt (n_abs (head0 best)) (n_abs (head0 r))) eqn:E.
    + apply R_lt_iff in E. cbn [n_abs R_ops] in E.
      destruct (pick r rows) as [b rest'] eqn:Hp. injection H as <- <-.
      destruct (IH _ _ _ Hp) as [P B]. split.
      * exact (perm_trans (perm_skip best P) (perm_swap _ _ _)).
      * intros q [<-|Hq].
        -- pose proof (B r (or_introl eq_refl)). lra.
        -- apply B, Hq.
    + assert (E' : Rabs (head0 r) <= Rabs (head0 best)).
      { destruct (Rle_or_lt (Rabs (head0 r)) (Rabs (head0 best))) as [|N]; [assumption|].
        apply R_lt_iff in N. cbn in E, N. congruence. }
      destruct (pick best rows) as [b rest'] eqn:Hp. injection H as <- <-.
      destruct (IH _ _ _ Hp) as [P B]. split.
      * exact (perm_trans (perm_swap _ _ _) (perm_trans (perm_skip r P) (perm_swap _ _ _))).
      * intros q [<-|[<-|Hq]].
        -- apply B. left. reflexivity.
        -- pose proof (B best (or_introl eq_refl)). lra.
        -- apply B. right. exact Hq.
Qed.

Definition reduce (a : R) (p' r : list R) : list R :=
  match r with
  | [] => []
  | b :: r' => if n_lt n0 (n_abs b) then sub_scaled (n_div b a) r' p' else r'
  end.
Lemma eliminate_S n r rows :
  eliminate (S n) (r :: rows) =
  let (p, rest) := pick r rows in
  match p with
  | [] => None
  | a :: p' =>
      if n_lt n0 (n_abs a) then
        match eliminate n (map (reduce a p') rest) with
        | None => None
        | Some xs => Some (n_div (back p' xs) a :: xs)
        end
      else None
  end.
Proof. reflexivity. Qed.

Lemma reduce_length a p' r n : length p' = S n -> length r = S (S n) -> length (reduce a p' r) = S n.
Proof.
  intros Hp Hr. destruct r as [|b r]; [discriminate|]. cbn in Hr. injection Hr as Hr. cbn [reduce].
  destruct (n_lt n0 (n_abs b)); [|exact Hr]. rewrite sub_scaled_length; congruence.
Qed.
Lemma reduce_resid a p' b r' xs : a <> 0 -> length p' = S (length xs) -> length r' = S (length xs) ->
  resid (reduce a p' (b :: r')) xs = resid r' xs - b / a * resid p' xs.
Proof.
  intros Ha Hp Hr. cbn [reduce]. destruct (n_lt n0 (n_abs b)) eqn:E.
  - apply resid_sub; assumption.
  - apply abs_test_false in E. subst b. unfold Rdiv. ring.
Qed.
Lemma reduce_lin a p' b r' xs : a <> 0 -> length r' = length p' -> (length xs <= length r')%nat ->
  lin (reduce a p' (b :: r')) xs = lin r' xs - b / a * lin p' xs.
Proof.
  intros Ha Hp Hr. cbn [reduce]. destruct (n_lt n0 (n_abs b)) eqn:E.
  - apply lin_sub; assumption.
  - apply abs_test_false in E. subst b. unfold Rdiv. ring.
Qed.

Lemma eliminate_sound n : forall rows xs, length rows = n ->
  Forall (fun r => length r = S n) rows -> eliminate n rows = Some xs ->
  length xs = n /\ Forall (fun r => resid r xs = 0) rows.
Proof.
  induction n as [|n IH]; intros rows xs Hn HF H.
  - destruct rows; [|discriminate]. injection H as <-. split; constructor.
  - destruct rows as [|r rows]; [discriminate|]. rewrite eliminate_S in H.
    destruct (pick r rows) as [p rest] eqn:Hp. destruct (pick_spec _ _ _ _ Hp) as [P _].
    destruct p as [|a p']; [discriminate|].
    destruct (n_lt n0 (n_abs a)) eqn:Ha; [|discriminate]. apply abs_test in Ha.
    destruct (eliminate n (map (reduce a p') rest)) as [ys|] eqn:HE; [|discriminate].
    injection H as <-.
    assert (HF' : Forall (fun r => length r = S (S n)) ((a :: p') :: rest))
      by (rewrite <- P; exact HF).
    apply Forall_cons_iff in HF' as [Hpl Hrl]. cbn in Hpl. injection Hpl as Hpl.
    assert (Hrest : length rest = n).
    { apply Permutation_length in P. cbn in P, Hn. lia. }
    destruct (IH (map (reduce a p') rest) ys) as [Hys Hz]; [now rewrite map_length| |exact HE|].
    { rewrite Forall_map. eapply Forall_impl; [|exact Hrl]. intros q Hq. now apply reduce_length. }
    split; [cbn; congruence|].
    rewrite P. rewrite back_resid. cbn [n_div R_ops].
    assert (Epiv : resid p' ys - a * (resid p' ys / a) = 0) by (field; exact Ha).
    constructor.
    + rewrite resid_cons. exact Epiv.
    + rewrite Forall_map in Hz. rewrite Forall_forall in Hz, Hrl |- *. intros q Hq.
      specialize (Hz q Hq). specialize (Hrl q Hq).
      destruct q as [|b q]; [discriminate|]. cbn in Hrl. injection Hrl as Hrl.
      rewrite reduce_resid in Hz by (try exact Ha; congruence).
      rewrite resid_cons. rewrite <- Hz. field. exact Ha.
Qed.

Lemma lin_zeros n : forall r, lin r (repeat 0 n) = 0.
Proof.
  induction n as [|n IH]; intros [|a r]; try reflexivity. cbn. rewrite IH. ring.
Qed.

Lemma eliminate_complete n : forall rows, length rows = n ->
  Forall (fun r => length r = S n) rows -> eliminate n rows = None ->
  exists z, length z = n /\ (exists x, In x z /\ x <> 0) /\ Forall (fun r => lin r z = 0) rows.
Proof.
  induction n as [|n IH]; intros rows Hn HF H.
  - discriminate.
  - destruct rows as [|r rows]; [discriminate|]. rewrite eliminate_S in H.
    destruct (pick r rows) as [p rest] eqn:Hp. destruct (pick_spec _ _ _ _ Hp) as [P B].
    assert (HF' : Forall (fun r => length r = S (S n)) (p :: rest)) by (rewrite <- P; exact HF).
    apply Forall_cons_iff in HF' as [Hpl Hrl].
    destruct p as [|a p']; [discriminate|]. cbn in Hpl. injection Hpl as Hpl.
    assert (Hrest : length rest = n).
    { apply Permutation_length in P. cbn in P, Hn. lia. }
    destruct (n_lt n0 (n_abs a)) eqn:Ha.
    + apply abs_test in Ha.
      destruct (eliminate n (map (reduce a p') rest)) as [ys|] eqn:HE; [discriminate|].
      destruct (IH (map (reduce a p') rest)) as (z & Hz & (x & Hx & Hx0) & HZ);
        [now rewrite map_length| |exact HE|].
      { rewrite Forall_map. eapply Forall_impl; [|exact Hrl]. intros q Hq. now apply reduce_length. }
      exists (- lin p' z / a :: z). split; [cbn; congruence|]. split; [exists x; split; [right|]; assumption|].
      rewrite P. constructor.
      * cbn [lin]. field. exact Ha.
      * rewrite Forall_map in HZ. rewrite Forall_forall in HZ, Hrl |- *. intros q Hq.
        specialize (HZ q Hq). specialize (Hrl q Hq).
        destruct q as [|b q]; [discriminate|]. cbn in Hrl. injection Hrl as Hrl.
        rewrite reduce_lin in HZ; [|exact Ha|congruence|lia].
        cbn [lin]. rewrite <- HZ. field. exact Ha.
    + apply abs_test_false in Ha. subst a. clear H.
      exists (1 :: repeat 0 n). split; [cbn; now rewrite repeat_length|].
      split; [exists 1; split; [left; reflexivity|lra]|].
      rewrite Forall_forall. intros q Hq. specialize (B q Hq). cbn [head0] in B.
      rewrite Rabs_R0 in B.
      destruct q as [|b q]; [reflexivity|]. cbn [head0] in B. cbn [lin]. rewrite lin_zeros.
      assert (b = 0).
      { destruct (Req_dec b 0) as [|N]; [assumption|]. apply Rabs_pos_lt in N. lra. }
      subst b. ring.
Qed.

Definition aug (A : Matrix R) (b : Vector R) : list (list R) := augment (map row_of (row_of A)) (row_of b).
Lemma gauss_unfold A b : gauss A b =
  match eliminate 10 (aug A b) with
  | Some [x0; x1; x2; x3; x4; x5; x6; x7; x8; x9] => Some (V10 x0 x1 x2 x3 x4 x5 x6 x7 x8 x9)
  | _ => None
  end.
Proof. reflexivity. Qed.

Lemma aug_ok A b : length (aug A b) = 10%nat /\ Forall (fun r => length r = 11%nat) (aug A b).
Proof. destruct A, b. split; [reflexivity|]. repeat constructor. Qed.

Lemma resid_dot (r x : vec10 R) b :
  resid (row_of r ++ [b]) (row_of x) = b - dot r x.
Proof. destruct r, x. unfold dot. cbn. ring. Qed.
Lemma lin_dot (r x : vec10 R) b : lin (row_of r ++ [b]) (row_of x) = dot r x.
Proof. destruct r, x. unfold dot. cbn. ring. Qed.

Lemma list10 (xs : list R) : length xs = 10%nat -> exists x : vec10 R, xs = row_of x.
Proof.
  intros H. do 10 (destruct xs as [|? xs]; [discriminate|]). destruct xs; [|discriminate].
  eexists (V10 _ _ _ _ _ _ _ _ _ _). reflexivity.
Qed.

Ltac split10 H := repeat match type of H with Forall _ (_ :: _) =>
  apply Forall_cons_iff in H; let H' := fresh "E" in destruct H as [H' H] end.

Lemma gauss_sound : sound gauss.
Proof.
  intros A b x H. rewrite gauss_unfold in H.
  destruct (eliminate 10 (aug A b)) as [xs|] eqn:E; [|discriminate].
  destruct (aug_ok A b) as [L F].
  destruct (eliminate_sound 10 _ _ L F E) as [Lx Fx].
  destruct (list10 xs Lx) as [y ->].
  assert (Ex : x = y) by (destruct y; cbn in H; injection H; intros; subst; reflexivity).
  subst y. unfold aug in Fx. destruct A as [a0 a1 a2 a3 a4 a5 a6 a7 a8 a9].
  destruct b as [b0 b1 b2 b3 b4 b5 b6 b7 b8 b9].
  change (augment (map row_of (row_of (V10 a0 a1 a2 a3 a4 a5 a6 a7 a8 a9)))
            (row_of (V10 b0 b1 b2 b3 b4 b5 b6 b7 b8 b9)))
    with [row_of a0 ++ [b0]; row_of a1 ++ [b1]; row_of a2 ++ [b2]; row_of a3 ++ [b3];
          row_of a4 ++ [b4]; row_of a5 ++ [b5]; row_of a6 ++ [b6]; row_of a7 ++ [b7];
          row_of a8 ++ [b8]; row_of a9 ++ [b9]] in Fx.
  split10 Fx. rewrite !resid_dot in *. unfold mat_vec. cbn. f_equal; lra.
Qed.

Lemma dot_add a x z : dot a (V10 (v0 x + v0 z) (v1 x + v1 z) (v2 x + v2 z) (v3 x + v3 z) (v4 x + v4 z)
  (v5 x + v5 z) (v6 x + v6 z) (v7 x + v7 z) (v8 x + v8 z) (v9 x + v9 z)) = dot a x + dot a z.
Proof. unfold dot. cbn. ring. Qed.

Lemma gauss_complete : complete gauss.
Proof.
  intros A b (x & Hx & Hu) H. rewrite gauss_unfold in H.
  destruct (aug_ok A b) as [L F].
  destruct (eliminate 10 (aug A b)) as [xs|] eqn:E.
  - destruct (eliminate_sound 10 _ _ L F E) as [Lx _]. destruct (list10 xs Lx) as [y ->].
    destruct y; discriminate.
  - destruct (eliminate_complete 10 _ L F E) as (z & Lz & (w & Hw & Hw0) & Fz).
    destruct (list10 z Lz) as [y ->].
    set (x' := V10 (v0 x + v0 y) (v1 x + v1 y) (v2 x + v2 y) (v3 x + v3 y) (v4 x + v4 y)
                 (v5 x + v5 y) (v6 x + v6 y) (v7 x + v7 y) (v8 x + v8 y) (v9 x + v9 y)).
    assert (Ex : x = x').
    { apply Hu. rewrite <- Hx. unfold x'. clear x' Hu Hx.
      unfold aug in Fz. destruct A as [a0 a1 a2 a3 a4 a5 a6 a7 a8 a9].
      destruct b as [b0 b1 b2 b3 b4 b5 b6 b7 b8 b9].
      change (augment (map row_of (row_of (V10 a0 a1 a2 a3 a4 a5 a6 a7 a8 a9)))
                (row_of (V10 b0 b1 b2 b3 b4 b5 b6 b7 b8 b9)))
        with [row_of a0 ++ [b0]; row_of a1 ++ [b1]; row_of a2 ++ [b2]; row_of a3 ++ [b3];
              row_of a4 ++ [b4]; row_of a5 ++ [b5]; row_of a6 ++ [b6]; row_of a7 ++ [b7];
              row_of a8 ++ [b8]; row_of a9 ++ [b9]] in Fz.
      split10 Fz. rewrite !lin_dot in *. unfold mat_vec. cbn [v0 v1 v2 v3 v4 v5 v6 v7 v8 v9].
      rewrite !dot_add. f_equal; lra. }
    destruct x as [x0 x1 x2 x3 x4 x5 x6 x7 x8 x9]. destruct y as [y0 y1 y2 y3 y4 y5 y6 y7 y8 y9].
    unfold x' in Ex. cbn in Ex. injection Ex as E0 E1 E2 E3 E4 E5 E6 E7 E8 E9.
    cbn in Hw. apply Hw0.
    repeat (destruct Hw as [<-|Hw]; [lra|]). destruct Hw.
Qed.
