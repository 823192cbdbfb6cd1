(** * Proofs about the state-equation solver and the integrator glue, any number type *)
From Coq Require Import ZArith NArith List Lia.
From Verif Require Import Num ModelTypes ModelWs ModelHx ModelStateEq ModelEngine ModelApi Spec.
Import ListNotations.

Lemma Direction_eqb_eq a b : Direction_eqb a b = true <-> a = b.
Proof. destruct a, b; cbn; split; congruence. Qed.

Lemma FlowDirection_eqb_eq a b : FlowDirection_eqb a b = true <-> a = b.
Proof.
  destruct a as [a1 a2 a3 a4], b as [b1 b2 b3 b4]; unfold FlowDirection_eqb; cbn.
  rewrite !Bool.andb_true_iff, !Direction_eqb_eq. split.
  - intros [[[-> ->] ->] ->]; reflexivity.
  - intros H; injection H; intros; subst; auto.
Qed.

Lemma FlowDirection_eqb_neq a b : FlowDirection_eqb a b = false <-> a <> b.
Proof.
  rewrite <- FlowDirection_eqb_eq. destruct (FlowDirection_eqb a b); split; congruence.
Qed.

Section Poly.
  Context {F : Type} {ops : NumOps F}.

  Lemma close_iff tol old new : is_converged tol old new = true <-> close tol old new.
  Proof. unfold is_converged, close. rewrite Bool.andb_true_iff. reflexivity. Qed.

  Lemma from_solution_signs (s : Solution F) : FlowDirection_from_solution s = signs s.
  Proof. reflexivity. Qed.

  Lemma select_by_direction d (p n : F) : Direction_select d p n = by_direction d p n.
  Proof. destruct d; reflexivity. Qed.

  (** The matrix assembled entry by entry is the explicit one *)
  Lemma create_matrix_eq (i : Inputs F) (d : FlowDirection) :
    let hn := in_enth_norm i in
    create_matrix (sys_stencil (System_new i)) d =
    state_matrix i
      (by_direction (fd_ck d) (n_div (wi_enth (in_comp i)) hn) (n_div (hi_enth (in_chx i)) hn))
      (by_direction (fd_kr d) (n_div (hi_enth (in_chx i)) hn) (n_div (gi_enth_cold (in_regen i)) hn))
      (by_direction (fd_rl d) (n_div (gi_enth_hot (in_regen i)) hn) (n_div (hi_enth (in_hhx i)) hn))
      (by_direction (fd_le d) (n_div (hi_enth (in_hhx i)) hn) (n_div (wi_enth (in_exp i)) hn)).
  Proof.
    intros hn. unfold create_matrix. rewrite !select_by_direction. reflexivity.
  Qed.

  Lemma sys_b_eq (i : Inputs F) : sys_b (System_new i) = state_rhs i.
  Proof. reflexivity. Qed.

  Lemma System_solve_Some T (i : Inputs F) d s :
    System_solve T (System_new i) d = Some s <-> solves_for T i d s.
  Proof.
    unfold System_solve, solves_for. rewrite create_matrix_eq, sys_b_eq. cbn zeta.
    match goal with |- context [T ?m ?b] => destruct (T m b) as [x|] end; cbn.
    - split.
      + intros H; injection H as <-. exists x; split; reflexivity.
      + intros (x' & H & ->). injection H as <-. reflexivity.
    - split; [discriminate|]. intros (x' & H & _); discriminate.
  Qed.

  Lemma System_solve_None T (i : Inputs F) d :
    System_solve T (System_new i) d = None <-> fails_for T i d.
  Proof.
    unfold System_solve, fails_for. rewrite create_matrix_eq, sys_b_eq. cbn zeta.
    match goal with |- context [T ?m ?b] => destruct (T m b) as [x|] end; cbn; split; congruence.
  Qed.

  Lemma solves_for_upwind T (i : Inputs F) s :
    solves_for T i (signs s) s <-> upwind_solution T i s.
  Proof.
    unfold solves_for, upwind_solution, signs, sign_of, donor; cbn [fd_ck fd_kr fd_rl fd_le].
    repeat match goal with |- context [if ?b then Positive else Negative] => destruct b end;
      cbn [by_direction]; reflexivity.
  Qed.

  Lemma solves_for_det T (i : Inputs F) d s s' :
    solves_for T i d s -> solves_for T i d s' -> s = s'.
  Proof. intros (x & H & ->) (x' & H' & ->). congruence. Qed.

  Lemma solves_not_fails T (i : Inputs F) d s : solves_for T i d s -> fails_for T i d -> False.
  Proof. intros (x & H & _) H'. unfold fails_for in H'. congruence. Qed.

  (** What a search starting at [hint] with [n] attempts may do *)
  Inductive search (T : Decomp F) (i : Inputs F) : nat -> FlowDirection ->
      list FlowDirection -> result (Solution F) SolveError -> Prop :=
  | search_out d : search T i 0 d [] (Err FlowDirectionsNotFound)
  | search_fail n d : fails_for T i d -> search T i (S n) d [d] (Err LinearSolveFailed)
  | search_ok n d s : solves_for T i d s -> d = signs s -> search T i (S n) d [d] (Ok s)
  | search_next n d s tr r : solves_for T i d s -> d <> signs s ->
      search T i n (signs s) tr r -> search T i (S n) d (d :: tr) r.

  Lemma solve_loop_search T (i : Inputs F) n : forall d,
    search T i n d (fst (solve_loop T (System_new i) n d)) (snd (solve_loop T (System_new i) n d)).
  Proof.
    induction n as [|n IH]; intros d; cbn [solve_loop].
    - constructor.
    - destruct (System_solve T (System_new i) d) as [s|] eqn:Hs.
      + rewrite from_solution_signs. apply System_solve_Some in Hs.
        destruct (FlowDirection_eqb d (signs s)) eqn:He.
        * apply FlowDirection_eqb_eq in He. cbn. now constructor.
        * apply FlowDirection_eqb_neq in He. specialize (IH (signs s)).
          destruct (solve_loop T (System_new i) n (signs s)) as [tr r]. cbn in *.
          now apply search_next with s.
      + apply System_solve_None in Hs. cbn. now constructor.
  Qed.

  Lemma search_length T i n d tr r : search T i n d tr r -> (length tr <= n)%nat.
  Proof. induction 1; cbn; lia. Qed.

  Lemma search_hd T i n d tr r : search T i (S n) d tr r -> exists tr', tr = d :: tr'.
  Proof. inversion 1; eauto. Qed.

  Lemma search_chain T i n d tr r : search T i n d tr r ->
    forall j a b, nth_error tr j = Some a -> nth_error tr (S j) = Some b ->
    exists s, solves_for T i a s /\ b = signs s /\ a <> b.
  Proof.
    induction 1 as [d|n d Hf|n d s Hs He|n d s tr r Hs He Hr IH]; intros j a b Ha Hb.
    - destruct j; discriminate.
    - destruct j as [|j]; [discriminate|]. destruct j; discriminate.
    - destruct j as [|j]; [discriminate|]. destruct j; discriminate.
    - destruct j as [|j]; cbn in Ha, Hb.
      + injection Ha as <-. exists s.
        destruct n as [|n].
        * inversion Hr; subst. discriminate.
        * destruct (search_hd _ _ _ _ _ _ Hr) as [tr' ->]. cbn in Hb. injection Hb as <-. auto.
      + apply (IH j); assumption.
  Qed.

  Lemma search_result T i n d tr r : search T i (S n) d tr r ->
    exists pre a, tr = pre ++ [a] /\
    match r with
    | Ok s => solves_for T i a s /\ a = signs s
    | Err LinearSolveFailed => fails_for T i a
    | Err FlowDirectionsNotFound =>
        length tr = S n /\ exists s, solves_for T i a s /\ a <> signs s
    end.
  Proof.
    revert d tr r. induction n as [|n IH]; intros d tr r H;
      inversion H as [|n' d' Hf|n' d' s Hs He|n' d' s tr' r' Hs He Hr]; subst.
    - exists [], d. auto.
    - exists [], (signs s). auto.
    - inversion Hr; subst. exists [], d. cbn. split; [reflexivity|]. eauto.
    - exists [], d. auto.
    - exists [], (signs s). auto.
    - destruct (IH _ _ _ Hr) as (pre & a & -> & Hres). exists (d :: pre), a.
      split; [reflexivity|]. destruct r as [s'|[|]]; auto.
      destruct Hres as [Hl Hex]. split; [cbn [length app]; lia|exact Hex].
  Qed.

  Lemma signs_not_unknown (s : Solution F) :
    fd_ck (signs s) <> Unknown /\ fd_kr (signs s) <> Unknown /\
    fd_rl (signs s) <> Unknown /\ fd_le (signs s) <> Unknown.
  Proof.
    unfold signs, sign_of; cbn.
    repeat split; match goal with |- context [if ?b then _ else _] => destruct b end; discriminate.
  Qed.

  (** ** C08, C09 *)

  Lemma solve_upwind T (i : Inputs F) hint s :
    solve T i hint = Ok s -> upwind_solution T i s.
  Proof.
    unfold solve, solve_traced. intros H.
    pose proof (solve_loop_search T i (S ALLOWED_FLOW_UPDATES) hint) as HS. rewrite H in HS.
    destruct (search_result _ _ _ _ _ _ HS) as (pre & a & _ & Hs & ->).
    now apply solves_for_upwind.
  Qed.

  Lemma solve_accepts T (i : Inputs F) s :
    upwind_solution T i s -> solve T i (signs s) = Ok s.
  Proof.
    intros H. apply solves_for_upwind, System_solve_Some in H.
    unfold solve, solve_traced. change (S ALLOWED_FLOW_UPDATES) with 4%nat. cbn [solve_loop]. rewrite H.
    change (FlowDirection_from_solution s) with (signs s).
    rewrite (proj2 (FlowDirection_eqb_eq (signs s) (signs s)) eq_refl).
    reflexivity.
  Qed.

  Lemma solve_search T (i : Inputs F) hint tr r :
    solve_traced T i hint = (tr, r) ->
    (1 <= length tr <= 4)%nat /\
    (exists tr', tr = hint :: tr') /\
    (forall j a b, nth_error tr j = Some a -> nth_error tr (S j) = Some b ->
       exists s, solves_for T i a s /\ b = signs s /\ a <> b) /\
    (exists pre a, tr = pre ++ [a] /\
      (forall s, r = Ok s <-> solves_for T i a s /\ a = signs s) /\
      (r = Err LinearSolveFailed <-> fails_for T i a) /\
      (r = Err FlowDirectionsNotFound <->
         length tr = 4%nat /\ exists s, solves_for T i a s /\ a <> signs s)) /\
    (hint = FlowDirection_default -> forall s, r = Ok s -> (2 <= length tr)%nat).
  Proof.
    unfold solve_traced. intros H.
    pose proof (solve_loop_search T i (S ALLOWED_FLOW_UPDATES) hint) as HS. rewrite H in HS.
    cbn [fst snd] in HS. change ALLOWED_FLOW_UPDATES with 3%nat in HS.
    pose proof (search_length _ _ _ _ _ _ HS) as Hlen.
    destruct (search_hd _ _ _ _ _ _ HS) as [tr' Hhd].
    split; [subst tr; cbn in *; lia|].
    split; [eauto|].
    split; [exact (search_chain _ _ _ _ _ _ HS)|].
    destruct (search_result _ _ _ _ _ _ HS) as (pre & a & Htr & Hres).
    split.
    - exists pre, a. split; [exact Htr|].
      destruct r as [s0|[|]].
      + destruct Hres as [Hs He]. split; [|split].
        * intros s; split.
          -- intros E; injection E as <-; auto.
          -- intros [Hs' _]. f_equal. eapply solves_for_det; eassumption.
        * split; [discriminate|]. intros Hf. exfalso. eapply solves_not_fails; eassumption.
        * split; [discriminate|]. intros (_ & s' & Hs' & Hn).
          rewrite (solves_for_det _ _ _ _ _ Hs' Hs) in Hn. contradiction.
      + split; [|split].
        * intros s; split; [discriminate|]. intros [Hs' _].
          exfalso. eapply solves_not_fails; eassumption.
        * split; auto.
        * split; [discriminate|]. intros (_ & s' & Hs' & _).
          exfalso. eapply solves_not_fails; eassumption.
      + destruct Hres as [Hl (s' & Hs' & Hn)]. split; [|split].
        * intros s; split; [discriminate|]. intros [Hs2 He].
          rewrite (solves_for_det _ _ _ _ _ Hs2 Hs') in He. contradiction.
        * split; [discriminate|]. intros Hf. exfalso. eapply solves_not_fails; eassumption.
        * split; [|reflexivity]. intros _. split; [exact Hl|]. eauto.
    - intros Hdef s Hr. subst r. destruct Hres as [_ He].
      destruct pre as [|p pre].
      + exfalso. subst tr. cbn in Htr. injection Htr as Ha _.
        destruct (signs_not_unknown s) as [Hn _].
        rewrite <- He, <- Ha, Hdef in Hn. apply Hn. reflexivity.
      + subst tr. rewrite Htr, app_length. cbn. lia.
  Qed.

  Lemma solve_search_fails T (i : Inputs F) hint e :
    solve T i hint = Err e -> search_fails T i hint.
  Proof.
    unfold solve. destruct (solve_traced T i hint) as [tr r] eqn:H. cbn [snd]. intros ->.
    apply solve_search in H as (Hl & Hh & Hc & (pre & a & Htr & _ & H1 & H2) & _).
    exists tr, pre, a. split; [exact Hh|]. split; [exact Htr|]. split; [apply Hl|].
    split; [exact Hc|]. destruct e; [left; apply H1; reflexivity|right; apply H2; reflexivity].
  Qed.

  (** ** C16 *)

  Variable E : Env F.
  Variable T : Decomp F.
  Variable c : Cycle F.

  Lemma exec_ode_dialogue p : forall hint,
    dialogue T c p (fst (exec_ode T c p hint)) (snd (exec_ode T c p hint)).
  Proof.
    induction p as [t y k IH|xs ys|]; intros hint; cbn [exec_ode].
    - destruct y as [[y0 y1] y2]. unfold system.
      destruct (solve T (cy_calculate_inputs c t {| cd_P := y0; cd_T_c := y1; cd_T_e := y2 |}) hint)
        as [s|e] eqn:Hs.
      + set (dy := (so_dP_dt s, so_dTc_dt s, so_dTe_dt s)).
        specialize (IH dy (FlowDirection_from_solution s)).
        destruct (exec_ode T c (k dy) (FlowDirection_from_solution s)) as [qs r].
        cbn [fst snd] in *. apply dialogue_ask; [|exact IH].
        exists s. split; [|reflexivity]. cbn [fst snd]. now apply solve_upwind with hint.
      + cbn. apply dialogue_panic with hint. cbn [fst snd]. exact (solve_search_fails _ _ _ _ Hs).
    - cbn. constructor.
    - cbn. constructor.
  Qed.

  Lemma dialogue_answered p qs out : dialogue T c p qs (Ret (Ok out)) -> answered T c p out.
  Proof.
    intros H. remember (Ret (Ok out)) as r eqn:Hr. revert Hr.
    induction H as [xs ys| |t y k hint He|t y k dy qs r Hd Hdl IH]; intros Hr; try discriminate.
    - injection Hr as <-. constructor.
    - econstructor; [eassumption|]. now apply IH.
  Qed.

  Lemma dialogue_Forall p qs r : dialogue T c p qs r ->
    Forall (fun q => derivative_at T c (q_time q) (q_y q) (q_dy q)) qs.
  Proof. induction 1; constructor; auto. Qed.

  Lemma u32_pred_spec n k : u32_pred E n = Ret k <-> intervals_for E n k.
  Proof.
    unfold u32_pred, intervals_for. destruct n as [|p].
    - destruct (env_overflow_checks E) eqn:He.
      + split; [discriminate|]. intros [[H _]|(_ & H & _)]; [contradiction|discriminate].
      + split.
        * intros H; injection H as <-. right. repeat split; reflexivity.
        * intros [[H _]|(_ & _ & ->)]; [contradiction|reflexivity].
    - split.
      + intros H; injection H as <-. left. split; [discriminate|]. lia.
      + intros [[_ ->]|(H & _)]; [|discriminate]. f_equal. lia.
  Qed.

  Lemma u32_pred_panic n r : u32_pred E n = Panic r ->
    r = POverflow /\ n = 0%N /\ env_overflow_checks E = true.
  Proof.
    unfold u32_pred. destruct n; [|discriminate].
    destruct (env_overflow_checks E); [|discriminate]. intros H; injection H as <-; auto.
  Qed.

  Lemma nth_error_points_of (xs : list F) : forall ys j p, nth_error (points_of xs ys) j = Some p ->
    exists x y, nth_error xs j = Some x /\ nth_error ys j = Some y /\ p = point_of x y.
  Proof.
    unfold points_of.
    induction xs as [|x xs IH]; intros ys j p H; [destruct j; discriminate|].
    destruct ys as [|y ys]; [destruct j; discriminate|].
    destruct j as [|j]; cbn in H.
    - injection H as <-. exists x, y. repeat split. destruct y as [[a b] d]. reflexivity.
    - cbn. exact (IH ys j p H).
  Qed.

  Lemma length_points_of (xs : list F) (ys : list (vec3 F)) :
    length (points_of xs ys) = Nat.min (length xs) (length ys).
  Proof. unfold points_of. rewrite map_length, combine_length. reflexivity. Qed.

  Lemma try_from_traced_spec ic n tol qs r :
    try_from_traced E T c ic n tol = (qs, r) ->
    (r = Panic POverflow /\ qs = [] /\ n = 0%N /\ env_overflow_checks E = true) \/
    exists k out,
      intervals_for E n k /\
      dialogue T c
        (env_ode E
           (mkOdeArgs n0 (n_add (cy_period c) (n_lit 1 (-14))) (n_div (cy_period c) (n_of_u32 k))
              (cd_P ic, cd_T_c ic, cd_T_e ic) (ot_rel tol) (ot_abs tol)))
        qs out /\
      r = (let! o := out in
           match o with
           | Err e => Ret (Err e)
           | Ok (xs, ys) => Ret (Ok (points_of xs ys))
           end).
  Proof.
    unfold try_from_traced. destruct (u32_pred E n) as [k|pr] eqn:Hk.
    - intros H. right. apply u32_pred_spec in Hk.
      pose proof (exec_ode_dialogue (env_ode E (ode_args c ic k tol)) FlowDirection_default) as HD.
      destruct (exec_ode T c (env_ode E (ode_args c ic k tol)) FlowDirection_default) as [qs' out].
      injection H as <- <-. exists k, out. auto.
    - intros H; injection H as <- <-. apply u32_pred_panic in Hk as (-> & -> & ->). auto.
  Qed.

  Lemma try_from_integrates ic n tol pts :
    try_from E T c ic n tol = Ret (Ok pts) ->
    exists k, intervals_for E n k /\ integrates E T c ic k tol pts.
  Proof.
    unfold try_from. destruct (try_from_traced E T c ic n tol) as [qs r] eqn:H. cbn [snd].
    intros ->. apply try_from_traced_spec in H as [(H & _)|(k & out & Hk & HD & Hr)];
      [discriminate|].
    exists k. split; [exact Hk|].
    destruct out as [[[xs ys]|e]|p]; cbn in Hr; try discriminate.
    injection Hr as ->. exists xs, ys. split; [now apply dialogue_answered with qs|].
    split; [apply length_points_of|]. intros j p. apply nth_error_points_of.
  Qed.

  (** ** C17 *)

  Lemma into_state_values_from_spec pts : forall hint,
    match into_state_values_from T c hint pts with
    | Ret vs => values_of_points T c pts vs
    | Panic r =>
        r = PSolveFailed /\
        exists pre p post vs, pts = pre ++ p :: post /\ values_of_points T c pre vs /\
          search_fails T (cy_calculate_inputs c (pt_time p) (pt_conditions p)) (last_signs hint vs)
    end.
  Proof.
    induction pts as [|p pts IH]; intros hint; cbn [into_state_values_from].
    - constructor.
    - destruct (solve T (cy_calculate_inputs c (pt_time p) (pt_conditions p)) hint) as [s|e] eqn:Hs.
      + specialize (IH (FlowDirection_from_solution s)).
        destruct (into_state_values_from T c (FlowDirection_from_solution s) pts) as [vs|r].
        * cbn. constructor; [|exact IH]. cbn. repeat split. now apply solve_upwind with hint.
        * cbn. destruct IH as (-> & pre & q & post & vs & -> & Hpre & Hq).
          split; [reflexivity|].
          exists (p :: pre), q, post, (mkSeValues (pt_time p) (pt_conditions p) s :: vs).
          split; [reflexivity|]. split.
          -- constructor; [|exact Hpre]. cbn. repeat split. now apply solve_upwind with hint.
          -- exact Hq.
      + split; [reflexivity|]. exists [], p, pts, []. split; [reflexivity|].
        split; [constructor|]. exact (solve_search_fails _ _ _ _ Hs).
  Qed.
End Poly.
