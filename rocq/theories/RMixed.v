(** * Exchangers that conduct well or keep an approach *)
From Coq Require Import ZArith NArith List Reals Lra Lia.
From Verif Require Import Num ModelTypes ModelWs ModelHx ModelStateEq ModelEngine RNum Spec SpecR SpecGas SpecLaws SpecSpaces SpecQuad SpecReport SpecBounds SpecSample SpecMeans SpecMixed
  RFluid RContractEngine RFlowBound RBounds RSampleReport RApproach RConsistent.
Import ListNotations.
Local Open Scope R_scope.

(** ** Approaches of exchangers that conduct well *)
Lemma per_heat_small C u : 0 < C -> 0 < u -> 0 <= per_heat C u <= / u.
Proof.
  intros HC Hu. unfold per_heat. set (x := u / C). assert (X : 0 < x) by (apply Rdiv_lt_0_compat; assumption).
  pose proof (exp_ineq1 x ltac:(lra)) as E. pose proof (exp_pos (- x)) as P.
  assert (EE : exp (- x) = / exp x) by apply exp_Ropp.
  assert (L : exp (- x) < 1) by (rewrite <- exp_0; apply exp_increasing; lra).
  replace (/ (1 - exp (- x)) - 1) with (/ (exp x - 1)) by (rewrite EE; field; lra).
  split; [left; apply Rmult_lt_0_compat; apply Rinv_0_lt_compat; lra|].
  replace (/ u) with (/ C * / x) by (unfold x; field; lra). apply Rmult_le_compat_l; [left; apply Rinv_0_lt_compat, HC|].
  apply Rinv_le_contravar; lra.
Qed.
Lemma per_span_small C u : 0 < C -> 0 < u -> 0 <= per_span C u <= 2 * C / u.
Proof.
  intros HC Hu. unfold per_span. set (x := u / C). assert (X : 0 < x) by (apply Rdiv_lt_0_compat; assumption).
  replace (1 - x / 2 / (1 + x / 2)) with (/ (1 + x / 2)) by (field; lra).
  split; [left; apply Rinv_0_lt_compat; lra|]. replace (2 * C / u) with (/ (x / 2)) by (unfold x; field; lra). apply Rinv_le_contravar; lra.
Qed.

(** how an approach depends on the mean heat, or the span of temperature, and the mean flow *)
Definition heat_law (U kept : R) (g : R -> R -> R) : Prop :=
  (exists u, U <= u /\ forall Q m, g Q m = Q * per_heat (cp_he * m) u) \/ (exists c, Rabs c <= kept /\ forall Q m, g Q m = c).
Definition span_law (U kept : R) (g : R -> R -> R) : Prop :=
  (exists u, U <= u /\ forall S m, g S m = S * per_span (cp_he * m) u) \/ (exists c, Rabs c <= kept /\ forall S m, g S m = c).
Definition laws (comps : Components R) (U kept : R) (g_k g_r g_l : R -> R -> R) : Prop :=
  heat_law U kept g_k /\ span_law U kept g_r /\ heat_law U kept g_l /\
  (forall fl T sink P m Q, fl = IdealGas_Fluid he -> 0 < m ->
    steady_approach (fun P m Q => ex_approach (co_chx comps) (mkChxState (hx_state fl T P m Q) sink)) P m Q (g_k Q m)) /\
  (forall fl T Tk Tl P m Q, fl = IdealGas_Fluid he -> 0 < m ->
    steady_approach (fun P m Q => ex_approach (co_regen comps) (mkRegenState (hx_state fl T P m Q) Tk Tl)) P m Q (g_r (Tl - Tk) m)) /\
  (forall fl T source P m Q, fl = IdealGas_Fluid he -> 0 < m ->
    steady_approach (fun P m Q => ex_approach (co_hhx comps) (mkHhxState (hx_state fl T P m Q) source)) P m Q (g_l Q m)) /\
  (forall st, exists v, ex_approach (co_chx comps) st = Ret v) /\ (forall st, exists v, ex_approach (co_regen comps) st = Ret v) /\
  (forall st, exists v, ex_approach (co_hhx comps) st = Ret v).
Lemma mixed_laws comps U kept : 0 < U -> mixed comps U kept -> exists g_k g_r g_l, laws comps U kept g_k g_r g_l.
Proof.
  intros U0 (K & R & L).
  assert (HK : exists g, heat_law U kept g /\ (forall fl T sink P m Q, fl = IdealGas_Fluid he -> 0 < m ->
    steady_approach (fun P m Q => ex_approach (co_chx comps) (mkChxState (hx_state fl T P m Q) sink)) P m Q (g Q m)) /\ forall st, exists v, ex_approach (co_chx comps) st = Ret v).
  { destruct K as [(f & -> & H)|(f & -> & H)].
    - exists (fun Q m => Q * per_heat (cp_he * m) (fc_UA f)). split; [left; exists (fc_UA f); auto|]. split; [|intros st; eexists; reflexivity].
      intros fl T sink P m Q Hf Hm. apply steady_chx; [exact Hf|exact Hm|lra].
    - exists (fun _ _ => fa_approach f). split; [right; exists (fa_approach f); auto|]. split; [|intros st; eexists; reflexivity]. intros. apply steady_fixed. }
  assert (HR : exists g, span_law U kept g /\ (forall fl T Tk Tl P m Q, fl = IdealGas_Fluid he -> 0 < m ->
    steady_approach (fun P m Q => ex_approach (co_regen comps) (mkRegenState (hx_state fl T P m Q) Tk Tl)) P m Q (g (Tl - Tk) m)) /\ forall st, exists v, ex_approach (co_regen comps) st = Ret v).
  { destruct R as [(f & -> & H)|(f & -> & H)].
    - exists (fun S m => S * per_span (cp_he * m) (fc_UA f)). split; [left; exists (fc_UA f); auto|]. split; [|intros st; eexists; reflexivity].
      intros fl T Tk Tl P m Q Hf Hm. apply steady_regen; [exact Hf|exact Hm|lra].
    - exists (fun _ _ => fa_approach f). split; [right; exists (fa_approach f); auto|]. split; [|intros st; eexists; reflexivity]. intros. apply steady_fixed. }
  assert (HL : exists g, heat_law U kept g /\ (forall fl T source P m Q, fl = IdealGas_Fluid he -> 0 < m ->
    steady_approach (fun P m Q => ex_approach (co_hhx comps) (mkHhxState (hx_state fl T P m Q) source)) P m Q (g Q m)) /\ forall st, exists v, ex_approach (co_hhx comps) st = Ret v).
  { destruct L as [(f & -> & H)|(f & -> & H)].
    - exists (fun Q m => Q * per_heat (cp_he * m) (fc_UA f)). split; [left; exists (fc_UA f); auto|]. split; [|intros st; eexists; reflexivity].
      intros fl T source P m Q Hf Hm. apply steady_hhx; [exact Hf|exact Hm|lra].
    - exists (fun _ _ => fa_approach f). split; [right; exists (fa_approach f); auto|]. split; [|intros st; eexists; reflexivity]. intros. apply steady_fixed. }
  destruct HK as (g_k & K1 & K2 & K3), HR as (g_r & R1 & R2 & R3), HL as (g_l & L1 & L2 & L3).
  exists g_k, g_r, g_l. unfold laws. tauto.
Qed.
Lemma mixed_less comps U U' kept : mixed comps U kept -> U' <= U -> mixed comps U' kept.
Proof.
  intros (K & R & L) H. split; [|split].
  - destruct K as [(f & E & H1)|(f & E & H1)]; [left|right]; exists f; split; try exact E; lra.
  - destruct R as [(f & E & H1)|(f & E & H1)]; [left|right]; exists f; split; try exact E; lra.
  - destruct L as [(f & E & H1)|(f & E & H1)]; [left|right]; exists f; split; try exact E; lra.
Qed.
Lemma conducting_mixed comps U kept u_k u_r u_l : conducting comps u_k u_r u_l -> U <= u_k -> U <= u_r -> U <= u_l -> mixed comps U kept.
Proof.
  intros (f_k & f_r & f_l & E1 & E2 & E3 & <- & <- & <- & _) U1 U2 U3. split; [|split]; left; eexists; eauto.
Qed.
Lemma steady_mixed (comps : Components R) (s : State R) (M : Means) U kept g_k g_r g_l :
  s_fluid s = IdealGas_Fluid he -> 0 < mn_flow_k M -> 0 < mn_flow_r M -> 0 < mn_flow_l M -> laws comps U kept g_k g_r g_l ->
  steady_approaches comps s M (g_k (mn_heat_k M) (mn_flow_k M)) (g_r (te_hhx (s_temp s) - te_chx (s_temp s)) (mn_flow_r M)) (g_l (mn_heat_l M) (mn_flow_l M)).
Proof.
  intros Hfl M1 M2 M3 (_ & _ & _ & A1 & A2 & A3 & _). unfold steady_approaches. cbv zeta.
  split; [apply A1; assumption|]. split; [apply A2; assumption|apply A3; assumption].
Qed.
Lemma inv_below U u : 0 < U -> U <= u -> 0 < / u <= / U.
Proof. intros. split; [apply Rinv_0_lt_compat; lra|apply Rinv_le_contravar; lra]. Qed.
Section Laws.
  Variables (U kept B : R).
  Hypothesis U0 : 0 < U.
  Lemma conducted Q m u : Rabs Q <= B -> 0 < m -> U <= u -> Rabs (Q * per_heat (cp_he * m) u) <= B / U.
  Proof.
    intros HQ Hm Hu. pose proof cp_pos as CP. destruct (per_heat_small (cp_he * m) u ltac:(apply Rmult_lt_0_compat; assumption) ltac:(lra)) as (P1 & P2).
    destruct (inv_below U u U0 Hu) as (P3 & P4). unfold Rdiv. apply abs_le_mul; [exact HQ|]. rewrite Rabs_pos_eq; lra.
  Qed.
  Lemma spanned F T S m u : Rabs S <= T -> 0 < m <= F -> U <= u -> T * (2 * cp_he * F) <= B -> Rabs (S * per_span (cp_he * m) u) <= B / U.
  Proof.
    intros HS Hm Hu HB. pose proof cp_pos as CP. destruct (per_span_small (cp_he * m) u ltac:(apply Rmult_lt_0_compat; tauto) ltac:(lra)) as (P1 & P2). destruct (inv_below U u U0 Hu) as (P3 & P4).
    apply Rle_trans with (T * (2 * (cp_he * F) * / U)).
    - apply abs_le_mul; [exact HS|]. rewrite Rabs_pos_eq by exact P1. apply Rle_trans with (1 := P2). unfold Rdiv.
      apply Rmult_le_compat; [|lra| |exact P4].
      + apply Rmult_le_pos; [lra|]. apply Rmult_le_pos; lra.
      + apply Rmult_le_compat_l; [lra|]. apply Rmult_le_compat_l; lra.
    - replace (T * (2 * (cp_he * F) * / U)) with (T * (2 * cp_he * F) * / U) by ring. unfold Rdiv. apply Rmult_le_compat_r; [|exact HB].
      left. apply Rinv_0_lt_compat, U0.
  Qed.
  Lemma heat_law_small g Q m : heat_law U kept g -> Rabs Q <= B -> 0 < m -> Rabs (g Q m) <= Rmax kept (B / U).
  Proof.
    intros [(u & Hu & E)|(c & Hc & E)] HQ Hm; rewrite E.
    - apply Rle_trans with (B / U); [apply conducted; assumption|apply Rmax_r].
    - apply Rle_trans with (1 := Hc). apply Rmax_l.
  Qed.
  Lemma span_law_small g F T S m : span_law U kept g -> Rabs S <= T -> 0 < m <= F -> T * (2 * cp_he * F) <= B -> Rabs (g S m) <= Rmax kept (B / U).
  Proof.
    intros [(u & Hu & E)|(c & Hc & E)] HS Hm HB; rewrite E.
    - apply Rle_trans with (B / U); [apply (spanned F T); assumption|apply Rmax_r].
    - apply Rle_trans with (1 := Hc). apply Rmax_l.
  Qed.
  Lemma heat_law_far g Q m Q' m' : heat_law U kept g -> Rabs Q <= B -> 0 < m -> Rabs Q' <= B -> 0 < m' -> Rabs (g Q m - g Q' m') <= 2 * (B / U).
  Proof.
    intros HG HQ Hm HQ' Hm'. assert (B0 : 0 <= B / U) by (apply Rle_mult_inv_pos; [apply Rle_trans with (2 := HQ), Rabs_pos|exact U0]).
    destruct HG as [(u & Hu & E)|(c & _ & E)]; rewrite !E.
    - pose proof (conducted Q m u HQ Hm Hu) as A1. pose proof (conducted Q' m' u HQ' Hm' Hu) as A2. apply abs_le_iff in A1, A2. apply abs_le_iff. lra.
    - rewrite Rminus_diag_eq, Rabs_R0 by reflexivity. lra.
  Qed.
  Lemma span_law_far g F T S m S' m' : span_law U kept g -> Rabs S <= T -> 0 < m <= F -> Rabs S' <= T -> 0 < m' <= F -> T * (2 * cp_he * F) <= B -> 0 <= B ->
    Rabs (g S m - g S' m') <= 2 * (B / U).
  Proof.
    intros HG HS Hm HS' Hm' HB B1. assert (B0 : 0 <= B / U) by (apply Rle_mult_inv_pos; assumption).
    destruct HG as [(u & Hu & E)|(c & _ & E)]; rewrite !E.
    - pose proof (spanned F T S m u HS Hm Hu HB) as A1. pose proof (spanned F T S' m' u HS' Hm' Hu HB) as A2. apply abs_le_iff in A1, A2. apply abs_le_iff. lra.
    - rewrite Rminus_diag_eq, Rabs_R0 by reflexivity. lra.
  Qed.
  (** the approach is near that with an endless conductance, or is the one that is kept *)
  Lemma heat_law_base g : 0 <= kept -> heat_law U kept g -> exists c, forall Q m, Rabs Q <= B -> 0 < m -> Rabs (g Q m - c) <= B / U /\ Rabs (g Q m) <= Rmax kept (B / U).
  Proof.
    intros K0 HG. pose proof (heat_law_small g) as S. destruct HG as [(u & Hu & E)|(c & Hc & E)].
    - exists 0. intros Q m HQ Hm. split; [|apply S; try assumption; left; exists u; auto]. rewrite E, Rminus_0_r. apply conducted; assumption.
    - exists c. intros Q m HQ Hm. split; [|apply S; try assumption; right; exists c; auto]. rewrite E, Rminus_diag_eq, Rabs_R0 by reflexivity.
      apply Rle_mult_inv_pos; [apply Rle_trans with (2 := HQ), Rabs_pos|exact U0].
  Qed.
  Lemma span_law_base g : 0 <= kept -> span_law U kept g -> exists c,
    forall F T S m, Rabs S <= T -> 0 < m <= F -> T * (2 * cp_he * F) <= B -> Rabs (g S m - c) <= B / U /\ Rabs (g S m) <= Rmax kept (B / U).
  Proof.
    intros K0 HG. pose proof (span_law_small g) as L. destruct HG as [(u & Hu & E)|(c & Hc & E)].
    - exists 0. intros F T S m HS Hm HB. split; [|apply (L F T); try assumption; left; exists u; auto]. rewrite E, Rminus_0_r. apply (spanned F T); assumption.
    - exists c. intros F T S m HS Hm HB. split; [|apply (L F T); try assumption; right; exists c; auto]. rewrite E, Rminus_diag_eq, Rabs_R0 by reflexivity.
      apply Rle_mult_inv_pos; [|exact U0]. apply Rle_trans with (2 := HB). pose proof cp_pos. pose proof (Rabs_pos S).
      apply Rmult_le_pos; [lra|]. apply Rmult_le_pos; lra.
  Qed.
End Laws.
