(** * Trapezoidal integration, averages and extrema over the reals *)
From Coq Require Import ZArith NArith List Reals Lra Lia.
From Verif Require Import Num ModelTypes ModelWs ModelHx ModelStateEq ModelEngine ModelApi RNum SpecSeries.
Import ListNotations.
Local Open Scope R_scope.

Lemma sum_acc (l : list R) : forall a, fold_left n_add l a = a + fold_right Rplus 0 l.
Proof.
  induction l as [|x l IH]; intros a; cbn [fold_left fold_right]; [ring|].
  rewrite IH. cbn [n_add R_ops]. ring.
Qed.
Lemma n_sum_eq (l : list R) : n_sum l = fold_right Rplus 0 l.
Proof. unfold n_sum. rewrite sum_acc, R_n0. ring. Qed.

Lemma integrate_trapezoid (x y : list R) : integrate x y = trapezoid (combine x y).
Proof.
  unfold integrate. rewrite n_sum_eq, R_nhalf.
  revert y. induction x as [|x0 x IH]; intros y; [reflexivity|].
  destruct y as [|y0 y]; [destruct x; reflexivity|].
  destruct x as [|x1 x]; [reflexivity|]. destruct y as [|y1 y]; [reflexivity|].
  specialize (IH (y1 :: y)).
  change (windows2 (x0 :: x1 :: x)) with ((x0, x1) :: windows2 (x1 :: x)).
  change (windows2 (y0 :: y1 :: y)) with ((y0, y1) :: windows2 (y1 :: y)).
  cbn [combine map fold_right]. rewrite IH.
  change (combine (x0 :: x1 :: x) (y0 :: y1 :: y)) with ((x0, y0) :: combine (x1 :: x) (y1 :: y)).
  cbn [combine trapezoid n_add n_sub n_mul R_ops]. field.
Qed.

(** ** Laws *)
Section Laws.
  Context {I : Type}.
  Implicit Types (f g : I -> R) (l : list I).
  Lemma trapezoid_linear a b f g l : forall x,
    trapezoid (combine x (map (fun i => a * f i + b * g i) l)) =
    a * trapezoid (combine x (map f l)) + b * trapezoid (combine x (map g l)).
  Proof.
    induction l as [|i l IH]; intros x; [destruct x; cbn; ring|].
    destruct x as [|x0 x]; [cbn; ring|]. specialize (IH x).
    destruct l as [|j l]; [destruct x; cbn; ring|]. destruct x as [|x1 x]; [cbn; ring|].
    cbn [map combine trapezoid] in *. rewrite IH. field.
  Qed.
  Lemma trapezoid_ext f g l x : (forall i, In i l -> f i = g i) ->
    trapezoid (combine x (map f l)) = trapezoid (combine x (map g l)).
  Proof. intros H. rewrite (map_ext_in f g l H). reflexivity. Qed.
  Lemma trapezoid_plus f g l x :
    trapezoid (combine x (map (fun i => f i + g i) l)) =
    trapezoid (combine x (map f l)) + trapezoid (combine x (map g l)).
  Proof.
    rewrite <- (Rmult_1_l (trapezoid (combine x (map f l)))), <- (Rmult_1_l (trapezoid (combine x (map g l)))).
    rewrite <- trapezoid_linear. apply trapezoid_ext. intros; ring.
  Qed.
  Lemma trapezoid_minus f g l x :
    trapezoid (combine x (map (fun i => f i - g i) l)) =
    trapezoid (combine x (map f l)) - trapezoid (combine x (map g l)).
  Proof.
    replace (trapezoid (combine x (map f l)) - trapezoid (combine x (map g l)))
      with (1 * trapezoid (combine x (map f l)) + (-1) * trapezoid (combine x (map g l))) by ring.
    rewrite <- trapezoid_linear. apply trapezoid_ext. intros; ring.
  Qed.
  Lemma trapezoid_zero l x : trapezoid (combine x (map (fun _ => 0) l)) = 0.
  Proof.
    pose proof (trapezoid_linear 0 0 (fun _ => 0) (fun _ => 0) l x) as E.
    rewrite (trapezoid_ext _ (fun _ => 0)) in E by (intros; ring). rewrite E. ring.
  Qed.
  Lemma integrate_linear a b f g l x :
    integrate x (map (fun i => a * f i + b * g i) l) = a * integrate x (map f l) + b * integrate x (map g l).
  Proof. rewrite !integrate_trapezoid. apply trapezoid_linear. Qed.
End Laws.

Lemma trapezoid_app l : forall p l', trapezoid (l ++ p :: l') = trapezoid (l ++ [p]) + trapezoid (p :: l').
Proof.
  induction l as [|[x0 y0] l IH]; intros p l'.
  - destruct p. cbn [app trapezoid]. destruct l' as [|[]]; ring.
  - destruct l as [|[x1 y1] l].
    + destruct p as [x1 y1]. cbn [app trapezoid]. destruct l' as [|[]]; ring.
    + specialize (IH p l'). cbn [app trapezoid] in *. rewrite IH. ring.
Qed.
Lemma combine_app {A B} (x x' : list A) (y y' : list B) : length x = length y ->
  combine (x ++ x') (y ++ y') = combine x y ++ combine x' y'.
Proof.
  revert y. induction x as [|a x IH]; intros [|b y] H; try discriminate H; [reflexivity|].
  cbn. rewrite IH by (injection H; trivial). reflexivity.
Qed.
Lemma integrate_split x1 p x2 y1 q y2 : length x1 = length y1 ->
  integrate (x1 ++ p :: x2) (y1 ++ q :: y2) =
  integrate (x1 ++ [p]) (y1 ++ [q]) + integrate (p :: x2) (q :: y2).
Proof.
  intros H. rewrite !integrate_trapezoid, !combine_app by exact H. apply trapezoid_app.
Qed.

Lemma integrate_affine a b x0 l :
  integrate (x0 :: l) (map (fun t => a * t + b) (x0 :: l)) =
  a * ((last l x0 * last l x0 - x0 * x0) / 2) + b * (last l x0 - x0).
Proof.
  rewrite integrate_trapezoid. revert x0. induction l as [|x1 l IH]; intros x0; [cbn; field|].
  specialize (IH x1). cbn [map combine trapezoid] in *. rewrite IH.
  replace (last (x1 :: l) x0) with (last l x1).
  - field.
  - clear. revert x0 x1. induction l as [|y l IH]; intros x0 x1; [reflexivity|].
    change (last (x1 :: y :: l) x0) with (last (y :: l) x0).
    transitivity (last l y); [|apply IH]. symmetry. apply IH.
Qed.

Lemma trapezoid_monotone x : forall y z, nondecreasing x -> Forall2 Rle y z ->
  trapezoid (combine x y) <= trapezoid (combine x z).
Proof.
  induction x as [|x0 x IH]; intros y z Hx H; [cbn; lra|].
  destruct H as [|y0 z0 y z H0 H]; [cbn; lra|].
  destruct x as [|x1 x]; [cbn; lra|].
  destruct H as [|y1 z1 y z H1 H]; [cbn; lra|].
  destruct Hx as [Hx Hx']. specialize (IH (y1 :: y) (z1 :: z) Hx' (Forall2_cons _ _ H1 H)).
  cbn [combine trapezoid] in *.
  assert ((y0 + y1) / 2 * (x1 - x0) <= (z0 + z1) / 2 * (x1 - x0)) by (apply Rmult_le_compat_r; lra). lra.
Qed.
Lemma integrate_monotone x y z : nondecreasing x -> Forall2 Rle y z -> integrate x y <= integrate x z.
Proof. rewrite !integrate_trapezoid. apply trapezoid_monotone. Qed.

Lemma integrate_short (x y : list R) : (length x < 2)%nat \/ (length y < 2)%nat -> integrate x y = 0.
Proof.
  intros H. rewrite integrate_trapezoid.
  destruct x as [|? [|? ?]]; destruct y as [|? [|? ?]]; cbn in *; try reflexivity; lia.
Qed.
Lemma combine_firstn_both {A B} (x : list A) : forall y : list B,
  combine (firstn (length y) x) (firstn (length x) y) = combine x y.
Proof. induction x as [|a x IH]; intros [|b y]; try reflexivity. cbn. now rewrite IH. Qed.
Lemma integrate_excess (x y : list R) :
  integrate (firstn (length y) x) (firstn (length x) y) = integrate x y.
Proof. rewrite !integrate_trapezoid, combine_firstn_both. reflexivity. Qed.

(** ** Extrema *)
Lemma max_fold l : forall a, greatest (fold_left (fun x y : R => if n_total_le x y then y else x) l a) (a :: l).
Proof.
  induction l as [|b l IH]; intros a; [split; [now left|intros x [->|[]]; cbn; lra]|].
  cbn [fold_left]. destruct (IH (if n_total_le a b then b else a)) as [Hin Hle].
  set (m := fold_left _ l _) in *. clearbody m.
  assert (a <= (if n_total_le a b then b else a) /\ b <= (if n_total_le a b then b else a)) as [Ha Hb]
    by (cbn; destruct (Rle_dec a b); lra).
  assert (Hm : (if n_total_le a b then b else a) <= m) by (apply Hle; now left).
  split.
  - destruct Hin as [E|Hin]; [|now right; right]. rewrite <- E. cbn [n_total_le R_ops].
    destruct (Rle_dec a b); [right; now left|now left].
  - intros x [<-|[<-|Hx]]; [lra|lra|]. apply Hle. now right.
Qed.
Lemma min_fold l : forall a, least (fold_left (fun x y : R => if n_total_le x y then x else y) l a) (a :: l).
Proof.
  induction l as [|b l IH]; intros a; [split; [now left|intros x [->|[]]; cbn; lra]|].
  cbn [fold_left]. destruct (IH (if n_total_le a b then a else b)) as [Hin Hle].
  set (m := fold_left _ l _) in *. clearbody m.
  assert ((if n_total_le a b then a else b) <= a /\ (if n_total_le a b then a else b) <= b) as [Ha Hb]
    by (cbn; destruct (Rle_dec a b); lra).
  assert (Hm : m <= (if n_total_le a b then a else b)) by (apply Hle; now left).
  split.
  - destruct Hin as [E|Hin]; [|now right; right]. rewrite <- E. cbn [n_total_le R_ops].
    destruct (Rle_dec a b); [now left|right; now left].
  - intros x [<-|[<-|Hx]]; [lra|lra|]. apply Hle. now right.
Qed.

Lemma last_unwrap_app {A} (l : list A) t : last_unwrap (l ++ [t]) = Ret t.
Proof.
  induction l as [|a l IH]; [reflexivity|].
  cbn [app]. destruct (l ++ [t]) eqn:E; [destruct l; discriminate|]. exact IH.
Qed.
Lemma grid_final time t : grid_to time t -> last_unwrap time = Ret t.
Proof. intros (_ & _ & (pre & ->) & _). apply last_unwrap_app. Qed.

Lemma last_app_single {A} (l : list A) t d : last (l ++ [t]) d = t.
Proof. induction l as [|a l IH]; [reflexivity|]. cbn [app]. rewrite <- IH at 2. destruct l; reflexivity. Qed.
Lemma grid_last time t : grid_to time t -> exists rest, time = 0 :: rest /\ last rest 0 = t.
Proof.
  intros (_ & (rest & E) & (pre & E') & Ht). exists rest. split; [exact E|].
  rewrite E in E'. destruct pre as [|p pre].
  - injection E' as <- ->. reflexivity.
  - injection E' as _ ->. apply last_app_single.
Qed.

(** constants integrate to their product with the duration *)
Lemma trapezoid_const c time t : grid_to time t ->
  trapezoid (combine time (map (fun _ => c) time)) = c * t.
Proof.
  intros H. destruct (grid_last time t H) as (rest & -> & <-).
  pose proof (integrate_affine 0 c 0 rest) as E. rewrite integrate_trapezoid in E.
  rewrite (map_ext (fun _ : R => c) (fun u => 0 * u + c)) by (intros; ring). rewrite E. field.
Qed.
Lemma Forall2_const_l {A} (R' : R -> R -> Prop) (c : R) (x : list A) : forall y, length x = length y ->
  (forall b, In b y -> R' c b) -> Forall2 R' (map (fun _ => c) x) y.
Proof.
  induction x as [|a x IH]; intros [|b y] HL H; try discriminate HL; [constructor|].
  constructor; [apply H; now left|]. apply IH; [injection HL; trivial|]. intros; apply H; now right.
Qed.
Lemma Forall2_const_r {A} (R' : R -> R -> Prop) (c : R) (x : list A) : forall y, length x = length y ->
  (forall b, In b y -> R' b c) -> Forall2 R' y (map (fun _ => c) x).
Proof.
  induction x as [|a x IH]; intros [|b y] HL H; try discriminate HL; [constructor|].
  constructor; [apply H; now left|]. apply IH; [injection HL; trivial|]. intros; apply H; now right.
Qed.
Lemma average_bounds time y t lo hi : grid_to time t -> length time = length y ->
  (forall b, In b y -> lo <= b <= hi) -> lo <= average time y t <= hi.
Proof.
  intros HG HL H. pose proof HG as (Hm & _ & _ & Ht). unfold average.
  pose proof (trapezoid_monotone time _ _ Hm (Forall2_const_l Rle lo time y HL (fun b Hb => proj1 (H b Hb)))) as H1.
  pose proof (trapezoid_monotone time _ _ Hm (Forall2_const_r Rle hi time y HL (fun b Hb => proj2 (H b Hb)))) as H2.
  rewrite (trapezoid_const _ _ _ HG) in H1. rewrite (trapezoid_const _ _ _ HG) in H2.
  split; [apply Rmult_le_reg_r with t|apply Rmult_le_reg_r with t]; try exact Ht;
    unfold Rdiv; rewrite Rmult_assoc, Rinv_l, Rmult_1_r by lra; assumption.
Qed.

(** ** Pressure *)
Lemma pressure_stats (v : Values R) p : Pressure_from_values v = Ret p ->
  greatest (pr_max p) (vs_P v) /\ least (pr_min p) (vs_P v) /\
  (exists rest, vs_P v = pr_t_zero p :: rest) /\
  exists t, last_unwrap (vs_time v) = Ret t /\ pr_avg p = average (vs_time v) (vs_P v) t.
Proof.
  unfold Pressure_from_values, final_time. destruct (last_unwrap (vs_time v)) as [t|] eqn:Et; [|discriminate].
  cbn [obind]. destruct (vs_P v) as [|P0 P] eqn:EP; [discriminate|].
  cbn [first_unwrap obind max_by min_by]. rewrite integrate_trapezoid. intros H. injection H as <-.
  cbn [pr_max pr_min pr_t_zero pr_avg].
  split; [apply max_fold|]. split; [apply min_fold|]. split; [eauto|]. exists t. split; reflexivity.
Qed.
Lemma pressure_avg_bounds (v : Values R) p t : Pressure_from_values v = Ret p ->
  grid_to (vs_time v) t -> length (vs_time v) = length (vs_P v) ->
  pr_min p <= pr_avg p <= pr_max p /\ pr_avg p = average (vs_time v) (vs_P v) t.
Proof.
  intros H HG HL. destruct (pressure_stats v p H) as ((_ & Hmax) & (_ & Hmin) & _ & t' & Et & ->).
  rewrite (grid_final _ _ HG) in Et. injection Et as <-. split; [|reflexivity].
  apply average_bounds; [exact HG|exact HL|]. intros b Hb. split; [now apply Hmin|now apply Hmax].
Qed.
Lemma pressure_total (v : Values R) : vs_time v <> [] -> vs_P v <> [] ->
  exists p, Pressure_from_values v = Ret p.
Proof.
  intros H1 H2. unfold Pressure_from_values, final_time.
  destruct (exists_last H1) as (pre & t & ->). rewrite last_unwrap_app. cbn [obind].
  destruct (vs_P v); [contradiction|]. cbn. eauto.
Qed.

(** ** Mass flows *)
Lemma m_dot_avg_eq (v : Values R) l r t : last_unwrap (vs_time v) = Ret t ->
  m_dot_avg v l r = Ret (average (vs_time v) (interface_mean l r) t).
Proof.
  intros Ht. unfold m_dot_avg, final_time. rewrite Ht. cbn [obind]. f_equal.
  rewrite integrate_trapezoid, R_nhalf. unfold average, interface_mean. cbn [n_div R_ops]. do 3 f_equal.
  apply map_ext. intros [a b]. cbn [n_mul n_abs n_add R_ops]. field.
Qed.
Lemma mass_flows (v : Values R) m : MassFlows_from_values v = Ret m ->
  exists t, last_unwrap (vs_time v) = Ret t /\
    mf_chx m = average (vs_time v) (interface_mean (vs_m_dot_ck v) (vs_m_dot_kr v)) t /\
    mf_regen m = average (vs_time v) (interface_mean (vs_m_dot_kr v) (vs_m_dot_rl v)) t /\
    mf_hhx m = average (vs_time v) (interface_mean (vs_m_dot_rl v) (vs_m_dot_le v)) t.
Proof.
  unfold MassFlows_from_values, m_dot_chx, m_dot_regen, m_dot_hhx.
  destruct (last_unwrap (vs_time v)) as [t|] eqn:Et.
  - rewrite !(m_dot_avg_eq v _ _ t Et). cbn [obind]. intros H. injection H as <-.
    exists t. repeat split; reflexivity.
  - unfold m_dot_avg, final_time. rewrite Et. discriminate.
Qed.
Lemma average_nonneg time y t : nondecreasing time -> 0 < t -> (forall b, In b y -> 0 <= b) ->
  0 <= average time y t.
Proof.
  intros Hm Ht H. unfold average. apply Rmult_le_pos; [|left; now apply Rinv_0_lt_compat].
  rewrite <- (trapezoid_zero y time). apply trapezoid_monotone; [exact Hm|].
  apply Forall2_const_l; [reflexivity|exact H].
Qed.
Lemma interface_mean_nonneg l r b : In b (interface_mean l r) -> 0 <= b.
Proof.
  intros H. apply in_map_iff in H as ([a c] & <- & _). pose proof (Rabs_pos (a + c)). lra.
Qed.
Lemma mass_flows_nonneg (v : Values R) m t : MassFlows_from_values v = Ret m ->
  nondecreasing (vs_time v) -> last_unwrap (vs_time v) = Ret t -> 0 < t ->
  0 <= mf_chx m /\ 0 <= mf_regen m /\ 0 <= mf_hhx m.
Proof.
  intros H Hm Et Ht. destruct (mass_flows v m H) as (t' & E & -> & -> & ->).
  rewrite Et in E. injection E as <-.
  repeat split; (apply average_nonneg; [exact Hm|exact Ht|apply interface_mean_nonneg]).
Qed.
Lemma interface_mean_opp l : forall r, interface_mean (map Ropp l) (map Ropp r) = interface_mean l r.
Proof.
  induction l as [|a l IH]; intros [|b r]; try reflexivity. unfold interface_mean in *.
  cbn [map combine]. rewrite IH. f_equal. replace (- a + - b) with (- (a + b)) by ring. rewrite Rabs_Ropp. reflexivity.
Qed.
Lemma mass_flows_reversed (v : Values R) : MassFlows_from_values (reversed v) = MassFlows_from_values v.
Proof.
  unfold MassFlows_from_values, m_dot_chx, m_dot_regen, m_dot_hhx.
  destruct (last_unwrap (vs_time v)) as [t|] eqn:Et.
  - rewrite !(m_dot_avg_eq (reversed v) _ _ t Et), !(m_dot_avg_eq v _ _ t Et).
    cbn [reversed vs_time vs_m_dot_ck vs_m_dot_kr vs_m_dot_rl vs_m_dot_le].
    rewrite !interface_mean_opp. reflexivity.
  - unfold m_dot_avg, final_time. cbn [reversed vs_time]. rewrite Et. reflexivity.
Qed.
Lemma interface_mean_cancel l : interface_mean l (map Ropp l) = map (fun _ => 0) l.
Proof.
  induction l as [|a l IH]; [reflexivity|]. unfold interface_mean in *. cbn [map combine]. rewrite IH. f_equal.
  rewrite Rplus_opp_r, Rabs_R0. field.
Qed.
Lemma m_dot_cancel (v : Values R) l t : last_unwrap (vs_time v) = Ret t ->
  m_dot_avg v l (map Ropp l) = Ret 0.
Proof.
  intros Et. rewrite (m_dot_avg_eq v _ _ t Et), interface_mean_cancel. unfold average.
  rewrite trapezoid_zero. unfold Rdiv. rewrite Rmult_0_l. reflexivity.
Qed.

(** ** Heat flows *)
Lemma heat_flows (v : Values R) Tk Th res h : HeatFlows_from_values v Tk Th res = Ret h ->
  exists t, last_unwrap (vs_time v) = Ret t /\
    hf_chx h = average (vs_time v) (map (fun T => (T - Tk) / tr_comp res) (vs_T_c v)) t
               + average (vs_time v) (vs_Q_dot_k v) t /\
    hf_regen h = average (vs_time v) (vs_Q_dot_r v) t /\
    hf_hhx h = average (vs_time v) (map (fun T => (Th - T) / tr_exp res) (vs_T_e v)) t
               + average (vs_time v) (vs_Q_dot_l v) t.
Proof.
  unfold HeatFlows_from_values, final_time. destruct (last_unwrap (vs_time v)) as [t|] eqn:Et; [|discriminate].
  cbn [obind]. rewrite !integrate_trapezoid. cbn [n_is_inf R_ops]. intros H. injection H as <-.
  exists t. repeat split; reflexivity.
Qed.
